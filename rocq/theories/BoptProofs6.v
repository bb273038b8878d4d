(** Proofs for BoptModel, part 6: what is printed, and phase 6. *)
From Coq Require Import List Bool Arith Lia.
From Verif Require Import BoptModel BoptSpec BoptProofs1 BoptProofs2 BoptProofs3 BoptProofs4 BoptProofs5.
Import ListNotations.

Section Phase6.
Variable other : nat -> list bool -> bool.
Variable output : nat -> bool.
Notation truth := (truth other).
Notation inv := (inv other output).
Notation sat := (sat other).
Notation det := (det other).
Notation good := (good other output).
Notation okay := (okay other output).
Notation G1 := (G1 output).

(** ** A possible output is the restriction of an assignment that satisfies the model *)
Definition possible (s : state) (om : nat -> bool) : Prop :=
  exists sg, sat s sg /\ forall v, output v = true -> om v = sg v.
Lemma prints_possible s om :
  G1 s ->
  (forall j e x, item_expr s j = Some e -> In x (ids e) -> gone s (rd s x) = false \/ harmless s j) ->
  (prints other output s om <-> possible s om).
Proof.
  intros G N. split.
  - intros (sg & [S1 S2] & H).
    set (tau := fun x => match dm s (rd s x) with Some b => b | None => sg (rd s x) end).
    assert (F : fixed s tau).
    { split.
      - intros v b E. unfold tau. now rewrite (g_dom _ _ G v b E).
      - intros x. unfold tau. now rewrite (g_idem _ _ G). }
    assert (L : forall v, gone s v = false -> tau v = sg v).
    { intros v E. unfold tau. rewrite (g_live _ _ G v E). destruct (dm s v) eqn:Z; [|reflexivity].
      symmetry. now apply (S1 v E). }
    assert (T : forall j e, item_expr s j = Some e -> truth tau e = truth (fun x => sg (rd s x)) e \/ harmless s j).
    { intros j e He. destruct (existsb (fun x => gone s (rd s x)) (ids e)) eqn:Z.
      - apply existsb_exists in Z. destruct Z as (x & Hx & Z). destruct (N j e x He Hx) as [K|K]; [congruence|now right].
      - left. apply truth_ext. intros x Hx. rewrite (proj2 F x). apply L.
        destruct (gone s (rd s x)) eqn:K; [|reflexivity]. assert (Q : existsb (fun x => gone s (rd s x)) (ids e) = true)
          by (apply existsb_exists; eauto). congruence. }
    exists tau. split; [split; [assumption|split]|].
    + intros v e Hg He. assert (Hi : item_expr s (IV v) = Some e) by (cbn; now rewrite Hg).
      destruct (T _ _ Hi) as [K|(w & e' & x & b & K1 & K2 & K3 & K4 & K5)].
      * rewrite K, (L v Hg). now apply (S1 v Hg).
      * inversion K1; subst w. rewrite He in K2. inversion K2; subst e'.
        rewrite (eq_lit_truth other tau e x b K3), (fixed_value s tau x b F K5), (proj1 F v true K4).
        symmetry. apply eqb_reflx.
    + intros c e He. destruct (T (IC c) e He) as [K|(w & e' & x & b & K1 & _)]; [|discriminate].
      rewrite K. now apply S2 in He.
    + intros v Hv. specialize (H v Hv). assert (K := g_shown _ _ G v tau Hv F).
      assert (M : forall u b, shown s sg u b -> shown s tau u b).
      { clear - L. intros u b H. induction H.
        - rewrite <- L by assumption. now apply shown_var.
        - now apply shown_fix.
        - eapply shown_alias; eauto. }
      apply M in H. exact (shown_det s tau v _ H _ K).
  - intros (sg & (F & S1 & S2) & H). exists sg.
    assert (T : forall e, truth (fun x => sg (rd s x)) e = truth sg e).
    { intros e. apply truth_ext. intros x _. symmetry. apply (proj2 F). }
    split; [split|].
    + intros v Hg. split; [intros b E; now apply (proj1 F)|]. intros e He. rewrite T. now apply S1.
    + intros c e He. rewrite T. now apply S2 in He.
    + intros v Hv. rewrite (H v Hv). now apply (g_shown _ _ G).
Qed.
Lemma possible_iff s s' om : (forall sg, sat s sg <-> sat s' sg) -> (possible s om <-> possible s' om).
Proof.
  intros H. split; intros (sg & S & K); exists sg; (split; [|assumption]); now apply H.
Qed.

(** ** Phase 6 *)
Record dead_inv (s : state) : Prop := {
  d_g1 : G1 s;
  d_g2 : G2 s;
  d_lit : forall v b, rh s v = Some (ELit b) -> dm s v = Some b;
  d_cmp : forall v, gone s v = false -> cmp s v = true -> exists b, rh s v = Some (ELit b);
  d_alias : noalias s;
  d_id : forall c x, cons s c <> Some (EId x);
  d_cq : cq s = []
}.
Lemma P4_dead s : P4 other output s -> dead_inv s.
Proof. intros ((G & B & C) & Na & E & Hq). split; try assumption; apply C. Qed.
Lemma dead_names s j e x : dead_inv s -> item_expr s j = Some e -> In x (ids e) -> gone s (rd s x) = false \/ harmless s j.
Proof.
  intros D He Hx. destruct (is_call e) eqn:Hc.
  - destruct (g_ref _ (d_g2 _ D) j e x (conj He Hc) Hx) as [K|[_ [[K|(w & K & _)]|K]]]; [now left|..|now right];
      rewrite (d_cq _ D) in K; destruct K.
  - exfalso. destruct e as [b|z| | | | |]; try discriminate; [destruct Hx|].
    destruct j as [v|c|]; cbn in He; [|now apply (d_id _ D c z)|discriminate].
    destruct (gone s v); [discriminate|]. now apply (d_alias _ D v z).
Qed.
Lemma dead_prints s om : dead_inv s -> (prints other output s om <-> possible s om).
Proof.
  intros D. apply prints_possible; [apply D|]. intros j e x. now apply dead_names.
Qed.

Lemma delete1_ok s v : dead_inv s ->
  dead_inv (delete1 output s v) /\ forall om, possible s om <-> possible (delete1 output s v) om.
Proof.
  intros D. unfold delete1. destruct (can_remove output s v && negb (gone s v)) eqn:Hr; [|split; [assumption|reflexivity]].
  apply andb_prop in Hr. destruct Hr as [Hr Hg]. apply negb_true_iff in Hg. unfold can_remove in Hr.
  apply andb_prop in Hr. destruct Hr as [Hr Hout]. apply andb_prop in Hr. destruct Hr as [Hocc Hcall].
  assert (Rv := g_live _ _ (d_g1 _ D) v Hg). rewrite Rv in Hocc.
  assert (Oc : occ s v = []) by (destruct (occ s v); [reflexivity|discriminate]).
  set (b0 := match dm s v with Some b => b | None => true end).
  assert (Hb0 : output v = true -> dm s v = Some b0).
  { intros Ho. rewrite Ho in Hout. cbn in Hout. unfold b0. destruct (dm s v); [reflexivity|discriminate]. }
  match goal with |- dead_inv ?x /\ _ => assert (Es : exists o,
    x = set_gone (if output v then with_out (with_occ s o) (upd (out s) v (OFix b0)) else with_occ s o) v /\ occ_less (IV v) s o) end.
  { destruct (output v) eqn:Ho.
    - rewrite (Hb0 eq_refl). destruct (rh s v) as [e|] eqn:He.
      + unfold rh at 1. cbn [decls with_out]. fold (rh s v). rewrite He.
        destruct (collect_decls_less (with_out s (upd (out s) v (OFix b0))) (IV v) e) as (o & -> & Hl). exists o. split; [reflexivity|exact Hl].
      + unfold rh at 1. cbn [decls with_out]. fold (rh s v). rewrite He. exists (occ s). split; [reflexivity|]. intros x j H _. exact H.
    - destruct (rh s v) as [e|] eqn:He.
      + destruct (collect_decls_less s (IV v) e) as (o & -> & Hl). exists o. split; [reflexivity|exact Hl].
      + exists (occ s). split; [now rewrite with_occ_id|]. intros x j H _. exact H. }
  destruct Es as (o & -> & Ho).
  set (s' := set_gone (if output v then with_out (with_occ s o) (upd (out s) v (OFix b0)) else with_occ s o) v).
  assert (Ed : forall u, decls s' u = upd (decls s) v (mkD (dm s v) (cmp s v) (rh s v) true) u) by (intros u; unfold s'; destruct (output v); reflexivity).
  assert (Dm : forall u, dm s' u = dm s u).
  { intros u. unfold dm. rewrite Ed. unfold upd. destruct (Nat.eqb_spec u v) as [->|N]; reflexivity. }
  assert (Rh : forall u, rh s' u = rh s u).
  { intros u. unfold rh. rewrite Ed. unfold upd. destruct (Nat.eqb_spec u v) as [->|N]; reflexivity. }
  assert (Cm : forall u, cmp s' u = cmp s u).
  { intros u. unfold cmp. rewrite Ed. unfold upd. destruct (Nat.eqb_spec u v) as [->|N]; reflexivity. }
  assert (Go : forall u, gone s' u = if u =? v then true else gone s u).
  { intros u. unfold gone. rewrite Ed. unfold upd. destruct (Nat.eqb_spec u v) as [->|N]; reflexivity. }
  assert (Rd : rd s' = rd s) by (unfold s'; destruct (output v); reflexivity).
  assert (Co : cons s' = cons s) by (unfold s'; destruct (output v); reflexivity).
  assert (Cq : cq s' = cq s) by (unfold s'; destruct (output v); reflexivity).
  assert (Oo : occ s' = o) by (unfold s'; destruct (output v); reflexivity).
  assert (Un : forall j e x, call_item s j e -> In x (ids e) -> rd s x <> v).
  { intros j e x Hj Hx E. destruct (g_occ _ (d_g2 _ D) j e x Hj Hx) as [K|[_ [K|(w & K & _)]]].
    - rewrite E, Oc in K. destruct K.
    - rewrite (d_cq _ D) in K. destruct K.
    - rewrite (d_cq _ D) in K. destruct K. }
  assert (Ca : forall j e, call_item s' j e -> call_item s j e /\ j <> IV v).
  { intros j e [H1 H2]. destruct j as [u|c|]; cbn [item_expr] in H1.
    - rewrite Go, Rh in H1. destruct (Nat.eqb_spec u v) as [->|N]; [discriminate|]. split; [split; assumption|congruence].
    - rewrite Co in H1. split; [split; assumption|discriminate].
    - discriminate. }
  assert (G' : G1 s').
  { apply set_gone_G1; [apply D| |auto]. destruct (output v) eqn:Z; auto. }
  clearbody s'.
  split.
  - split.
    + exact G'.
    + split; intros j e x Hj Hx; destruct (Ca _ _ Hj) as [Hj' Nj]; rewrite Rd, Dm.
      * destruct (g_occ _ (d_g2 _ D) j e x Hj' Hx) as [K|[K1 [K|(w & K & _)]]].
        -- left. rewrite Oo. now apply Ho.
        -- rewrite (d_cq _ D) in K. destruct K.
        -- rewrite (d_cq _ D) in K. destruct K.
      * rewrite Go. destruct (Nat.eqb_spec (rd s x) v) as [E|_]; [now destruct (Un j e x Hj' Hx)|].
        destruct (g_ref _ (d_g2 _ D) j e x Hj' Hx) as [K|[K1 [[K|(w & K & _)]|(w & e' & y & b & K2 & K3 & K4 & K5 & K6)]]].
        -- now left.
        -- rewrite (d_cq _ D) in K. destruct K.
        -- rewrite (d_cq _ D) in K. destruct K.
        -- right. split; [assumption|]. right. exists w, e', y, b. rewrite Rh, Rd, !Dm. auto.
    + intros u b. rewrite Rh, Dm. apply (d_lit _ D).
    + intros u. rewrite Go, Cm, Rh. destruct (u =? v); [discriminate|]. apply (d_cmp _ D).
    + intros u z. rewrite Rh. apply (d_alias _ D).
    + intros c x. rewrite Co. apply (d_id _ D).
    + rewrite Cq. apply D.
  - intros om. split; intros (sg & (F & S1 & S2) & H).
    + exists sg. split; [|assumption]. split; [|split].
      * split; [intros u b; rewrite Dm; apply F|rewrite Rd; apply F].
      * intros u e. rewrite Go, Rh. destruct (u =? v); [discriminate|]. apply S1.
      * rewrite Co. apply S2.
    + assert (F' : fixed s sg) by (split; [intros u b E; apply F; now rewrite Dm|rewrite <- Rd; apply F]). clear F. rename F' into F.
      assert (S1' : forall u e, u <> v -> gone s u = false -> rh s u = Some e -> sg u = truth sg e).
      { intros u e N H1 H2. apply S1; [rewrite Go; destruct (Nat.eqb_spec u v); [contradiction|assumption]|now rewrite Rh]. }
      rewrite Co in S2. clear S1.
      assert (Same : (forall e, rh s v = Some e -> sg v = truth sg e) -> possible s om).
      { intros K. exists sg. split; [|assumption]. split; [assumption|]. split; [|assumption].
        intros u e H1 H2. destruct (Nat.eq_dec u v) as [->|N]; auto. }
      destruct (rh s v) as [e|] eqn:He; [|now apply Same].
      destruct (is_call e) eqn:Hc.
      2:{ destruct e as [b|z| | | | |]; try discriminate.
          - apply Same. intros e' E. inversion E; subst e'. cbn. apply F. now apply (d_lit _ D).
          - now destruct (d_alias _ D v z). }
      destruct (dm s v) as [b|] eqn:Hd.
      { exfalso. cbn in Hcall. destruct (cmp s v) eqn:Z; [|discriminate].
        destruct (d_cmp _ D v Hg Z) as (b' & E). rewrite He in E. inversion E; subst. discriminate. }
      assert (Onv : output v = false) by (destruct (output v); [specialize (Hb0 eq_refl); discriminate|reflexivity]).
      set (tau := fun u => if rd s u =? v then truth sg e else sg u).
      assert (T : forall j e', call_item s j e' -> truth tau e' = truth sg e').
      { intros j e' Hj. apply truth_ext. intros x Hx. unfold tau. destruct (Nat.eqb_spec (rd s x) v) as [E|_]; [|reflexivity].
        now destruct (Un j e' x Hj Hx). }
      assert (Hi : call_item s (IV v) e) by (split; [cbn; now rewrite Hg|assumption]).
      exists tau. split; [split; [split|split]|].
      * intros u b E. unfold tau. destruct (Nat.eqb_spec (rd s u) v) as [K|_]; [|now apply F].
        apply (g_dom _ _ (d_g1 _ D)) in E. rewrite K in E. congruence.
      * intros x. unfold tau. rewrite (g_idem _ _ (d_g1 _ D)). destruct (rd s x =? v); [reflexivity|apply F].
      * intros u e' H1 H2. destruct (is_call e') eqn:Hc'.
        -- rewrite (T (IV u) e') by (split; [cbn; now rewrite H1|assumption]).
           unfold tau. rewrite (g_live _ _ (d_g1 _ D) u H1). destruct (Nat.eqb_spec u v) as [->|N]; [congruence|]. now apply S1'.
        -- destruct e' as [b|z| | | | |]; try discriminate; [|now destruct (d_alias _ D u z)]. cbn.
           unfold tau. rewrite (g_live _ _ (d_g1 _ D) u H1). destruct (Nat.eqb_spec u v) as [->|N]; [congruence|]. now apply S1' in H2.
      * intros c e' H1. destruct (is_call e') eqn:Hc'.
        -- rewrite (T (IC c) e') by (split; assumption). now apply S2 in H1.
        -- destruct e' as [b|z| | | | |]; try discriminate; [|now destruct (d_id _ D c z)]. now apply S2 in H1.
      * intros u Hu. unfold tau. destruct (Nat.eqb_spec (rd s u) v) as [K|_]; [|now apply H].
        apply (g_orep _ _ (d_g1 _ D)) in Hu. congruence.
Qed.

Lemma delete_ok l : forall s, dead_inv s ->
  dead_inv (delete output s l) /\ forall om, possible s om <-> possible (delete output s l) om.
Proof.
  unfold delete. induction l as [|v l IH]; intros s D; cbn [fold_left]; [split; [assumption|reflexivity]|].
  destruct (delete1_ok s v D) as [D1 P1]. destruct (IH _ D1) as [D2 P2]. split; [assumption|].
  intros om. rewrite P1. apply P2.
Qed.

End Phase6.
