(** Proofs for BoptModel, part 3: the meaning of the Boolean constraints, and the simplification of one item. *)
From Coq Require Import List Bool Arith Lia.
From Verif Require Import BoptModel BoptSpec BoptProofs1 BoptProofs2.
Import ListNotations.

Section Simplify.
Variable other : nat -> list bool -> bool.
Variable output : nat -> bool.
Notation truth := (truth other).
Notation inv := (inv other output).
Notation sat := (sat other).
Notation det := (det other).
Notation good := (good other output).
Notation okay := (okay other output).

(** ** Conjunctions, disjunctions and clauses *)
Definition neutral (sg : nat -> bool) (e : expr) (a : arg * bool) : bool :=
  Bool.eqb (value sg (fst a)) (unit_of e (snd a)).
Lemma forallb_map A B (f : B -> bool) (g : A -> B) l : forallb f (map g l) = forallb (fun a => f (g a)) l.
Proof. induction l as [|a l IH]; cbn; [reflexivity|]. now rewrite IH. Qed.
Lemma call_truth sg e : is_bool_call e = true ->
  truth sg e = if forallb (neutral sg e) (call_args e) then conjunctive e else negb (conjunctive e).
Proof.
  destruct e as [b|x|l|l|p n|a b|f l]; try discriminate; intros _; cbn [call_args conjunctive BoptSpec.truth].
  - rewrite forallb_map. unfold neutral. cbn. induction l as [|a l IH]; cbn; [reflexivity|].
    destruct (value sg a); cbn; [exact IH|reflexivity].
  - rewrite forallb_map. unfold neutral. cbn. induction l as [|a l IH]; cbn; [reflexivity|].
    destruct (value sg a); cbn; [reflexivity|exact IH].
  - rewrite forallb_app, !forallb_map. unfold neutral. cbn.
    assert (E1 : existsb (value sg) p = negb (forallb (fun a => Bool.eqb (value sg a) false) p)).
    { induction p as [|a p IH]; cbn; [reflexivity|]. rewrite IH. destruct (value sg a); reflexivity. }
    assert (E2 : existsb (fun a => negb (value sg a)) n = negb (forallb (fun a => Bool.eqb (value sg a) true) n)).
    { clear E1. induction n as [|a n IH]; cbn; [reflexivity|]. rewrite IH. destruct (value sg a); reflexivity. }
    rewrite E1, E2. destruct (forallb _ p), (forallb _ n); reflexivity.
Qed.
Lemma truth_decided sg e a : is_bool_call e = true -> In a (call_args e) ->
  value sg (fst a) <> unit_of e (snd a) -> truth sg e = negb (conjunctive e).
Proof.
  intros H1 H2 H3. rewrite call_truth by assumption. destruct (forallb (neutral sg e) (call_args e)) eqn:E; [|reflexivity].
  exfalso. rewrite forallb_forall in E. apply E in H2. unfold neutral in H2. apply eqb_prop in H2. congruence.
Qed.
Lemma truth_neutral sg e : is_bool_call e = true ->
  (forall a, In a (call_args e) -> value sg (fst a) = unit_of e (snd a)) -> truth sg e = conjunctive e.
Proof.
  intros H1 H2. rewrite call_truth by assumption.
  replace (forallb (neutral sg e) (call_args e)) with true; [reflexivity|].
  symmetry. apply forallb_forall. intros a Ha. unfold neutral. rewrite (H2 a Ha). apply eqb_reflx.
Qed.
(** All arguments but those with one declaration are neutral *)
Lemma truth_unit sg e x neg : is_bool_call e = true ->
  In (Ident x, neg) (call_args e) ->
  (forall a, In a (call_args e) -> a = (Ident x, neg) \/ value sg (fst a) = unit_of e (snd a)) ->
  truth sg e = if neg then negb (sg x) else sg x.
Proof.
  intros H1 H2 H3. assert (N : neg = true -> conjunctive e = false).
  { intros ->. destruct e; try discriminate; try reflexivity. cbn in H2. apply in_map_iff in H2.
    destruct H2 as (a & Ha & _). discriminate. }
  destruct (Bool.bool_dec (sg x) (unit_of e neg)) as [E|E].
  - rewrite truth_neutral; [|assumption|].
    + unfold unit_of in E. rewrite E. destruct neg; [now rewrite negb_involutive|reflexivity].
    + intros a Ha. destruct (H3 a Ha) as [->|H]; [exact E|exact H].
  - rewrite (truth_decided sg e (Ident x, neg)); [|assumption..]. unfold unit_of in E.
    destruct neg; [rewrite (N eq_refl) in *|]; destruct (sg x), (conjunctive e); cbn in *; congruence.
Qed.
Lemma call_args_ids e a : is_bool_call e = true -> In a (call_args e) -> forall x, fst a = Ident x -> In x (ids e).
Proof.
  destruct e; try discriminate; intros _ H x E; cbn [call_args ids] in *.
  - apply in_map_iff in H. destruct H as (a' & <- & H). apply in_args_ids. cbn in E. now subst.
  - apply in_map_iff in H. destruct H as (a' & <- & H). apply in_args_ids. cbn in E. now subst.
  - apply in_or_app. apply in_app_or in H. destruct H as [H|H]; apply in_map_iff in H; destruct H as (a' & <- & H);
      cbn in E; subst; [left|right]; now apply in_args_ids.
Qed.
Lemma ids_call_args e x : is_bool_call e = true -> In x (ids e) -> exists neg, In (Ident x, neg) (call_args e).
Proof.
  destruct e; try discriminate; intros _ H; cbn [call_args ids] in *.
  - exists false. apply in_map_iff. exists (Ident x). split; [reflexivity|now apply in_args_ids].
  - exists false. apply in_map_iff. exists (Ident x). split; [reflexivity|now apply in_args_ids].
  - apply in_app_or in H. destruct H as [H|H]; apply in_args_ids in H.
    + exists false. apply in_or_app. left. apply in_map_iff. eauto.
    + exists true. apply in_or_app. right. apply in_map_iff. eauto.
Qed.
Lemma bool_call_call e : is_bool_call e = true -> is_call e = true.
Proof. now destruct e. Qed.

Lemma o_fixed_sound s sg a b : fixed s sg -> o_fixed s a = Some b -> value sg a = b.
Proof.
  intros F. destruct a as [c|x]; cbn; [congruence|]. intros H. eapply fixed_value; eauto.
Qed.
Lemma p2_value_o s a : inv s -> p2_value s a = o_fixed s a.
Proof.
  intros (_ & _ & C). destruct a as [b|x]; [reflexivity|]. cbn. destruct (dm s (rd s x)) eqn:E; [reflexivity|].
  destruct (rh s (rd s x)) as [[b| | | | | |]|] eqn:R; try reflexivity. apply (g_lit _ _ C) in R. congruence.
Qed.
Lemma subsumed_det s e : is_bool_call e = true -> sbc_subsumed s e = true -> det s e (negb (conjunctive e)).
Proof.
  intros H1 H2 sg F. unfold sbc_subsumed in H2. apply existsb_exists in H2. destruct H2 as (a & Ha & H2).
  destruct (o_fixed s (fst a)) as [b|] eqn:E; [|discriminate]. apply (truth_decided sg e a); [assumption..|].
  rewrite (o_fixed_sound s sg (fst a) b F E). intros ->. now rewrite eqb_reflx in H2.
Qed.
Lemma not_subsumed s e sg a : fixed s sg -> sbc_subsumed s e = false -> In a (call_args e) ->
  o_fixed s (fst a) <> None -> value sg (fst a) = unit_of e (snd a).
Proof.
  intros F H1 Ha H2. destruct (o_fixed s (fst a)) as [b|] eqn:E; [|congruence].
  rewrite (o_fixed_sound s sg (fst a) b F E). destruct (Bool.bool_dec b (unit_of e (snd a))) as [D|D]; [assumption|].
  exfalso. apply Bool.not_true_iff_false in H1. apply H1. apply existsb_exists. exists a. split; [assumption|].
  rewrite E. apply negb_true_iff. now apply eqb_false_iff.
Qed.
Lemma none_open_det s e : is_bool_call e = true -> sbc_subsumed s e = false -> sbc_open s e = [] -> det s e (conjunctive e).
Proof.
  intros H1 H2 H3 sg F. apply truth_neutral; [assumption|]. intros a Ha. apply (not_subsumed s e sg a F H2 Ha).
  intros E. assert (In a (sbc_open s e)); [|rewrite H3 in *; contradiction].
  apply filter_In. split; [assumption|]. now rewrite E.
Qed.
Lemma one_open s e x neg sg : fixed s sg -> is_bool_call e = true -> sbc_subsumed s e = false ->
  sbc_open s e = [(Ident x, neg)] -> truth sg e = if neg then negb (sg x) else sg x.
Proof.
  intros F H1 H2 H3. assert (Hx : In (Ident x, neg) (sbc_open s e)) by (rewrite H3; now left).
  unfold sbc_open in Hx. apply filter_In in Hx.
  apply truth_unit; [assumption|tauto|]. intros a Ha. destruct (o_fixed s (fst a)) eqn:E.
  - right. apply (not_subsumed s e sg a F H2 Ha). congruence.
  - left. assert (In a (sbc_open s e)) by (apply filter_In; split; [assumption|now rewrite E]).
    rewrite H3 in H. destruct H as [H|[]]. now symmetry.
Qed.
Lemma open_unfixed s e x neg : In (Ident x, neg) (sbc_open s e) -> is_bool_call e = true ->
  In x (ids e) /\ dm s (rd s x) = None.
Proof.
  intros H H1. apply filter_In in H. destruct H as [H2 H3]. split.
  - eapply call_args_ids; eauto.
  - cbn in H3. now destruct (dm s (rd s x)).
Qed.

(** The same tests in phase 2 *)
Lemma p2_subsumes_sbc s e : inv s ->
  existsb (p2_subsumes s e) (call_args e) = sbc_subsumed s e /\ p2_open s e = sbc_open s e.
Proof.
  intros I. unfold sbc_subsumed, p2_open, sbc_open. split.
  - apply existsb_ext_in. intros a _. unfold p2_subsumes. now rewrite p2_value_o.
  - apply filter_ext. intros a. now rewrite p2_value_o.
Qed.
Lemma common_in p n : common p n = true -> exists v, In v p /\ In v n.
Proof.
  unfold common. intros H. apply existsb_exists in H. destruct H as (v & H1 & H2). apply existsb_exists in H2.
  destruct H2 as (w & H2 & H3). apply Nat.eqb_eq in H3. subst. eauto.
Qed.
Lemma clause_both sg p n x y : In (Ident x) p -> In (Ident y) n -> sg x = sg y -> truth sg (EClause p n) = true.
Proof.
  intros H1 H2 E. cbn. apply orb_true_iff. destruct (sg x) eqn:Ex.
  - left. apply existsb_exists. exists (Ident x). auto.
  - right. apply existsb_exists. exists (Ident y). split; [assumption|]. cbn. now rewrite <- E.
Qed.
Lemma in_open_decls s neg v l : In v (open_decls s neg l) -> exists x, In (Ident x, neg) l /\ rd s x = v.
Proof.
  unfold open_decls. intros H. apply in_flat_map in H. destruct H as ([a b] & H1 & H2). cbn in H2.
  destruct (Bool.eqb_spec b neg) as [->|N]; [|contradiction]. apply in_map_iff in H2. destruct H2 as (x & E & Hx).
  exists x. destruct a as [c|y]; cbn in Hx; [contradiction|]. destruct Hx as [<-|[]]. auto.
Qed.
Lemma in_call_args_pos e x : is_bool_call e = true -> In (Ident x, true) (call_args e) ->
  exists p n, e = EClause p n /\ In (Ident x) n.
Proof.
  destruct e; try discriminate; intros _ H; cbn [call_args] in H.
  - apply in_map_iff in H. destruct H as (a & Ha & _). discriminate.
  - apply in_map_iff in H. destruct H as (a & Ha & _). discriminate.
  - exists p, n. split; [reflexivity|]. apply in_app_or in H. destruct H as [H|H]; apply in_map_iff in H;
      destruct H as (a & Ha & H); inversion Ha; now subst.
Qed.
Lemma p2_subsumed_det s e : inv s -> is_bool_call e = true -> p2_subsumed s e = true -> det s e (negb (conjunctive e)).
Proof.
  intros I H1 H2. unfold p2_subsumed in H2. apply orb_true_iff in H2. destruct H2 as [H2|H2].
  - rewrite (proj1 (p2_subsumes_sbc s e I)) in H2. now apply subsumed_det.
  - apply common_in in H2. destruct H2 as (v & V1 & V2). apply in_open_decls in V1, V2.
    destruct V1 as (x & X1 & X2), V2 as (y & Y1 & Y2). unfold p2_open in X1, Y1. apply filter_In in X1, Y1.
    destruct X1 as [X1 _], Y1 as [Y1 _]. destruct (in_call_args_pos e y H1 Y1) as (p & n & -> & Hn).
    intros sg [_ F]. apply (clause_both sg p n x y); [|assumption|].
    + cbn in X1. apply in_app_or in X1. destruct X1 as [X1|X1]; apply in_map_iff in X1;
        destruct X1 as (a & Ha & X1); inversion Ha; now subst.
    + rewrite (F x), (F y). congruence.
Qed.

(** The registry of optimisers *)
Lemma o_forall_sound s l : forall b,
  (o_forall s l b = SFailed -> exists a, In a l /\ o_fixed s a = Some false) /\
  (o_forall s l b = SEntailed -> b = true /\ forall a, In a l -> o_fixed s a = Some true).
Proof.
  induction l as [|a l IH]; intros b; cbn.
  - destruct b; split; try discriminate. intros _. split; [reflexivity|]. intros a [].
  - destruct (o_fixed s a) as [[]|] eqn:E.
    + destruct (IH b) as [H1 H2]. split.
      * intros H. destruct (H1 H) as (c & Hc & E'). eauto.
      * intros H. destruct (H2 H) as [H3 H4]. split; [assumption|]. intros c [->|Hc]; auto.
    + split; [eauto|discriminate].
    + destruct (IH false) as [H1 H2]. split.
      * intros H. destruct (H1 H) as (c & Hc & E'). eauto.
      * intros H. destruct (H2 H). discriminate.
Qed.
Lemma o_exists_sound s l : forall b,
  (o_exists s l b = SEntailed -> exists a, In a l /\ o_fixed s a = Some true) /\
  (o_exists s l b = SFailed -> b = true /\ forall a, In a l -> o_fixed s a = Some false).
Proof.
  induction l as [|a l IH]; intros b; cbn.
  - destruct b; split; try discriminate. intros _. split; [reflexivity|]. intros a [].
  - destruct (o_fixed s a) as [[]|] eqn:E.
    + split; [eauto|discriminate].
    + destruct (IH b) as [H1 H2]. split.
      * intros H. destruct (H1 H) as (c & Hc & E'). eauto.
      * intros H. destruct (H2 H) as [H3 H4]. split; [assumption|]. intros c [->|Hc]; auto.
    + destruct (IH false) as [H1 H2]. split.
      * intros H. destruct (H1 H) as (c & Hc & E'). eauto.
      * intros H. destruct (H2 H). discriminate.
Qed.
Lemma in_o_open s v l : In v (o_open s l) -> exists x, In (Ident x) l /\ rd s x = v.
Proof.
  unfold o_open. intros H. apply in_flat_map in H. destruct H as ([b|x] & H1 & H2); [contradiction|].
  exists x. split; [assumption|]. destruct (dm s (rd s x)); [contradiction|]. destruct H2 as [H2|[]]. assumption.
Qed.
Lemma registry_sound s e :
  (registry s e = SFailed -> is_call e = true /\ det s e false) /\
  (registry s e = SEntailed -> is_call e = true /\ det s e true).
Proof.
  destruct e as [b|x|l|l|p n|a b|f l]; cbn [registry]; try (split; discriminate).
  - destruct (o_forall_sound s l true) as [H1 H2]. split; intros H; (split; [reflexivity|]); intros sg F; cbn.
    + destruct (H1 H) as (a & Ha & E). apply Bool.not_true_iff_false. intros X. rewrite forallb_forall in X.
      apply X in Ha. apply (o_fixed_sound s sg a _ F) in E. congruence.
    + apply forallb_forall. intros a Ha. apply (o_fixed_sound s sg a _ F). now apply H2.
  - destruct (o_exists_sound s l true) as [H1 H2]. split; intros H; (split; [reflexivity|]); intros sg F; cbn.
    + apply Bool.not_true_iff_false. intros X. apply existsb_exists in X. destruct X as (a & Ha & X).
      assert (E := proj2 (H2 H) a Ha). apply (o_fixed_sound s sg a _ F) in E. congruence.
    + destruct (H1 H) as (a & Ha & E). apply existsb_exists. exists a. split; [assumption|].
      now apply (o_fixed_sound s sg a _ F) in E.
  - unfold o_clause. destruct (common (o_open s p) (o_open s n)) eqn:E; [|split; discriminate].
    split; [discriminate|]. intros _. split; [reflexivity|]. intros sg [_ F].
    apply common_in in E. destruct E as (v & V1 & V2). apply in_o_open in V1, V2.
    destruct V1 as (x & X1 & X2), V2 as (y & Y1 & Y2). apply (clause_both sg p n x y); [assumption..|].
    rewrite (F x), (F y). congruence.
Qed.

(** ** The item is settled *)
Lemma settle_good s i o :
  inv s -> occ_less i s o ->
  match i with
  | IC c => exists e, cons s c = Some e /\ det s e true
  | IV w => dm s w = Some true /\ (gone s w = true \/ exists e, rh s w = Some e /\ det s e true)
  | IS => False
  end ->
  good s (settle (with_occ s o) i).
Proof.
  intros I Ho H. destruct i as [w|c|]; cbn [settle].
  - destruct H as [Hd H].
    apply (decl_good other output s _ w (mkD (Some true) (cmp s w) (Some (ELit true)) (gone s w))); try reflexivity; try assumption;
      cbn [rhs dom computed vgone].
    + intros u N. cbn. now apply upd_other.
    + cbn. rewrite upd_same. f_equal. exact Hd.
    + intros b' E. congruence.
    + intros E. congruence.
    + right. right. exists true. auto.
    + eauto.
    + intros sg b' ([F _] & _) E. apply F. congruence.
    + intros sg e' ([F1 F2] & _) Hg H'. destruct H as [H|(e & H & D)]; [congruence|].
      rewrite H in H'. inversion H'; subst e'. rewrite (F1 w true).
      2:{ unfold dm. cbn. rewrite upd_same. exact Hd. }
      symmetry. apply D. split; [|exact F2]. intros u b' E. apply F1. unfold dm in *. cbn. unfold upd.
      destruct (Nat.eqb_spec u w) as [->|N]; exact E.
  - destruct H as (e & H1 & H2). eapply drop_con_good; eauto.
  - contradiction.
Qed.

(** ** A variable equal to a literal that nobody uses *)
Lemma shown_det s sg v b : shown s sg v b -> forall b', shown s sg v b' -> b = b'.
Proof.
  induction 1 as [v H1 H2|v b H1|v w b H1 H2 IH]; intros b' H; inversion H; subst; try congruence.
  apply IH. replace w with w0 by congruence. assumption.
Qed.
Lemma set_gone_G1 s w b o :
  G1 output s -> dm s w = Some b \/ output w = false -> (output w = true -> gone s w = false -> dm s w = Some b) ->
  G1 output (set_gone (if output w then with_out (with_occ s o) (upd (out s) w (OFix b)) else with_occ s o) w).
Proof.
  intros G Hd0 _. set (s' := set_gone _ w).
  assert (Rd : rd s' = rd s) by (unfold s'; destruct (output w); reflexivity).
  assert (Dm : forall u, dm s' u = dm s u).
  { intros u. unfold s', dm. destruct (output w); cbn; unfold upd; destruct (Nat.eqb_spec u w) as [->|]; reflexivity. }
  assert (Go : forall u, gone s' u = if u =? w then true else gone s u).
  { intros u. unfold s', gone. destruct (output w); cbn; unfold upd; destruct (Nat.eqb_spec u w) as [->|]; reflexivity. }
  assert (Ou : forall u, out s' u = if (u =? w) && output w then OFix b else out s u).
  { intros u. unfold s'. destruct (output w); cbn; unfold upd; destruct (Nat.eqb_spec u w); reflexivity. }
  assert (Fx : forall sg, fixed s' sg -> fixed s sg).
  { intros sg. unfold fixed. rewrite Rd. intros [F1 F2]. split; [|assumption]. intros u c H. apply F1. now rewrite Dm. }
  split.
  - intros x. rewrite Rd. apply (g_idem _ _ G).
  - intros u. rewrite Go, Rd. destruct (u =? w); [discriminate|]. apply (g_live _ _ G).
  - intros u c. rewrite Rd, !Dm. apply (g_dom _ _ G).
  - intros u H. rewrite Ou, Go. destruct (Nat.eqb_spec u w) as [->|N]; cbn.
    + rewrite H. discriminate.
    + now apply (g_out _ _ G).
  - intros u z. rewrite Ou, Rd. destruct ((u =? w) && output w); [discriminate|]. apply (g_oalias _ _ G).
  - intros u. rewrite Rd. apply (g_orep _ _ G).
  - intros u sg H F. apply Fx in F. assert (S := g_shown _ _ G u sg H F). revert H.
    assert (Hw : output w = true -> forall c, shown s sg w c -> shown s' sg w c).
    { intros Hw c Hc. assert (c = sg w) as -> by (eapply shown_det; [exact Hc|]; now apply (g_shown _ _ G)).
      replace (sg w) with b.
      - apply shown_fix. now rewrite Ou, Nat.eqb_refl, Hw.
      - destruct Hd0 as [Hd0|Hd0]; [|congruence]. symmetry. now apply F. }
    induction S as [u H1 H2|u c H1|u z c H1 H2 IH]; intros H.
    + destruct (Nat.eq_dec u w) as [->|N]; [apply Hw; [assumption|now apply shown_var]|].
      apply shown_var; [rewrite Ou|rewrite Go]; destruct (Nat.eqb_spec u w); try contradiction; assumption.
    + destruct (Nat.eq_dec u w) as [->|N]; [apply Hw; [assumption|now apply shown_fix]|].
      apply shown_fix. rewrite Ou. destruct (Nat.eqb_spec u w); [contradiction|assumption].
    + destruct (Nat.eq_dec u w) as [->|N].
      * apply Hw; [assumption|]. now apply shown_alias with z.
      * apply shown_alias with z.
        -- rewrite Ou. destruct (Nat.eqb_spec u w); [contradiction|assumption].
        -- apply IH. apply (g_oalias _ _ G u z H1).
Qed.
Lemma set_gone_good s w e x p o :
  inv s -> dm s w = Some true -> rh s w = Some e -> eq_lit e x p -> dm s (rd s x) = Some p ->
  occ_less (IV w) s o -> o (rd s w) = [] ->
  good s (set_gone (if output w then with_out (with_occ s o) (upd (out s) w (OFix true)) else with_occ s o) w).
Proof.
  intros I Hd He Hl Hx Ho Hn. assert (G' := set_gone_G1 s w true o (proj1 I) (or_introl Hd) (fun _ _ => Hd)).
  destruct I as (G & [B1 B2] & [C1 C2 C3 C4]). set (s' := set_gone _ w) in *.
  assert (Rd : rd s' = rd s) by (unfold s'; destruct (output w); reflexivity).
  assert (Cq : cq s' = cq s) by (unfold s'; destruct (output w); reflexivity).
  assert (Vq : vq s' = vq s) by (unfold s'; destruct (output w); reflexivity).
  assert (Oc : occ s' = o) by (unfold s'; destruct (output w); reflexivity).
  assert (Co : cons s' = cons s) by (unfold s'; destruct (output w); reflexivity).
  assert (Dm : forall u, dm s' u = dm s u).
  { intros u. unfold s', dm. destruct (output w); cbn; unfold upd; destruct (Nat.eqb_spec u w) as [->|]; reflexivity. }
  assert (Rh : forall u, rh s' u = rh s u).
  { intros u. unfold s', rh. destruct (output w); cbn; unfold upd; destruct (Nat.eqb_spec u w) as [->|]; reflexivity. }
  assert (Cm : forall u, cmp s' u = cmp s u).
  { intros u. unfold s', cmp. destruct (output w); cbn; unfold upd; destruct (Nat.eqb_spec u w) as [->|]; reflexivity. }
  assert (Go : forall u, gone s' u = if u =? w then true else gone s u).
  { intros u. unfold s', gone. destruct (output w); cbn; unfold upd; destruct (Nat.eqb_spec u w) as [->|]; reflexivity. }
  clearbody s'.
  assert (Fx : forall sg, fixed s' sg <-> fixed s sg).
  { intros sg. unfold fixed. rewrite Rd. split; intros [F1 F2]; (split; [|assumption]); intros u b H; apply F1;
    [rewrite Dm|rewrite Dm in H]; assumption. }
  assert (De : forall sg, fixed s sg -> sg w = truth sg e).
  { intros sg F. assert (sg x = p) by (eapply fixed_value; eauto). assert (sg w = true) by now apply F.
    destruct Hl as [->| ->]; cbn; rewrite H, H0, eqb_reflx; reflexivity. }
  assert (Ca : forall j e', call_item s' j e' -> call_item s j e' /\ j <> IV w).
  { intros j e' [H1 H2]. destruct j as [u|k|]; cbn [item_expr] in H1.
    - rewrite Go, Rh in H1. destruct (Nat.eqb_spec u w); [discriminate|]. split; [split; assumption|congruence].
    - rewrite Co in H1. split; [split; assumption|discriminate].
    - discriminate. }
  assert (Pe : forall j, pend s j -> pend s' j).
  { intros j. apply pend_same; [rewrite Cq; apply incl_refl|assumption|]. intros u H. rewrite Go. now destruct (u =? w). }
  split; [split; [assumption|split]|split].
  - split; intros j e' z Hj Hz; destruct (Ca _ _ Hj) as [Hj' N]; rewrite Rd, Dm.
    + destruct (B1 j e' z Hj' Hz) as [H|[H H']]; [left; rewrite Oc; now apply Ho|right; auto].
    + rewrite Go. destruct (Nat.eqb_spec (rd s z) w) as [E|Nz].
      * right. destruct (B1 j e' z Hj' Hz) as [H|[H H']]; [|auto].
        exfalso. assert (K := Ho _ _ H N). rewrite <- E, (g_idem _ _ G) in Hn. rewrite Hn in K. contradiction.
      * destruct (B2 j e' z Hj' Hz) as [H|[H [H'|H']]]; [auto..|]. right. split; [assumption|]. right.
        destruct H' as (w' & e1 & z1 & b & -> & H1 & H2 & H3 & H4). exists w', e1, z1, b. rewrite Rh, !Dm, Rd. auto 6.
  - split.
    + intros u b. rewrite Rh, Dm. apply C1.
    + intros u. rewrite Go, Cm, Rh. destruct (u =? w); [discriminate|]. apply C2.
    + intros u e'. rewrite Go, Rh. intros H1 H2. destruct (Nat.eqb_spec u w) as [->|N].
      * rewrite He in H2. inversion H2; subst e'. split; [intros sg F; apply De; now apply Fx|].
        right. exists x, p. rewrite !Dm, Rd. auto.
      * destruct (C3 u e' H1 H2) as [H3 H4]. split; [intros sg F; apply H3; now apply Fx|].
        destruct H4 as [H4|(z & b & H4 & H5 & H6)]; [now left|right]. exists z, b. rewrite !Dm, Rd. auto.
    + intros u. rewrite Go, Rh, Rd, Dm. destruct (Nat.eqb_spec u w) as [->|N]; [congruence|]. apply C4.
  - intros sg. unfold sat. rewrite Fx, Co. split; intros (F & S1 & S2); (split; [assumption|]); (split; [|assumption]).
    + intros u e' H1 H2. rewrite Go in H1. rewrite Rh in H2. destruct (u =? w); [discriminate|auto].
    + intros u e' H1 H2. destruct (Nat.eq_dec u w) as [->|N].
      * rewrite He in H2. inversion H2; subst e'. auto.
      * apply S1; [rewrite Go; destruct (Nat.eqb_spec u w); [contradiction|assumption]|now rewrite Rh].
  - split.
    + now rewrite Rd.
    + intros u b. now rewrite Dm.
    + now rewrite Co.
    + rewrite Vq. apply incl_refl.
    + rewrite Cq. apply incl_refl.
    + intros u H. rewrite Go. now destruct (u =? w).
    + intros u z. now rewrite Rh.
Qed.

(** ** bool_eq of a name and a literal *)
Lemma eq_lit_truth sg e x p : eq_lit e x p -> truth sg e = Bool.eqb (sg x) p.
Proof. intros [->| ->]; cbn; [reflexivity|]. destruct p, (sg x); reflexivity. Qed.
Lemma eq_lit_call e x p : eq_lit e x p -> is_call e = true /\ ids e = [x].
Proof. intros [->| ->]; split; reflexivity. Qed.
Lemma raw_live s i e : inv s -> raw_expr s i = Some e ->
  item_expr s i = Some e \/
  exists v, i = IV v /\ gone s v = true /\ (forall sg, fixed s sg -> sg v = truth sg e) /\
    ((exists b, e = ELit b) \/ exists x b, eq_lit e x b /\ dm s v = Some true /\ dm s (rd s x) = Some b).
Proof.
  intros (_ & _ & C) H. destruct i as [v|c|]; cbn in *; [|now left|discriminate].
  destruct (gone s v) eqn:E; [right|now left]. exists v. destruct (g_gone _ _ C v e E H). auto.
Qed.
(** The value of the item is its target *)
Lemma target_truth s i e t sg : inv s -> raw_expr s i = Some e -> target s i = Some t -> sat s sg -> truth sg e = t.
Proof.
  intros I H1 H2 Hs. destruct i as [v|c|]; cbn in *.
  - destruct Hs as (F & S1 & _). destruct (gone s v) eqn:G.
    + destruct I as (_ & _ & C). destruct (g_gone _ _ C v e G H1) as [H3 _]. rewrite <- (H3 sg F). now apply F.
    + rewrite <- (S1 v e G H1). now apply F.
  - destruct Hs as (_ & _ & S2). inversion H2; subst. eauto.
  - discriminate.
Qed.
Lemma eq_fixed_okay s i e x p :
  inv s -> raw_expr s i = Some e -> eq_lit e x p -> target s i = Some true ->
  okay s (eq_fixed output s i e x p).
Proof.
  intros I He Hl Ht.
  assert (Hs : forall sg, sat s sg -> sg (rd s x) = p).
  { intros sg H. assert (T := target_truth s i e true sg I He Ht H). rewrite (eq_lit_truth sg e x p Hl) in T.
    apply eqb_prop in T. destruct H as ([_ F] & _). rewrite <- F. assumption. }
  destruct (eq_lit_call e x p Hl) as [Hc Hi].
  assert (Hlive : dm s (rd s x) = None -> gone s (rd s x) = false).
  { intros Hd. destruct (raw_live s i e I He) as [H|(v & -> & H1 & H2 & [(b & ->)|(y & b & H3 & H4 & H5)])].
    - destruct I as (_ & B & _). destruct (g_ref _ B i e x) as [H'|[H' _]]; [now split|rewrite Hi; now left|assumption|congruence].
    - discriminate.
    - destruct (eq_lit_call e y b H3) as [_ H6]. rewrite Hi in H6. inversion H6; subst y. congruence. }
  assert (Hsome : gone s (rd s x) = true -> rh s (rd s x) <> None).
  { intros Hg. destruct I as (G & _ & C). apply (g_some _ _ C); [assumption|apply (g_idem _ _ G)|].
    intros E. rewrite Hlive in Hg; [discriminate|assumption]. }
  unfold eq_fixed. set (v := rd s x) in *.
  (* the domain *)
  assert (D1 : okay s (match dm s v with
         | None => Some (set_computed (set_dom s v p) v false)
         | Some q => if Bool.eqb q p then Some s else None
         end) /\ forall s1, (match dm s v with
         | None => Some (set_computed (set_dom s v p) v false)
         | Some q => if Bool.eqb q p then Some s else None
         end) = Some s1 -> dm s1 v = Some p /\ rd s1 = rd s /\ (forall u, rh s1 u = rh s u) /\ cons s1 = cons s /\ (forall u, gone s1 u = gone s u)).
  { destruct (dm s v) as [q|] eqn:E.
    - destruct (Bool.eqb_spec q p) as [->|N].
      + split; [now apply good_refl|]. intros s1 H. inversion H; subst. auto.
      + split; [|discriminate]. intros sg H. apply N. rewrite <- (Hs sg H). destruct H as ([F _] & _). symmetry. now apply F.
    - split.
      + apply (decl_good other output s _ v (mkD (Some p) false (rh s v) (gone s v))); try reflexivity; try assumption;
          cbn [rhs dom computed vgone].
        * intros u N. cbn. now rewrite !upd_other.
        * cbn. rewrite !upd_same. reflexivity.
        * congruence.
        * intros _ _. auto.
        * left. split; reflexivity.
        * discriminate.
        * intros sg b H Eb. inversion Eb; subst. auto.
        * intros sg e' (_ & S1 & _) Hg H. apply S1.
          -- unfold gone. cbn. rewrite !upd_same. assumption.
          -- unfold rh. cbn. rewrite !upd_same. assumption.
      + intros s1 H. inversion H; subst s1. split; [unfold dm; cbn; now rewrite !upd_same|]. split; [reflexivity|].
        split; [|split; [reflexivity|]]; intros u; unfold rh, gone; cbn; unfold upd; destruct (Nat.eqb_spec u v); subst;
          cbn; rewrite ?Nat.eqb_refl; reflexivity. }
  destruct D1 as [D1 D2]. set (r := match dm s v with None => _ | Some q => _ end) in *.
  apply okay_bind; [exact D1|]. intros s1 E1 G1. destruct (D2 s1 E1) as (K1 & K2 & K3 & K4 & K5). clear D1 D2 r E1.
  assert (He1 : raw_expr s1 i = Some e) by (destruct i; cbn in *; rewrite ?K3, ?K4; assumption).
  assert (Ht1 : target s1 i = Some true).
  { destruct i; cbn in *; try reflexivity. destruct G1 as (_ & _ & R). now apply (gr_dm _ _ R). }
  (* the right hand side of the variable *)
  set (s2 := match rh s1 v with None => _ | Some _ => s1 end).
  assert (D2 : good s1 s2 /\ raw_expr s2 i = Some e /\ target s2 i = Some true /\ dm s2 v = Some p /\ rd s2 = rd s /\
               (forall u, gone s2 u = gone s u)).
  { unfold s2. destruct (rh s1 v) eqn:E.
    - split; [apply good_refl, G1|]. auto.
    - assert (Lv : gone s v = false).
      { destruct (gone s v) eqn:Lv; [|reflexivity]. exfalso. apply (Hsome eq_refl). now rewrite <- K3. }
      split; [|split; [|split; [|split; [|split]]]].
      + apply (decl_good other output s1 _ v (mkD (Some p) true (Some (ELit p)) (gone s1 v))); try reflexivity; try apply G1;
          cbn [rhs dom computed vgone].
        * intros u N. cbn. now rewrite !upd_other.
        * cbn. rewrite !upd_same. f_equal. exact K1.
        * congruence.
        * congruence.
        * right. right. exists p. split; [reflexivity|]. split; [reflexivity|]. intros a b; auto.
        * eauto.
        * intros sg b ([F _] & _) Eb. apply F. congruence.
        * intros sg e' _ _ H. congruence.
      + destruct i as [w|c|]; cbn in *; try assumption. unfold rh. cbn. unfold upd. rewrite Nat.eqb_refl.
        destruct (Nat.eqb_spec w v) as [->|N]; [congruence|exact He1].
      + destruct i as [w|c|]; cbn in *; try assumption. unfold dm. cbn. unfold upd. rewrite Nat.eqb_refl.
        destruct (Nat.eqb_spec w v) as [->|N]; [exact Ht1|exact Ht1].
      + unfold dm. cbn. now rewrite !upd_same.
      + exact K2.
      + intros u. rewrite <- K5. unfold gone. cbn. unfold upd. destruct (Nat.eqb_spec u v); subst; cbn; rewrite ?Nat.eqb_refl; reflexivity. }
  destruct D2 as (G2 & He2 & Ht2 & L1 & L2 & L3). clearbody s2.
  set (s3 := match rh s2 v with Some e' => _ | None => s2 end).
  assert (D3 : exists q, s3 = with_cq s2 q /\ incl (cq s2) q).
  { unfold s3. destruct (rh s2 v) as [e'|]; [destruct (is_call e')|].
    - eexists. split; [reflexivity|]. apply incl_appl, incl_refl.
    - exists (cq s2). split; [now rewrite with_cq_id|apply incl_refl].
    - exists (cq s2). split; [now rewrite with_cq_id|apply incl_refl]. }
  destruct D3 as (q3 & E3 & I3). rewrite E3. clear s3 E3.
  destruct (push_dep_spec (with_cq s2 q3) x) as (q4 & E4 & I4 & _). rewrite E4.
  replace (with_cq (with_cq s2 q3) q4) with (with_cq s2 q4) by (destruct s2; reflexivity).
  assert (I5 : incl (cq s2) q4) by (intros j Hj; apply I4; cbn; auto).
  assert (G3 : good s2 (with_cq s2 q4)).
  { rewrite <- (with_vq_id s2) at 2. apply queues_good; [apply G2|apply incl_refl|assumption]. }
  set (s5 := with_cq s2 q4) in *.
  assert (G5 : good s1 s5) by (eapply good_trans; eauto).
  eapply good_okay; [exact G5|]. clear G5.
  assert (He5 : raw_expr s5 i = Some e) by (destruct i; exact He2).
  assert (Ht5 : target s5 i = Some true) by (destruct i; exact Ht2).
  assert (L5 : dm s5 (rd s5 x) = Some p) by (change (dm s2 (rd s2 x) = Some p); rewrite L2; exact L1).
  assert (I5' : inv s5) by apply G3. clearbody s5.
  destruct (collect_decls_less s5 i e) as (o & Eo & Ho). rewrite Eo.
  assert (De : det s5 e true).
  { intros sg F. rewrite (eq_lit_truth sg e x p Hl). rewrite (fixed_value s5 sg x p F L5). apply eqb_reflx. }
  assert (St : match i with IV _ => True | IC _ => True | IS => False end -> good s5 (settle (with_occ s5 o) i)).
  { intros Hi'. apply settle_good; try assumption. destruct i as [w|c|]; [|eauto|contradiction].
    split; [exact Ht5|]. right. eauto. }
  destruct i as [w|c|]; [|exact (St Logic.I)|discriminate].
  change (rd (with_occ s5 o) w) with (rd s5 w). change (occ (with_occ s5 o) (rd s5 w)) with (o (rd s5 w)).
  destruct (o (rd s5 w)) as [|j l] eqn:En; [|exact (St Logic.I)].
  exact (set_gone_good s5 w e x p o I5' Ht5 He5 Hl L5 Ho En).
Qed.

(** ** simplify_constraint *)
Lemma good_trans3 a b c : good a b -> good b c -> good a c.
Proof. apply good_trans. Qed.
Lemma simplify_okay s i : inv s -> (forall v, nonalias s v) -> okay s (simplify_con output s i).
Proof.
  intros I Na. unfold simplify_con. destruct (raw_expr s i) as [e|] eqn:He; [|now apply good_refl].
  assert (Hself : okay s (Some s)) by now apply good_refl.
  (* the cases that leave it to the registry *)
  assert (Reg : (forall x b, ~ eq_lit e x b) -> okay s
      (match registry s e with
      | SOk => Some s
      | SFailed =>
          match target s i with
          | Some true => None
          | Some false => Some s
          | None => match i with
                    | IV v => Some (push_var (set_rhs (collect_decls (set_dom s v false) i e) v (Some (ELit false))) v)
                    | _ => Some s
                    end
          end
      | SEntailed =>
          match target s i with
          | Some true => Some (match i with IC c => drop_con (collect_decls s i e) c | _ => s end)
          | Some false => None
          | None => match i with
                    | IV v => Some (push_var (set_rhs (collect_decls (set_dom s v true) i e) v (Some (ELit true))) v)
                    | _ => Some s
                    end
          end
      end)).
  { intros Nl. assert (Fix : forall b, is_call e = true -> det s e b -> target s i = None -> okay s (match i with
                    | IV v => Some (push_var (set_rhs (collect_decls (set_dom s v b) i e) v (Some (ELit b))) v)
                    | _ => Some s
                    end)).
    { intros b Hc D Ht. destruct i as [v|c|]; [|exact Hself..]. cbn in Ht.
      assert (Hg : gone s v = false).
      { destruct (raw_live s _ e I He) as [H|(v' & E & H1 & H2 & [(b' & ->)|(y & b' & H3 & _)])].
        - cbn in H. now destruct (gone s v).
        - discriminate.
        - now destruct (Nl y b'). }
      cbn [okay]. destruct (collect_decls_less (set_dom s v b) (IV v) e) as (o & -> & Ho).
      eapply good_trans; [|apply push_var_good].
      - apply (lit_item_good other output s _ v e b (cmp s v) o); try assumption.
        + left. auto.
        + intros u N. cbn. now rewrite !upd_other.
        + cbn. rewrite !upd_same. reflexivity.
        + reflexivity.
      - eapply (lit_item_good other output s _ v e b (cmp s v) o); try assumption.
        + left. auto.
        + intros u N. cbn. now rewrite !upd_other.
        + cbn. rewrite !upd_same. reflexivity.
        + reflexivity. }
    destruct (registry_sound s e) as [R1 R2]. destruct (registry s e); [exact Hself| |].
    - destruct (R1 eq_refl) as [Hc D]. destruct (target s i) as [[]|] eqn:Ht; [|exact Hself|apply Fix; auto].
      intros sg Hs. assert (T := target_truth s i e true sg I He Ht Hs). rewrite D in T; [discriminate|apply Hs].
    - destruct (R2 eq_refl) as [Hc D]. destruct (target s i) as [[]|] eqn:Ht; [| |apply Fix; auto].
      + destruct i as [v|c|]; [exact Hself| |exact Hself]. destruct (collect_decls_less s (IC c) e) as (o & -> & Ho).
        eapply drop_con_good; eauto.
      + intros sg Hs. assert (T := target_truth s i e false sg I He Ht Hs). rewrite D in T; [discriminate|apply Hs]. }
  destruct e as [b|x|l|l|p n|[b0|x0] [b1|x1]|f l]; try (apply Reg; intros x' b' [E|E]; discriminate).
  - (* two literals *)
    assert (Hlive : item_expr s i = Some (EEq (Lit b0) (Lit b1))).
    { destruct (raw_live s i _ I He) as [H|(v' & -> & H1 & H2 & [(b' & E)|(y & b' & [E|E] & _)])]; [assumption|discriminate..]. }
    destruct (target s i) as [t|] eqn:Ht.
    + destruct (Bool.eqb_spec t (Bool.eqb b0 b1)) as [E|N].
      * destruct i as [v|c|]; [exact Hself| |exact Hself]. cbn in Ht. inversion Ht; subst t.
        rewrite <- (with_occ_id s) at 2. eapply drop_con_good; eauto.
        -- intros sg F. cbn. now symmetry.
        -- intros x j; auto.
      * intros sg Hs. assert (T := target_truth s i _ t sg I He Ht Hs). cbn in T. congruence.
    + destruct i as [v|c|]; [|exact Hself..]. cbn in Ht, Hlive.
      assert (Hg : gone s v = false) by (destruct (gone s v); [discriminate|reflexivity]).
      assert (Gl : good s (set_computed (set_dom (set_rhs s v (Some (ELit (Bool.eqb b0 b1)))) v (Bool.eqb b0 b1)) v true)).
      { apply (lit_item_good other output s _ v (EEq (Lit b0) (Lit b1)) (Bool.eqb b0 b1) true (occ s)); try assumption.
        - intros sg F. reflexivity.
        - left. auto.
        - intros x j; auto.
        - intros u N. cbn. now rewrite !upd_other.
        - cbn. rewrite !upd_same. reflexivity.
        - destruct s; reflexivity. }
      cbn [okay]. eapply good_trans; [exact Gl|]. eapply good_trans; [apply push_var_good, Gl|].
      apply push_dep_good. apply push_var_good, Gl.
  - destruct (target s i) as [[]|] eqn:Ht; [|exact Hself..]. apply eq_fixed_okay; try assumption. now right.
  - destruct (target s i) as [[]|] eqn:Ht; [|exact Hself..]. apply eq_fixed_okay; try assumption. now left.
  - (* two names *)
    assert (Hlive : item_expr s i = Some (EEq (Ident x0) (Ident x1))).
    { destruct (raw_live s i _ I He) as [H|(v' & -> & H1 & H2 & [(b' & E)|(y & b' & [E|E] & _)])]; [assumption|discriminate..]. }
    destruct (target s i) as [[]|] eqn:Ht; [|exact Hself..].
    destruct (is_none (rh s (rd s x0)) || is_none (rh s (rd s x1))) eqn:En; [|exact Hself].
    assert (Hr : rh s (rd s x0) = None \/ rh s (rd s x1) = None).
    { apply orb_true_iff in En. destruct (rh s (rd s x0)), (rh s (rd s x1)); cbn in En; destruct En; auto; discriminate. }
    assert (Kn : forall x, In x [x0; x1] -> known s (rd s x)).
    { intros x Hx. destruct I as (_ & B & _). destruct (g_ref _ B i _ x (conj Hlive eq_refl) Hx) as [H|[H _]]; [now left|now right]. }
    assert (Hs : forall sg, sat s sg -> sg x0 = sg x1).
    { intros sg H. assert (T := target_truth s i _ true sg I He Ht H). cbn in T. now apply eqb_prop. }
    assert (U := unify_okay output other s x0 x1 (fun s' => push_dep s' x0) I (Na _) (Na _) (Kn x0 (or_introl eq_refl))
                   (Kn x1 (or_intror (or_introl eq_refl))) Hr (fun s' => push_dep_pushes s' x0) Hs).
    destruct (unify output s x0 x1) as [s'|] eqn:EU; cbn [okay] in U |- *; [|exact U].
    assert (Rx := unify_rd output s x0 x1 s' (Na _) (Na _) EU).
    eapply good_trans; [exact U|].
    destruct (push_dep_spec s' x0) as (q & Eq & _). rewrite Eq in *.
    destruct (collect_decls_less (with_cq s' q) i (EEq (Ident x0) (Ident x1))) as (o & -> & Ho).
    assert (De : det (with_cq s' q) (EEq (Ident x0) (Ident x1)) true).
    { intros sg [_ F]. cbn. rewrite (F x0), (F x1). cbn. rewrite Rx. apply eqb_reflx. }
    destruct U as (U1 & U2 & U3).
    apply settle_good; try assumption. destruct i as [w|c|].
    + split; [apply (gr_dm _ _ U3); exact Ht|].
      destruct (gone s' w) eqn:Gw; [now left|right]. exists (EEq (Ident x0) (Ident x1)). split; [|exact De].
      change (rh s' w = Some (EEq (Ident x0) (Ident x1))).
      destruct (Nat.eq_dec (rd s x0) (rd s x1)) as [E|N].
      * unfold unify in EU. destruct (Nat.eqb_spec (rd s x0) (rd s x1)); [|contradiction]. inversion EU; now subst s'.
      * apply unify_shape in EU; [|assumption|apply Na..].
        destruct EU as (_ & _ & _ & _ & Ug & _ & Uh & _). rewrite Ug in Gw. rewrite Uh. cbn in He.
        destruct (w =? (if output (rd s x0) then rd s x1 else rd s x0)); [discriminate|].
        destruct (Nat.eqb_spec w (if output (rd s x0) then rd s x0 else rd s x1)) as [Ew|Nw]; [|assumption].
        replace (rh s (if output (rd s x0) then rd s x1 else rd s x0)) with (@None expr).
        -- now rewrite <- Ew.
        -- rewrite Ew in He. destruct (output (rd s x0)), Hr; congruence.
    + exists (EEq (Ident x0) (Ident x1)). split; [|exact De]. change (cons s' c = Some (EEq (Ident x0) (Ident x1))).
      destruct (Nat.eq_dec (rd s x0) (rd s x1)) as [E|N].
      * unfold unify in EU. destruct (Nat.eqb_spec (rd s x0) (rd s x1)); [|contradiction]. inversion EU; now subst s'.
      * apply unify_shape in EU; [|assumption|apply Na..]. destruct EU as (Uc & _). now rewrite Uc.
    + discriminate.
Qed.
End Simplify.
