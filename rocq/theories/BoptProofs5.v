(** Proofs for BoptModel, part 5: phase 3 as a whole, phase 4. *)
From Coq Require Import List Bool Arith Lia.
From Verif Require Import BoptModel BoptSpec BoptProofs1 BoptProofs2 BoptProofs3 BoptProofs4.
Import ListNotations.

Lemma fold_occ_del_cq i l : forall s q,
  fold_left (occ_del i) l (with_cq s q) = with_cq (fold_left (occ_del i) l s) q.
Proof.
  induction l as [|x l IH]; intros s q; cbn [fold_left]; [reflexivity|]. rewrite <- IH. reflexivity.
Qed.
Lemma substitute_cq s q i : substitute (with_cq s q) i = with_cq (substitute s i) q.
Proof.
  unfold substitute. change (item_expr (with_cq s q) i) with (item_expr s i).
  destruct (item_expr s i) as [e|]; [|reflexivity]. rewrite <- fold_occ_del_cq. destruct i; reflexivity.
Qed.

Section Phase3.
Variable other : nat -> list bool -> bool.
Variable output : nat -> bool.
Notation truth := (truth other).
Notation inv := (inv other output).
Notation sat := (sat other).
Notation det := (det other).
Notation good := (good other output).
Notation okay := (okay other output).

(** ** An item is taken from the queue *)
Definition resolve (s : state) (i : item) : item :=
  match i with IV v => if gone s v then IV (rd s v) else i | _ => i end.
Lemma pop_item_inv s i0 :
  inv s ->
  (forall e x, call_item s (resolve s i0) e -> In x (ids e) -> dm s (rd s x) = None) ->
  inv (pop_item s i0).
Proof.
  intros (G & [B1 B2] & C) H. split; [|split].
  - apply (G1_same output s); auto.
  - assert (Pe : forall j e x, call_item s j e -> In x (ids e) -> dm s (rd s x) <> None -> pend s j -> pend (pop_item s i0) j).
    { intros j e x Hj Hx Hd Hp. destruct (item_eq_dec j (resolve s i0)) as [->|N]; [exfalso; eauto|].
      destruct Hp as [Hp|(w & H1 & H2 & ->)].
      - left. cbn. apply in_remove_iff. split; [assumption|]. intros ->. apply N. unfold resolve.
        destruct i0 as [v|c|]; try reflexivity. destruct Hj as [Hj _]. cbn in Hj. destruct (gone s v); [discriminate|reflexivity].
      - right. exists w. cbn. split; [|auto]. apply in_remove_iff. split; [assumption|]. intros <-. apply N. cbn.
        now rewrite H2. }
    split; intros j e x Hj Hx.
    + destruct (B1 j e x Hj Hx) as [K|[K1 K2]]; [left; exact K|right]. split; [exact K1|]. exact (Pe j e x Hj Hx K1 K2).
    + destruct (B2 j e x Hj Hx) as [K|[K1 [K2|K2]]]; [left; exact K|right..]; (split; [exact K1|]).
      * left. exact (Pe j e x Hj Hx K1 K2).
      * right. exact K2.
  - destruct C; split; assumption.
Qed.

Lemma cons_same_good s f : inv s -> (forall k, f k = cons s k) -> good s (with_cons s f).
Proof.
  intros (G & [B1 B2] & C) Hf.
  assert (Ca : forall j e, call_item (with_cons s f) j e -> call_item s j e).
  { intros j e [H1 H2]. split; [|assumption]. destruct j; try assumption. cbn in *. now rewrite Hf in H1. }
  split; [split; [|split]|split].
  - apply (G1_same output s); auto.
  - split; intros j e x Hj Hx; [exact (B1 j e x (Ca _ _ Hj) Hx)|exact (B2 j e x (Ca _ _ Hj) Hx)].
  - destruct C; split; assumption.
  - intros sg. split; intros (F & S1 & S2); (split; [exact F|]); (split; [exact S1|]); intros k e H; apply (S2 k);
      cbn in *; [now rewrite <- Hf|now rewrite Hf].
  - split; auto; try (cbn; apply incl_refl). intros k e H. cbn in H. now rewrite Hf in H.
Qed.
Lemma set_same_good s i e : inv s -> item_expr s i = Some e -> good s (set_expr s i e).
Proof.
  intros I He. destruct i as [v|c|]; cbn [set_expr].
  - assert (Hr : rh s v = Some e) by (cbn in He; destruct (gone s v); [discriminate|assumption]).
    assert (Hu : forall u, decls (set_rhs s v (Some e)) u = decls s u).
    { intros u. cbn. unfold upd. destruct (Nat.eqb_spec u v) as [->|]; [|reflexivity]. rewrite <- Hr. unfold rh. now destruct (decls s v). }
    apply (decl_good other output s _ v (decls s v)); try reflexivity; try assumption; auto.
    + unfold dm. congruence.
    + intros H1 H2. destruct I as (_ & _ & C). exact (g_cmp _ _ C v H1 H2).
    + intros sg b ([F _] & _) H. now apply F.
    + intros sg e' (_ & S1 & _) H1 H2. apply S1; unfold gone, rh; now rewrite Hu.
  - apply cons_same_good; [assumption|]. intros k. unfold upd. destruct (Nat.eqb_spec k c); subst; auto.
  - discriminate.
Qed.

(** *** The substitution *)
Lemma subst_value_dm s x : inv s -> subst_value s x = dm s (rd s x).
Proof.
  intros (_ & _ & C). unfold subst_value. destruct (rh s (rd s x)) as [[b| | | | | |]|] eqn:R; try reflexivity.
  symmetry. now apply (g_lit _ _ C).
Qed.
Lemma subst_arg_value s sg a : inv s -> fixed s sg -> value sg (subst_arg s a) = value sg a.
Proof.
  intros I F. destruct a as [b|x]; cbn; [reflexivity|]. rewrite subst_value_dm by assumption.
  destruct (dm s (rd s x)) eqn:E; [|reflexivity]. cbn. symmetry. now apply (fixed_value s sg x b F).
Qed.
Lemma forallb_map' A B (f : B -> bool) (g : A -> B) l : forallb f (map g l) = forallb (fun a => f (g a)) l.
Proof. induction l as [|a l IH]; cbn; [reflexivity|]. now rewrite IH. Qed.
Lemma existsb_map' A B (f : B -> bool) (g : A -> B) l : existsb f (map g l) = existsb (fun a => f (g a)) l.
Proof. induction l as [|a l IH]; cbn; [reflexivity|]. now rewrite IH. Qed.
Lemma subst_truth s sg e : inv s -> fixed s sg -> truth sg (subst_expr s e) = truth sg e.
Proof.
  intros I F. destruct e as [b|x|l|l|p n|a b|f l]; cbn [subst_expr BoptSpec.truth]; try reflexivity.
  - rewrite forallb_map'. apply forallb_ext_in. intros; now apply subst_arg_value.
  - rewrite existsb_map'. apply existsb_ext_in. intros; now apply subst_arg_value.
  - rewrite !existsb_map'. f_equal; apply existsb_ext_in; intros; [|f_equal]; now apply subst_arg_value.
  - now rewrite !subst_arg_value.
  - f_equal. rewrite map_map. apply map_ext. intros; now apply subst_arg_value.
Qed.
Lemma subst_arg_ids s a x : inv s -> In x (arg_ids (subst_arg s a)) -> In x (arg_ids a) /\ dm s (rd s x) = None.
Proof.
  intros I. destruct a as [b|y]; cbn; [tauto|]. rewrite subst_value_dm by assumption.
  destruct (dm s (rd s y)) eqn:E; cbn; [tauto|]. intros [->|[]]. auto.
Qed.
Lemma subst_args_ids s l x : inv s -> In x (args_ids (map (subst_arg s) l)) -> In x (args_ids l) /\ dm s (rd s x) = None.
Proof.
  intros I H. unfold args_ids in *. apply in_flat_map in H. destruct H as (a' & H1 & H2). apply in_map_iff in H1.
  destruct H1 as (a & <- & H1). destruct (subst_arg_ids s a x I H2). split; [|assumption]. apply in_flat_map. eauto.
Qed.
Lemma subst_expr_ids s e x : inv s -> is_call e = true -> In x (ids (subst_expr s e)) -> In x (ids e) /\ dm s (rd s x) = None.
Proof.
  intros I Hc. destruct e as [b|y|l|l|p n|a b|f l]; try discriminate; cbn [subst_expr ids]; intros H.
  - now apply subst_args_ids.
  - now apply subst_args_ids.
  - apply in_app_or in H. rewrite in_app_iff. destruct H as [H|H]; apply subst_args_ids in H; tauto.
  - apply in_app_or in H. rewrite in_app_iff. destruct H as [H|H]; apply subst_arg_ids in H; tauto.
  - now apply subst_args_ids.
Qed.
Lemma subst_call s e : is_call (subst_expr s e) = is_call e.
Proof. now destruct e. Qed.

Lemma substitute_ok s i e :
  inv s -> item_expr s i = Some e ->
  exists o, substitute s i = set_expr (with_occ s o) i (subst_expr s e) /\
    inv (substitute s i) /\ (forall sg, sat s sg <-> sat (substitute s i) sg) /\
    (forall e' x, call_item (substitute s i) i e' -> In x (ids e') -> dm (substitute s i) (rd (substitute s i) x) = None).
Proof.
  intros I He. unfold substitute at 1. rewrite He.
  destruct (fold_occ_del_spec i (subst_ids s e) (set_expr s i (subst_expr s e))) as (o & Eo & Ho).
  exists o. assert (E : substitute s i = set_expr (with_occ s o) i (subst_expr s e)).
  { unfold substitute. rewrite He, Eo. destruct i; reflexivity. }
  split; [rewrite <- E; unfold substitute; now rewrite He|]. rewrite E. clear Eo.
  assert (Rd : rd (set_expr s i (subst_expr s e)) = rd s) by (destruct i; reflexivity).
  assert (Oc : occ (set_expr s i (subst_expr s e)) = occ s) by (destruct i; reflexivity). rewrite Rd, Oc in Ho.
  destruct (is_call e) eqn:Hc.
  - destruct (set_expr_good other output s i e (subst_expr s e) o I He Hc) as [I' S'].
    + now rewrite subst_call.
    + intros sg F. symmetry. now apply subst_truth.
    + intros x Hx. now apply (subst_expr_ids s e x I Hc).
    + intros x j Hj Hx. apply Ho. split; [assumption|]. intros (-> & y & Hy & Ey).
      destruct Hx as [Hx|Hx]; [congruence|]. apply in_map_iff in Hx. destruct Hx as (z & Ez & Hz).
      unfold subst_ids in Hy. rewrite Hc in Hy. apply filter_In in Hy. destruct Hy as [_ Hy].
      rewrite subst_value_dm in Hy by assumption. apply (subst_expr_ids s e z I Hc) in Hz. destruct Hz as [_ Hz].
      rewrite Ey, <- Ez, Hz in Hy. discriminate.
    + intros _ x Hx. destruct (subst_expr_ids s e x I Hc Hx) as [Hx1 Hx2].
      eapply unfixed_live; eauto.
    + split; [exact I'|]. split; [exact S'|]. intros e' x [Hj _] Hx.
      assert (e' = subst_expr s e).
      { destruct i as [v|c|]; cbn in Hj, He.
        - destruct (gone s v) eqn:Gv; [discriminate|]. unfold gone, rh in Hj. cbn in Hj. rewrite upd_same in Hj. cbn in Hj.
          unfold gone in Gv. rewrite Gv in Hj. congruence.
        - rewrite upd_same in Hj. congruence.
        - discriminate. }
      subst e'. destruct (subst_expr_ids s e x I Hc Hx) as [_ Hd]. destruct i as [v|c|]; [|exact Hd..].
      cbn [set_expr]. change (dm (set_rhs s v (Some (subst_expr s e))) (rd s x) = None). now rewrite set_rhs_dm.
  - assert (Ee : subst_expr s e = e) by (destruct e; try discriminate; reflexivity). rewrite Ee in *.
    assert (Go : forall x j, In j (o x) <-> In j (occ s x)).
    { intros x j. rewrite Ho. split; [tauto|]. intros H. split; [assumption|]. intros (_ & y & Hy & _).
      unfold subst_ids in Hy. now rewrite Hc in Hy. }
    assert (G1 : good s (with_occ s o)).
    { destruct I as (G & [B1 B2] & C). split; [split; [|split]|split].
      - apply (G1_same output s); auto.
      - split; intros j e' x Hj Hx.
        + destruct (B1 j e' x Hj Hx) as [K|K]; [left; cbn; now apply Go|right; exact K].
        + exact (B2 j e' x Hj Hx).
      - destruct C; split; assumption.
      - reflexivity.
      - split; auto; cbn; apply incl_refl. }
    assert (G2 := set_same_good (with_occ s o) i e (good_inv _ _ _ _ G1) He).
    assert (G3 := good_trans _ _ _ _ _ G1 G2).
    split; [apply G3|]. split; [apply G3|]. intros e' x [Hj Hc'] Hx.
    exfalso. destruct i as [v|c|]; cbn in Hj, He.
    + destruct (gone s v) eqn:Gv; [discriminate|]. unfold gone, rh in Hj. cbn in Hj. rewrite upd_same in Hj. cbn in Hj.
      unfold gone in Gv. rewrite Gv in Hj. congruence.
    + rewrite upd_same in Hj. congruence.
    + discriminate.
Qed.

(** *** What a step on an item of the queue preserves *)
Record grow_item (s s' : state) (i0 i : item) : Prop := {
  gi_rd : forall x y, rd s x = rd s y -> rd s' x = rd s' y;
  gi_dm : forall v b, dm s v = Some b -> dm s' v = Some b;
  gi_cons : forall c e, IC c <> i -> cons s' c = Some e -> cons s c = Some e;
  gi_vq : incl (vq s) (vq s');
  gi_cq : forall j, In j (cq s) -> j <> i0 -> In j (cq s');
  gi_alias : forall v z, rh s' v = Some (EId z) -> rh s v = Some (EId z);
  gi_id : forall c x, cons s' c = Some (EId x) -> cons s c = Some (EId x);
  gi_none : forall c, cons s c = None -> cons s' c = None
}.
Definition con_done (s : state) (i0 : item) (r : option state) : Prop :=
  match r with
  | None => forall sg, ~ sat s sg
  | Some s' => inv s' /\ (forall sg, sat s sg <-> sat s' sg) /\ grow_item s s' i0 (resolve s i0) /\
      (forall c l, i0 = IC c -> cons s c = Some (EForall l) -> (forall x, In (Ident x) l -> dm s (rd s x) <> None) -> cons s' c = None) /\
      (forall c x, i0 = IC c -> cons s c = Some (EId x) -> cons s' c = Some (EId x))
  end.
Lemma pop_grow s i0 i : grow_item s (pop_item s i0) i0 i.
Proof.
  split; auto.
  - apply incl_refl.
  - intros j H N. cbn. now apply in_remove_iff.
Qed.
Lemma process_con_okay s i0 :
  inv s -> noalias s -> con_done s i0 (process_con output s i0).
Proof.
  intros I Na. unfold process_con.
  change (match i0 with IV v => if gone (pop_item s i0) v then IV (rd (pop_item s i0) v) else i0 | _ => i0 end) with (resolve s i0).
  set (i := resolve s i0). assert (Hi : resolve s i0 = i) by reflexivity. clearbody i.
  assert (Out : item_expr s i = None -> con_done s i0 (Some (pop_item s i0))).
  { intros He. split; [|split; [reflexivity|split; [rewrite Hi; apply pop_grow|split]]].
    - apply pop_item_inv; [assumption|]. intros e x [H _]. rewrite Hi in H. congruence.
    - intros c l -> H. cbn in Hi. subst i. cbn in He. congruence.
    - intros c x -> H. cbn in Hi. subst i. cbn in He. congruence. }
  assert (Main : forall e, item_expr s i = Some e -> con_done s i0 (simplify_con output (substitute (pop_item s i0) i) i)).
  { intros e He. destruct (substitute_ok s i e I He) as (o & Es & I1 & S1 & U1).
    unfold pop_item. rewrite substitute_cq. set (s1 := substitute s i) in *.
    assert (Rd1 : rd s1 = rd s) by (rewrite Es; destruct i; reflexivity).
    assert (Dm1 : forall u, dm s1 u = dm s u).
    { intros u. rewrite Es. destruct i as [v|c|]; cbn [set_expr]; try reflexivity. now rewrite set_rhs_dm. }
    assert (Go1 : forall u, gone s1 u = gone s u).
    { intros u. rewrite Es. destruct i as [v|c|]; cbn [set_expr]; try reflexivity. now rewrite set_rhs_gone. }
    assert (Vq1 : vq s1 = vq s) by (rewrite Es; destruct i; reflexivity).
    assert (Cq1 : cq s1 = cq s) by (rewrite Es; destruct i; reflexivity).
    assert (Re1 : resolve s1 i0 = i).
    { rewrite <- Hi. unfold resolve. destruct i0 as [v|c|]; try reflexivity. now rewrite Go1, Rd1. }
    assert (Hr1 : forall v z, rh s1 v = Some (EId z) -> rh s v = Some (EId z)).
    { intros v z. rewrite Es. destruct i as [w|c|] eqn:Ei; cbn [set_expr]; auto. rewrite set_rhs_rh.
      destruct (Nat.eqb_spec v w) as [->|N]; [|auto]. intros H. cbn in He. destruct (gone s w); [discriminate|].
      destruct e; try discriminate. cbn in H. congruence. }
    assert (I2 : inv (with_cq s1 (remove item_eq_dec i0 (cq s)))).
    { rewrite <- Cq1. apply (pop_item_inv s1 i0 I1). rewrite Re1. exact U1. }
    set (s2 := with_cq s1 (remove item_eq_dec i0 (cq s))) in *.
    assert (Na2 : forall v, nonalias s2 v) by (intros v z H; apply (Na v z); now apply Hr1).
    assert (O := simplify_okay other output s2 i I2 Na2).
    assert (S2 : forall sg, sat s sg <-> sat s2 sg) by (intros sg; rewrite S1; reflexivity).
    destruct (simplify_con output s2 i) as [s'|] eqn:Esim; cbn [okay con_done] in *.
    2:{ intros sg H. apply (O sg). now apply S2. }
    destruct O as (I3 & S3 & R3). split; [exact I3|]. split; [intros sg; rewrite S2; apply S3|].
    assert (Cs : forall k, cons s2 k = if item_eq_dec (IC k) i then Some (subst_expr s e) else cons s k).
    { intros k. unfold s2. cbn [cons with_cq]. rewrite Es. destruct i as [v|c|]; cbn [set_expr].
      - destruct (item_eq_dec (IC k) (IV v)); [discriminate|reflexivity].
      - cbn [cons with_cons with_occ set_rhs with_decls]. unfold upd. destruct (Nat.eqb_spec k c) as [->|N]; [destruct (item_eq_dec (IC c) (IC c))|destruct (item_eq_dec (IC k) (IC c))]; congruence.
      - destruct (item_eq_dec (IC k) IS); [discriminate|reflexivity]. }
    rewrite Hi. split; [|split].
    - split.
      + intros x y H. apply (gr_rd _ _ R3). cbn. now rewrite Rd1.
      + intros v b H. apply (gr_dm _ _ R3). change (dm s1 v = Some b). now rewrite Dm1.
      + intros c e' N H. apply (gr_cons _ _ R3) in H. rewrite Cs in H. destruct (item_eq_dec (IC c) i); [contradiction|assumption].
      + rewrite <- Vq1. apply (gr_vq _ _ R3).
      + intros j H N. apply (gr_cq _ _ R3). cbn. now apply in_remove_iff.
      + intros v z H. apply (gr_alias _ _ R3) in H. now apply Hr1.
      + intros c x H. apply (gr_cons _ _ R3) in H. rewrite Cs in H. destruct (item_eq_dec (IC c) i) as [E|]; [|assumption].
        rewrite <- E in He. cbn in He. destruct e; try discriminate. cbn in H. congruence.
      + intros c H. destruct (cons s' c) as [e'|] eqn:Z; [|reflexivity]. apply (gr_cons _ _ R3) in Z. rewrite Cs in Z.
        destruct (item_eq_dec (IC c) i) as [E|]; [|congruence]. rewrite <- E in He. cbn in He. congruence.
    - intros c l E Hc Hfix. assert (Ei : i = IC c) by (rewrite <- Hi; now rewrite E). rewrite Ei in *. cbn in He.
      rewrite Hc in He. inversion He; subst e.
      unfold simplify_con in Esim. cbn [raw_expr] in Esim. rewrite Cs in Esim. destruct (item_eq_dec (IC c) (IC c)); [|congruence].
      cbn [subst_expr registry target] in Esim.
      assert (Lits : forall a, In a (map (subst_arg s) l) -> exists b, a = Lit b).
      { intros a Ha. apply in_map_iff in Ha. destruct Ha as ([b|x] & <- & Ha); cbn; [eauto|].
        rewrite subst_value_dm by assumption. specialize (Hfix x Ha). destruct (dm s (rd s x)); [eauto|congruence]. }
      assert (Reg : forall ll, (forall a, In a ll -> exists b, a = Lit b) -> o_forall s2 ll true <> SOk).
      { clear. induction ll as [|a ll IH]; intros H; cbn; [discriminate|]. destruct (H a (or_introl eq_refl)) as (b & ->).
        cbn. destruct b; [|discriminate]. apply IH. intros a' Ha'. apply H. now right. }
      specialize (Reg _ Lits). destruct (o_forall s2 (map (subst_arg s) l) true); [congruence|discriminate|].
      inversion Esim; subst s'. cbn. now rewrite upd_same.
    - intros c x E Hc. assert (Ei : i = IC c) by (rewrite <- Hi; now rewrite E). rewrite Ei in *. cbn in He.
      rewrite Hc in He. inversion He; subst e.
      unfold simplify_con in Esim. cbn [raw_expr] in Esim. rewrite Cs in Esim. destruct (item_eq_dec (IC c) (IC c)); [|congruence].
      cbn in Esim. inversion Esim; subst s'. rewrite Cs. destruct (item_eq_dec (IC c) (IC c)); [reflexivity|congruence]. }
  destruct i as [v|c|] eqn:Ei.
  - change (gone (pop_item s i0) v) with (gone s v). destruct (gone s v) eqn:Gv.
    + apply Out. cbn. now rewrite Gv.
    + destruct (rh s v) as [e|] eqn:Hr.
      * apply (Main e). cbn. now rewrite Gv.
      * (* no right hand side *)
        assert (Es : substitute (pop_item s i0) (IV v) = pop_item s i0).
        { unfold substitute. cbn [item_expr]. change (gone (pop_item s i0) v) with (gone s v).
          change (rh (pop_item s i0) v) with (rh s v). now rewrite Gv, Hr. }
        rewrite Es. unfold simplify_con. cbn [raw_expr]. change (rh (pop_item s i0) v) with (rh s v). rewrite Hr.
        apply Out. cbn. now rewrite Gv.
  - change (cons (pop_item s i0) c) with (cons s c). destruct (cons s c) as [e|] eqn:Hc; [|now apply Out].
    now apply (Main e).
  - now apply Out.
Qed.

(** ** The conjunctions that are removed at the end *)
Definition jarg (s : state) (U : nat -> Prop) (c : nat) (a : arg) : Prop :=
  a = Lit true \/ exists x, a = Ident x /\
    (dm s (rd s x) = Some true \/
     dm s (rd s x) = Some false /\
     (In (IC c) (cq s) \/ (exists u, In u (vq s) /\ rd s u = rd s x /\ dm s u <> None) \/ exists u, U u /\ rd s u = rd s x)).
Definition jcon (s : state) (U : nat -> Prop) (c : nat) : Prop :=
  cons s c = None \/ (exists x, cons s c = Some (EId x) /\ dm s (rd s x) = Some true) \/
  exists l, cons s c = Some (EForall l) /\ forall a, In a l -> jarg s U c a.
Definition none (u : nat) : Prop := False.

Lemma jarg_mono s s' U c a :
  G1 output s -> G1 output s' ->
  (forall x y, rd s x = rd s y -> rd s' x = rd s' y) -> (forall v b, dm s v = Some b -> dm s' v = Some b) ->
  incl (vq s) (vq s') -> (In (IC c) (cq s) -> In (IC c) (cq s')) ->
  jarg s U c a -> jarg s' U c a.
Proof.
  intros G G' Hr Hd Hv Hc [->|(x & -> & H)]; [now left|right]. exists x. split; [reflexivity|].
  assert (Mo : forall b, dm s (rd s x) = Some b -> dm s' (rd s' x) = Some b).
  { intros b E. apply Hd in E. apply (g_dom _ _ G') in E. rewrite <- E. f_equal. apply Hr. symmetry. apply (g_idem _ _ G). }
  destruct H as [H|[H [H'|[(u & H1 & H2 & H3)|(u & H1 & H2)]]]]; [left; auto|right; split; [auto|]..].
  - auto.
  - right. left. exists u. split; [auto|]. split; [auto|]. destruct (dm s u) eqn:E; [|congruence]. apply Hd in E. congruence.
  - right. right. exists u. auto.
Qed.
Lemma jcon_mono s s' U c :
  G1 output s -> G1 output s' ->
  (forall x y, rd s x = rd s y -> rd s' x = rd s' y) -> (forall v b, dm s v = Some b -> dm s' v = Some b) ->
  incl (vq s) (vq s') -> (In (IC c) (cq s) -> In (IC c) (cq s')) ->
  (forall e, cons s' c = Some e -> cons s c = Some e) ->
  jcon s U c -> jcon s' U c.
Proof.
  intros G G' Hr Hd Hv Hc Hk H. destruct (cons s' c) as [e|] eqn:E; [|now left]. specialize (Hk e eq_refl).
  destruct H as [H|[(x & H1 & H2)|(l & H1 & H2)]]; [congruence|right; left|right; right].
  - exists x. split; [congruence|]. apply Hd in H2. apply (g_dom _ _ G') in H2. rewrite <- H2. f_equal.
    apply Hr. symmetry. apply (g_idem _ _ G).
  - exists l. split; [congruence|]. intros a Ha. apply (jarg_mono s); auto.
Qed.
Lemma jcon_good s s' U c : inv s -> good s s' -> jcon s U c -> jcon s' U c.
Proof.
  intros I (I' & _ & R). apply jcon_mono; try apply I; try apply I'; try apply R.
Qed.

Definition P3 (rem : list nat) (s : state) : Prop :=
  inv s /\ noalias s /\ (forall c, In c rem -> jcon s none c) /\
  (forall c x, cons s c = Some (EId x) -> In c rem).

Lemma step_okay rem s ch :
  P3 rem s ->
  match step output s ch with
  | None => forall sg, ~ sat s sg
  | Some s' => P3 rem s' /\ forall sg, sat s sg <-> sat s' sg
  end.
Proof.
  intros (I & Na & J & E). destruct ch as [v k again|i0]; cbn [step].
  - assert (O := process_var_okay other output s v k again I Na).
    destruct (process_var output s v k again) as [s'|]; cbn [var_done] in O; [|exact O].
    destruct O as (I' & S & H). split; [|exact S]. split; [exact I'|].
    destruct H as [[Hd ->]|(s1 & Ga & G2)].
    + split; [exact Na|]. split; [|exact E]. intros c Hc. specialize (J c Hc).
      destruct J as [J|[J|(l & J1 & J2)]]; [now left|right; now left|right; right]. exists l. split; [exact J1|].
      intros a Ha. destruct (J2 a Ha) as [->|(x & -> & H)]; [now left|right]. exists x. split; [reflexivity|].
      destruct H as [H|[H [H'|[(u & H1 & H2 & H3)|(u & [] & _)]]]]; [now left|right..]; (split; [exact H|]); [now left|].
      right. left. exists u. split; [|auto]. cbn. apply in_in_remove; [|assumption]. intros ->. congruence.
    + assert (I1 : inv s1) by apply Ga. assert (G3 := push_dep_good other output s1 v I1).
      split; [|split].
      * eapply noalias_grow; [|apply G2]. eapply noalias_grow; [|apply G3]. eapply noalias_grow; [|apply Ga]. exact Na.
      * intros c Hc. apply (jcon_good (push_dep s1 v)); [apply G3|exact G2|].
        assert (J0 : jcon (pop_var s v) (eq v) c).
        { specialize (J c Hc). destruct J as [J|[J|(l & J1 & J2)]]; [now left|right; now left|right; right]. exists l. split; [exact J1|].
          intros a Ha. destruct (J2 a Ha) as [->|(x & -> & H)]; [now left|right]. exists x. split; [reflexivity|].
          destruct H as [H|[H [H'|[(u & H1 & H2 & H3)|(u & [] & _)]]]]; [now left|right..]; (split; [exact H|]); [now left|].
          right. destruct (Nat.eq_dec u v) as [->|N]; [right; eauto|]. left. exists u. split; [|auto].
          cbn. now apply in_in_remove. }
        assert (I0 : G1 output (pop_var s v)) by (apply (G1_same output s); auto; apply I).
        assert (J1 : jcon s1 (eq v) c).
        { destruct Ga as (_ & _ & R). revert J0. apply jcon_mono; try assumption; try apply I1; try apply R. }
        destruct (push_dep_spec s1 v) as (q & Eq & Iq & Hq). rewrite Eq.
        destruct J1 as [J1|[J1|(l & J1 & J2)]]; [now left|right; now left|right; right]. exists l. split; [exact J1|].
        intros a Ha. destruct (J2 a Ha) as [->|(x & -> & H)]; [now left|right]. exists x. split; [reflexivity|].
        destruct H as [H|[H H']]; [now left|right]. split; [exact H|]. destruct H' as [H'|[H'|(u & <- & H')]].
        -- left. cbn. auto.
        -- right. left. exact H'.
        -- left. cbn. destruct I1 as (_ & B & _).
           destruct (g_occ _ B (IC c) (EForall l) x (conj J1 eq_refl)) as [K|[_ [K|(w & _ & _ & K)]]].
           ++ now apply in_args_ids.
           ++ apply (Hq (IC c) (IC c)); [now rewrite H'|]. split; [reflexivity|]. congruence.
           ++ auto.
           ++ discriminate.
      * intros c x H. apply (E c x). apply (gr_cons (pop_var s v) s1 (proj2 (proj2 Ga))).
        apply (gr_cons _ _ (proj2 (proj2 G3))). now apply (gr_cons _ _ (proj2 (proj2 G2))).
  - assert (O := process_con_okay s i0 I Na). destruct (process_con output s i0) as [s'|]; cbn [con_done] in O; [|exact O].
    destruct O as (I' & S & R & D1 & D2). split; [|exact S]. split; [exact I'|]. split; [|split].
    + intros v z H. apply (Na v z). now apply (gi_alias _ _ _ _ R).
    + intros c Hc. specialize (J c Hc). destruct (item_eq_dec i0 (IC c)) as [->|N].
      * destruct J as [J|[(x & J1 & J2)|(l & J1 & J2)]].
        -- left. now apply (gi_none _ _ _ _ R).
        -- right. left. exists x. split; [now apply D2|]. apply (gi_dm _ _ _ _ R) in J2. apply (g_dom _ _ (proj1 I')) in J2.
           rewrite <- J2. f_equal. apply (gi_rd _ _ _ _ R). symmetry. apply (g_idem _ _ (proj1 I)).
        -- left. apply (D1 c l eq_refl J1). intros x Hx. destruct (J2 _ Hx) as [H|(y & H & H')]; [discriminate|].
           inversion H; subst y. destruct H' as [H'|[H' _]]; congruence.
      * revert J. apply jcon_mono; try apply I; try apply I'; try apply R.
        -- intros H. apply (gi_cq _ _ _ _ R); [assumption|congruence].
        -- intros e H. apply (gi_cons _ _ _ _ R); [|assumption]. destruct i0 as [w|k|]; cbn; try congruence.
           destruct (gone s w); discriminate.
    + intros c x H. apply (E c x). now apply (gi_id _ _ _ _ R).
Qed.

Lemma phase3_okay rem l : forall s,
  P3 rem s ->
  match phase3 output s l with
  | None => forall sg, ~ sat s sg
  | Some s' => P3 rem s' /\ forall sg, sat s sg <-> sat s' sg
  end.
Proof.
  induction l as [|ch l IH]; intros s P; cbn [phase3]; [split; [assumption|reflexivity]|].
  assert (S := step_okay rem s ch P). destruct (step output s ch) as [s1|]; [|assumption]. destruct S as [P1 S1].
  specialize (IH s1 P1). destruct (phase3 output s1 l) as [s2|].
  - destruct IH as [P2 S2]. split; [assumption|]. intros sg. now rewrite S1.
  - intros sg H. apply (IH sg). now apply S1.
Qed.

(** ** The conjunctions are removed *)
Lemma jcon_det s c e : vq s = [] -> cq s = [] -> jcon s none c -> cons s c = Some e -> det s e true.
Proof.
  intros Hv Hq J He sg F. destruct J as [J|[(x & J1 & J2)|(l & J1 & J2)]]; [congruence|..].
  - rewrite J1 in He. inversion He; subst e. cbn. now apply (fixed_value s).
  - rewrite J1 in He. inversion He; subst e. cbn. apply forallb_forall. intros a Ha.
    destruct (J2 a Ha) as [->|(x & -> & [H|[H [H'|[(u & H1 & _)|(u & [] & _)]]]])]; [reflexivity|..]; cbn.
    + now apply (fixed_value s).
    + rewrite Hq in H'. destruct H'.
    + rewrite Hv in H1. destruct H1.
Qed.
Lemma clean_okay rem l : forall s,
  P3 rem s -> vq s = [] -> cq s = [] -> incl l rem ->
  P3 rem (clean s l) /\ vq (clean s l) = [] /\ cq (clean s l) = [] /\ (forall sg, sat s sg <-> sat (clean s l) sg) /\
  (forall c, cons s c = None -> cons (clean s l) c = None) /\ (forall c, In c l -> cons (clean s l) c = None).
Proof.
  unfold clean. induction l as [|c l IH]; intros s P Hv Hq Hi; cbn [fold_left].
  - split; [assumption|]. split; [assumption|]. split; [assumption|]. split; [reflexivity|]. split; [auto|]. intros ? [].
  - assert (Q : P3 rem (clean1 s c) /\ vq (clean1 s c) = [] /\ cq (clean1 s c) = [] /\
                (forall sg, sat s sg <-> sat (clean1 s c) sg) /\
                (forall k, cons s k = None -> cons (clean1 s c) k = None) /\ cons (clean1 s c) c = None).
    { unfold clean1. destruct (cons s c) as [e|] eqn:He.
      2:{ split; [assumption|]. split; [assumption|]. split; [assumption|]. split; [reflexivity|]. auto. }
      destruct P as (I & Na & J & E).
      assert (D : det s e true) by (eapply jcon_det; eauto; apply J; apply Hi; now left).
      destruct (collect_decls_less s (IC c) e) as (o & -> & Ho).
      assert (G := drop_con_good other output s c e o I He D Ho).
      split; [split; [apply G|split; [eapply noalias_grow; [|apply G]; assumption|split]]|].
      - intros k Hk. apply (jcon_good s); auto.
      - intros k x H. apply (E k x). now apply (gr_cons _ _ (proj2 (proj2 G))).
      - split; [assumption|]. split; [assumption|]. split; [apply G|]. split.
        + intros k H. cbn. unfold upd. destruct (k =? c); [reflexivity|assumption].
        + cbn. now rewrite upd_same. }
    destruct Q as (Q1 & Q2 & Q3 & Q4 & Q5 & Q6). destruct (IH (clean1 s c) Q1 Q2 Q3) as (R1 & R2 & R3 & R4 & R5 & R6).
    { intros k Hk. apply Hi. now right. }
    split; [assumption|]. split; [assumption|]. split; [assumption|]. split; [intros sg; now rewrite Q4|]. split; [auto|].
    intros k [<-|Hk]; auto.
Qed.

(** ** Phase 4 *)
Definition P4 (s : state) : Prop :=
  inv s /\ noalias s /\ (forall c x, cons s c <> Some (EId x)) /\ cq s = [].
Lemma good_P4 s s' : P4 s -> good s s' -> cq s' = [] -> P4 s'.
Proof.
  intros (_ & Na & E & _) G Hq. split; [apply G|]. split; [eapply noalias_grow; [eassumption|apply G]|]. split; [|assumption].
  intros c x H. apply (E c x). now apply (gr_cons _ _ (proj2 (proj2 G))).
Qed.
Lemma compact_args_ids s l x : In x (args_ids (compact s l)) <-> In x (args_ids l) /\ dm s (rd s x) = None.
Proof.
  unfold compact. rewrite !in_args_ids, filter_In. split; intros [H1 H2]; (split; [assumption|]).
  - destruct (dm s (rd s x)); [discriminate|reflexivity].
  - now rewrite H2.
Qed.
Lemma compact_ids s e x : is_bool_call e = true -> (In x (ids (compact_expr s e)) <-> In x (ids e) /\ dm s (rd s x) = None).
Proof.
  destruct e; try discriminate; intros _; cbn [compact_expr ids]; try apply compact_args_ids.
  rewrite !in_app_iff, !compact_args_ids. tauto.
Qed.
Lemma compact_call s e : is_bool_call (compact_expr s e) = is_bool_call e.
Proof. now destruct e. Qed.
Lemma compact_args s e a : is_bool_call e = true ->
  (In a (call_args (compact_expr s e)) <-> In a (call_args e) /\ o_fixed s (fst a) = None).
Proof.
  assert (C : forall l c, In c (compact s l) <-> In c l /\ o_fixed s c = None).
  { intros l c. unfold compact. rewrite filter_In. destruct c as [b|x]; cbn; [intuition discriminate|].
    destruct (dm s (rd s x)); cbn; intuition discriminate. }
  assert (M : forall l b, In a (map (fun c => (c, b)) (compact s l)) <-> In a (map (fun c => (c, b)) l) /\ o_fixed s (fst a) = None).
  { intros l b. rewrite !in_map_iff. split.
    - intros (c & <- & H). apply C in H. destruct H. split; [eauto|assumption].
    - intros ((c & <- & H) & H'). exists c. split; [reflexivity|]. now apply C. }
  destruct e; try discriminate; intros _; cbn [compact_expr call_args]; try apply M.
  rewrite !in_app_iff, !M. tauto.
Qed.
Lemma compact_conj s e : conjunctive (compact_expr s e) = conjunctive e.
Proof. now destruct e. Qed.
Lemma compact_truth s e sg : fixed s sg -> is_bool_call e = true -> sbc_subsumed s e = false ->
  truth sg e = truth sg (compact_expr s e).
Proof.
  intros F Hb Hs. rewrite !call_truth by (try rewrite compact_call; assumption). rewrite compact_conj.
  assert (U : forall b, unit_of (compact_expr s e) b = unit_of e b) by (intros b; unfold unit_of; now rewrite compact_conj).
  replace (forallb (neutral sg (compact_expr s e)) (call_args (compact_expr s e))) with (forallb (neutral sg e) (call_args e)); [reflexivity|].
  apply eq_true_iff_eq. rewrite !forallb_forall. split; intros H a Ha.
  - apply compact_args in Ha; [|assumption]. unfold neutral. rewrite U. now apply H.
  - destruct (o_fixed s (fst a)) eqn:Z.
    + unfold neutral. rewrite (not_subsumed s e sg a F Hs Ha) by congruence. apply eqb_reflx.
    + assert (H' := H a). unfold neutral in H'. rewrite U in H'. apply H'. now apply compact_args.
Qed.

Lemma p4_fix_okay s t v e e1 b o d1 :
  P4 s -> item_expr s (IV v) = Some e -> det s e b ->
  t = with_decls (with_occ s o) d1 -> (forall u, u <> v -> d1 u = decls s u) ->
  d1 v = mkD (dm s v) (cmp s v) (Some e1) (gone s v) -> occ_less (IV v) s o ->
  match p4_fix t v b with
  | None => forall sg, ~ sat s sg
  | Some t' => forall l, good s (fold_left (occ_del (IV v)) l t') /\ cq (fold_left (occ_del (IV v)) l t') = []
  end.
Proof.
  intros (I & Na & E & Hq) He D -> Hu Hv Ho. cbn in He. destruct (gone s v) eqn:Hg; [discriminate|].
  assert (L : forall t', (forall u, u <> v -> decls t' u = decls s u) -> decls t' v = mkD (Some b) true (Some (ELit b)) false ->
     t' = with_decls (with_occ s o) (decls t') -> (dm s v = None \/ dm s v = Some b) ->
     forall l, good s (fold_left (occ_del (IV v)) l t') /\ cq (fold_left (occ_del (IV v)) l t') = []).
  { intros t' H1 H2 H3 H4 l. destruct (fold_occ_del_less (IV v) l t') as (o' & -> & Ho').
    split; [|rewrite H3; exact Hq].
    apply (lit_item_good other output s _ v e b true o' I He D); [left; auto|..].
    - intros x j Hj Hn. apply Ho'; [|assumption]. rewrite H3. now apply Ho.
    - exact H1.
    - rewrite Hg. exact H2.
    - rewrite H3. reflexivity. }
  unfold p4_fix. unfold dm at 1. cbn [decls with_decls]. rewrite Hv. cbn [dom].
  destruct (dm s v) as [d|] eqn:Hd.
  - destruct (Bool.eqb d b) eqn:Eb.
    + apply eqb_prop in Eb. subst d. apply L; try auto.
      * intros u N. cbn. rewrite !upd_other by assumption. now apply Hu.
      * cbn. rewrite !upd_same, Hv. reflexivity.
    + intros sg ((F1 & F2) & S1 & _). apply eqb_false_iff in Eb. apply Eb. rewrite <- (F1 v d Hd).
      rewrite (S1 v e Hg He). apply D. split; assumption.
  - apply L; try auto.
    + intros u N. cbn. rewrite !upd_other by assumption. now apply Hu.
    + cbn. rewrite !upd_same, Hv. reflexivity.
Qed.

Lemma phase4_item_okay s i :
  P4 s ->
  match phase4_item s i with
  | None => forall sg, ~ sat s sg
  | Some s' => P4 s' /\ forall sg, sat s sg <-> sat s' sg
  end.
Proof.
  intros P. assert (P' := P). destruct P' as (I & Na & E & Hq). unfold phase4_item.
  destruct (item_expr s i) as [e|] eqn:He; [|split; [assumption|reflexivity]].
  destruct (is_bool_call e) eqn:Hb; cbn [negb]; [|split; [assumption|reflexivity]].
  assert (Fin : forall s', good s s' -> cq s' = [] -> P4 s' /\ forall sg, sat s sg <-> sat s' sg).
  { intros s' G Hq'. split; [eapply good_P4; eauto|apply G]. }
  set (e1 := compact_expr s e).
  assert (Unsat : forall sg b, item_expr s i = Some e -> det s e b -> i <> IS -> (forall v, i <> IV v) -> b = false -> ~ sat s sg).
  { intros sg b _ D N1 N2 -> (F & S1 & S2). destruct i as [v|c|]; [now destruct (N2 v)| |now destruct N1].
    cbn in He. apply S2 in He. rewrite (D sg F) in He. discriminate. }
  assert (Drop : forall s' o c, i = IC c -> det s e true -> occ_less i s o -> s' = with_cons (with_occ s o) (cons s') -> cons s' c = None ->
            (forall k, k <> c -> cons s' k = cons s k) -> P4 s' /\ forall sg, sat s sg <-> sat s' sg).
  { intros s' o c -> D Ho Es H1 H2. apply Fin; [|rewrite Es; exact Hq]. eapply drop_con_gen; eauto. }
  destruct (sbc_subsumed s e) eqn:Hsub.
  - assert (D := subsumed_det other s e Hb Hsub). destruct i as [v|c|].
    + destruct (conjunctive e) eqn:Hc.
      * assert (O := p4_fix_okay s (set_expr s (IV v) e1) v e e1 false (occ s) (decls (set_expr s (IV v) e1)) P He D).
        assert (O' : match p4_fix (set_expr s (IV v) e1) v false with
              | None => forall sg, ~ sat s sg
              | Some t' => forall l, good s (fold_left (occ_del (IV v)) l t') /\ cq (fold_left (occ_del (IV v)) l t') = []
              end).
        { apply O; [reflexivity|..].
          - intros u N. cbn. now apply upd_other.
          - cbn. now rewrite upd_same.
          - intros x j H _. exact H. }
        destruct (p4_fix (set_expr s (IV v) e1) v false) as [s2|]; [|exact O'].
        destruct (O' (compacted_out s e ++ ids e1)). now apply Fin.
      * destruct (collect_decls_less (set_expr s (IV v) e1) (IV v) e1) as (o & -> & Ho).
        assert (O := p4_fix_okay s (with_occ (set_expr s (IV v) e1) o) v e e1 true o (decls (set_expr s (IV v) e1)) P He D).
        assert (O' : match p4_fix (with_occ (set_expr s (IV v) e1) o) v true with
              | None => forall sg, ~ sat s sg
              | Some t' => forall l, good s (fold_left (occ_del (IV v)) l t') /\ cq (fold_left (occ_del (IV v)) l t') = []
              end).
        { apply O; [reflexivity|..].
          - intros u N. cbn. now apply upd_other.
          - cbn. now rewrite upd_same.
          - exact Ho. }
        destruct (p4_fix (with_occ (set_expr s (IV v) e1) o) v true) as [s2|]; [|exact O'].
        destruct (O' (compacted_out s e ++ [])). now apply Fin.
    + destruct (conjunctive e) eqn:Hc.
      * intros sg. apply (Unsat sg false); auto; discriminate.
      * destruct (collect_decls_less (set_expr s (IC c) e1) (IC c) e1) as (o & -> & Ho).
        destruct (fold_occ_del_less (IC c) (compacted_out s e ++ []) (drop_con (with_occ (set_expr s (IC c) e1) o) c)) as (o2 & -> & Ho2).
        apply (Drop _ o2 c); auto.
        -- intros x j H N. apply Ho2; [|assumption]. apply Ho; assumption.
        -- cbn. now rewrite upd_same.
        -- intros k N. cbn. rewrite !upd_other by assumption. reflexivity.
    + discriminate.
  - destruct (is_nil (sbc_open s e)) eqn:Hop.
    + assert (D : det s e (conjunctive e)).
      { apply none_open_det; auto. destruct (sbc_open s e); [reflexivity|discriminate]. }
      destruct i as [v|c|].
      * assert (O := p4_fix_okay s (set_expr s (IV v) e1) v e e1 (conjunctive e) (occ s) (decls (set_expr s (IV v) e1)) P He D).
        assert (O' : match p4_fix (set_expr s (IV v) e1) v (conjunctive e) with
              | None => forall sg, ~ sat s sg
              | Some t' => forall l, good s (fold_left (occ_del (IV v)) l t') /\ cq (fold_left (occ_del (IV v)) l t') = []
              end).
        { apply O; [reflexivity|..].
          - intros u N. cbn. now apply upd_other.
          - cbn. now rewrite upd_same.
          - intros x j H _. exact H. }
        destruct (p4_fix (set_expr s (IV v) e1) v (conjunctive e)) as [s2|]; [|exact O'].
        destruct (O' (compacted_out s e ++ [])). now apply Fin.
      * destruct (conjunctive e) eqn:Hc.
        -- destruct (fold_occ_del_less (IC c) (compacted_out s e ++ []) (drop_con (set_expr s (IC c) e1) c)) as (o2 & -> & Ho2).
           apply (Drop _ o2 c); auto.
           ++ cbn. now rewrite upd_same.
           ++ intros k N. cbn. rewrite !upd_other by assumption. reflexivity.
        -- intros sg. apply (Unsat sg false); auto; discriminate.
      * discriminate.
    + destruct (fold_occ_del_spec i (compacted_out s e ++ []) (set_expr s i e1)) as (o & Eo & Ho). rewrite Eo.
      replace (with_occ (set_expr s i e1) o) with (set_expr (with_occ s o) i e1) by (destruct i; reflexivity).
      assert (Rd : rd (set_expr s i e1) = rd s) by (destruct i; reflexivity).
      assert (Oc : occ (set_expr s i e1) = occ s) by (destruct i; reflexivity). rewrite Rd, Oc, app_nil_r in Ho.
      assert (Hc1 : is_call e1 = true) by (apply bool_call_call; unfold e1; now rewrite compact_call).
      destruct (set_expr_good other output s i e e1 o I He (bool_call_call e Hb) Hc1) as [I' S'].
      * intros sg F. now apply compact_truth.
      * intros x Hx. now apply (compact_ids s e x Hb).
      * intros x j Hj Hx. apply Ho. split; [assumption|]. intros (-> & y & Hy & Ey).
        destruct Hx as [Hx|Hx]; [congruence|]. apply in_map_iff in Hx. destruct Hx as (z & Ez & Hz).
        apply (compact_ids s e z Hb) in Hz. unfold compacted_out in Hy. apply filter_In in Hy. destruct Hy as [_ Hy].
        rewrite Ey, <- Ez in Hy. destruct Hz as [_ Hz]. rewrite Hz in Hy. discriminate.
      * intros _ x Hx. apply (compact_ids s e x Hb) in Hx. eapply unfixed_live; eauto; [now apply bool_call_call|apply Hx|apply Hx].
      * split; [|exact S']. split; [exact I'|]. split; [|split].
        -- intros v z H. destruct i as [w|c|]; try (now apply (Na v z)). cbn [set_expr] in H. rewrite set_rhs_rh in H.
           destruct (v =? w); [|now apply (Na v z)]. inversion H. destruct e1; discriminate.
        -- intros c x H. destruct i as [w|k|]; try (now apply (E c x)). cbn in H. unfold upd in H.
           destruct (c =? k); [|now apply (E c x)]. inversion H. destruct e1; discriminate.
        -- destruct i; exact Hq.
Qed.
Lemma phase4_okay l : forall s,
  P4 s ->
  match phase4 s l with
  | None => forall sg, ~ sat s sg
  | Some s' => P4 s' /\ forall sg, sat s sg <-> sat s' sg
  end.
Proof.
  induction l as [|i l IH]; intros s P; cbn [phase4]; [split; [assumption|reflexivity]|].
  assert (S := phase4_item_okay s i P). destruct (phase4_item s i) as [s1|]; [|assumption]. destruct S as [P1 S1].
  specialize (IH s1 P1). destruct (phase4 s1 l) as [s2|].
  - destruct IH as [P2 S2]. split; [assumption|]. intros sg. now rewrite S1.
  - intros sg H. apply (IH sg). now apply S1.
Qed.
End Phase3.
