(** Proofs for BoptModel, part 1: invariants, and the effect of the elementary changes of the state. *)
From Coq Require Import List Bool Arith Lia.
From Verif Require Import BoptModel BoptSpec.
Import ListNotations.

(** ** Shapes of the elementary operations *)
Lemma upd_same A (f : nat -> A) k a : upd f k a k = a.
Proof. unfold upd. now rewrite Nat.eqb_refl. Qed.
Lemma upd_other A (f : nat -> A) k a n : n <> k -> upd f k a n = f n.
Proof. unfold upd. intros. destruct (Nat.eqb_spec n k); congruence. Qed.

Definition occ_less (i : item) (s : state) (o : nat -> list item) : Prop :=
  forall x j, In j (occ s x) -> j <> i -> In j (o x).

Lemma in_remove_iff i j l : In j (remove item_eq_dec i l) <-> In j l /\ j <> i.
Proof.
  split.
  - intros H. apply in_remove in H. tauto.
  - intros [H1 H2]. now apply in_in_remove.
Qed.

Lemma fold_occ_del_spec i l : forall s,
  exists o, fold_left (occ_del i) l s = with_occ s o /\
    (forall x j, In j (o x) <-> In j (occ s x) /\ ~ (j = i /\ exists y, In y l /\ rd s y = x)).
Proof.
  induction l as [|y l IH]; intros s; cbn [fold_left].
  - exists (occ s). split; [destruct s; reflexivity|]. intros x j. split; [|tauto].
    intros H. split; [assumption|]. intros (_ & z & [] & _).
  - destruct (IH (occ_del i s y)) as (o & -> & Ho). exists o. split; [reflexivity|].
    intros x j. rewrite Ho. unfold occ_del. cbn [occ with_occ rd]. split.
    + intros [H1 H2]. unfold upd in H1. destruct (Nat.eqb_spec x (rd s y)) as [->|N].
      * apply in_remove_iff in H1. destruct H1 as [H1 H3]. split; [assumption|]. intros (-> & _). congruence.
      * split; [assumption|]. intros (-> & z & [->|Hz] & <-); [congruence|]. apply H2. eauto.
    + intros [H1 H2]. split.
      * unfold upd. destruct (Nat.eqb_spec x (rd s y)) as [->|N]; [|assumption].
        apply in_remove_iff. split; [assumption|]. intros ->. apply H2. split; [reflexivity|].
        exists y. cbn. auto.
      * intros (-> & z & Hz & <-). apply H2. split; [reflexivity|]. exists z. cbn. auto.
Qed.

Lemma fold_occ_del_less i l s :
  exists o, fold_left (occ_del i) l s = with_occ s o /\ occ_less i s o.
Proof.
  destruct (fold_occ_del_spec i l s) as (o & E & H). exists o. split; [assumption|].
  intros x j Hj N. apply H. split; [assumption|]. intros [-> _]. congruence.
Qed.
Lemma collect_decls_less s i e :
  exists o, collect_decls s i e = with_occ s o /\ occ_less i s o.
Proof. apply fold_occ_del_less. Qed.
Lemma collect_decls_spec s i e :
  exists o, collect_decls s i e = with_occ s o /\
    (forall x j, In j (o x) <-> In j (occ s x) /\ ~ (j = i /\ exists y, In y (ids e) /\ rd s y = x)).
Proof. apply fold_occ_del_spec. Qed.

Lemma fold_occ_add_spec i l : forall s,
  exists o, fold_left (occ_add i) l s = with_occ s o /\
    (forall x j, In j (o x) <-> In j (occ s x) \/ (j = i /\ exists y, In y l /\ rd s y = x)).
Proof.
  induction l as [|y l IH]; intros s; cbn [fold_left].
  - exists (occ s). split; [destruct s; reflexivity|]. intros x j. split; [tauto|].
    intros [H|(_ & z & [] & _)]. assumption.
  - assert (E : exists o, occ_add i s y = with_occ s o /\
      (forall x j, In j (o x) <-> In j (occ s x) \/ (j = i /\ rd s y = x))).
    { unfold occ_add. destruct (in_dec item_eq_dec i (occ s (rd s y))) as [Hi|Hi].
      - exists (occ s). split; [destruct s; reflexivity|]. intros x j. split; [tauto|].
        intros [H|(-> & <-)]; assumption.
      - eexists. split; [reflexivity|]. intros x j. unfold upd.
        destruct (Nat.eqb_spec x (rd s y)) as [->|N]; cbn [In].
        + intuition congruence.
        + intuition congruence. }
    destruct E as (o1 & -> & H1). destruct (IH (with_occ s o1)) as (o & -> & Ho). exists o.
    split; [reflexivity|]. intros x j. rewrite Ho. cbn [occ with_occ rd]. rewrite H1. split.
    + intros [[H|(-> & <-)]|(-> & z & Hz & <-)].
      * now left.
      * right. split; [reflexivity|]. exists y. cbn. auto.
      * right. split; [reflexivity|]. exists z. cbn. auto.
    + intros [H|(-> & z & [->|Hz] & <-)]; [tauto|tauto|]. right. eauto.
Qed.
Lemma collect_occ_spec s i e :
  exists o, collect_occ s i e = with_occ s o /\
    (forall x j, In j (o x) <-> In j (occ s x) \/ (j = i /\ exists y, In y (ids e) /\ rd s y = x)).
Proof. apply fold_occ_add_spec. Qed.

Lemma push_var_spec s v : exists q, push_var s v = with_vq s q /\ incl (vq s) q /\
  (gone s v = false -> In v q).
Proof.
  unfold push_var. destruct (gone s v) eqn:G.
  - exists (vq s). split; [destruct s; reflexivity|]. split; [apply incl_refl|discriminate].
  - destruct (in_dec Nat.eq_dec v (vq s)) as [H|H].
    + exists (vq s). split; [destruct s; reflexivity|]. split; [apply incl_refl|auto].
    + exists (vq s ++ [v]). split; [reflexivity|]. split; [apply incl_appl, incl_refl|].
      intros _. apply in_or_app. right. now left.
Qed.
Lemma push_item_spec s i : exists q, push_item s i = with_cq s q /\ incl (cq s) q /\ In i q.
Proof.
  unfold push_item. destruct (in_dec item_eq_dec i (cq s)) as [H|H].
  - exists (cq s). split; [destruct s; reflexivity|]. split; [apply incl_refl|assumption].
  - exists (cq s ++ [i]). split; [reflexivity|]. split; [apply incl_appl, incl_refl|].
    apply in_or_app. right. now left.
Qed.

(** The item a table entry stands for, if it is in the model *)
Definition stands (s : state) (i j : item) : Prop :=
  match i with
  | IC c => j = IC c /\ cons s c <> None
  | IV w => j = IV (rd s w) /\ gone s (rd s w) = false /\ rh s (rd s w) <> None
  | IS => False
  end.
Lemma push_dep1_spec s i : exists q, push_dep1 s i = with_cq s q /\ incl (cq s) q /\
  (forall j, stands s i j -> In j q).
Proof.
  destruct i as [w|c|]; cbn [push_dep1 stands].
  - destruct (gone s (rd s w)) eqn:G.
    + exists (cq s). split; [destruct s; reflexivity|]. split; [apply incl_refl|].
      intros j (_ & H & _). discriminate H.
    + destruct (rh s (rd s w)) eqn:R.
      * destruct (push_item_spec s (IV (rd s w))) as (q & -> & H1 & H2). exists q. split; [reflexivity|].
        split; [assumption|]. intros j (-> & _). assumption.
      * exists (cq s). split; [destruct s; reflexivity|]. split; [apply incl_refl|].
        intros j (_ & _ & H). congruence.
  - destruct (cons s c) eqn:G.
    + destruct (push_item_spec s (IC c)) as (q & -> & H1 & H2). exists q. split; [reflexivity|].
      split; [assumption|]. intros j (-> & _). assumption.
    + exists (cq s). split; [destruct s; reflexivity|]. split; [apply incl_refl|].
      intros j (_ & H). congruence.
  - exists (cq s). split; [destruct s; reflexivity|]. split; [apply incl_refl|]. intros j [].
Qed.
Lemma push_dep_fold l : forall s, exists q, fold_left push_dep1 l s = with_cq s q /\ incl (cq s) q /\
  (forall i j, In i l -> stands s i j -> In j q).
Proof.
  induction l as [|i l IH]; intros s; cbn [fold_left].
  - exists (cq s). split; [destruct s; reflexivity|]. split; [apply incl_refl|]. intros i j [].
  - destruct (push_dep1_spec s i) as (q & -> & H1 & H2).
    destruct (IH (with_cq s q)) as (q' & -> & H3 & H4). exists q'. split; [reflexivity|]. split.
    + intros x Hx. apply H3. cbn. auto.
    + intros i' j [->|Hi] Hs; [apply H3; cbn; auto|]. apply (H4 i' j Hi). exact Hs.
Qed.
Lemma push_dep_spec s x : exists q, push_dep s x = with_cq s q /\ incl (cq s) q /\
  (forall i j, In i (occ s (rd s x)) -> stands s i j -> In j q).
Proof. apply push_dep_fold. Qed.

Lemma with_vq_id s : with_vq s (vq s) = s.
Proof. now destruct s. Qed.
Lemma with_occ_id s : with_occ s (occ s) = s.
Proof. now destruct s. Qed.
Lemma with_cq_id s : with_cq s (cq s) = s.
Proof. now destruct s. Qed.

Lemma in_args_ids x l : In x (args_ids l) <-> In (Ident x) l.
Proof.
  unfold args_ids. rewrite in_flat_map. split.
  - intros ([b|y] & H & Hx); cbn in Hx; [tauto|]. destruct Hx as [->|[]]. assumption.
  - intros H. exists (Ident x). cbn. auto.
Qed.

Section Proofs.
Variable other : nat -> list bool -> bool.
Variable output : nat -> bool.
Notation truth := (truth other).

(** ** Meaning of the names *)
Lemma value_ext sg tau a : (forall x, In x (arg_ids a) -> sg x = tau x) -> value sg a = value tau a.
Proof. destruct a as [b|x]; cbn; intros H; [reflexivity|]. apply H. now left. Qed.
Lemma args_ext A (f : (nat -> bool) -> arg -> A) sg tau l :
  (forall a, In a l -> f sg a = f tau a) -> map (f sg) l = map (f tau) l.
Proof. intros H. apply map_ext_in. assumption. Qed.
Lemma forallb_ext_in A (f g : A -> bool) l : (forall a, In a l -> f a = g a) -> forallb f l = forallb g l.
Proof.
  induction l as [|a l IH]; cbn; intros H; [reflexivity|]. rewrite (H a (or_introl eq_refl)).
  f_equal. apply IH. intros. apply H. now right.
Qed.
Lemma existsb_ext_in A (f g : A -> bool) l : (forall a, In a l -> f a = g a) -> existsb f l = existsb g l.
Proof.
  induction l as [|a l IH]; cbn; intros H; [reflexivity|]. rewrite (H a (or_introl eq_refl)).
  f_equal. apply IH. intros. apply H. now right.
Qed.
Lemma value_ext_l sg tau l :
  (forall x, In x (args_ids l) -> sg x = tau x) -> forall a, In a l -> value sg a = value tau a.
Proof.
  intros H a Ha. apply value_ext. intros x Hx. apply H. unfold args_ids. apply in_flat_map. eauto.
Qed.
Lemma truth_ext sg tau e : (forall x, In x (ids e) -> sg x = tau x) -> truth sg e = truth tau e.
Proof.
  destruct e as [b|x|l|l|p n|a b|f l]; cbn [BoptSpec.truth ids]; intros H.
  - reflexivity.
  - apply H. now left.
  - apply forallb_ext_in. now apply value_ext_l.
  - apply existsb_ext_in. now apply value_ext_l.
  - f_equal; apply existsb_ext_in; intros a Ha; [|f_equal].
    + apply (value_ext_l sg tau p); [|assumption]. intros; apply H; apply in_or_app; auto.
    + apply (value_ext_l sg tau n); [|assumption]. intros; apply H; apply in_or_app; auto.
  - f_equal; apply value_ext; intros; apply H; apply in_or_app; auto.
  - f_equal. apply map_ext_in. now apply value_ext_l.
Qed.

(** ** What is known of the variables, and what the whole model says *)
Definition fixed (s : state) (sg : nat -> bool) : Prop :=
  (forall v b, dm s v = Some b -> sg v = b) /\ (forall x, sg x = sg (rd s x)).
Definition sat (s : state) (sg : nat -> bool) : Prop :=
  fixed s sg /\
  (forall v e, gone s v = false -> rh s v = Some e -> sg v = truth sg e) /\
  (forall c e, cons s c = Some e -> truth sg e = true).
Definition det (s : state) (e : expr) (b : bool) : Prop := forall sg, fixed s sg -> truth sg e = b.

(** ** Invariants *)
Record G1 (s : state) : Prop := {
  g_idem : forall x, rd s (rd s x) = rd s x;
  g_live : forall v, gone s v = false -> rd s v = v;
  g_dom : forall v b, dm s v = Some b -> dm s (rd s v) = Some b;
  g_out : forall v, output v = true -> out s v = OVar -> gone s v = false;
  g_oalias : forall v w, out s v = OAlias w -> output w = true /\ rd s v <> v;
  g_orep : forall v, output v = true -> output (rd s v) = true;
  g_shown : forall v sg, output v = true -> fixed s sg -> shown s sg v (sg v)
}.
(** An equality with a literal that holds because both sides are known *)
Definition eq_lit (e : expr) (x : nat) (b : bool) : Prop :=
  e = EEq (Ident x) (Lit b) \/ e = EEq (Lit b) (Ident x).
Definition harmless (s : state) (j : item) : Prop :=
  exists v e x b, j = IV v /\ rh s v = Some e /\ eq_lit e x b /\ dm s v = Some true /\ dm s (rd s x) = Some b.
Definition call_item (s : state) (j : item) (e : expr) : Prop := item_expr s j = Some e /\ is_call e = true.
(** The item waits in the queue, itself or by a name that was unified with it *)
Definition pend (s : state) (j : item) : Prop :=
  In j (cq s) \/ exists w, In (IV w) (cq s) /\ gone s w = true /\ j = IV (rd s w).
Record G2 (s : state) : Prop := {
  g_occ : forall j e x, call_item s j e -> In x (ids e) ->
    In j (occ s (rd s x)) \/ (dm s (rd s x) <> None /\ pend s j);
  g_ref : forall j e x, call_item s j e -> In x (ids e) ->
    gone s (rd s x) = false \/ (dm s (rd s x) <> None /\ (pend s j \/ harmless s j))
}.
Record G3 (s : state) : Prop := {
  g_lit : forall v b, rh s v = Some (ELit b) -> dm s v = Some b;
  g_cmp : forall v, gone s v = false -> cmp s v = true -> exists b, rh s v = Some (ELit b);
  g_gone : forall v e, gone s v = true -> rh s v = Some e ->
    (forall sg, fixed s sg -> sg v = truth sg e) /\
    ((exists b, e = ELit b) \/ exists x b, eq_lit e x b /\ dm s v = Some true /\ dm s (rd s x) = Some b);
  g_some : forall v, gone s v = true -> rd s v = v -> dm s v <> None -> rh s v <> None
}.
Definition inv (s : state) : Prop := G1 s /\ G2 s /\ G3 s.

(** What never gets lost *)
Record grow (s s' : state) : Prop := {
  gr_rd : forall x y, rd s x = rd s y -> rd s' x = rd s' y;
  gr_dm : forall v b, dm s v = Some b -> dm s' v = Some b;
  gr_cons : forall c e, cons s' c = Some e -> cons s c = Some e;
  gr_vq : incl (vq s) (vq s');
  gr_cq : incl (cq s) (cq s');
  gr_gone : forall v, gone s v = true -> gone s' v = true;
  gr_alias : forall v z, rh s' v = Some (EId z) -> rh s v = Some (EId z)
}.
Lemma grow_refl s : grow s s.
Proof. split; auto; apply incl_refl. Qed.
Lemma grow_trans s1 s2 s3 : grow s1 s2 -> grow s2 s3 -> grow s1 s3.
Proof.
  intros [A1 A2 A3 A4 A5 A6 A7] [B1 B2 B3 B4 B5 B6 B7]. split; eauto using incl_tran.
Qed.

Definition good (s s' : state) : Prop :=
  inv s' /\ (forall sg, sat s sg <-> sat s' sg) /\ grow s s'.
Definition okay (s : state) (r : option state) : Prop :=
  match r with Some s' => good s s' | None => forall sg, ~ sat s sg end.
Lemma good_refl s : inv s -> good s s.
Proof. intros H. split; [assumption|]. split; [tauto|]. apply grow_refl. Qed.
Lemma good_trans s1 s2 s3 : good s1 s2 -> good s2 s3 -> good s1 s3.
Proof.
  intros (A1 & A2 & A3) (B1 & B2 & B3). split; [assumption|]. split; [|eauto using grow_trans].
  intros sg. rewrite A2. apply B2.
Qed.
Lemma good_inv s s' : good s s' -> inv s'.
Proof. now intros (H & _). Qed.
Lemma good_okay s1 s2 r : good s1 s2 -> okay s2 r -> okay s1 r.
Proof.
  destruct r as [s3|]; cbn [okay].
  - apply good_trans.
  - intros (A1 & A2 & A3) H sg Hs. apply (H sg). now apply A2.
Qed.
Lemma okay_bind s r (f : state -> option state) :
  okay s r -> (forall s', r = Some s' -> good s s' -> okay s' (f s')) ->
  okay s (match r with Some s' => f s' | None => None end).
Proof.
  destruct r as [s'|]; cbn [okay]; intros H1 H2; [|exact H1].
  eapply good_okay; eauto.
Qed.

Lemma grow_fixed s s' sg : G1 s -> grow s s' -> fixed s' sg -> fixed s sg.
Proof.
  intros G R [F1 F2]. split.
  - intros v b H. apply F1. now apply (gr_dm _ _ R).
  - intros x. rewrite (F2 x), (F2 (rd s x)). f_equal. apply (gr_rd _ _ R). symmetry. apply (g_idem _ G).
Qed.
Lemma grow_dmr s s' x b : G1 s -> G1 s' -> grow s s' -> dm s (rd s x) = Some b -> dm s' (rd s' x) = Some b.
Proof.
  intros G G' R H. apply (gr_dm _ _ R) in H. apply (g_dom _ G') in H. rewrite <- H. f_equal.
  apply (gr_rd _ _ R). symmetry. apply (g_idem _ G).
Qed.
Lemma grow_det s s' e b : G1 s -> grow s s' -> det s e b -> det s' e b.
Proof. intros G R D sg F. apply D. eapply grow_fixed; eauto. Qed.

Lemma pend_same s s' j :
  incl (cq s) (cq s') -> rd s' = rd s -> (forall v, gone s v = true -> gone s' v = true) -> pend s j -> pend s' j.
Proof.
  intros H1 H2 H3 [H|(w & H & H' & ->)]; [left; auto|right]. exists w. rewrite H2. auto.
Qed.
Lemma fixed_value s sg x b : fixed s sg -> dm s (rd s x) = Some b -> sg x = b.
Proof. intros [F1 F2] H. rewrite F2. auto. Qed.

(** Only the queues change *)
Lemma queues_good s v c : inv s -> incl (vq s) v -> incl (cq s) c -> good s (with_cq (with_vq s v) c).
Proof.
  intros ([A1 A2 A3 A4 A6 A7 A5] & [B1 B2] & [C1 C2 C3 C4]) Hv Hc.
  assert (Pe : forall j, pend s j -> pend (with_cq (with_vq s v) c) j).
  { intros j. now apply pend_same. }
  split.
  - split; [|split].
    + split; try assumption. intros w sg Hw Hf. specialize (A5 w sg Hw Hf).
      clear - A5. induction A5; [now apply shown_var|now apply shown_fix|now eapply shown_alias; eauto].
    + split.
      * intros j e x H1 H2. destruct (B1 j e x H1 H2) as [H|[H H']]; [now left|]. right. split; [assumption|].
        auto.
      * intros j e x H1 H2. destruct (B2 j e x H1 H2) as [H|[H [H'|H']]]; [now left| |].
        -- right. split; [assumption|]. left. auto.
        -- right. split; [assumption|]. right. exact H'.
    + split; assumption.
  - split; [intros sg; reflexivity|]. split; try (cbn; auto; fail).
Qed.
Lemma push_var_good s v : inv s -> good s (push_var s v).
Proof.
  intros H. destruct (push_var_spec s v) as (q & -> & H1 & _).
  apply (queues_good s q (cq s)); [assumption..|apply incl_refl].
Qed.
Lemma append_var_good s v : inv s -> good s (append_var s v).
Proof.
  intros H. apply (queues_good s (vq s ++ [v]) (cq s)); [assumption|apply incl_appl, incl_refl|apply incl_refl].
Qed.
Lemma push_dep_good s x : inv s -> good s (push_dep s x).
Proof.
  intros H. destruct (push_dep_spec s x) as (q & -> & H1 & _). rewrite <- (with_vq_id s) at 2.
  apply queues_good; [assumption|apply incl_refl|assumption].
Qed.
Lemma push_cq_good s i : inv s -> good s (with_cq s (cq s ++ [i])).
Proof.
  intros H. rewrite <- (with_vq_id s) at 2.
  apply queues_good; [assumption|apply incl_refl|apply incl_appl, incl_refl].
Qed.

(** ** One declaration changes *)
(** [s'] differs from [s] in the declaration of [v] (not in its presence), in the table for [IV v], and possibly
    in one constraint that is dropped *)
Lemma shown_same s s' sg v b :
  (forall v, out s' v = out s v) -> (forall v, gone s' v = gone s v) -> shown s sg v b -> shown s' sg v b.
Proof.
  intros Ho Hg H. induction H.
  - apply shown_var; [now rewrite Ho|now rewrite Hg].
  - apply shown_fix. now rewrite Ho.
  - eapply shown_alias; [rewrite Ho; eassumption|assumption].
Qed.
Lemma G1_same s s' :
  G1 s -> (forall x, rd s' x = rd s x) -> (forall v, gone s' v = gone s v) -> (forall v, out s' v = out s v) ->
  (forall v b, dm s v = Some b -> dm s' v = Some b) ->
  (forall v b, dm s' v = Some b -> dm s v = Some b \/ rd s v = v) -> G1 s'.
Proof.
  intros [A1 A2 A3 A4 A6 A7 A5] Hr Hg Ho Hd Hd'. split.
  - intros x. rewrite !Hr. apply A1.
  - intros v. rewrite Hg, Hr. apply A2.
  - intros v b H. rewrite Hr. destruct (Hd' v b H) as [H1|H1].
    + apply Hd. now apply A3.
    + now rewrite H1.
  - intros v. rewrite Ho, Hg. apply A4.
  - intros v w. rewrite Ho, Hr. apply A6.
  - intros v. rewrite Hr. apply A7.
  - intros v sg H1 [F1 F2]. apply (shown_same s); [assumption..|]. apply A5; [assumption|]. split.
    + intros w b H. apply F1. auto.
    + intros x. rewrite <- Hr. apply F2.
Qed.

(** The declaration of [v] becomes [d] *)
Lemma decl_good s s' v d :
  inv s ->
  rd s' = rd s -> out s' = out s -> vq s' = vq s -> cq s' = cq s -> cons s' = cons s ->
  (forall u, u <> v -> decls s' u = decls s u) -> decls s' v = d ->
  vgone d = gone s v ->
  (forall b, dm s v = Some b -> dom d = Some b) ->
  (dm s v = None -> dom d <> None -> gone s v = false) ->
  (rhs d = rh s v /\ occ s' = occ s \/ rhs d = None /\ gone s v = false /\ occ_less (IV v) s (occ s') \/
   exists b, rhs d = Some (ELit b) /\ dom d = Some b /\ occ_less (IV v) s (occ s')) ->
  (gone s v = false -> computed d = true -> exists b, rhs d = Some (ELit b)) ->
  (forall sg b, sat s sg -> dom d = Some b -> sg v = b) ->
  (forall sg e, sat s' sg -> gone s v = false -> rh s v = Some e -> sg v = truth sg e) ->
  good s s'.
Proof.
  intros (G & [B1 B2] & [C1 C2 C3 C4]) Hr Ho Hvq Hcq Hc Hu Hv Hg Hd Hd2 Hrh Hcm Hs Hs'.
  assert (Dm : forall u, dm s' u = if u =? v then dom d else dm s u).
  { intros u. unfold dm. destruct (Nat.eqb_spec u v) as [->|N]; [now rewrite Hv|now rewrite Hu]. }
  assert (Rh : forall u, rh s' u = if u =? v then rhs d else rh s u).
  { intros u. unfold rh. destruct (Nat.eqb_spec u v) as [->|N]; [now rewrite Hv|now rewrite Hu]. }
  assert (Go : forall u, gone s' u = gone s u).
  { intros u. destruct (Nat.eq_dec u v) as [->|N]; [unfold gone at 1; now rewrite Hv|unfold gone; now rewrite Hu]. }
  assert (Mo : forall u b, dm s u = Some b -> dm s' u = Some b).
  { intros u b H. rewrite Dm. destruct (Nat.eqb_spec u v) as [->|N]; auto. }
  assert (Mn : forall u, dm s u <> None -> dm s' u <> None).
  { intros u H. destruct (dm s u) eqn:E; [|congruence]. apply Mo in E. congruence. }
  assert (Fx : forall sg, fixed s' sg -> fixed s sg).
  { intros sg [F1 F2]. split; [|now rewrite <- Hr]. intros u b H. apply F1. now apply Mo. }
  assert (Rlit : forall b, rhs d = Some (ELit b) -> dom d = Some b).
  { intros b H. destruct Hrh as [[E _]|[[E _]|(b' & E1 & E2 & _)]]; [|congruence..].
    rewrite E in H. apply C1 in H. auto. }
  assert (Ral : forall z, rhs d = Some (EId z) -> rh s v = Some (EId z)).
  { intros z H. destruct Hrh as [[E _]|[[E _]|(b' & E1 & E2 & _)]]; congruence. }
  assert (Oc : forall j e, call_item s' j e -> call_item s j e /\
             forall x, In j (occ s x) -> In j (occ s' x)).
  { intros j e [H1 H2]. destruct (item_eq_dec j (IV v)) as [->|N].
    - cbn [item_expr] in H1. rewrite Go, Rh, Nat.eqb_refl in H1. destruct (gone s v) eqn:Gv; [discriminate|].
      destruct Hrh as [[E E']|[[E _]|(b' & E & _)]].
      + rewrite E'. split; [|auto]. split; [|assumption]. cbn [item_expr]. rewrite Gv. congruence.
      + congruence.
      + rewrite E in H1. inversion H1; subst. discriminate.
    - split.
      + split; [|assumption]. destruct j as [u|c|]; cbn [item_expr] in *.
        * rewrite Go, Rh in H1. destruct (Nat.eqb_spec u v); [congruence|]. assumption.
        * now rewrite Hc in H1.
        * assumption.
      + intros x Hx. destruct Hrh as [[_ E']|[(_ & _ & E')|(b' & _ & _ & E')]]; [now rewrite E'|auto..]. }
  assert (Har : forall j e, call_item s' j e -> harmless s j -> harmless s' j).
  { intros j e Hj (w & e' & y & b & -> & H1 & H2 & H3 & H4). exists w, e', y, b. split; [reflexivity|].
    destruct (Oc _ _ Hj) as [[H5 _] _]. destruct Hj as [H6 _]. cbn [item_expr] in H5, H6. rewrite Go in H6.
    destruct (gone s w); [discriminate|]. rewrite Hr. split; [congruence|]. split; [assumption|]. auto. }
  assert (Pe : forall j, pend s j -> pend s' j).
  { intros j. apply pend_same; [rewrite Hcq; apply incl_refl|assumption|intros u; now rewrite Go]. }
  split; [split; [|split]|split].
  - apply (G1_same s); try assumption.
    + intros x. now rewrite Hr.
    + intros x. now rewrite Ho.
    + intros u b H. rewrite Dm in H. destruct (Nat.eqb_spec u v) as [->|N]; [|now left].
      destruct (dm s v) eqn:E; [left|right].
      * rewrite (Hd _ eq_refl) in H. assumption.
      * apply (g_live _ G). apply Hd2; congruence.
  - split; intros j e x Hj Hx; destruct (Oc _ _ Hj) as [Hj' Ho']; rewrite Hr.
    + destruct (B1 j e x Hj' Hx) as [H|[H H']]; [left; auto|right]. auto.
    + rewrite Go. destruct (B2 j e x Hj' Hx) as [H|[H H']]; [now left|right]. split; [auto|].
      destruct H' as [H'|H']; [left; auto|right]. eauto.
  - split.
    + intros u b H. rewrite Rh in H. rewrite Dm. destruct (Nat.eqb_spec u v); auto.
    + intros u. rewrite Go, Rh. unfold cmp. destruct (Nat.eqb_spec u v) as [->|N].
      * rewrite Hv. assumption.
      * rewrite Hu by assumption. apply C2.
    + intros u e. rewrite Go, Rh. intros H1 H2. destruct (Nat.eqb_spec u v) as [->|N].
      * destruct Hrh as [[E _]|[(E & H3 & _)|(b' & E1 & E2 & _)]]; [|congruence|].
        -- rewrite E in H2. destruct (C3 v e H1 H2) as [H3 H4]. split; [auto|].
           destruct H4 as [H4|(x & b & H4 & H5 & H6)]; [now left|right]. exists x, b. rewrite Hr. auto.
        -- rewrite E1 in H2. inversion H2; subst e. split; [|eauto]. intros sg [F1 _]. apply F1.
           now rewrite Dm, Nat.eqb_refl.
      * destruct (C3 u e H1 H2) as [H3 H4]. split; [auto|].
        destruct H4 as [H4|(x & b & H4 & H5 & H6)]; [now left|right]. exists x, b. rewrite Hr. auto.
    + intros u. rewrite Go, Rh, Dm, Hr. intros H1 H2 H3. destruct (Nat.eqb_spec u v) as [->|N]; [|now apply C4].
      destruct Hrh as [[E _]|[(E & H4 & _)|(b' & E1 & E2 & _)]]; [|congruence..].
      rewrite E. apply C4; try assumption. intros E'. rewrite (Hd2 E' H3) in H1. discriminate.
  - intros sg. split.
    + intros Hsat. assert (Hsat' := Hsat). destruct Hsat as (F & S1 & S2).
      assert (F' : fixed s' sg).
      { destruct F as [F1 F2]. split; [|now rewrite Hr]. intros u b H. rewrite Dm in H.
        destruct (Nat.eqb_spec u v) as [->|N]; eauto. }
      split; [assumption|]. split; [|now rewrite Hc].
      intros u e H1 H2. rewrite Go in H1. rewrite Rh in H2. destruct (Nat.eqb_spec u v) as [->|N]; [|auto].
      destruct Hrh as [[E _]|[[E _]|(b' & E1 & E2 & _)]].
      * apply S1; congruence.
      * congruence.
      * rewrite E1 in H2. inversion H2; subst. cbn. eauto.
    + intros Hsat. assert (Hsat' := Hsat). destruct Hsat as (F & S1 & S2). split; [auto|]. split.
      * intros u e H1 H2. destruct (Nat.eq_dec u v) as [->|N]; [now apply Hs'|].
        apply S1; [now rewrite Go|]. rewrite Rh. destruct (Nat.eqb_spec u v); [congruence|assumption].
      * now rewrite <- Hc.
  - split; auto.
    + intros x y. now rewrite Hr.
    + intros c e. now rewrite Hc.
    + rewrite Hvq. apply incl_refl.
    + rewrite Hcq. apply incl_refl.
    + intros u. now rewrite Go.
    + intros u z. rewrite Rh. destruct (Nat.eqb_spec u v) as [->|N]; auto.
Qed.

(** A variable gets a value it must have *)
Lemma set_dom_good s v b :
  inv s -> dm s v = None -> gone s v = false -> (forall sg, sat s sg -> sg v = b) -> good s (set_dom s v b).
Proof.
  intros I Hd Hg Hs.
  apply (decl_good s _ v (mkD (Some b) (cmp s v) (rh s v) (gone s v))); try reflexivity; try assumption.
  - intros u N. cbn. now apply upd_other.
  - cbn. now rewrite upd_same.
  - cbn. congruence.
  - auto.
  - left. split; reflexivity.
  - cbn. apply (g_cmp s). apply I.
  - cbn. intros sg b' H E. inversion E; subst. auto.
  - intros sg e (_ & H & _) H1 H2. apply H.
    + unfold gone. cbn. rewrite upd_same. assumption.
    + unfold rh. cbn. rewrite upd_same. assumption.
Qed.
(** The right hand side of a variable becomes the literal it is known to be *)
Lemma lit_item_good s s' v e b k o :
  inv s -> rh s v = Some e -> det s e b ->
  (gone s v = false /\ (dm s v = None \/ dm s v = Some b) \/ dm s v = Some b) ->
  occ_less (IV v) s o ->
  (forall u, u <> v -> decls s' u = decls s u) -> decls s' v = mkD (Some b) k (Some (ELit b)) (gone s v) ->
  s' = with_decls (with_occ s o) (decls s') ->
  good s s'.
Proof.
  intros I He D Hd Ho Hu Hv Es.
  apply (decl_good s _ v (mkD (Some b) k (Some (ELit b)) (gone s v)) I); try (rewrite Es; reflexivity);
    try assumption; try reflexivity; cbn [rhs dom computed vgone].
  - intros b' H. destruct Hd as [[_ [H'|H']]|H']; congruence.
  - intros H _. destruct Hd as [[H' _]|H']; [assumption|congruence].
  - right. right. exists b. split; [reflexivity|]. split; [reflexivity|]. rewrite Es. exact Ho.
  - intros _ _. eauto.
  - intros sg b' Hs E. inversion E; subst b'. destruct Hd as [[Hg _]|H'].
    + destruct Hs as (F & S1 & _). rewrite (S1 v e Hg He). now apply D.
    + destruct Hs as ([F _] & _). auto.
  - intros sg e' Hs Hg H. rewrite He in H. inversion H; subst e'. destruct Hs as ([F1 F2] & S1 & S2).
    rewrite (F1 v b) by (unfold dm; now rewrite Hv). symmetry. apply D. split.
    + intros u b' E. destruct (Nat.eq_dec u v) as [->|N].
      * assert (b' = b) as -> by (destruct Hd as [[_ [H'|H']]|H']; congruence). apply F1. unfold dm. now rewrite Hv.
      * apply F1. unfold dm. rewrite Hu by assumption. exact E.
    + intros x. rewrite (F2 x), Es. reflexivity.
Qed.
(** A right hand side that is known to hold is dropped *)
Lemma drop_rhs_good s v e b o :
  inv s -> rh s v = Some e -> is_call e = true -> det s e b -> gone s v = false -> dm s v = Some b ->
  occ_less (IV v) s o ->
  good s (set_rhs (with_occ s o) v None).
Proof.
  intros I He Hc D Hg Hd Ho.
  apply (decl_good s _ v (mkD (Some b) (cmp s v) None (gone s v))); try reflexivity; try assumption; cbn [rhs dom computed vgone].
  - intros u N. cbn. now apply upd_other.
  - cbn. rewrite upd_same. f_equal. exact Hd.
  - intros b' H. congruence.
  - auto.
  - right. left. auto.
  - intros _ Hcm. exfalso. destruct I as (_ & _ & C). destruct (g_cmp _ C v Hg Hcm) as (b' & E).
    rewrite He in E. inversion E; subst. discriminate.
  - intros sg b' ([F _] & _) E. apply F. congruence.
  - intros sg e' ([F1 F2] & _) _ H. rewrite He in H. inversion H; subst e'.
    rewrite (F1 v b). 2:{ unfold dm. cbn. rewrite upd_same. cbn. exact Hd. }
    symmetry. apply D. split; [|exact F2]. intros u b' E. apply F1. unfold dm in *. cbn. unfold upd.
    destruct (Nat.eqb_spec u v) as [->|N]; exact E.
Qed.

(** A constraint that is known to hold is dropped *)
Lemma drop_con_gen s s' c e o :
  inv s -> cons s c = Some e -> det s e true -> occ_less (IC c) s o ->
  s' = with_cons (with_occ s o) (cons s') -> cons s' c = None -> (forall k, k <> c -> cons s' k = cons s k) ->
  good s s'.
Proof.
  intros (G & [B1 B2] & [C1 C2 C3 C4]) He D Ho Es Hn Hk. rewrite Es in Hn, Hk |- *. cbn [cons with_cons] in Hn, Hk.
  set (f := cons s') in *. clearbody f. clear Es s'.
  assert (Oc : forall j e', call_item (with_cons (with_occ s o) f) j e' -> call_item s j e' /\ j <> IC c).
  { intros j e' [H1 H2]. destruct j as [u|k|]; cbn [item_expr] in H1.
    - split; [|discriminate]. split; assumption.
    - cbn in H1. destruct (Nat.eq_dec k c) as [->|N]; [congruence|]. rewrite Hk in H1 by assumption.
      split; [|congruence]. split; assumption.
    - discriminate. }
  split; [split; [|split]|split].
  - apply (G1_same s); auto.
  - split; intros j e' x Hj Hx; destruct (Oc _ _ Hj) as [Hj' N].
    + destruct (B1 j e' x Hj' Hx) as [H|H]; [left|right; assumption]. cbn. now apply Ho.
    + destruct (B2 j e' x Hj' Hx) as [H|[H [H'|H']]]; [left; assumption|right..]; split; auto.
  - split; assumption.
  - intros sg. split; intros (F & S1 & S2).
    + split; [assumption|]. split; [assumption|]. intros k e' H. cbn in H.
      destruct (Nat.eq_dec k c) as [->|N]; [congruence|]. rewrite Hk in H by assumption. eauto.
    + split; [assumption|]. split; [assumption|]. intros k e' H. destruct (Nat.eq_dec k c) as [->|N].
      * rewrite He in H. inversion H; subst. now apply D.
      * apply (S2 k). cbn. now rewrite Hk.
  - split; auto; try (cbn; apply incl_refl).
    intros k e' H. cbn in H. destruct (Nat.eq_dec k c) as [->|N]; [congruence|]. now rewrite Hk in H.
Qed.
Lemma drop_con_good s c e o :
  inv s -> cons s c = Some e -> det s e true -> occ_less (IC c) s o -> good s (drop_con (with_occ s o) c).
Proof.
  intros I He D Ho. apply (drop_con_gen s _ c e o); try assumption; try reflexivity.
  - cbn. now rewrite upd_same.
  - intros k N. cbn. now rewrite upd_other.
Qed.

(** The expression of an item is replaced by an equivalent one with fewer names *)
Lemma set_expr_good s i e e' o :
  inv s -> item_expr s i = Some e -> is_call e = true -> is_call e' = true ->
  (forall sg, fixed s sg -> truth sg e = truth sg e') ->
  incl (ids e') (ids e) ->
  (forall x j, In j (occ s x) -> j <> i \/ In x (map (rd s) (ids e')) -> In j (o x)) ->
  (harmless s i -> (forall x, In x (ids e') -> gone s (rd s x) = false)) ->
  inv (set_expr (with_occ s o) i e') /\ (forall sg, sat s sg <-> sat (set_expr (with_occ s o) i e') sg).
Proof.
  intros (G & [B1 B2] & [C1 C2 C3 C4]) He Hc Hc' Ht Hin Ho Hha.
  set (s' := set_expr (with_occ s o) i e').
  assert (Rd : rd s' = rd s) by (destruct i; reflexivity).
  assert (Cq : cq s' = cq s) by (destruct i; reflexivity).
  assert (Dm : forall u, dm s' u = dm s u).
  { intros u. unfold s', dm. destruct i; cbn; unfold upd; try reflexivity. destruct (Nat.eqb_spec u v); subst; reflexivity. }
  assert (Go : forall u, gone s' u = gone s u).
  { intros u. unfold s', gone. destruct i; cbn; unfold upd; try reflexivity. destruct (Nat.eqb_spec u v); subst; reflexivity. }
  assert (Cm : forall u, cmp s' u = cmp s u).
  { intros u. unfold s', cmp. destruct i; cbn; unfold upd; try reflexivity. destruct (Nat.eqb_spec u v); subst; reflexivity. }
  assert (Rh : forall u, IV u <> i -> rh s' u = rh s u).
  { intros u N. unfold s', rh. destruct i; cbn; unfold upd; try reflexivity. destruct (Nat.eqb_spec u v); subst; congruence. }
  assert (Co : forall u, IC u <> i -> cons s' u = cons s u).
  { intros u N. unfold s'. destruct i; cbn; unfold upd; try reflexivity. destruct (Nat.eqb_spec u c); subst; congruence. }
  assert (Pe : forall j, pend s j -> pend s' j).
  { intros j. apply pend_same; [rewrite Cq; apply incl_refl|assumption|intros u; now rewrite Go]. }
  assert (Ei : item_expr s' i = Some e').
  { unfold s'. destruct i as [v|c|]; cbn [item_expr] in He |- *.
    - fold s'. rewrite Go. destruct (gone s v); [discriminate|]. unfold rh. cbn. now rewrite upd_same.
    - cbn. now rewrite upd_same.
    - discriminate. }
  assert (Ej : forall j, j <> i -> item_expr s' j = item_expr s j).
  { intros [u|k|] N; cbn [item_expr]; [rewrite Go, Rh; congruence|now rewrite Co|reflexivity]. }
  assert (Fx : forall sg, fixed s' sg <-> fixed s sg).
  { intros sg. unfold fixed. rewrite Rd. split; intros [F1 F2]; (split; [|assumption]); intros v b H; apply F1;
    [rewrite Dm|rewrite Dm in H]; assumption. }
  assert (Gv : forall v, i = IV v -> gone s v = false /\ rh s v = Some e /\ rh s' v = Some e').
  { intros v ->. cbn [item_expr] in He, Ei. rewrite Go in Ei. destruct (gone s v); [discriminate|]. auto. }
  split.
  - split; [|split].
    + apply (G1_same s); try assumption.
      * intros x. now rewrite Rd.
      * unfold s'. destruct i; reflexivity.
      * intros v b. now rewrite Dm.
      * intros v b. rewrite Dm. auto.
    + assert (Oc : forall j e1 x, call_item s' j e1 -> In x (ids e1) -> exists e2, call_item s j e2 /\ In x (ids e2) /\
               (In j (occ s (rd s x)) -> In j (occ s' (rd s x)))).
      { intros j e1 x [H1 H2] Hx. assert (Eo : occ s' = o) by (unfold s'; destruct i; reflexivity).
        destruct (item_eq_dec j i) as [->|N].
        - rewrite Ei in H1. inversion H1; subst e1. exists e. split; [split; assumption|]. split; [auto|].
          intros H. rewrite Eo. apply Ho; [assumption|]. right. now apply in_map.
        - rewrite Ej in H1 by assumption. exists e1. split; [split; assumption|]. split; [assumption|].
          intros H. rewrite Eo. apply Ho; auto. }
      split; intros j e1 x Hj Hx; destruct (Oc _ _ _ Hj Hx) as (e2 & H2 & H3 & H4); rewrite Rd, Dm.
      * destruct (B1 j e2 x H2 H3) as [H|[H H']]; auto.
      * rewrite Go. destruct (B2 j e2 x H2 H3) as [H|[H [H'|H']]]; [auto..|].
        destruct (item_eq_dec j i) as [->|N].
        -- left. apply Hha; [assumption|]. destruct Hj as [Hj _]. rewrite Ei in Hj. inversion Hj; subst. assumption.
        -- right. split; [assumption|]. right. destruct H' as (w & e3 & y & b & -> & K1 & K2 & K3 & K4).
           exists w, e3, y, b. rewrite Rh, Rd, !Dm by congruence. auto.
    + split.
      * intros v b H. rewrite Dm. destruct (item_eq_dec (IV v) i) as [E|N].
        -- destruct (Gv v (eq_sym E)) as (_ & _ & H'). rewrite H' in H. inversion H; subst. discriminate.
        -- rewrite Rh in H; auto.
      * intros v H1 H2. rewrite Go in H1. rewrite Cm in H2. destruct (C2 v H1 H2) as (b & H). exists b.
        rewrite Rh; [assumption|]. intros E. destruct (Gv v (eq_sym E)) as (_ & H' & _). rewrite H' in H.
        inversion H; subst. discriminate.
      * intros v e1 H1 H2. rewrite Go in H1. rewrite Rh in H2.
        2:{ intros E. destruct (Gv v (eq_sym E)). congruence. }
        destruct (C3 v e1 H1 H2) as [H3 H4]. split.
        -- intros sg F. apply H3. now apply Fx.
        -- destruct H4 as [H4|(x & b & H4 & H5 & H6)]; [now left|right]. exists x, b. rewrite Rd, !Dm. auto.
      * intros v H1 H2 H3. rewrite Go in H1. rewrite Rd in H2. rewrite Dm in H3. rewrite Rh; [now apply C4|].
        intros E. destruct (Gv v (eq_sym E)). congruence.
  - intros sg. unfold sat. rewrite Fx. split; intros (F & S1 & S2); (split; [assumption|]); split.
    + intros v e1 H1 H2. rewrite Go in H1. destruct (item_eq_dec (IV v) i) as [E|N].
      * destruct (Gv v (eq_sym E)) as (_ & H3 & H4). rewrite H4 in H2. inversion H2; subst e1.
        rewrite <- Ht by assumption. auto.
      * rewrite Rh in H2 by assumption. auto.
    + intros k e1 H1. destruct (item_eq_dec (IC k) i) as [E|N].
      * rewrite <- E in He, Ei. cbn [item_expr] in He, Ei. rewrite Ei in H1. inversion H1; subst e1.
        rewrite <- Ht by assumption. eauto.
      * rewrite Co in H1 by assumption. eauto.
    + intros v e1 H1 H2. destruct (item_eq_dec (IV v) i) as [E|N].
      * destruct (Gv v (eq_sym E)) as (_ & H3 & H4). rewrite H3 in H2. inversion H2; subst e1.
        rewrite Ht by assumption. apply S1; [now rewrite Go|assumption].
      * apply S1; [now rewrite Go|]. now rewrite Rh.
    + intros k e1 H1. destruct (item_eq_dec (IC k) i) as [E|N].
      * rewrite <- E in He, Ei. cbn [item_expr] in He, Ei. rewrite He in H1. inversion H1; subst e1.
        rewrite Ht by assumption. eauto.
      * apply (S2 k). now rewrite Co.
Qed.
End Proofs.
