(** Proofs about LeModel, part 1: one replacement. *)
Require Import ZArith List Bool Lia ZifyBool Permutation.
From Verif Require Import Base IntValModel IntValSpec IntValProofs SetModel SetSpec LinModel LinSpec LinProofs LinProofs2 LinProofs3 LeModel LeSpec.
Import ListNotations.
Open Scope Z_scope.

Lemma ident_eqb_eq i j : ident_eqb i j = true <-> i = j.
Proof. destruct i, j; cbn; split; intros H; try discriminate; try (apply Nat.eqb_eq in H; congruence); try (apply Z.eqb_eq in H; congruence); inversion H; subst; [apply Nat.eqb_refl|apply Z.eqb_refl]. Qed.
Lemma ident_eqb_refl i : ident_eqb i i = true.
Proof. apply ident_eqb_eq. reflexivity. Qed.
Lemma ident_eqb_neq i j : ident_eqb i j = false <-> i <> j.
Proof. split; intros H. - intros E. apply ident_eqb_eq in E. congruence. - destruct (ident_eqb i j) eqn:E; [apply ident_eqb_eq in E; contradiction|reflexivity]. Qed.

(** ** Substitution *)
Lemma subst_value s old new cs xs : length cs = length xs ->
  (vid s new = vid s old -> lin_value s cs (map (subst_term old new) xs) (ofZ 0) = lin_value s cs xs (ofZ 0)) /\
  (vid s new <= vid s old -> (forall j c, nth_error cs j = Some c -> nth_error xs j = Some (TId old) -> 0 <= iv_v c) ->
   lin_value s cs (map (subst_term old new) xs) (ofZ 0) <= lin_value s cs xs (ofZ 0)).
Proof.
  unfold lin_value. cbn [ofZ iv_v]. revert xs. induction cs as [|c cs IH]; intros [|t xs] HL; try discriminate; [cbn; split; intros; lia|]. injection HL as HL. destruct (IH xs HL) as [I1 I2]. cbn [map dot].
  assert (T : tval s (subst_term old new t) = tval s t \/ (t = TId old /\ tval s (subst_term old new t) = vid s new)).
  { destruct t as [v|i|r]; cbn [subst_term]; [left; reflexivity| |left; reflexivity]. destruct (ident_eqb i old) eqn:E; [|left; reflexivity]. apply ident_eqb_eq in E. subst i. right. split; reflexivity. }
  split.
  - intros E. specialize (I1 E). destruct T as [-> |[-> ->]]; [lia|]. cbn [tval]. rewrite E. lia.
  - intros E H. specialize (I2 E (fun j c' A B => H (S j) c' A B)). destruct T as [-> |[-> ->]]; [lia|]. cbn [tval]. specialize (H 0%nat c eq_refl eq_refl). nia.
Qed.
Lemma subst_fin old new xs : Forall fin_term xs -> Forall fin_term (map (subst_term old new) xs).
Proof. induction 1 as [|t xs H _ IH]; [constructor|]. cbn [map]. constructor; [|exact IH]. destruct t; cbn [subst_term]; try exact H. destruct (ident_eqb i old); exact I. Qed.

(** no identifier comes from nowhere *)
Lemma resolve_ids ds t t' v : (forall i j, ds i <> RId j) -> resolve 1 ds t = Ok t' -> t' = TId v -> t = TId v.
Proof.
  intros N H ->. destruct t as [w|i|r]; cbn in H; try discriminate. destruct (ds i) eqn:E; cbn [bind] in H; try (rewrite E in H; inversion H; reflexivity); try discriminate.
Qed.
Lemma resolve_all_ids ds : (forall i j, ds i <> RId j) -> forall x x' v, resolve_all 1 ds x = Ok x' -> In (TId v) x' -> In (TId v) x.
Proof.
  intros N. induction x as [|t x IH]; intros x' v H Hin; cbn [resolve_all] in H; [inversion H; subst; exact Hin|]. apply bind_ok in H as (t' & Ht & H). apply bind_ok in H as (r & Hr & H). inversion H; subst. destruct Hin as [E|Hin].
  - left. symmetry. exact (eq_sym (resolve_ids ds t t' v N Ht E)).
  - right. eapply IH; eassumption.
Qed.
Lemma compact_in c : forall x c' x' t, compact c x = (c', x') -> In t x' -> In t x.
Proof.
  induction c as [|a c IH]; intros [|u x] c' x' t H Hin; cbn [compact] in H; try (inversion H; subst; contradiction). destruct (compact c x) as [c2 x2] eqn:E. destruct (iv_ne a (ofZ 0)); inversion H; subst.
  - destruct Hin as [->|Hin]; [left; reflexivity|right; eapply IH; eauto].
  - right. eapply IH; eauto.
Qed.
Lemma simplify_ids ds sort c x d c' x' d' v : (forall i j, ds i <> RId j) -> simplify_lin 1 ds sort c x d = Ok (c', x', d') -> In (TId v) x' -> In (TId v) x.
Proof.
  intros N H Hin. unfold simplify_lin in H. apply bind_ok in H as (y & Hy & H). apply bind_ok in H as (((c1 & d1) & rest) & H1 & H). apply bind_ok in H as ((c2 & d2) & H2 & H). destruct (compact c2 y) as [c3 x3] eqn:E. inversion H; subst.
  eapply resolve_all_ids; [exact N|exact Hy|]. eapply compact_in; eassumption.
Qed.
Lemma subst_gone old new xs : old <> new -> ~ In (TId old) (map (subst_term old new) xs).
Proof. intros N H. apply in_map_iff in H as (t & E & _). destruct t as [w|i|r]; cbn in E; try discriminate. destruct (ident_eqb i old) eqn:X; inversion E; subst; [congruence|]. rewrite ident_eqb_refl in X. discriminate. Qed.
Lemma subst_in old new xs v : In (TId v) (map (subst_term old new) xs) -> v = new \/ In (TId v) xs.
Proof. intros H. apply in_map_iff in H as (t & E & Hin). destruct t as [w|i|r]; cbn in E; try discriminate. destruct (ident_eqb i old); inversion E; subst; [left; reflexivity|right; exact Hin]. Qed.

Lemma vars_lin cs xs c v : In v (vars (Lin cs xs c)) <-> In (TId v) xs.
Proof.
  cbn [vars]. rewrite in_flat_map. split.
  - intros (t & Hin & Hv). destruct t; try contradiction. destruct Hv as [->|[]]. exact Hin.
  - intros H. exists (TId v). split; [exact H|left; reflexivity].
Qed.
Lemma mentions_vars v i : mentions v i = true <-> In v (vars i).
Proof.
  destruct i as [cs xs c|p vs].
  - rewrite vars_lin. cbn [mentions]. rewrite existsb_exists. split.
    + intros (t & Hin & E). destruct t; try discriminate. apply ident_eqb_eq in E. subst i. exact Hin.
    + intros H. exists (TId v). split; [exact H|apply ident_eqb_refl].
  - cbn [mentions vars]. rewrite existsb_exists. split.
    + intros (w & Hin & E). apply ident_eqb_eq in E. subst w. exact Hin.
    + intros H. exists v. split; [exact H|apply ident_eqb_refl].
Qed.

(** numbers in order *)
Definition sound_item (i : fitem) : Prop := match i with Lin cs xs c => length cs = length xs /\ Forall fin cs /\ Forall fin_term xs /\ fin c | Oth _ _ => True end.
(** the variable occurs with coefficients that are not negative *)
Definition nonneg (v : ident) (i : fitem) : Prop :=
  match i with Lin cs xs _ => forall j c, nth_error cs j = Some c -> nth_error xs j = Some (TId v) -> 0 <= iv_v c | Oth _ vs => ~ In v vs end.

Lemma tidy_sound V i : tidy V i -> sound_item i.
Proof.
  destruct i as [cs xs c|]; [|trivial]. intros (A & B & C & D & E & F). repeat split; try assumption. eapply Forall_impl; [|exact F]. intros t (v & -> & _). exact I.
Qed.

Section ONE.
Variables (V : venv) (sort : list term -> list nat) (I : nat -> list Z -> Prop).
Hypotheses (HV : resolved V) (Hsort : sorts sort).
Lemma fin0' : fin (ofZ 0).
Proof. apply fin_0. Qed.
Lemma sub_sound c d r : fin c -> fin d -> sub_assign c d = Ok r -> fin r /\ iv_v r = iv_v c - iv_v d.
Proof. intros. apply fin_sub; assumption. Qed.

Lemma replace_sound i old new r : sound_item i -> replace_item V sort i old new = Ok r ->
  match r with
  | RFail => forall s, respects s (v_def V) -> vid s new <= vid s old -> nonneg old i -> ~ sat I s i
  | RDrop => forall s, respects s (v_def V) -> vid s new = vid s old -> sat I s i
  | RNew i' _ => sound_item i' /\ (old <> new -> ~ In old (vars i')) /\ (forall v, In v (vars i') -> v = new \/ In v (vars i)) /\
      forall s, respects s (v_def V) -> (vid s new <= vid s old -> nonneg old i -> sat I s i -> sat I s i') /\ (vid s new = vid s old -> sat I s i' -> sat I s i)
  end.
Proof.
  destruct HV as [HF HA]. intros Hs H. destruct i as [cs xs c|p vs]; [|discriminate]. destruct Hs as (HL & Fc & Fx & Fr). cbn [replace_item] in H. apply bind_ok in H as (((cs' & xs') & d) & E & H).
  assert (HL' : length cs = length (map (subst_term old new) xs)) by (rewrite map_length; exact HL).
  pose proof (fun s => simplify_all s 1 (v_def V) sort cs _ _ cs' xs' d Hsort HF Fc (subst_fin old new xs Fx) fin0' HL' E) as S.
  assert (Val : forall s, respects s (v_def V) -> lin_value s cs' xs' d = lin_value s cs (map (subst_term old new) xs) (ofZ 0)) by (intros s Hr; apply (S s); exact Hr).
  destruct (S {| vid := fun _ => 0; vexp := fun _ => 0 |}) as (_ & Fc' & Fd & HL2 & _ & Nl & _).
  assert (D : forall s, lin_value s cs' xs' d = lin_value s cs' xs' (ofZ 0) + iv_v d) by (intros s; rewrite (lin_value_d s cs' xs' (ofZ 0) d); cbn; lia).
  destruct cs' as [|a cs'].
  - destruct xs' as [|]; [|discriminate]. assert (D0 : forall s, respects s (v_def V) -> lin_value s cs (map (subst_term old new) xs) (ofZ 0) = iv_v d) by (intros s Hr; rewrite <- Val by exact Hr; rewrite D; cbn; lia).
    unfold iv_gt in H. rewrite fin_iv_lt in H by assumption. destruct (iv_v c <? iv_v d) eqn:X; inversion H; subst; cbn [sat].
    + intros s Hr Hle Hn. cbn [nonneg] in Hn. pose proof (proj2 (subst_value s old new cs xs HL) Hle Hn) as K. rewrite (D0 s Hr) in K. lia.
    + intros s Hr Heq. rewrite <- (proj1 (subst_value s old new cs xs HL) Heq), (D0 s Hr). lia.
  - apply bind_ok in H as (c' & Hc & H). inversion H; subst. clear H. destruct (sub_sound _ _ _ Fr Fd Hc) as [Fc2 Ec].
    split; [cbn [sound_item]; repeat split; try assumption|].
    { eapply Forall_impl; [|exact Nl]. intros t Ht. destruct t; cbn in *; try exact Logic.I. exfalso. apply Ht. eexists. reflexivity. }
    split; [intros N X; rewrite vars_lin in X; apply (simplify_ids _ _ _ _ _ _ _ _ _ HA E) in X; exact (subst_gone _ _ _ N X)|].
    split; [intros v X; rewrite vars_lin in *; apply (simplify_ids _ _ _ _ _ _ _ _ _ HA E) in X; apply subst_in in X; exact X|].
    intros s Hr. specialize (Val s Hr). rewrite D in Val. cbn [sat]. split.
    + intros Hle Hn Hsat. cbn [nonneg] in Hn. pose proof (proj2 (subst_value s old new cs xs HL) Hle Hn). lia.
    + intros Heq Hsat. pose proof (proj1 (subst_value s old new cs xs HL) Heq). lia.
Qed.
End ONE.
