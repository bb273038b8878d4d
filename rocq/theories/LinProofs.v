(** Proofs about LinModel: simplify_lin, collect_linexps, mklinexp, flatten_linexp_call. *)
Require Import ZArith List Bool Lia Permutation Sorting.Sorted ZifyBool.
From Verif Require Import Base IntValModel IntValSpec IntValProofs IntValPropProofs SetModel SetSpec LinModel LinSpec.
Import ListNotations.
Open Scope Z_scope.

(** ** finite values *)
Lemma is_int_fin : forall x z, is_int x z -> fin x /\ iv_v x = z.
Proof.
  unfold fin, is_int, denote; intros x z H.
  destruct (iv_inf x); [destruct (iv_v x =? 1); [discriminate|destruct (iv_v x =? -1); discriminate]|].
  destruct ((LLONG_MIN <=? iv_v x) && (iv_v x <=? LLONG_MAX)); [|discriminate].
  inversion H; subst; auto.
Qed.
Lemma fin_ofZ : forall z, fits64 z -> fin (ofZ z).
Proof.
  intros z H. unfold fin, is_int, denote, ofZ, fits64 in *; cbn [iv_v iv_inf].
  replace ((LLONG_MIN <=? z) && (z <=? LLONG_MAX)) with true by lia. reflexivity.
Qed.
Lemma fin_inf : forall x, fin x -> iv_inf x = false /\ fits64 (iv_v x).
Proof.
  unfold fin, is_int, denote; intros x H.
  destruct (iv_inf x); [destruct (iv_v x =? 1); [discriminate|destruct (iv_v x =? -1); discriminate]|].
  destruct ((LLONG_MIN <=? iv_v x) && (iv_v x <=? LLONG_MAX)) eqn:E; [|discriminate].
  unfold fits64; split; [reflexivity|lia].
Qed.
Lemma fin_ext : forall x y, fin x -> fin y -> iv_v x = iv_v y -> x = y.
Proof.
  intros [a b] [c d] Hx Hy. destruct (fin_inf _ Hx), (fin_inf _ Hy). cbn in *. congruence.
Qed.
Lemma fin_0 : fin (ofZ 0). Proof. apply fin_ofZ; unfold fits64, LLONG_MIN, LLONG_MAX; lia. Qed.
Lemma fin_1 : fin (ofZ 1). Proof. apply fin_ofZ; unfold fits64, LLONG_MIN, LLONG_MAX; lia. Qed.
Lemma fin_m1 : fin (ofZ (-1)). Proof. apply fin_ofZ; unfold fits64, LLONG_MIN, LLONG_MAX; lia. Qed.

Lemma fin_add : forall x y r, fin x -> fin y -> iv_add x y = Ok r -> fin r /\ iv_v r = iv_v x + iv_v y.
Proof.
  intros x y r Hx Hy H. destruct (C01_add_l x y _ _ Hx Hy) as [A B].
  destruct (fits64b (iv_v x + iv_v y)) eqn:E.
  - apply fits64b_iff in E. destruct (A E) as (r' & E1 & E2). rewrite E1 in H; inversion H; subst.
    apply is_int_fin; assumption.
  - rewrite B in H; [discriminate|]. rewrite <- fits64b_iff. congruence.
Qed.
Lemma fin_add_assign : forall x y r, fin x -> fin y -> add_assign x y = Ok r -> fin r /\ iv_v r = iv_v x + iv_v y.
Proof. exact fin_add. Qed.
Lemma fin_mul : forall x y r, fin x -> fin y -> iv_mul x y = Ok r -> fin r /\ iv_v r = iv_v x * iv_v y.
Proof. intros x y r Hx Hy H. apply is_int_fin. eapply C51_mul_never_wraps_l; eauto. Qed.
Lemma fin_neg : forall x r, fin x -> iv_neg x = Ok r -> fin r /\ iv_v r = - iv_v x.
Proof.
  intros x r Hx H. destruct (C01_neg_l x _ Hx) as [A B].
  destruct (fits64b (- iv_v x)) eqn:E.
  - apply fits64b_iff in E. destruct (A E) as (r' & E1 & E2). rewrite E1 in H; inversion H; subst.
    apply is_int_fin; assumption.
  - rewrite B in H; [discriminate|]. rewrite <- fits64b_iff. congruence.
Qed.
Lemma fin_incr : forall x r, fin x -> iv_incr x = Ok r -> fin r /\ iv_v r = iv_v x + 1.
Proof.
  intros x r Hx H. destruct (C01_assign_l x (ofZ 1)) as (_ & _ & E & _). rewrite E in H.
  apply (fin_add _ _ _ Hx fin_1 H).
Qed.
Lemma fin_sub : forall x y r, fin x -> fin y -> iv_sub x y = Ok r -> fin r /\ iv_v r = iv_v x - iv_v y.
Proof.
  intros x y r Hx Hy H. destruct (C01_sub_l x y _ _ Hx Hy) as [A B].
  destruct (fits64b (iv_v x - iv_v y)) eqn:E.
  - apply fits64b_iff in E. destruct (A E) as (r' & E1 & E2). rewrite E1 in H; inversion H; subst.
    apply is_int_fin; assumption.
  - rewrite B in H; [discriminate|]. rewrite <- fits64b_iff. congruence.
Qed.
Lemma fin_decr : forall x r, fin x -> iv_decr x = Ok r -> fin r /\ iv_v r = iv_v x - 1.
Proof.
  intros x r Hx H. destruct (C01_assign_l x (ofZ 1)) as (_ & _ & _ & E). rewrite E in H.
  apply (fin_sub _ _ _ Hx fin_1 H).
Qed.
(* adding something to a finite value succeeds only when it is finite *)
Lemma add_assign_inf : forall x y r, add_assign x y = Ok r -> iv_inf y = false.
Proof.
  unfold add_assign, finite2, isFinite; intros x y r H. destruct (iv_inf y); [|reflexivity].
  rewrite andb_false_r in H. discriminate.
Qed.
Lemma mul_inf_right : forall x y r, fin x -> iv_mul x y = Ok r -> iv_inf r = false -> iv_inf y = false.
Proof.
  unfold iv_mul, isFinite; intros x y r Hx H Hr. destruct (fin_inf _ Hx) as [E _]. rewrite E in H; cbn [negb] in H.
  destruct (iv_inf y); [|reflexivity]. cbn [negb andb] in H.
  destruct ((iv_v y =? 1) || (iv_v y =? -1)); [|discriminate].
  destruct (safeMult (iv_v x) (iv_v y)); cbn in H; inversion H; subst. discriminate.
Qed.

Lemma fin_iv_eq : forall x y, fin x -> fin y -> iv_eq x y = (iv_v x =? iv_v y).
Proof.
  intros x y Hx Hy. destruct (fin_inf _ Hx), (fin_inf _ Hy). unfold iv_eq. rewrite H, H1. reflexivity.
Qed.
Lemma fin_iv_lt : forall x y, fin x -> fin y -> iv_lt x y = (iv_v x <? iv_v y).
Proof.
  intros x y Hx Hy. destruct (fin_inf _ Hx), (fin_inf _ Hy).
  unfold iv_lt, isPlusInfinity, isMinusInfinity, isFinite. rewrite H, H1. reflexivity.
Qed.
Lemma fin_iv_le : forall x y, fin x -> fin y -> iv_le x y = (iv_v x <=? iv_v y).
Proof.
  intros x y Hx Hy. destruct (fin_inf _ Hx), (fin_inf _ Hy).
  unfold iv_le, isPlusInfinity, isMinusInfinity, isFinite. rewrite H, H1. reflexivity.
Qed.

(** ** lists *)
Lemma upd_length : forall A (l : list A) i v, length (upd l i v) = length l.
Proof. induction l; destruct i; cbn; auto. Qed.
Lemma upd_nth : forall A (l : list A) i v j d,
  nth j (upd l i v) d = if (Nat.eqb i j && Nat.ltb i (length l))%bool then v else nth j l d.
Proof.
  induction l; intros i v j d; cbn.
  - destruct j; rewrite Bool.andb_false_r; reflexivity.
  - destruct i, j; cbn; auto. rewrite IHl. reflexivity.
Qed.
Lemma upd_Forall : forall A (P : A -> Prop) l i v, Forall P l -> P v -> Forall P (upd l i v).
Proof. induction l; intros i v H Hv; destruct i; cbn; inversion H; subst; auto. Qed.
Lemma upd_map : forall A B (f : A -> B) l i v, map f (upd l i v) = upd (map f l) i (f v).
Proof. induction l; destruct i; cbn; intros; auto. f_equal; auto. Qed.

Lemma dot_upd : forall c v i w, (i < length c)%nat -> length c = length v ->
  dot (upd c i w) v = dot c v + (w - nth i c 0) * nth i v 0.
Proof.
  induction c; intros v i w Hi Hl; [cbn in Hi; lia|].
  destruct v; [discriminate|]. destruct i; cbn [upd dot nth]; [ring|].
  cbn in *. rewrite IHc by lia. ring.
Qed.
Lemma dot_app : forall a b c d, length a = length c -> dot (a ++ b) (c ++ d) = dot a c + dot b d.
Proof.
  induction a; destruct c; cbn; intros; try discriminate; auto.
  rewrite IHa by lia. ring.
Qed.
Lemma dot_scale : forall k a b, dot (map (Z.mul k) a) b = k * dot a b.
Proof. induction a; destruct b; cbn; intros; try ring. rewrite IHa; ring. Qed.

Lemma map_nth_iv : forall c i, nth i (map iv_v c) 0 = iv_v (getc c i).
Proof. intros. unfold getc. change 0 with (iv_v (ofZ 0)) at 1. rewrite map_nth. reflexivity. Qed.
Lemma map_nth_tval : forall s x i, (i < length x)%nat -> nth i (map (tval s) x) 0 = tval s (getx x i).
Proof.
  intros. unfold getx. rewrite (nth_indep _ 0 (tval s (TExp 0))) by (rewrite map_length; auto).
  rewrite map_nth. reflexivity.
Qed.
Lemma lin_value_upd : forall s c x d i w, (i < length c)%nat -> length c = length x ->
  lin_value s (upd c i w) x d = lin_value s c x d + (iv_v w - iv_v (getc c i)) * tval s (getx x i).
Proof.
  intros. unfold lin_value. rewrite upd_map, dot_upd by (rewrite ?map_length; auto).
  rewrite map_nth_iv, map_nth_tval by lia. ring.
Qed.
Lemma lin_value_d : forall s c x d d', lin_value s c x d' = lin_value s c x d + (iv_v d' - iv_v d).
Proof. intros; unfold lin_value; ring. Qed.
Lemma getc_fin : forall c i, Forall fin c -> fin (getc c i).
Proof.
  intros c i H. unfold getc. destruct (nth_in_or_default i c (ofZ 0)) as [E|E].
  - rewrite Forall_forall in H; auto.
  - rewrite E; apply fin_0.
Qed.
Lemma getx_fin : forall x i, Forall fin_term x -> fin_term (getx x i).
Proof.
  intros x i H. unfold getx. destruct (nth_in_or_default i x (TExp 0)) as [E|E].
  - rewrite Forall_forall in H; auto.
  - rewrite E; cbn; auto.
Qed.

(** ** resolution of identifiers *)
Lemma follow_value : forall s ds fuel i j, respects s ds -> follow fuel ds i = Ok j -> vid s i = vid s j.
Proof.
  intros s ds. induction fuel; intros i j R H; cbn in H; [discriminate|].
  specialize (R i) as Ri. destruct (ds i); try (inversion H; subst; reflexivity).
  rewrite Ri. apply IHfuel; auto.
Qed.
Lemma resolve_value : forall s ds fuel t t', respects s ds -> resolve fuel ds t = Ok t' -> tval s t = tval s t'.
Proof.
  intros s ds fuel t t' R H. destruct t; cbn in H; try (inversion H; subst; reflexivity).
  apply bind_ok in H. destruct H as (j & Hj & H). inversion H; subst; clear H.
  pose proof (follow_value _ _ _ _ _ R Hj) as E. specialize (R j).
  destruct (ds j); cbn; auto. rewrite E. symmetry. apply (is_int_fin _ _ R).
Qed.
Lemma resolve_all_value : forall s ds fuel l l', respects s ds -> resolve_all fuel ds l = Ok l' ->
  map (tval s) l = map (tval s) l' /\ length l = length l'.
Proof.
  intros s ds fuel. induction l; intros l' R H; cbn in H.
  - inversion H; auto.
  - apply bind_ok in H. destruct H as (t & Ht & H). apply bind_ok in H. destruct H as (r & Hr & H).
    inversion H; subst. destruct (IHl _ R Hr). cbn. rewrite (resolve_value _ _ _ _ _ R Ht). split; congruence.
Qed.
Lemma resolve_fin : forall ds fuel t t', fin_decls ds -> fin_term t -> resolve fuel ds t = Ok t' -> fin_term t'.
Proof.
  intros ds fuel t t' F Ft H. destruct t; cbn in H; try (inversion H; subst; assumption).
  apply bind_ok in H. destruct H as (j & Hj & H). inversion H; subst; clear H.
  destruct (ds j) eqn:E; cbn; auto. eapply F; eauto.
Qed.
Lemma resolve_all_fin : forall ds fuel l l', fin_decls ds -> Forall fin_term l -> resolve_all fuel ds l = Ok l' ->
  Forall fin_term l' /\ length l = length l'.
Proof.
  intros ds fuel. induction l; intros l' F Fl H; cbn in H.
  - inversion H; auto.
  - apply bind_ok in H. destruct H as (t & Ht & H). apply bind_ok in H. destruct H as (r & Hr & H).
    inversion H; subst. inversion Fl; subst. destruct (IHl _ F H3 Hr).
    split; [constructor; auto; eapply resolve_fin; eauto|cbn; congruence].
Qed.

(** ** the comparator is a total order *)
Definition tkey (t : term) : Z * Z :=
  match t with
  | TId (Num n) => (0, Z.of_nat n)
  | TLit v => (1, iv_v v)
  | TId (Name r) => (2, r)
  | TExp r => (3, r)
  end.
Definition klt (a b : Z * Z) : Prop := fst a < fst b \/ (fst a = fst b /\ snd a < snd b).
Lemma cmp_klt : forall a b, fin_term a -> fin_term b -> (cmp_term a b = true <-> klt (tkey a) (tkey b)).
Proof.
  intros a b Ha Hb. unfold cmp_term, klt.
  destruct a as [v|[n|r]|r], b as [w|[m|q]|q]; cbn [idn tkey fst snd compare_lt];
    repeat match goal with |- context [negb (?a =? ?b)] => destruct (Z.eqb_spec a b) end; try lia;
    cbn [negb Bool.eqb andb]; try (rewrite fin_iv_lt by assumption); try lia.
Qed.
Lemma tkey_inj : forall a b, fin_term a -> fin_term b -> tkey a = tkey b -> a = b.
Proof.
  intros a b Ha Hb. destruct a as [v|[n|r]|r], b as [w|[m|q]|q]; cbn; intros E; inversion E; subst; auto.
  - f_equal; apply fin_ext; auto.
  - do 2 f_equal; lia.
Qed.
Lemma term_eqb_eq : forall a b, fin_term a -> fin_term b -> (term_eqb a b = true <-> a = b).
Proof.
  intros a b Ha Hb. destruct a as [v|[n|r]|r], b as [w|[m|q]|q]; cbn; split; intros E; try discriminate; try lia.
  - rewrite fin_iv_eq in E by assumption. f_equal; apply fin_ext; auto; lia.
  - inversion E; subst. rewrite fin_iv_eq by assumption. lia.
  - apply Nat.eqb_eq in E; subst; auto.
  - inversion E; apply Nat.eqb_refl.
  - do 2 f_equal; lia.
  - inversion E; lia.
  - f_equal; lia.
  - inversion E; lia.
Qed.

(** ** value preservation *)
Definition lits_ok (n : nat) (idx : list nat) : Prop := Forall (fun i => (i < n)%nat) idx.

Lemma lead_lits_value : forall s idx c x d c' d' rest,
  Forall fin c -> fin d -> Forall fin_term x -> length c = length x -> lits_ok (length c) idx ->
  lead_lits idx c x d = Ok (c', d', rest) ->
  Forall fin c' /\ fin d' /\ length c' = length c /\ lin_value s c' x d' = lin_value s c x d /\
  exists pre, idx = pre ++ rest /\
    (forall i, In i pre -> iv_v (getc c' i) = 0) /\ (forall i, ~ In i pre -> getc c' i = getc c i) /\
    (match rest with [] => True | i :: _ => forall v, getx x i <> TLit v end).
Proof.
  intros s. induction idx; intros c x d c' d' rest Fc Fd Fx Hl Hi H; cbn in H.
  - inversion H; subst. repeat split; auto. exists []. repeat split; auto. intros ? [].
  - inversion Hi as [|? ? Ha Hi']; subst.
    destruct (getx x a) as [v|i|r] eqn:Ex.
    + apply bind_ok in H. destruct H as (p & Hp & H). apply bind_ok in H. destruct H as (d1 & Hd & H).
      pose proof (getx_fin _ a Fx) as Fv. rewrite Ex in Fv; cbn in Fv.
      destruct (fin_mul _ _ _ (getc_fin _ a Fc) Fv Hp) as [Fp Ep].
      destruct (fin_add_assign _ _ _ Fd Fp Hd) as [Fd1 Ed].
      apply IHidx in H; auto.
      * destruct H as (A & B & C & D & pre & E & F1 & F2 & F3). rewrite upd_length in C.
        repeat split; auto.
        -- rewrite D, lin_value_upd by auto. rewrite (lin_value_d s c x d d1), Ed, Ep, Ex. cbn [tval ofZ iv_v]. ring.
        -- exists (a :: pre). split; [cbn; congruence|]. split; [|split; [|exact F3]].
           ++ intros i [->|Hin]; [|auto]. destruct (in_dec Nat.eq_dec i pre); [auto|].
              rewrite F2 by auto. unfold getc. rewrite upd_nth, Nat.eqb_refl.
              replace (i <? length c)%nat with true by (symmetry; apply Nat.ltb_lt; auto). reflexivity.
           ++ intros i Hin. rewrite F2 by (intros ?; apply Hin; right; auto). unfold getc.
              rewrite upd_nth. replace (Nat.eqb a i) with false; [reflexivity|].
              symmetry; apply Nat.eqb_neq; intros ->; apply Hin; left; auto.
      * apply upd_Forall; auto using fin_0.
      * rewrite upd_length; auto.
      * rewrite upd_length; auto.
    + inversion H; subst. repeat split; auto. exists []. repeat split; auto; [intros ? []|]. rewrite Ex; discriminate.
    + inversion H; subst. repeat split; auto. exists []. repeat split; auto; [intros ? []|]. rewrite Ex; discriminate.
Qed.

Fixpoint reps (x : list term) (cur : nat) (idx : list nat) : list nat :=
  match idx with
  | [] => [cur]
  | i :: idx' =>
      if term_eqb (getx x i) (getx x cur) then reps x cur idx'
      else match getx x i with TLit _ => reps x cur idx' | _ => cur :: reps x i idx' end
  end.

Lemma merge_value : forall s idx cur c x d c' d',
  Forall fin c -> fin d -> Forall fin_term x -> length c = length x -> lits_ok (length c) (cur :: idx) ->
  NoDup (cur :: idx) ->
  merge_terms idx cur c x d = Ok (c', d') ->
  Forall fin c' /\ fin d' /\ length c' = length c /\ lin_value s c' x d' = lin_value s c x d /\
  (forall i, In i (cur :: idx) -> ~ In i (reps x cur idx) -> iv_v (getc c' i) = 0) /\
  (forall i, ~ In i (cur :: idx) -> getc c' i = getc c i).
Proof.
  intros s. induction idx; intros cur c x d c' d' Fc Fd Fx Hl Hi ND H; cbn in H.
  - inversion H; subst. repeat split; auto. cbn. intros i [->|[]] Hn. exfalso; apply Hn; auto.
  - inversion Hi as [|? ? Hcur Hi']; inversion Hi' as [|? ? Ha Hi'']; subst.
    inversion ND as [|? ? NI ND']; subst. inversion ND' as [|? ? NI' ND'']; subst.
    assert (Nca : cur <> a) by (intros ->; apply NI; left; auto).
    assert (Gupd : forall l k v i, k <> i -> getc (upd l k v) i = getc l i).
    { intros l k v i Hki. unfold getc. rewrite upd_nth. apply Nat.eqb_neq in Hki. rewrite Hki. reflexivity. }
    assert (Gself : forall l k v, (k < length l)%nat -> getc (upd l k v) k = v).
    { intros l k v Hk. unfold getc. rewrite upd_nth, Nat.eqb_refl. apply Nat.ltb_lt in Hk. rewrite Hk. reflexivity. }
    cbn [reps]. destruct (term_eqb (getx x a) (getx x cur)) eqn:Eq.
    + apply bind_ok in H. destruct H as (sm & Hs & H).
      apply term_eqb_eq in Eq; [|apply getx_fin; auto|apply getx_fin; auto].
      destruct (fin_add_assign _ _ _ (getc_fin _ cur Fc) (getc_fin _ a Fc) Hs) as [Fs Es].
      apply IHidx in H; auto.
      * destruct H as (A & B & C & D & E & F). rewrite !upd_length in C. repeat split; auto.
        -- rewrite D. rewrite lin_value_upd by (rewrite ?upd_length; auto).
           rewrite lin_value_upd by auto. rewrite Gupd by auto. rewrite Es, Eq. cbn [ofZ iv_v]. ring.
        -- intros i Hin Hr. destruct (Nat.eq_dec i a) as [->|Hne].
           ++ rewrite F by (intros [?|?]; auto). rewrite Gself by (rewrite upd_length; auto). reflexivity.
           ++ apply E; auto. destruct Hin as [?|[?|?]]; [left|exfalso; auto|right]; auto.
        -- intros i Hin. rewrite F by (intros [?|?]; apply Hin; [left|right; right]; auto).
           rewrite !Gupd; auto; intros ->; apply Hin; [left; auto|right; left; auto].
      * apply upd_Forall; [apply upd_Forall; auto|apply fin_0].
      * rewrite !upd_length; auto.
      * rewrite !upd_length. constructor; auto.
      * constructor; auto. intros ?; apply NI; right; auto.
    + destruct (getx x a) as [v|i|r] eqn:Ex.
      * apply bind_ok in H. destruct H as (p & Hp & H). apply bind_ok in H. destruct H as (d1 & Hd & H).
        pose proof (getx_fin _ a Fx) as Fv. rewrite Ex in Fv; cbn in Fv.
        destruct (fin_mul _ _ _ (getc_fin _ a Fc) Fv Hp) as [Fp Ep].
        destruct (fin_add_assign _ _ _ Fd Fp Hd) as [Fd1 Ed].
        apply IHidx in H; auto.
        -- destruct H as (A & B & C & D & E & F). rewrite !upd_length in C. repeat split; auto.
           ++ rewrite D, lin_value_upd by auto. rewrite (lin_value_d s c x d d1), Ed, Ep, Ex. cbn [tval ofZ iv_v]. ring.
           ++ intros i Hin Hr. destruct (Nat.eq_dec i a) as [->|Hne].
              ** rewrite F by (intros [?|?]; auto). rewrite Gself by auto. reflexivity.
              ** apply E; auto. destruct Hin as [?|[?|?]]; [left|exfalso; auto|right]; auto.
           ++ intros i Hin. rewrite F by (intros [?|?]; apply Hin; [left|right; right]; auto).
              apply Gupd. intros ->; apply Hin; right; left; auto.
        -- apply upd_Forall; auto using fin_0.
        -- rewrite upd_length; auto.
        -- rewrite upd_length. constructor; auto.
        -- constructor; auto. intros ?; apply NI; right; auto.
      * apply IHidx in H; auto.
        destruct H as (A & B & C & D & E & F). repeat split; auto.
        -- intros j Hin Hr. destruct Hin as [->|Hin]; [exfalso; apply Hr; left; auto|].
           apply E; auto. intros ?; apply Hr; right; auto.
        -- intros j Hin. apply F. intros ?; apply Hin; right; auto.
      * apply IHidx in H; auto.
        destruct H as (A & B & C & D & E & F). repeat split; auto.
        -- intros j Hin Hr. destruct Hin as [->|Hin]; [exfalso; apply Hr; left; auto|].
           apply E; auto. intros ?; apply Hr; right; auto.
        -- intros j Hin. apply F. intros ?; apply Hin; right; auto.
Qed.

(** compact *)
Lemma compact_value : forall s c x c' x' d, length c = length x -> Forall fin c ->
  compact c x = (c', x') ->
  lin_value s c' x' d = lin_value s c x d /\ length c' = length x' /\ Forall fin c' /\ Forall (fun v => iv_v v <> 0) c' /\
  (forall P : term -> Prop, Forall P x -> Forall P x').
Proof.
  intros s. induction c; intros x c' x' d Hl F H; destruct x; try discriminate.
  - inversion H; subst. repeat split; auto.
  - cbn in H. destruct (compact c x) as [c2 x2] eqn:E. inversion F; subst.
    specialize (IHc x c2 x2 d ltac:(cbn in Hl; lia) H3 E) as (A & B & C & D & G).
    unfold lin_value in *. cbn [map dot].
    destruct (iv_ne a (ofZ 0)) eqn:En; inversion H; subst; clear H.
    + cbn [map dot]. repeat split; auto; try lia; try (cbn; lia).
      * constructor; auto. unfold iv_ne in En. rewrite fin_iv_eq in En by auto using fin_0. cbn [ofZ iv_v] in En. lia.
      * intros P HP. inversion HP; subst; auto.
    + unfold iv_ne in En. rewrite fin_iv_eq in En by auto using fin_0. cbn [ofZ iv_v] in En.
      assert (iv_v a = 0) by lia. rewrite H. repeat split; auto; try lia.
      intros P HP. inversion HP; subst; auto.
Qed.

Definition nonzero (v : IntVal) : bool := iv_ne v (ofZ 0).
Lemma compact_filter : forall c x, length c = length x ->
  snd (compact c x) = map (getx x) (filter (fun i => nonzero (getc c i)) (seq 0 (length c))).
Proof.
  induction c; intros x Hl; destruct x; try discriminate; auto.
  cbn [compact length seq]. specialize (IHc x ltac:(cbn in Hl; lia)).
  destruct (compact c x) as [c2 x2]. cbn [snd] in IHc.
  cbn [filter]. rewrite <- seq_shift.
  assert (E : map (getx (t :: x)) (filter (fun i => nonzero (getc (a :: c) i)) (map S (seq 0 (length c)))) = x2).
  { rewrite IHc. generalize (seq 0 (length c)). induction l as [|k l IHl]; [reflexivity|].
    cbn [map filter]. change (getc (a :: c) (S k)) with (getc c k).
    destruct (nonzero (getc c k)); cbn [map]; rewrite ?IHl; reflexivity. }
  change (getc (a :: c) 0) with a. unfold nonzero at 1.
  destruct (iv_ne a (ofZ 0)); cbn [snd map]; rewrite E; reflexivity.
Qed.

(** ** sortedness *)
Lemma sorted_strong : forall (R : nat -> nat -> Prop) (l : list nat),
  (forall p q, (p < q < length l)%nat -> R (nth p l 0%nat) (nth q l 0%nat)) -> StronglySorted R l.
Proof.
  intros R. induction l; intros H; constructor.
  - apply IHl. intros p q Hpq. apply (H (S p) (S q)). cbn; lia.
  - apply Forall_forall. intros y Hy. destruct (In_nth _ _ 0%nat Hy) as (n & Hn & E). subst y.
    apply (H 0%nat (S n)). cbn; lia.
Qed.
Lemma ss_app : forall A (R : A -> A -> Prop) l1 l2, StronglySorted R (l1 ++ l2) -> StronglySorted R l2.
Proof. induction l1; cbn; intros; auto. inversion H; auto. Qed.

Lemma reps_head : forall x idx cur, exists r, reps x cur idx = cur :: r.
Proof.
  intros x. induction idx; intros cur; cbn; [eexists; reflexivity|].
  destruct (term_eqb (getx x a) (getx x cur)); [apply IHidx|].
  destruct (getx x a); [apply IHidx|eexists; reflexivity|eexists; reflexivity].
Qed.
Lemma reps_in : forall x idx cur i, In i (reps x cur idx) -> In i (cur :: idx).
Proof.
  intros x. induction idx; intros cur i H; cbn in *; auto.
  destruct (term_eqb (getx x a) (getx x cur)); [apply IHidx in H; cbn in H; tauto|].
  destruct (getx x a); [apply IHidx in H; cbn in H; tauto| |]; (destruct H as [?|H]; [auto|apply IHidx in H; cbn in H; tauto]).
Qed.
Lemma reps_nolit : forall x idx cur, ~ is_lit (getx x cur) -> Forall (fun i => ~ is_lit (getx x i)) (reps x cur idx).
Proof.
  intros x. induction idx; intros cur H; cbn; auto.
  destruct (term_eqb (getx x a) (getx x cur)); [auto|].
  destruct (getx x a) eqn:E; [auto| |]; (constructor; [auto|]; apply IHidx; rewrite E; intros [v Hv]; discriminate).
Qed.
Lemma reps_increasing : forall x idx cur, Forall fin_term x ->
  StronglySorted (fun i j => cmp_term (getx x j) (getx x i) = false) (cur :: idx) ->
  StronglySorted (fun i j => klt (tkey (getx x i)) (tkey (getx x j))) (reps x cur idx).
Proof.
  intros x idx cur Fx. revert cur. induction idx; intros cur H; cbn [reps].
  - repeat constructor.
  - inversion H as [|? ? Hs Hf]; subst. inversion Hs as [|? ? Hs' Hf']; subst. inversion Hf as [|? ? Hca Hf2]; subst.
    destruct (term_eqb (getx x a) (getx x cur)) eqn:Eq; [apply IHidx; constructor; auto|].
    destruct (getx x a) as [v|i|r] eqn:Ex; [apply IHidx; constructor; auto| |].
    all: assert (L : klt (tkey (getx x cur)) (tkey (getx x a)));
      [ assert (N : ~ klt (tkey (getx x a)) (tkey (getx x cur)))
          by (rewrite <- cmp_klt by (apply getx_fin; auto); rewrite Ex; congruence);
        assert (N2 : tkey (getx x cur) <> tkey (getx x a))
          by (intros E; apply tkey_inj in E; [|apply getx_fin; auto..]; rewrite <- Ex in Eq;
              rewrite <- E in Eq; assert (term_eqb (getx x cur) (getx x cur) = true)
                by (apply term_eqb_eq; auto; apply getx_fin; auto); congruence);
        unfold klt in *; destruct (tkey (getx x cur)), (tkey (getx x a)); cbn in *;
        assert (z <> z1 \/ z0 <> z2) by (destruct (Z.eq_dec z z1); [right|left; auto]; intros ?; apply N2; congruence); lia
      | specialize (IHidx a Hs); constructor; auto;
        destruct (reps_head x idx a) as [r' Er]; rewrite Er in *; inversion IHidx as [|? ? Hr1 Hr2]; subst;
        constructor; auto; eapply Forall_impl; [|exact Hr2]; cbn; intros j Hj;
        unfold klt in *; destruct (tkey (getx x cur)), (tkey (getx x a)), (tkey (getx x j)); cbn in *; lia ].
Qed.
Lemma increasing_inj : forall x l i j,
  StronglySorted (fun i j => klt (tkey (getx x i)) (tkey (getx x j))) l ->
  In i l -> In j l -> getx x i = getx x j -> i = j.
Proof.
  intros x. induction l; intros i j H Hi Hj E; [destruct Hi|].
  inversion H as [|? ? Hs Hf]; subst. rewrite Forall_forall in Hf.
  assert (forall k, In k l -> getx x a <> getx x k).
  { intros k Hk Ek. specialize (Hf k Hk). rewrite Ek in Hf. unfold klt in Hf. lia. }
  destruct Hi as [->|Hi], Hj as [->|Hj]; auto.
  - exfalso; eapply H0; eauto.
  - exfalso; eapply H0; eauto.
Qed.

(** ** simplify_lin *)
Lemma simplify_all : forall s fuel ds sort c x d c' x' d',
  sorts sort -> fin_decls ds -> Forall fin c -> Forall fin_term x -> fin d -> length c = length x ->
  simplify_lin fuel ds sort c x d = Ok (c', x', d') ->
  (respects s ds -> lin_value s c' x' d' = lin_value s c x d) /\
  Forall fin c' /\ fin d' /\ length c' = length x' /\
  Forall (fun v => iv_v v <> 0) c' /\ Forall (fun t => ~ is_lit t) x' /\ NoDup x'.
Proof.
  intros s fuel ds sort c x0 d c' x' d' Hsort Fds Fc Fx0 Fd Hl H.
  unfold simplify_lin in H.
  apply bind_ok in H. destruct H as (x & Hx & H).
  destruct (resolve_all_fin _ _ _ _ Fds Fx0 Hx) as [Fx Hlx].
  apply bind_ok in H. destruct H as (((c1, d1), rest) & Hlead & H).
  apply bind_ok in H. destruct H as ((c2, d2) & Hmerge & H).
  destruct (compact c2 x) as [c3 x3] eqn:Ecomp. inversion H; subst c3 x3 d2; clear H.
  destruct (Hsort x Fx) as [Hperm Hord].
  assert (Hlen : length (sort x) = length x) by (rewrite (Permutation_length Hperm), seq_length; auto).
  assert (Hss : StronglySorted (fun i j => cmp_term (getx x j) (getx x i) = false) (sort x)).
  { apply sorted_strong. intros p q Hpq. apply Hord. lia. }
  assert (Hnd : NoDup (sort x)) by (eapply Permutation_NoDup; [apply Permutation_sym; eauto|apply seq_NoDup]).
  assert (Hbd : lits_ok (length c) (sort x)).
  { apply Forall_forall. intros i Hi. apply (Permutation_in _ Hperm), in_seq in Hi. lia. }
  assert (Hall : forall i, (i < length c)%nat -> In i (sort x)).
  { intros i Hi. apply (Permutation_in _ (Permutation_sym Hperm)), in_seq. lia. }
  assert (Hl' : length c = length x) by congruence.
  destruct (lead_lits_value s _ _ _ _ _ _ _ Fc Fd Fx Hl' Hbd Hlead)
    as (F1 & Fd1 & L1 & V1 & pre & Epre & Z1 & K1 & Hd).
  assert (Main : Forall fin c2 /\ fin d' /\ length c2 = length c /\ lin_value s c2 x d' = lin_value s c x d /\
    exists rp, StronglySorted (fun i j => klt (tkey (getx x i)) (tkey (getx x j))) rp /\
       Forall (fun i => ~ is_lit (getx x i)) rp /\ forall i, (i < length c)%nat -> ~ In i rp -> iv_v (getc c2 i) = 0).
  { destruct rest as [|cur idx].
    - inversion Hmerge; subst c2 d'. repeat split; auto. exists []. split; [constructor|]. split; [constructor|].
      intros i Hi _. apply Z1. specialize (Hall i Hi). rewrite Epre, app_nil_r in Hall. auto.
    - rewrite Epre in Hnd, Hbd, Hss.
      assert (Hnd2 : NoDup (cur :: idx)) by (clear -Hnd; induction pre; cbn in Hnd; auto; inversion Hnd; auto).
      assert (Hbd2 : lits_ok (length c1) (cur :: idx)) by (rewrite L1; apply Forall_app in Hbd; tauto).
      destruct (merge_value s _ _ _ _ _ _ _ F1 Fd1 Fx ltac:(congruence) Hbd2 Hnd2 Hmerge) as (A & B & C & D & E & F).
      repeat split; auto; try congruence.
      exists (reps x cur idx). split; [apply reps_increasing; auto; eapply ss_app; eauto|].
      split; [apply reps_nolit; intros [v Hv]; eapply Hd; eauto|].
      intros i Hi Hn. specialize (Hall i Hi). rewrite Epre in Hall. apply in_app_or in Hall.
      destruct (in_dec Nat.eq_dec i (cur :: idx)) as [Hin|Hin]; [apply E; auto|].
      rewrite F by auto. destruct Hall as [Hp|Hp]; [apply Z1; auto|contradiction]. }
  destruct Main as (F2 & Fd2 & L2 & V2 & rp & Rinc & Rnl & Rz).
  destruct (compact_value s c2 x c' x' d' ltac:(congruence) F2 Ecomp) as (V3 & L3 & F3 & NZ & PX).
  split; [|repeat split; auto].
  - intros R. destruct (resolve_all_value _ _ _ _ _ R Hx) as [E _].
    rewrite V3, V2. unfold lin_value. rewrite E. reflexivity.
  - assert (Ex : x' = map (getx x) (filter (fun i => nonzero (getc c2 i)) (seq 0 (length c2)))).
    { rewrite <- compact_filter by congruence. rewrite Ecomp. reflexivity. }
    rewrite Ex. apply Forall_forall. intros t Ht. apply in_map_iff in Ht. destruct Ht as (i & <- & Hi).
    apply filter_In in Hi. destruct Hi as [Hi Hn]. apply in_seq in Hi.
    rewrite Forall_forall in Rnl. apply Rnl.
    destruct (in_dec Nat.eq_dec i rp); auto. exfalso.
    specialize (Rz i ltac:(lia) n). unfold nonzero, iv_ne in Hn.
    rewrite fin_iv_eq in Hn by auto using fin_0, getc_fin. cbn [ofZ iv_v] in Hn. lia.
  - assert (Ex : x' = map (getx x) (filter (fun i => nonzero (getc c2 i)) (seq 0 (length c2)))).
    { rewrite <- compact_filter by congruence. rewrite Ecomp. reflexivity. }
    rewrite Ex.
    assert (G : forall l, NoDup l -> (forall i, In i l -> In i rp) -> NoDup (map (getx x) l)).
    { induction l; intros Hn Hi; cbn; constructor.
      - inversion Hn; subst. intros Hm. apply in_map_iff in Hm. destruct Hm as (j & Ej & Hj).
        assert (j = a) by (eapply increasing_inj; eauto; apply Hi; [right|left]; auto). subst; auto.
      - inversion Hn; subst. apply IHl; auto. intros; apply Hi; right; auto. }
    apply G; [apply NoDup_filter, seq_NoDup|].
    intros i Hi. apply filter_In in Hi. destruct Hi as [Hi Hn]. apply in_seq in Hi.
    destruct (in_dec Nat.eq_dec i rp); auto. exfalso.
    specialize (Rz i ltac:(lia) n). unfold nonzero, iv_ne in Hn.
    rewrite fin_iv_eq in Hn by auto using fin_0, getc_fin. cbn [ofZ iv_v] in Hn. lia.
Qed.
