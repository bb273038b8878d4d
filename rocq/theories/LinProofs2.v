(** Proofs about LinModel, part 2: totality of simplify_lin, collect_linexps, mklinexp, flatten_linexp_call. *)
Require Import ZArith List Bool Lia Permutation Sorting.Sorted ZifyBool.
From Verif Require Import Base IntValModel IntValSpec IntValProofs IntValPropProofs SetModel SetSpec LinModel LinSpec LinProofs.
Import ListNotations.
Open Scope Z_scope.

(** ** simplify_lin succeeds when the numbers are small enough *)
Lemma tweight_pos : forall t, 1 <= tweight t. Proof. destruct t; cbn; lia. Qed.
Lemma weight_nonneg : forall c x, 0 <= weight c x.
Proof. induction c; destruct x; cbn; try lia. pose proof (tweight_pos t). specialize (IHc x). nia. Qed.
Lemma weight_upd : forall c x i w, (i < length c)%nat -> length c = length x ->
  weight (upd c i w) x = weight c x + (Z.abs (iv_v w) - Z.abs (iv_v (getc c i))) * tweight (getx x i).
Proof.
  induction c; intros x i w Hi Hl; [cbn in Hi; lia|]. destruct x; [discriminate|].
  destruct i; cbn [upd weight].
  - change (getc (a :: c) 0) with a. change (getx (t :: x) 0) with t. ring.
  - change (getc (a :: c) (S i)) with (getc c i). change (getx (t :: x) (S i)) with (getx x i).
    cbn in Hi, Hl. rewrite IHc by lia. ring.
Qed.
Lemma weight_ge : forall c x i, (i < length c)%nat -> length c = length x ->
  Z.abs (iv_v (getc c i)) * tweight (getx x i) <= weight c x.
Proof.
  induction c; intros x i Hi Hl; [cbn in Hi; lia|]. destruct x; [discriminate|].
  destruct i; cbn [weight].
  - change (getc (a :: c) 0) with a. change (getx (t :: x) 0) with t. pose proof (weight_nonneg c x). lia.
  - change (getc (a :: c) (S i)) with (getc c i). change (getx (t :: x) (S i)) with (getx x i).
    cbn in Hi, Hl. specialize (IHc x i ltac:(lia) ltac:(lia)). pose proof (tweight_pos t). nia.
Qed.
Lemma weight_ge2 : forall c x i j, (i < length c)%nat -> (j < length c)%nat -> i <> j -> length c = length x ->
  Z.abs (iv_v (getc c i)) * tweight (getx x i) + Z.abs (iv_v (getc c j)) * tweight (getx x j) <= weight c x.
Proof.
  intros c x i j Hi Hj Hij Hl.
  pose proof (weight_upd c x i (ofZ 0) Hi Hl). cbn [ofZ iv_v] in H.
  pose proof (weight_ge (upd c i (ofZ 0)) x j) as G. rewrite !upd_length in G. specialize (G Hj Hl).
  assert (getc (upd c i (ofZ 0)) j = getc c j).
  { unfold getc. rewrite upd_nth. apply Nat.eqb_neq in Hij. rewrite Hij. reflexivity. }
  rewrite H0 in G. rewrite Z.abs_0 in H. lia.
Qed.

Lemma mul_small : forall x y, fin x -> fin y -> Z.abs (iv_v x) * Z.abs (iv_v y) <= LLONG_MAX ->
  Z.abs (iv_v x) <= LLONG_MAX -> Z.abs (iv_v y) <= LLONG_MAX -> exists r, iv_mul x y = Ok r.
Proof.
  intros x y Hx Hy H H1 H2. destruct (C51_mul_l x y _ _ Hx Hy) as [A _].
  - unfold LLONG_MIN, LLONG_MAX in *; lia.
  - unfold LLONG_MIN, LLONG_MAX in *; lia.
  - destruct A as (r & E & _); eauto. rewrite <- Z.abs_mul in H. unfold LLONG_MIN, LLONG_MAX in *. lia.
Qed.
Lemma add_small : forall x y, fin x -> fin y -> Z.abs (iv_v x) + Z.abs (iv_v y) <= LLONG_MAX ->
  exists r, add_assign x y = Ok r.
Proof.
  intros x y Hx Hy H. destruct (C01_add_l x y _ _ Hx Hy) as [A _].
  destruct A as (r & E & _); [unfold fits64, LLONG_MIN, LLONG_MAX in *; lia|]. exists r; exact E.
Qed.

Lemma lit_step : forall c x d i v,
  Forall fin c -> fin d -> Forall fin_term x -> length c = length x -> (i < length c)%nat ->
  getx x i = TLit v -> weight c x + Z.abs (iv_v d) <= LLONG_MAX -> Z.abs (iv_v v) <= LLONG_MAX ->
  exists p d', iv_mul (getc c i) v = Ok p /\ add_assign d p = Ok d' /\ fin d' /\
    weight (upd c i (ofZ 0)) x + Z.abs (iv_v d') <= weight c x + Z.abs (iv_v d).
Proof.
  intros c x d i v Fc Fd Fx Hl Hi Ex W Wv.
  pose proof (getx_fin _ i Fx) as Fv. rewrite Ex in Fv; cbn in Fv.
  pose proof (weight_ge c x i Hi Hl) as G. rewrite Ex in G. cbn [tweight] in G.
  pose proof (getc_fin _ i Fc) as Fi.
  assert (T : Z.abs (iv_v (getc c i)) * Z.abs (iv_v v) <= Z.abs (iv_v (getc c i)) * Z.max 1 (Z.abs (iv_v v))) by nia.
  assert (T2 : Z.abs (iv_v (getc c i)) <= Z.abs (iv_v (getc c i)) * Z.max 1 (Z.abs (iv_v v))) by nia.
  destruct (mul_small _ _ Fi Fv) as [p Hp]; try lia.
  destruct (fin_mul _ _ _ Fi Fv Hp) as [Fp Ep].
  assert (T3 : Z.abs (iv_v p) <= Z.abs (iv_v (getc c i)) * Z.max 1 (Z.abs (iv_v v))) by (rewrite Ep, Z.abs_mul; lia).
  destruct (add_small _ _ Fd Fp) as [d' Hd]; [lia|].
  destruct (fin_add_assign _ _ _ Fd Fp Hd) as [Fd' Ed].
  exists p, d'. repeat split; auto.
  rewrite weight_upd by auto. rewrite Ex. cbn [tweight ofZ iv_v]. rewrite Ed, Z.abs_0. lia.
Qed.
Lemma small_getx : forall x i v, small_lits x -> getx x i = TLit v -> Z.abs (iv_v v) <= LLONG_MAX.
Proof.
  intros x i v H E. unfold getx in E. destruct (nth_in_or_default i x (TExp 0)) as [I|I].
  - unfold small_lits in H. rewrite Forall_forall in H. specialize (H _ I). rewrite E in H. exact H.
  - rewrite I in E; discriminate.
Qed.

Lemma lead_total : forall idx c x d,
  Forall fin c -> fin d -> Forall fin_term x -> small_lits x -> length c = length x -> lits_ok (length c) idx ->
  weight c x + Z.abs (iv_v d) <= LLONG_MAX ->
  exists c' d' rest, lead_lits idx c x d = Ok (c', d', rest) /\ weight c' x + Z.abs (iv_v d') <= LLONG_MAX.
Proof.
  induction idx; intros c x d Fc Fd Fx Sx Hl Hi W; cbn.
  - do 3 eexists; split; [reflexivity|assumption].
  - inversion Hi; subst. destruct (getx x a) as [v|i|r] eqn:Ex; try (do 3 eexists; split; [reflexivity|assumption]).
    destruct (lit_step c x d a v) as (p & d' & Hp & Hd & Fd' & W'); auto; [eapply small_getx; eauto|].
    rewrite Hp; cbn [bind]. rewrite Hd; cbn [bind]. apply IHidx; auto; try lia.
    + apply upd_Forall; auto using fin_0.
    + rewrite upd_length; auto.
    + rewrite upd_length; auto.
Qed.
Lemma merge_total : forall idx cur c x d,
  Forall fin c -> fin d -> Forall fin_term x -> small_lits x -> length c = length x -> lits_ok (length c) (cur :: idx) ->
  NoDup (cur :: idx) -> ~ is_lit (getx x cur) ->
  weight c x + Z.abs (iv_v d) <= LLONG_MAX ->
  exists r, merge_terms idx cur c x d = Ok r.
Proof.
  induction idx; intros cur c x d Fc Fd Fx Sx Hl Hi ND NL W; cbn.
  - eexists; reflexivity.
  - inversion Hi as [|? ? Hcur Hi']; inversion Hi' as [|? ? Ha Hi'']; subst.
    inversion ND as [|? ? NI ND']; subst. inversion ND' as [|? ? NI' ND'']; subst.
    assert (Nca : cur <> a) by (intros ->; apply NI; left; auto).
    assert (NDc : NoDup (cur :: idx)) by (constructor; auto; intros ?; apply NI; right; auto).
    destruct (term_eqb (getx x a) (getx x cur)) eqn:Eq.
    + apply term_eqb_eq in Eq; [|apply getx_fin; auto|apply getx_fin; auto].
      pose proof (weight_ge2 c x cur a Hcur Ha Nca Hl) as G. rewrite Eq in G.
      assert (T : tweight (getx x cur) = 1) by (destruct (getx x cur); auto; exfalso; apply NL; eexists; eauto).
      rewrite T in G.
      destruct (add_small (getc c cur) (getc c a)) as [s Hs]; try (apply getc_fin; auto); [lia|].
      destruct (fin_add_assign _ _ _ (getc_fin _ cur Fc) (getc_fin _ a Fc) Hs) as [Fs Es].
      rewrite Hs; cbn [bind]. apply IHidx; auto.
      * apply upd_Forall; [apply upd_Forall; auto|apply fin_0].
      * rewrite !upd_length; auto.
      * rewrite !upd_length. constructor; auto.
      * rewrite weight_upd by (rewrite ?upd_length; auto). rewrite weight_upd by auto.
        assert (getc (upd c cur s) a = getc c a).
        { unfold getc. rewrite upd_nth. apply Nat.eqb_neq in Nca. rewrite Nca. reflexivity. }
        rewrite H, Eq, T, Es. cbn [ofZ iv_v]. lia.
    + destruct (getx x a) as [v|i|r] eqn:Ex.
      * destruct (lit_step c x d a v) as (p & d' & Hp & Hd & Fd' & W'); auto; [eapply small_getx; eauto|].
        rewrite Hp; cbn [bind]. rewrite Hd; cbn [bind]. apply IHidx; auto; try lia.
        -- apply upd_Forall; auto using fin_0.
        -- rewrite upd_length; auto.
        -- rewrite upd_length. constructor; auto.
      * apply IHidx; auto. rewrite Ex. intros [w Hw]; discriminate.
      * apply IHidx; auto. rewrite Ex. intros [w Hw]; discriminate.
Qed.
Lemma simplify_total_l : forall fuel ds sort c x0 x d,
  sorts sort -> fin_decls ds -> Forall fin c -> Forall fin_term x0 -> fin d -> length c = length x0 ->
  resolve_all fuel ds x0 = Ok x -> small_lits x ->
  weight c x + Z.abs (iv_v d) <= LLONG_MAX ->
  exists r, simplify_lin fuel ds sort c x0 d = Ok r.
Proof.
  intros fuel ds sort c x0 x d Hsort Fds Fc Fx0 Fd Hl Hx Sx W.
  unfold simplify_lin. rewrite Hx; cbn [bind].
  destruct (resolve_all_fin _ _ _ _ Fds Fx0 Hx) as [Fx Hlx].
  destruct (Hsort x Fx) as [Hperm _].
  assert (Hnd : NoDup (sort x)) by (eapply Permutation_NoDup; [apply Permutation_sym; eauto|apply seq_NoDup]).
  assert (Hbd : lits_ok (length c) (sort x)).
  { apply Forall_forall. intros i Hi. apply (Permutation_in _ Hperm), in_seq in Hi. lia. }
  destruct (lead_total (sort x) c x d Fc Fd Fx Sx ltac:(congruence) Hbd W) as (c1 & d1 & rest & E & W1).
  destruct (lead_lits_value {| vid := fun _ => 0; vexp := fun _ => 0 |} _ _ _ _ _ _ _ Fc Fd Fx ltac:(congruence) Hbd E)
    as (F1 & Fd1 & L1 & V1 & pre & Epre & Z1 & K1 & Hd).
  rewrite E; cbn [bind]. destruct rest as [|cur idx]; cbn [bind].
  - destruct (compact c1 x); eexists; reflexivity.
  - rewrite Epre in Hnd, Hbd.
    assert (Hnd2 : NoDup (cur :: idx)) by (clear -Hnd; induction pre; cbn in Hnd; auto; inversion Hnd; auto).
    assert (Hbd2 : lits_ok (length c1) (cur :: idx)) by (rewrite L1; apply Forall_app in Hbd; tauto).
    destruct (merge_total idx cur c1 x d1 F1 Fd1 Fx Sx ltac:(congruence) Hbd2 Hnd2) as [[c2 d2] Em]; auto.
    { intros [v Hv]; eapply Hd; eauto. }
    rewrite Em; cbn [bind]. destruct (compact c2 x); eexists; reflexivity.
Qed.

(** ** a sorting function exists *)
Fixpoint insert_idx (x : list term) (i : nat) (l : list nat) : list nat :=
  match l with
  | [] => [i]
  | j :: l' => if cmp_term (getx x j) (getx x i) then j :: insert_idx x i l' else i :: j :: l'
  end.
Definition insertion (x : list term) : list nat := fold_right (insert_idx x) [] (seq 0 (length x)).

Lemma cmp_trans_false : forall a b c, fin_term a -> fin_term b -> fin_term c ->
  cmp_term b a = false -> cmp_term c b = false -> cmp_term c a = false.
Proof.
  intros a b c Ha Hb Hc H1 H2.
  destruct (cmp_term c a) eqn:E; auto. exfalso.
  apply cmp_klt in E; auto.
  assert (N1 : ~ klt (tkey b) (tkey a)) by (rewrite <- cmp_klt by auto; congruence).
  assert (N2 : ~ klt (tkey c) (tkey b)) by (rewrite <- cmp_klt by auto; congruence).
  unfold klt in *. lia.
Qed.

Lemma cmp_asym : forall a b, fin_term a -> fin_term b -> cmp_term a b = true -> cmp_term b a = false.
Proof.
  intros a b Ha Hb H. destruct (cmp_term b a) eqn:E; auto. apply cmp_klt in E, H; auto. unfold klt in *; lia.
Qed.
Lemma insert_perm : forall x i l, Permutation (insert_idx x i l) (i :: l).
Proof.
  intros x i. induction l; cbn; auto. destruct (cmp_term (getx x a) (getx x i)); auto.
  rewrite IHl. constructor.
Qed.
Lemma insert_sorted : forall x i l, Forall fin_term x ->
  StronglySorted (fun i j => cmp_term (getx x j) (getx x i) = false) l ->
  StronglySorted (fun i j => cmp_term (getx x j) (getx x i) = false) (insert_idx x i l).
Proof.
  intros x i l Fx. induction l; intros H; cbn; [repeat constructor|].
  inversion H as [|? ? Hs Hf]; subst. destruct (cmp_term (getx x a) (getx x i)) eqn:E.
  - constructor; auto. apply Forall_forall. intros j Hj. apply (Permutation_in _ (insert_perm x i l)) in Hj.
    destruct Hj as [<-|Hj]; [apply cmp_asym; auto; apply getx_fin; auto|]. rewrite Forall_forall in Hf; auto.
  - constructor; auto. constructor; auto. eapply Forall_impl; [|exact Hf]. cbn. intros j Hj.
    eapply cmp_trans_false; [| | |exact E|exact Hj]; apply getx_fin; auto.
Qed.
Lemma ss_nth : forall (R : nat -> nat -> Prop) l p q, StronglySorted R l -> (p < q < length l)%nat ->
  R (nth p l 0%nat) (nth q l 0%nat).
Proof.
  intros R. induction l; intros p q H Hpq; cbn in Hpq; [lia|]. inversion H as [|? ? Hs Hf]; subst.
  destruct q; [lia|]. destruct p; cbn.
  - rewrite Forall_forall in Hf. apply Hf, nth_In. lia.
  - apply IHl; auto; lia.
Qed.
Lemma insertion_sorts : sorts insertion.
Proof.
  intros x Fx. unfold insertion.
  assert (G : forall l, Permutation (fold_right (insert_idx x) [] l) l /\
     StronglySorted (fun i j => cmp_term (getx x j) (getx x i) = false) (fold_right (insert_idx x) [] l)).
  { induction l; cbn; [split; constructor|]. destruct IHl as [A B]. split.
    - rewrite insert_perm. constructor; auto.
    - apply insert_sorted; auto. }
  destruct (G (seq 0 (length x))) as [A B]. split; auto. intros p q Hpq.
  apply (ss_nth (fun i j => cmp_term (getx x j) (getx x i) = false)); auto.
  rewrite (Permutation_length A), seq_length. auto.
Qed.

(** ** collect_linexps *)
Definition stack_value (s : valuation) (st : list (lexp * IntVal)) : Z :=
  fold_right (fun p acc => iv_v (snd p) * leval s (fst p) + acc) 0 st.
Definition stack_size (st : list (lexp * IntVal)) : nat :=
  fold_right (fun p acc => (lsize (fst p) + acc)%nat) 0%nat st.
Definition stack_ok (st : list (lexp * IntVal)) : Prop :=
  Forall (fun p => fin (snd p) /\ fin_lexp (fst p)) st.

Lemma is_par_spec : forall s e v, is_par e = Some v -> fin_lexp e -> fin v /\ leval s e = iv_v v.
Proof. intros s e v H F. destruct e; try discriminate; [|destruct t; try discriminate]; inversion H; subst; cbn in *; auto. Qed.

Lemma collect_ok : forall s fuel st coeffs vars k co va k',
  stack_ok st -> Forall fin coeffs -> Forall fin_lexp vars -> fin k -> length coeffs = length vars ->
  collect fuel st coeffs vars k = Ok (co, va, k') ->
  Forall fin co /\ Forall fin_lexp va /\ fin k' /\ length co = length va /\
  dot (map iv_v co) (map (leval s) va) + iv_v k' =
  dot (map iv_v coeffs) (map (leval s) vars) + iv_v k + stack_value s st.
Proof.
  intros s. induction fuel; intros st coeffs vars k co va k' Hst Fc Fv Fk Hl H.
  { destruct st as [|[e c] st]; cbn in H; inversion H; subst. repeat split; auto. cbn; lia. }
  destruct st as [|[e c] st]; [cbn in H; inversion H; subst; repeat split; auto; cbn; lia|].
  inversion Hst as [|? ? [Fce Fe] Hst']; subst; cbn [fst snd] in *.
  assert (Push : collect fuel st (coeffs ++ [c]) (vars ++ [e]) k = Ok (co, va, k') ->
     Forall fin co /\ Forall fin_lexp va /\ fin k' /\ length co = length va /\
     dot (map iv_v co) (map (leval s) va) + iv_v k' =
     dot (map iv_v coeffs) (map (leval s) vars) + iv_v k + stack_value s ((e, c) :: st)).
  { intros Hp. apply IHfuel in Hp; auto.
    - destruct Hp as (A & B & C & D & E). repeat split; auto. rewrite E, !map_app, dot_app by (rewrite !map_length; auto).
      unfold stack_value; cbn [map dot fold_right fst snd leval]. ring.
    - apply Forall_app; auto.
    - apply Forall_app; auto.
    - rewrite !app_length; cbn; lia. }
  assert (Par : forall v, fin v -> leval s e = iv_v v ->
     (do p <- iv_mul c v; do k'' <- add_assign k p; collect fuel st coeffs vars k'') = Ok (co, va, k') ->
     Forall fin co /\ Forall fin_lexp va /\ fin k' /\ length co = length va /\
     dot (map iv_v co) (map (leval s) va) + iv_v k' =
     dot (map iv_v coeffs) (map (leval s) vars) + iv_v k + stack_value s ((e, c) :: st)).
  { intros v Fv' Ev Hp. apply bind_ok in Hp. destruct Hp as (p & Hp & Hp2). apply bind_ok in Hp2. destruct Hp2 as (k2 & Hk & Hp2).
    destruct (fin_mul _ _ _ Fce Fv' Hp) as [Fp Ep]. destruct (fin_add_assign _ _ _ Fk Fp Hk) as [Fk2 Ek].
    apply IHfuel in Hp2; auto. destruct Hp2 as (A & B & C & D & E). repeat split; auto.
    rewrite E, Ek, Ep. cbn [stack_value fold_right fst snd]. rewrite Ev. unfold stack_value. ring. }
  assert (Same : forall st2, stack_ok st2 -> stack_value s st2 = stack_value s ((e, c) :: st) ->
     collect fuel st2 coeffs vars k = Ok (co, va, k') ->
     Forall fin co /\ Forall fin_lexp va /\ fin k' /\ length co = length va /\
     dot (map iv_v co) (map (leval s) va) + iv_v k' =
     dot (map iv_v coeffs) (map (leval s) vars) + iv_v k + stack_value s ((e, c) :: st)).
  { intros st2 Hok Hval Hp. apply IHfuel in Hp; auto. rewrite <- Hval. exact Hp. }
  cbn [collect] in H. destruct e as [v|t|a b|a b|a b|a b|r].
  - apply (Par v); auto.
  - destruct t as [v| |]; [apply (Par v); auto|apply Push; auto|apply Push; auto].
  - destruct Fe. eapply Same; [| |exact H].
    + constructor; [split; auto|]. constructor; [split; auto|auto].
    + unfold stack_value; cbn [fold_right fst snd leval]. ring.
  - destruct Fe. apply bind_ok in H. destruct H as (nc & Hn & H). destruct (fin_neg _ _ Fce Hn) as [Fn En].
    eapply Same; [| |exact H].
    + constructor; [split; auto|]. constructor; [split; auto|auto].
    + unfold stack_value; cbn [fold_right fst snd leval]. rewrite En. ring.
  - destruct Fe as [Fa Fb]. destruct (is_par a) as [v|] eqn:Ea.
    + destruct (is_par_spec s _ _ Ea Fa) as [Fv' Ev].
      apply bind_ok in H. destruct H as (c' & Hc & H). destruct (fin_mul _ _ _ Fce Fv' Hc) as [Fc' Ec].
      eapply Same; [| |exact H].
      * constructor; [split; auto|auto].
      * unfold stack_value; cbn [fold_right fst snd leval]. rewrite Ec, Ev. ring.
    + destruct (is_par b) as [v|] eqn:Eb; [|apply Push; auto].
      destruct (is_par_spec s _ _ Eb Fb) as [Fv' Ev].
      apply bind_ok in H. destruct H as (c' & Hc & H). destruct (fin_mul _ _ _ Fce Fv' Hc) as [Fc' Ec].
      eapply Same; [| |exact H].
      * constructor; [split; auto|auto].
      * unfold stack_value; cbn [fold_right fst snd leval]. rewrite Ec, Ev. ring.
  - destruct Fe as [Fa Fb].
    assert (D1 : forall v, fin v -> leval s b = iv_v v ->
       (if iv_eq v (ofZ 1) then collect fuel ((a, c) :: st) coeffs vars k
        else collect fuel st (coeffs ++ [c]) (vars ++ [LIDiv a b]) k) = Ok (co, va, k') ->
     Forall fin co /\ Forall fin_lexp va /\ fin k' /\ length co = length va /\
     dot (map iv_v co) (map (leval s) va) + iv_v k' =
     dot (map iv_v coeffs) (map (leval s) vars) + iv_v k + stack_value s ((LIDiv a b, c) :: st)).
    { intros v Fv' Ev Hp. rewrite fin_iv_eq in Hp by auto using fin_1. cbn [ofZ iv_v] in Hp.
      destruct (Z.eqb_spec (iv_v v) 1) as [E1|]; [|apply Push; auto].
      eapply Same; [| |exact Hp].
      - constructor; [split; auto|auto].
      - unfold stack_value; cbn [fold_right fst snd leval]. rewrite Ev, E1, Z.quot_1_r. ring. }
    destruct b as [v|t| | | | |]; try (apply Push; exact H).
    + apply (D1 v); auto.
    + destruct t as [v| |]; [apply (D1 v); auto|apply Push; auto|apply Push; auto].
  - apply Push; auto.
Qed.

Lemma lsize_pos : forall e, (1 <= lsize e)%nat. Proof. destruct e; cbn; lia. Qed.
Lemma ll_nofuel : forall z, ll z <> Err OutOfFuel. Proof. intros z; unfold ll; destruct (fits64b z); congruence. Qed.
Lemma bind_nofuel : forall A B (x : res A) (f : A -> res B), x <> Err OutOfFuel -> (forall a, f a <> Err OutOfFuel) ->
  bind x f <> Err OutOfFuel.
Proof. intros A B x f Hx Hf. destruct x; cbn; auto; congruence. Qed.
Lemma safeMult_nofuel : forall x y, safeMult x y <> Err OutOfFuel.
Proof.
  intros x y. unfold safeMult. destruct (y =? 0); [congruence|].
  apply bind_nofuel; [destruct (x <? 0); [apply ll_nofuel|congruence]|]. intros xa.
  apply bind_nofuel; [destruct (y <? 0); [apply ll_nofuel|congruence]|]. intros ya.
  destruct (xa >? LLONG_MAX ÷ ya); [congruence|apply ll_nofuel].
Qed.
Lemma mul_nofuel : forall x y, iv_mul x y <> Err OutOfFuel.
Proof.
  intros x y. unfold iv_mul.
  destruct (negb (isFinite x)).
  - destruct (isFinite y && ((iv_v y =? 1) || (iv_v y =? -1))); [|congruence].
    apply bind_nofuel; [apply safeMult_nofuel|congruence].
  - destruct (negb (isFinite y)).
    + destruct (isFinite x && ((iv_v y =? 1) || (iv_v y =? -1))); [|congruence].
      apply bind_nofuel; [apply safeMult_nofuel|congruence].
    + apply bind_nofuel; [apply safeMult_nofuel|congruence].
Qed.
Lemma safePlus_nofuel : forall x y, safePlus x y <> Err OutOfFuel.
Proof.
  intros x y; unfold safePlus. destruct (x <? 0); (apply bind_nofuel; [apply ll_nofuel|]; intros d);
  [destruct (y <? d)|destruct (y >? d)]; try congruence; apply ll_nofuel.
Qed.
Lemma safeMinus_nofuel : forall x y, safeMinus x y <> Err OutOfFuel.
Proof.
  intros x y; unfold safeMinus. destruct (x <? 0); (apply bind_nofuel; [apply ll_nofuel|]; intros d);
  [destruct (y >? d)|destruct (y <? d)]; try congruence; apply ll_nofuel.
Qed.
Lemma add_nofuel : forall x y, add_assign x y <> Err OutOfFuel.
Proof.
  intros x y. unfold add_assign, finite2. destruct (negb (isFinite x && isFinite y)); [congruence|].
  apply bind_nofuel; [apply safePlus_nofuel|congruence].
Qed.
Lemma neg_nofuel : forall x, iv_neg x <> Err OutOfFuel.
Proof. intros x. unfold iv_neg. apply bind_nofuel; [apply safeMinus_nofuel|congruence]. Qed.
(** the loop bound is never the reason for stopping *)
Lemma collect_fuel : forall fuel st coeffs vars k, (stack_size st <= fuel)%nat ->
  collect fuel st coeffs vars k <> Err OutOfFuel.
Proof.
  pose proof mul_nofuel as M. pose proof add_nofuel as A. pose proof neg_nofuel as N.
  induction fuel; intros st coeffs vars k Hs.
  { destruct st as [|[e c] st]; cbn in *; [congruence|]. pose proof (lsize_pos e). lia. }
  destruct st as [|[e c] st]; cbn [collect]; [congruence|]. cbn [stack_size fold_right fst] in Hs.
  pose proof (lsize_pos e).
  change (fold_right (fun p acc => (lsize (fst p) + acc)%nat) 0%nat st) with (stack_size st) in Hs.
  assert (P : forall co va kk, collect fuel st co va kk <> Err OutOfFuel) by (intros; apply IHfuel; lia).
  assert (Par : forall v, (do p <- iv_mul c v; do k' <- add_assign k p; collect fuel st coeffs vars k') <> Err OutOfFuel).
  { intros v. specialize (M c v). destruct (iv_mul c v) as [p|e0|]; cbn [bind]; try congruence.
    specialize (A k p). destruct (add_assign k p); cbn [bind]; try congruence. }
  destruct e as [v|t|a b|a b|a b|a b|r]; cbn [lsize] in Hs.
  - apply Par.
  - destruct t; [apply Par|apply P|apply P].
  - apply IHfuel. cbn [stack_size fold_right fst]. fold (stack_size st). lia.
  - specialize (N c). destruct (iv_neg c); cbn [bind]; try congruence.
    apply IHfuel. cbn [stack_size fold_right fst]. fold (stack_size st). lia.
  - destruct (is_par a) as [v|].
    + specialize (M c v). destruct (iv_mul c v); cbn [bind]; try congruence.
      apply IHfuel. cbn [stack_size fold_right fst]. fold (stack_size st). lia.
    + destruct (is_par b) as [v|]; [|apply P].
      specialize (M c v). destruct (iv_mul c v); cbn [bind]; try congruence.
      apply IHfuel. cbn [stack_size fold_right fst]. fold (stack_size st). lia.
  - assert (Q : collect fuel ((a, c) :: st) coeffs vars k <> Err OutOfFuel).
    { apply IHfuel. cbn [stack_size fold_right fst]. fold (stack_size st). lia. }
    destruct b as [v|t| | | | |]; try apply P.
    + destruct (iv_eq v (ofZ 1)); [exact Q|apply P].
    + destruct t as [v| |]; try apply P. destruct (iv_eq v (ofZ 1)); [exact Q|apply P].
  - apply P.
Qed.

Lemma collect_linexps_ok : forall s in_c e coeffs vars k co va k',
  fin in_c -> fin_lexp e -> Forall fin coeffs -> Forall fin_lexp vars -> fin k -> length coeffs = length vars ->
  collect_linexps in_c e coeffs vars k = Ok (co, va, k') ->
  Forall fin co /\ Forall fin_lexp va /\ fin k' /\ length co = length va /\
  dot (map iv_v co) (map (leval s) va) + iv_v k' =
  dot (map iv_v coeffs) (map (leval s) vars) + iv_v k + iv_v in_c * leval s e.
Proof.
  intros s in_c e coeffs vars k co va k' Fi Fe Fc Fv Fk Hl H.
  apply (collect_ok s) in H; auto; [|constructor; [split; auto|constructor]].
  destruct H as (A & B & C & D & E). repeat split; auto. rewrite E. cbn. ring.
Qed.
Lemma collect_linexps_fuel : forall in_c e coeffs vars k,
  collect_linexps in_c e coeffs vars k <> Err OutOfFuel.
Proof. intros. apply collect_fuel. cbn. lia. Qed.

Lemma mklinexp_ok : forall s fuel ds sort enc c0 c1 e0 e1 r,
  sorts sort -> fin_decls ds -> respects s ds ->
  (forall e, fin_lexp e -> fin_term (enc e) /\ tval s (enc e) = leval s e) ->
  fin c0 -> fin c1 -> fin_lexp e0 -> fin_lexp e1 ->
  mklinexp fuel ds sort enc c0 c1 e0 e1 = Ok r ->
  linexp_value s r = iv_v c0 * leval s e0 + iv_v c1 * leval s e1.
Proof.
  intros s fuel ds sort enc c0 c1 e0 e1 r Hs Fds R Henc F0 F1 Fe0 Fe1 H. unfold mklinexp in H.
  apply bind_ok in H. destruct H as (((co0, va0), k0) & H0 & H).
  apply bind_ok in H. destruct H as (((co1, va1), k1) & H1 & H).
  apply bind_ok in H. destruct H as (((coeffs, vars), kv) & H2 & H).
  apply (collect_linexps_ok s) in H0; auto using fin_0. destruct H0 as (A0 & B0 & C0 & D0 & E0).
  apply (collect_linexps_ok s) in H1; auto. destruct H1 as (A1 & B1 & C1 & D1 & E1).
  assert (Fx : Forall fin_term (map enc va1)).
  { apply Forall_forall. intros t Ht. apply in_map_iff in Ht. destruct Ht as (e & <- & He).
    rewrite Forall_forall in B1. apply Henc; auto. }
  apply (simplify_all s) in H2; auto; [|rewrite map_length; auto].
  destruct H2 as (V & Fc & Fd & L & _). specialize (V R).
  assert (V2 : lin_value s coeffs vars kv = iv_v c0 * leval s e0 + iv_v c1 * leval s e1).
  { rewrite V. unfold lin_value. rewrite map_map.
    assert (Em : map (fun x => tval s (enc x)) va1 = map (leval s) va1).
    { apply map_ext_in. intros e He. rewrite Forall_forall in B1. apply Henc; auto. }
    rewrite Em, E1, E0. cbn. ring. }
  destruct coeffs as [|c cs]; [inversion H; subst; cbn [linexp_value]; rewrite <- V2; unfold lin_value; cbn; reflexivity|].
  destruct vars as [|v vs]; [discriminate|].
  destruct ((length (c :: cs) =? 1)%nat && iv_eq c (ofZ 1) && iv_eq kv (ofZ 0)) eqn:Eb.
  - inversion H; subst. apply andb_prop in Eb. destruct Eb as [Eb E3]. apply andb_prop in Eb. destruct Eb as [E4 E5].
    apply Nat.eqb_eq in E4. destruct cs; [|discriminate]. destruct vs; [|discriminate].
    inversion Fc; subst. rewrite fin_iv_eq in E5, E3 by auto using fin_0, fin_1. cbn [ofZ iv_v] in *.
    cbn [linexp_value]. rewrite <- V2. unfold lin_value; cbn. assert (iv_v c = 1) by lia. assert (iv_v kv = 0) by lia.
    rewrite H0, H1. lia.
  - destruct (forallb isFinite (c :: cs)); inversion H; subst. exact V2.
Qed.

(** ** flatten_linexp_call *)
Lemma scale_all_ok : forall k l r, fin k -> Forall fin l -> scale_all k l = Ok r ->
  Forall fin r /\ map iv_v r = map (Z.mul (iv_v k)) (map iv_v l) /\ length r = length l.
Proof.
  intros k. induction l; intros r Fk Fl H; cbn in H.
  - inversion H; subst; auto.
  - apply bind_ok in H. destruct H as (p & Hp & H). apply bind_ok in H. destruct H as (q & Hq & H). inversion H; subst.
    inversion Fl; subst. destruct (fin_mul _ _ _ Fk H2 Hp). destruct (IHl _ Fk H3 Hq) as (A & B & C).
    cbn. repeat split; auto; congruence.
Qed.
Lemma inline_ok : forall s lin_def keep cs ts coeffv alv d co al d',
  (forall t c x e, lin_def t = Some (c, x, e) ->
      Forall fin c /\ Forall fin_term x /\ fin e /\ length c = length x /\ tval s t = lin_value s c x e) ->
  length cs = length ts -> Forall fin cs -> Forall fin_term ts ->
  Forall fin coeffv -> Forall fin_term alv -> fin d -> length coeffv = length alv ->
  inline_defs lin_def keep cs ts coeffv alv d = Ok (co, al, d') ->
  Forall fin co /\ Forall fin_term al /\ fin d' /\ length co = length al /\
  lin_value s co al d' = lin_value s coeffv alv d + dot (map iv_v cs) (map (tval s) ts).
Proof.
  intros s lin_def keep. induction cs; intros ts coeffv alv d co al d' HD Hl Fcs Fts Fc Fa Fd Hl2 H; destruct ts; try discriminate; cbn in H.
  - inversion H; subst. repeat split; auto. cbn. ring.
  - inversion Fcs; subst. inversion Fts; subst.
    destruct (if keep t then None else lin_def t) as [[[sc sx] sd]|] eqn:E.
    + destruct (keep t); [discriminate|]. destruct (HD _ _ _ _ E) as (G1 & G2 & G3 & G4 & G5).
      apply bind_ok in H. destruct H as (sc' & Hsc & H). apply bind_ok in H. destruct H as (p & Hp & H).
      apply bind_ok in H. destruct H as (d1 & Hd & H).
      destruct (scale_all_ok _ _ _ H2 G1 Hsc) as (S1 & S2 & S3).
      destruct (fin_mul _ _ _ H2 G3 Hp) as [Fp Ep]. destruct (fin_add_assign _ _ _ Fd Fp Hd) as [Fd1 Ed].
      apply IHcs in H; auto.
      * destruct H as (A & B & C & D & EV). repeat split; auto. rewrite EV. cbn [map dot].
        unfold lin_value. rewrite !map_app, dot_app by (rewrite !map_length; auto).
        rewrite S2, dot_scale, Ed, Ep, G5. unfold lin_value. ring.
      * apply Forall_app; auto.
      * apply Forall_app; auto.
      * rewrite !app_length; congruence.
    + apply IHcs in H; auto.
      * destruct H as (A & B & C & D & EV). repeat split; auto. rewrite EV. cbn [map dot].
        unfold lin_value. rewrite !map_app, dot_app by (rewrite !map_length; auto). cbn. ring.
      * apply Forall_app; auto.
      * apply Forall_app; auto.
      * rewrite !app_length; cbn; lia.
Qed.
Lemma linexp_call_ok : forall s fuel ds sort lin_def keep cs ts d r,
  sorts sort -> fin_decls ds -> respects s ds ->
  (forall t c x e, lin_def t = Some (c, x, e) ->
      Forall fin c /\ Forall fin_term x /\ fin e /\ length c = length x /\ tval s t = lin_value s c x e) ->
  length cs = length ts -> Forall fin cs -> Forall fin_term ts -> fin d ->
  flatten_linexp_call fuel ds sort lin_def keep cs ts d = Ok r ->
  linexp_value s r = lin_value s cs ts d.
Proof.
  intros s fuel ds sort lin_def keep cs ts d r Hs Fds R HD Hl Fcs Fts Fd H. unfold flatten_linexp_call in H.
  apply bind_ok in H. destruct H as (((co, al), d1) & H1 & H).
  apply bind_ok in H. destruct H as (((c, x), d') & H2 & H).
  apply (inline_ok s) in H1; auto. destruct H1 as (A & B & C & D & E).
  apply (simplify_all s) in H2; auto. destruct H2 as (V & Fc & Fd' & L & _). specialize (V R).
  assert (V2 : lin_value s c x d' = lin_value s cs ts d).
  { rewrite V, E. unfold lin_value. cbn. ring. }
  destruct c as [|c1 [|c2 c]]; [inversion H; subst; rewrite <- V2; unfold lin_value; cbn; reflexivity| |].
  - destruct x as [|x1 [|x2 x]]; try (inversion H; subst; exact V2).
    inversion Fc; subst. rewrite !fin_iv_eq in H by auto using fin_0, fin_1. cbn [ofZ iv_v] in H.
    destruct ((iv_v c1 =? 1) && (iv_v d' =? 0)) eqn:Eb; inversion H; subst; [|exact V2].
    rewrite <- V2. unfold lin_value; cbn. assert (iv_v c1 = 1) by lia. assert (iv_v d' = 0) by lia. rewrite H0, H1. lia.
  - destruct x as [|x1 x]; inversion H; subst; exact V2.
Qed.
