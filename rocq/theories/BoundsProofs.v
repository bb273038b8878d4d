(** Proofs about BoundsModel, part 1: arithmetic on bounds. *)
Require Import ZArith List Bool Lia ZifyBool.
From Verif Require Import Base IntValModel IntValSpec IntValProofs IntValPropProofs ArrModel SetModel SetSpec SetProofs SetProofs3 SetPropProofs
  LinModel LinSpec LinProofs LinProofs3 BoundsModel BoundsSpec.
Import ListNotations.
Open Scope Z_scope.

Definition okl (l : IntVal) : Prop := l = minus_infinity \/ fin l.
Definition oku (u : IntVal) : Prop := u = iv_infinity \/ fin u.
Definition lo (l : IntVal) (z : Z) : Prop := l = minus_infinity \/ (fin l /\ iv_v l <= z).
Definition hi (u : IntVal) (z : Z) : Prop := u = iv_infinity \/ (fin u /\ z <= iv_v u).
Definition okb (b : bnd) : Prop := okl (fst b) /\ oku (snd b).
Definition inb (b : bnd) (z : Z) : Prop := lo (fst b) z /\ hi (snd b) z.

Lemma nfm : ~ fin minus_infinity. Proof. intros H. vm_compute in H. discriminate. Qed.
Lemma nfp : ~ fin iv_infinity. Proof. intros H. vm_compute in H. discriminate. Qed.
Lemma inb_between : forall b z, inb b z -> between z (fst b) (snd b).
Proof.
  intros [l u] z [[->|[Fl Hl]] [->|[Fu Hu]]]; cbn [fst snd] in *; unfold between; unfold fin, is_int in *;
    repeat match goal with H : denote _ = _ |- _ => rewrite H; clear H end; do 2 eexists; repeat split; cbn; auto.
Qed.
Lemma between_inb : forall b z, okb b -> between z (fst b) (snd b) -> inb b z.
Proof.
  intros [l u] z [Hl Hu] (x & y & Hx & Hy & H1 & H2). cbn [fst snd] in *. split; cbn [fst snd].
  - destruct Hl as [->|F]; [left; reflexivity|]. right. split; auto. unfold fin, is_int in F. rewrite F in Hx. injection Hx as <-. exact H1.
  - destruct Hu as [->|F]; [left; reflexivity|]. right. split; auto. unfold fin, is_int in F. rewrite F in Hy. injection Hy as <-. exact H2.
Qed.
Lemma fin_lt_minf : forall x, fin x -> iv_lt x minus_infinity = false /\ iv_lt minus_infinity x = true /\ iv_lt x iv_infinity = true /\ iv_lt iv_infinity x = false.
Proof.
  intros x F. destruct (fin_inf _ F) as [E _]. unfold iv_lt, isPlusInfinity, isMinusInfinity, isFinite. rewrite E. cbn. auto.
Qed.

(** minimum of lower bounds; the accumulator may be +infinity *)
Lemma min_lo : forall a b, (a = iv_infinity \/ okl a) -> okl b ->
  okl (iv_min a b) /\ (forall z, lo a z \/ lo b z -> lo (iv_min a b) z).
Proof.
  intros a b Ha Hb. unfold iv_min.
  destruct Ha as [->|[->|Fa]].
  - destruct Hb as [->|Fb].
    + cbn. split; [left; auto|]. intros z _. left. auto.
    + destruct (fin_lt_minf b Fb) as (_ & _ & -> & _). split; [right; auto|]. intros z [[H|[H _]]|H]; auto; discriminate.
  - destruct Hb as [->|Fb].
    + cbn. split; [left; auto|]. intros z _. left. auto.
    + destruct (fin_lt_minf b Fb) as (-> & _). split; [left; auto|]. intros z _. left. auto.
  - destruct Hb as [->|Fb].
    + destruct (fin_lt_minf a Fa) as (_ & -> & _). split; [left; auto|]. intros z _. left. auto.
    + rewrite fin_iv_lt by auto. destruct (iv_v b <? iv_v a) eqn:E.
      * split; [right; auto|]. intros z [[->|[H1 H2]]|[->|[H1 H2]]]; try (exfalso; apply nfm; assumption); try (exfalso; apply nfp; assumption); right; split; auto; lia.
      * split; [right; auto|]. intros z [[->|[H1 H2]]|[->|[H1 H2]]]; try (exfalso; apply nfm; assumption); try (exfalso; apply nfp; assumption); right; split; auto; lia.
Qed.
Lemma max_hi : forall a b, (a = minus_infinity \/ oku a) -> oku b ->
  oku (iv_max a b) /\ (forall z, hi a z \/ hi b z -> hi (iv_max a b) z).
Proof.
  intros a b Ha Hb. unfold iv_max.
  destruct Ha as [->|[->|Fa]].
  - destruct Hb as [->|Fb].
    + cbn. split; [left; auto|]. intros z _. left. auto.
    + destruct (fin_lt_minf b Fb) as (_ & -> & _ & _). split; [right; auto|]. intros z [[H|[H _]]|H]; auto; discriminate.
  - destruct Hb as [->|Fb].
    + cbn. split; [left; auto|]. intros z _. left. auto.
    + destruct (fin_lt_minf b Fb) as (_ & _ & _ & ->). split; [left; auto|]. intros z _. left. auto.
  - destruct Hb as [->|Fb].
    + destruct (fin_lt_minf a Fa) as (_ & _ & -> & _). split; [left; auto|]. intros z _. left. auto.
    + rewrite fin_iv_lt by auto. destruct (iv_v a <? iv_v b) eqn:E.
      * split; [right; auto|]. intros z [[->|[H1 H2]]|[->|[H1 H2]]]; try (exfalso; apply nfm; assumption); try (exfalso; apply nfp; assumption); right; split; auto; lia.
      * split; [right; auto|]. intros z [[->|[H1 H2]]|[->|[H1 H2]]]; try (exfalso; apply nfm; assumption); try (exfalso; apply nfp; assumption); right; split; auto; lia.
Qed.
Lemma fin_min : forall a b, fin a -> fin b -> fin (iv_min a b) /\ iv_v (iv_min a b) = Z.min (iv_v a) (iv_v b).
Proof. intros a b Fa Fb. unfold iv_min. rewrite fin_iv_lt by auto. destruct (_ <? _) eqn:E; split; auto; lia. Qed.
Lemma fin_max : forall a b, fin a -> fin b -> fin (iv_max a b) /\ iv_v (iv_max a b) = Z.max (iv_v a) (iv_v b).
Proof. intros a b Fa Fb. unfold iv_max. rewrite fin_iv_lt by auto. destruct (_ <? _) eqn:E; split; auto; lia. Qed.
Lemma neg_l : forall x r, okl x -> iv_neg x = Ok r -> oku r /\ forall z, lo x z -> hi r (- z).
Proof.
  intros x r [->|F] H.
  - cbn in H. injection H as <-. split; [left; reflexivity|]. intros; left; reflexivity.
  - destruct (fin_neg _ _ F H) as [Fr E]. split; [right; auto|]. intros z [->|[_ L]]; [exfalso; first [apply nfm; assumption | apply nfp; assumption]|]. right. split; auto. lia.
Qed.
Lemma neg_u : forall x r, oku x -> iv_neg x = Ok r -> okl r /\ forall z, hi x z -> lo r (- z).
Proof.
  intros x r [->|F] H.
  - cbn in H. injection H as <-. split; [left; reflexivity|]. intros; left; reflexivity.
  - destruct (fin_neg _ _ F H) as [Fr E]. split; [right; auto|]. intros z [->|[_ L]]; [exfalso; first [apply nfm; assumption | apply nfp; assumption]|]. right. split; auto. lia.
Qed.
Lemma fin_finite : forall x, okl x \/ oku x -> isFinite x = true -> fin x.
Proof. intros x [[->|F]|[->|F]] H; auto; discriminate. Qed.
Lemma inb_fin : forall b z, fin (fst b) -> fin (snd b) -> (inb b z <-> iv_v (fst b) <= z <= iv_v (snd b)).
Proof.
  intros b z F1 F2. unfold inb, lo, hi. split.
  - intros [[H|H] [K|K]]; try (exfalso; rewrite H in F1; apply nfm; assumption); try (exfalso; rewrite K in F2; apply nfp; assumption). lia.
  - intros [H1 H2]. auto.
Qed.
Lemma fin_ok : forall b, fin (fst b) -> fin (snd b) -> okb b.
Proof. intros b F1 F2. split; right; auto. Qed.

(** products of intervals *)
Lemma prod_range : forall a b c d x y, a <= x <= b -> c <= y <= d ->
  Z.min (a * c) (Z.min (a * d) (Z.min (b * c) (b * d))) <= x * y <= Z.max (a * c) (Z.max (a * d) (Z.max (b * c) (b * d))).
Proof.
  intros a b c d x y Hx Hy.
  destruct (Z.le_ge_cases 0 y) as [Sy|Sy].
  - assert (a * y <= x * y <= b * y) by nia.
    assert (Z.min (a * c) (a * d) <= a * y) by (destruct (Z.le_ge_cases 0 a); nia).
    assert (b * y <= Z.max (b * c) (b * d)) by (destruct (Z.le_ge_cases 0 b); nia). lia.
  - assert (b * y <= x * y <= a * y) by nia.
    assert (Z.min (b * c) (b * d) <= b * y) by (destruct (Z.le_ge_cases 0 b); nia).
    assert (a * y <= Z.max (a * c) (a * d)) by (destruct (Z.le_ge_cases 0 a); nia). lia.
Qed.
Lemma corners_fin : forall (f : IntVal -> IntVal -> res IntVal) (g : Z -> Z -> Z) a b c d r,
  (forall x y s, fin x -> fin y -> f x y = Ok s -> fin s /\ iv_v s = g (iv_v x) (iv_v y)) ->
  fin a -> fin b -> fin c -> fin d -> corners f a b c d = Ok r ->
  let a := iv_v a in let b := iv_v b in let c := iv_v c in let d := iv_v d in
  fin (fst r) /\ fin (snd r) /\
  iv_v (fst r) = Z.min (g a c) (Z.min (g a d) (Z.min (g b c) (g b d))) /\
  iv_v (snd r) = Z.max (g a c) (Z.max (g a d) (Z.max (g b c) (g b d))).
Proof.
  intros f g a b c d r Hf Fa Fb Fc Fd H. unfold corners in H.
  apply bind_ok in H. destruct H as (x0 & E0 & H). apply bind_ok in H. destruct H as (x1 & E1 & H).
  apply bind_ok in H. destruct H as (x2 & E2 & H). apply bind_ok in H. destruct H as (x3 & E3 & H). injection H as <-. cbn [fst snd].
  apply Hf in E0, E1, E2, E3; auto. destruct E0 as [F0 V0], E1 as [F1 V1], E2 as [F2 V2], E3 as [F3 V3].
  unfold min4, max4.
  destruct (fin_min x2 x3 F2 F3) as [G1 W1]. destruct (fin_min x1 _ F1 G1) as [G2 W2]. destruct (fin_min x0 _ F0 G2) as [G3 W3].
  destruct (fin_max x2 x3 F2 F3) as [H1 U1]. destruct (fin_max x1 _ F1 H1) as [H2 U2]. destruct (fin_max x0 _ F0 H2) as [H3 U3].
  cbv zeta. split; [exact G3|split; [exact H3|]]. rewrite W3, W2, W1, U3, U2, U1, V0, V1, V2, V3. split; reflexivity.
Qed.
Lemma mul_corners : forall b0 b1 r, fin (fst b0) -> fin (snd b0) -> fin (fst b1) -> fin (snd b1) ->
  corners iv_mul (fst b0) (snd b0) (fst b1) (snd b1) = Ok r -> okb r /\ forall x y, inb b0 x -> inb b1 y -> inb r (x * y).
Proof.
  intros b0 b1 r F1 F2 F3 F4 H.
  destruct (corners_fin iv_mul Z.mul _ _ _ _ _ fin_mul F1 F2 F3 F4 H) as (G1 & G2 & E1 & E2).
  split; [apply fin_ok; auto|]. intros x y Hx Hy. apply inb_fin in Hx, Hy; auto. apply inb_fin; auto. rewrite E1, E2. apply prod_range; auto.
Qed.
(** quotients *)
Lemma fin_div : forall x y r, fin x -> fin y -> iv_div x y = Ok r -> fin r /\ iv_v r = Z.quot (iv_v x) (iv_v y).
Proof. intros x y r Fx Fy H. destruct (C51_div_never_wrong_l _ _ _ _ _ Fx Fy H) as [_ E]. apply is_int_fin in E. exact E. Qed.
Lemma quot_mono : forall a b y, 0 < y -> a <= b -> Z.quot a y <= Z.quot b y.
Proof. intros. apply Z.quot_le_mono; lia. Qed.
(* for y > 0: x quot y lies between the quotients by the ends of any positive interval around y *)
Lemma quot_pos : forall x c d y, 0 < c -> c <= y <= d -> Z.min (Z.quot x c) (Z.quot x d) <= Z.quot x y <= Z.max (Z.quot x c) (Z.quot x d).
Proof.
  intros x c d y Hc Hy. destruct (Z.le_ge_cases 0 x) as [Hx|Hx].
  - assert (A : Z.quot x d <= Z.quot x y) by (apply Z.quot_le_compat_l; lia).
    assert (B : Z.quot x y <= Z.quot x c) by (apply Z.quot_le_compat_l; lia). lia.
  - assert (E : forall k, 0 < k -> Z.quot x k = - Z.quot (- x) k) by (intros k Hk; rewrite Z.quot_opp_l by lia; lia).
    rewrite !E by lia.
    assert (A : Z.quot (- x) d <= Z.quot (- x) y) by (apply Z.quot_le_compat_l; lia).
    assert (B : Z.quot (- x) y <= Z.quot (- x) c) by (apply Z.quot_le_compat_l; lia). lia.
Qed.
Lemma quot_range : forall a b c d x y, 0 < c -> a <= x <= b -> c <= y <= d ->
  Z.min (Z.quot a c) (Z.min (Z.quot a d) (Z.min (Z.quot b c) (Z.quot b d))) <= Z.quot x y <=
  Z.max (Z.quot a c) (Z.max (Z.quot a d) (Z.max (Z.quot b c) (Z.quot b d))).
Proof.
  intros a b c d x y Hc Hx Hy.
  assert (Z.quot a y <= Z.quot x y) by (apply quot_mono; lia). assert (Z.quot x y <= Z.quot b y) by (apply quot_mono; lia).
  pose proof (quot_pos a c d y Hc Hy). pose proof (quot_pos b c d y Hc Hy). lia.
Qed.
Lemma quot_range_neg : forall a b c d x y, d < 0 -> a <= x <= b -> c <= y <= d ->
  Z.min (Z.quot a c) (Z.min (Z.quot a d) (Z.min (Z.quot b c) (Z.quot b d))) <= Z.quot x y <=
  Z.max (Z.quot a c) (Z.max (Z.quot a d) (Z.max (Z.quot b c) (Z.quot b d))).
Proof.
  intros a b c d x y Hd Hx Hy.
  pose proof (quot_range a b (- d) (- c) x (- y) ltac:(lia) Hx ltac:(lia)) as Q.
  rewrite !Z.quot_opp_r in Q by lia. lia.
Qed.
Lemma nz_first_v : forall x, fin x -> fin (nz_first x) /\ iv_v (nz_first x) = if iv_v x =? 0 then 1 else iv_v x.
Proof. intros x F. unfold nz_first. rewrite fin_iv_eq by auto using fin_0. cbn. destruct (iv_v x =? 0); auto using fin_1. Qed.
Lemma nz_second_v : forall x, fin x -> fin (nz_second x) /\ iv_v (nz_second x) = if iv_v x =? 0 then -1 else iv_v x.
Proof. intros x F. unfold nz_second. rewrite fin_iv_eq by auto using fin_0. cbn. destruct (iv_v x =? 0); auto using fin_m1. Qed.
Lemma div_corners : forall b0 b1 r, fin (fst b0) -> fin (snd b0) -> fin (fst b1) -> fin (snd b1) ->
  iv_v (fst b0) <> 0 -> iv_v (snd b0) <> 0 -> 0 <= iv_v (fst b1) \/ iv_v (snd b1) <= 0 ->
  corners iv_div (nz_first (fst b0)) (nz_second (snd b0)) (nz_first (fst b1)) (nz_second (snd b1)) = Ok r ->
  okb r /\ forall x y, inb b0 x -> inb b1 y -> y <> 0 -> inb r (Z.quot x y).
Proof.
  intros b0 b1 r F1 F2 F3 F4 N1 N2 D H.
  destruct (nz_first_v _ F1) as [G1 V1]. destruct (nz_second_v _ F2) as [G2 V2].
  destruct (nz_first_v _ F3) as [G3 V3]. destruct (nz_second_v _ F4) as [G4 V4].
  destruct (corners_fin iv_div Z.quot _ _ _ _ _ fin_div G1 G2 G3 G4 H) as (K1 & K2 & E1 & E2).
  split; [apply fin_ok; auto|]. intros x y Hx Hy Ny. apply inb_fin in Hx, Hy; auto. apply inb_fin; auto. rewrite E1, E2.
  replace (iv_v (fst b0) =? 0) with false in V1 by lia. replace (iv_v (snd b0) =? 0) with false in V2 by lia. rewrite V1, V2.
  destruct D as [D|D].
  - assert (S : iv_v (snd b1) =? 0 = false) by lia. rewrite S in V4. rewrite V4, V3.
    apply quot_range; auto; destruct (iv_v (fst b1) =? 0) eqn:E; lia.
  - assert (S : iv_v (fst b1) =? 0 = false) by lia. rewrite S in V3. rewrite V3, V4.
    apply quot_range_neg; auto; destruct (iv_v (snd b1) =? 0) eqn:E; lia.
Qed.
(** bounds of sets *)
Lemma set_bounds : forall s, nf s -> s <> [] -> okb (set_min s, set_max s) /\ forall z, elem z s -> inb (set_min s, set_max s) z.
Proof.
  intros s N NE.
  assert (LI : forall (l : list bnd) p, In (last (p :: l) zero_b) (p :: l)).
  { induction l as [|q l IH]; intros p; [left; reflexivity|]. change (last (p :: q :: l) zero_b) with (last (q :: l) zero_b). right. apply IH. }
  assert (G : forall r, In r s -> exists z, between z (fst r) (snd r)).
  { clear - N. induction N; intros q Hq; [destruct Hq| |].
    - destruct Hq as [<-|[]]. exact H.
    - destruct Hq as [<-|Hq]; auto. }
  assert (OL : forall r, In r s -> okl (fst r) /\ oku (snd r)).
  { intros r Hr. destruct (G r Hr) as (z & x & y & Dx & Dy & H1 & H2).
    assert (FF : forall w e, denote w = Some (Fin e) -> fin w). { intros w e He. apply is_int_fin with (z := e). exact He. }
    split.
    - destruct x; cbn in H1; [left|right; eauto|destruct H1]. eapply denote_inj; [exact Dx|reflexivity].
    - destruct y; cbn in H2; [destruct H2|right; eauto|left]. eapply denote_inj; [exact Dy|reflexivity]. }
  destruct s as [|r0 s]; [congruence|].
  assert (OK : okb (set_min (r0 :: s), set_max (r0 :: s))).
  { split; cbn [fst snd]; [apply (OL r0); left; reflexivity|]. unfold set_max. apply OL. apply LI. }
  split; [exact OK|]. intros z E. apply between_inb; [exact OK|]. cbn [fst snd].
  destruct (Bz_ok z) as [HB Hz]. pose proof (proj1 (elem_k _ z N) E) as M. pose proof (nf_nfk _ HB _ N) as NK.
  pose proof (nf_wfs _ N) as W.
  apply (between_k _ HB z _ _ Hz). split; [apply (W r0); left; reflexivity|]. split; [apply (W (last (r0 :: s) zero_b)); apply LI|].
  split; [|exact (memk_last _ _ _ _ HB NK M zero_b)].
  unfold set_min. cbn [hd]. cbn in NK. destruct NK as (O & L1 & NK). destruct M as [M|M]; [lia|].
  apply (memk_lo (Bz z)) with (lo := key (Bz z) (snd r0) + 2) in M; auto. unfold okr in O. lia.
Qed.
