Require Import ZArith List Bool Lia ZifyBool.
From Verif Require Import Base IntValModel IntValSpec.
Import ListNotations.
Open Scope Z_scope.
Ltac Zify.zify_post_hook ::= Z.div_mod_to_equations.

Lemma ll_ok : forall z, fits64 z -> ll z = Ok z.
Proof. unfold ll, fits64b, fits64; intros. replace (_ && _) with true by lia. reflexivity. Qed.

Lemma ll_inv : forall z r, ll z = Ok r -> r = z /\ fits64 z.
Proof. unfold ll, fits64b, fits64; intros z r. destruct (_ && _) eqn:E; intros H; inversion H; subst; lia. Qed.

Lemma is_int_iff : forall x z, is_int x z <-> x = ofZ z /\ fits64 z.
Proof.
  intros [v i] z; unfold is_int, denote, ofZ, fits64; cbn.
  destruct i.
  - destruct (v =? 1); [split; [discriminate | intros [H _]; discriminate]|].
    destruct (v =? -1); split; try discriminate; intros [H _]; discriminate.
  - destruct (_ && _) eqn:E; split; try discriminate.
    + intros H; inversion H; subst; split; [reflexivity | lia].
    + intros [H _]; inversion H; reflexivity.
    + intros [H H']; inversion H; subst; lia.
Qed.

Lemma is_int_ofZ : forall z, fits64 z -> is_int (ofZ z) z.
Proof. intros; apply is_int_iff; auto. Qed.

Lemma safePlus_spec : forall x y, fits64 x -> fits64 y ->
  safePlus x y = if fits64b (x + y) then Ok (x + y) else Err ArithmeticError.
Proof.
  intros x y Hx Hy; unfold safePlus, ll, fits64b, fits64, LLONG_MIN, LLONG_MAX in *.
  repeat match goal with |- context [if ?b then _ else _] => destruct b eqn:?; cbn [bind] end;
    try reflexivity; try lia.
Qed.

Lemma safeMinus_spec : forall x y, fits64 x -> fits64 y ->
  safeMinus x y = if fits64b (x - y) then Ok (x - y) else Err ArithmeticError.
Proof.
  intros x y Hx Hy; unfold safeMinus, ll, fits64b, fits64, LLONG_MIN, LLONG_MAX in *.
  repeat match goal with |- context [if ?b then _ else _] => destruct b eqn:?; cbn [bind] end;
    try reflexivity; try lia.
Qed.

Lemma quot_abs_gt : forall m x y, 0 <= m -> 0 <= x -> 0 < y ->
  (x >? Z.quot m y) = (x * y >? m).
Proof.
  intros m x y Hm Hx Hy.
  rewrite Z.quot_div_nonneg by lia.
  pose proof (Z.div_mod m y ltac:(lia)) as E.
  pose proof (Z.mod_pos_bound m y Hy) as B.
  set (q := m / y) in *. set (r := m mod y) in *. clearbody q r.
  destruct (x >? q) eqn:E1; destruct (x * y >? m) eqn:E2; try reflexivity; exfalso.
  - assert (q + 1 <= x) by lia. assert ((q+1)*y <= x*y) by nia. nia.
  - assert (x <= q) by lia. assert (x*y <= q*y) by nia. nia.
Qed.

Lemma safeMult_spec : forall x y, fits64 x -> fits64 y -> x <> LLONG_MIN -> y <> LLONG_MIN ->
  safeMult x y = if Z.abs (x * y) <=? LLONG_MAX then Ok (x * y) else Err ArithmeticError.
Proof.
  intros x y Hx Hy Nx Ny; unfold safeMult.
  destruct (y =? 0) eqn:E0.
  { assert (y = 0) by lia; subst. rewrite Z.mul_0_r. reflexivity. }
  replace (if x <? 0 then ll (0 - x) else Ok x) with (Ok (Z.abs x)).
  2:{ destruct (x <? 0) eqn:E; [rewrite ll_ok; [f_equal; lia|]; unfold fits64, LLONG_MIN, LLONG_MAX in *; lia | f_equal; lia]. }
  replace (if y <? 0 then ll (0 - y) else Ok y) with (Ok (Z.abs y)).
  2:{ destruct (y <? 0) eqn:E; [rewrite ll_ok; [f_equal; lia|]; unfold fits64, LLONG_MIN, LLONG_MAX in *; lia | f_equal; lia]. }
  cbn [bind].
  rewrite quot_abs_gt by (unfold LLONG_MAX; lia).
  rewrite Z.abs_mul.
  destruct (Z.abs x * Z.abs y >? LLONG_MAX) eqn:E.
  - replace (_ <=? _) with false by lia; reflexivity.
  - replace (_ <=? _) with true by lia. apply ll_ok.
    assert (Z.abs (x * y) <= LLONG_MAX) by (rewrite Z.abs_mul; lia).
    unfold fits64, LLONG_MIN, LLONG_MAX in *; lia.
Qed.

Lemma safeMult_ok_inv : forall x y r, safeMult x y = Ok r -> r = x * y.
Proof.
  intros x y r; unfold safeMult.
  destruct (y =? 0) eqn:E0; [intros H; inversion H; subst; nia|].
  intros H. apply bind_ok in H; destruct H as (xa & _ & H).
  apply bind_ok in H; destruct H as (ya & _ & H).
  destruct (_ >? _); [discriminate|].
  apply ll_inv in H; tauto.
Qed.

(** safeMult is undefined exactly when an operand is LLONG_MIN and the second one is not 0 *)
Lemma safeMult_ub : forall x y, fits64 x -> fits64 y ->
  (safeMult x y = UB <-> y <> 0 /\ (x = LLONG_MIN \/ y = LLONG_MIN)).
Proof.
  intros x y Hx Hy.
  destruct (Z.eq_dec x LLONG_MIN) as [->|Nx].
  { destruct (Z.eq_dec y 0) as [->|Ny]; [split; [discriminate | tauto]|].
    unfold safeMult. replace (y =? 0) with false by lia. cbn. tauto. }
  destruct (Z.eq_dec y LLONG_MIN) as [->|Ny].
  { unfold safeMult. cbn -[Z.quot].
    split; [intros _; split; [discriminate | tauto]|intros _].
    destruct (x <? 0) eqn:E; [|reflexivity].
    rewrite ll_ok; [reflexivity|]. unfold fits64, LLONG_MIN, LLONG_MAX in *; lia. }
  rewrite safeMult_spec by assumption.
  destruct (_ <=? _); split; try discriminate; tauto.
Qed.

Lemma safeDiv_spec : forall x y, fits64 x -> fits64 y ->
  safeDiv x y = if y =? 0 then Err ArithmeticError
                else if fits64b (Z.quot x y) then Ok (Z.quot x y) else Err ArithmeticError.
Proof.
  intros x y Hx Hy; unfold safeDiv.
  destruct (y =? 0) eqn:E0; [reflexivity|].
  destruct (x =? 0) eqn:Ex.
  { assert (x = 0) by lia; subst. rewrite Z.quot_0_l by lia. reflexivity. }
  destruct ((x =? LLONG_MIN) && (y =? -1)) eqn:E.
  { assert (x = LLONG_MIN /\ y = -1) by lia. destruct H; subst; reflexivity. }
  assert (F : fits64 (Z.quot x y)).
  { assert (A : Z.abs (Z.quot x y) * Z.abs y <= Z.abs x).
    { rewrite <- Z.abs_mul. rewrite Z.mul_comm.
      pose proof (Z.mul_quot_le (Z.abs x) (Z.abs y) ltac:(lia) ltac:(lia)).
      rewrite Z.abs_mul. rewrite <- Z.quot_abs by lia. lia. }
    unfold fits64, LLONG_MIN, LLONG_MAX in *.
    destruct (Z.eq_dec (Z.abs y) 1) as [Y|Y].
    - assert (y = 1 \/ y = -1) as [->| ->] by lia.
      + rewrite Z.quot_1_r. lia.
      + replace (-1) with (- (1)) by reflexivity.
        rewrite Z.quot_opp_r by lia. rewrite Z.quot_1_r. lia.
    - assert (2 <= Z.abs y) by lia.
      assert (Z.abs (x ÷ y) * 2 <= Z.abs x) by nia. lia. }
  rewrite ll_ok by exact F.
  unfold fits64b, fits64 in *. replace (_ && _) with true by lia. reflexivity.
Qed.

Lemma safeMod_spec : forall x y, fits64 x -> fits64 y ->
  safeMod x y = if y =? 0 then Err ArithmeticError else Ok (Z.rem x y).
Proof.
  intros x y Hx Hy; unfold safeMod.
  destruct (y =? 0) eqn:E0; [reflexivity|].
  destruct (y =? -1) eqn:E1.
  { assert (y = -1) by lia; subst. f_equal.
    replace (-1) with (- (1)) by reflexivity.
    rewrite Z.rem_opp_r by lia. rewrite Z.rem_1_r. reflexivity. }
  unfold ll_rem. rewrite E1, andb_false_r.
  apply ll_ok.
  assert (Z.abs (Z.rem x y) < Z.abs y).
  { rewrite <- Z.rem_abs by lia. apply Z.rem_bound_pos; lia. }
  unfold fits64, LLONG_MIN, LLONG_MAX in *; lia.
Qed.

Definition outcome (b : bool) (z : Z) : res IntVal := if b then Ok (ofZ z) else Err ArithmeticError.

Lemma iv_add_spec : forall x y a b, is_int x a -> is_int y b ->
  iv_add x y = outcome (fits64b (a + b)) (a + b).
Proof.
  intros x y a b Hx Hy. apply is_int_iff in Hx, Hy. destruct Hx as [-> Hx], Hy as [-> Hy].
  unfold iv_add, finite2, outcome; cbn. rewrite safePlus_spec by assumption. destruct (fits64b _); reflexivity.
Qed.
Lemma iv_sub_spec : forall x y a b, is_int x a -> is_int y b ->
  iv_sub x y = outcome (fits64b (a - b)) (a - b).
Proof.
  intros x y a b Hx Hy. apply is_int_iff in Hx, Hy. destruct Hx as [-> Hx], Hy as [-> Hy].
  unfold iv_sub, finite2, outcome; cbn. rewrite safeMinus_spec by assumption. destruct (fits64b _); reflexivity.
Qed.
Lemma iv_mul_spec : forall x y a b, is_int x a -> is_int y b -> a <> LLONG_MIN -> b <> LLONG_MIN ->
  iv_mul x y = outcome (Z.abs (a * b) <=? LLONG_MAX) (a * b).
Proof.
  intros x y a b Hx Hy Na Nb. apply is_int_iff in Hx, Hy. destruct Hx as [-> Hx], Hy as [-> Hy].
  unfold iv_mul, outcome; cbn. rewrite safeMult_spec by assumption. destruct (_ <=? _); reflexivity.
Qed.
Lemma iv_neg_spec : forall x a, is_int x a ->
  iv_neg x = outcome (fits64b (- a)) (- a).
Proof.
  intros x a Hx. apply is_int_iff in Hx. destruct Hx as [-> Hx].
  unfold iv_neg, outcome; cbn [ofZ iv_v iv_inf]. rewrite safeMinus_spec; [|unfold fits64, LLONG_MIN, LLONG_MAX; lia|assumption].
  replace (0 - a) with (- a) by lia. destruct (fits64b _); reflexivity.
Qed.
Lemma iv_div_spec : forall x y a b, is_int x a -> is_int y b -> (a = LLONG_MIN -> b <> 1 /\ b <> -1) ->
  iv_div x y = outcome (negb (b =? 0)) (Z.quot a b).
Proof.
  intros x y a b Hx Hy N. apply is_int_iff in Hx, Hy. destruct Hx as [-> Hx], Hy as [-> Hy].
  unfold iv_div, outcome; cbn.
  destruct ((b =? 1) || (b =? -1)) eqn:E.
  - rewrite safeMult_spec; try assumption.
    2:{ intros ->. destruct (N eq_refl). lia. }
    2:{ unfold LLONG_MIN; lia. }
    replace (b =? 0) with false by lia.
    assert (a <> LLONG_MIN) by (intros ->; destruct (N eq_refl); lia).
    assert (Q : Z.quot a b = a * b).
    { assert (b = 1 \/ b = -1) as [->| ->] by lia.
      - rewrite Z.quot_1_r; lia.
      - replace (-1) with (- (1)) by reflexivity. rewrite Z.quot_opp_r by lia. rewrite Z.quot_1_r. lia. }
    rewrite Q. unfold fits64, LLONG_MIN, LLONG_MAX in *.
    replace (Z.abs (a * b) <=? _) with true.
    2:{ assert (b = 1 \/ b = -1) as [->| ->]; lia. }
    reflexivity.
  - unfold finite2; cbn. rewrite safeDiv_spec by assumption.
    destruct (b =? 0) eqn:B0; [reflexivity|].
    replace (fits64b (a ÷ b)) with true; [reflexivity|].
    symmetry. unfold fits64b, fits64 in *.
    assert (A : Z.abs (Z.quot a b) * Z.abs b <= Z.abs a).
    { pose proof (Z.mul_quot_le (Z.abs a) (Z.abs b) ltac:(lia) ltac:(lia)).
      rewrite <- Z.quot_abs by lia. lia. }
    assert (2 <= Z.abs b) by lia.
    assert (Z.abs (a ÷ b) * 2 <= Z.abs a) by nia.
    unfold LLONG_MIN, LLONG_MAX in *; lia.
Qed.
Lemma iv_mod_spec : forall x y a b, is_int x a -> is_int y b ->
  iv_mod x y = outcome (negb (b =? 0)) (Z.rem a b).
Proof.
  intros x y a b Hx Hy. apply is_int_iff in Hx, Hy. destruct Hx as [-> Hx], Hy as [-> Hy].
  unfold iv_mod, finite2, outcome; cbn. rewrite safeMod_spec by assumption. destruct (b =? 0); reflexivity.
Qed.

(** * Comparisons *)

(** embedding of well-formed values into Z with the infinities at distance B *)
Definition key (B : Z) (x : IntVal) : Z := if iv_inf x then iv_v x * B else iv_v x.

Definition wfv (x : IntVal) : Prop :=
  if iv_inf x then iv_v x = 1 \/ iv_v x = -1 else fits64 (iv_v x).

Lemma wf_wfv : forall x, wf x <-> wfv x.
Proof.
  intros [v i]; unfold wf, wfv, denote, fits64; cbn. destruct i.
  - destruct (v =? 1) eqn:E1; [|destruct (v =? -1) eqn:E2]; split; intros; try (eexists; reflexivity); try lia.
    destruct H; discriminate.
  - destruct (_ && _) eqn:E; split; intros; try (eexists; reflexivity); try lia.
    destruct H; discriminate.
Qed.

Definition BIG : Z := 2 * (LLONG_MAX + 2).

Ltac cmp_key :=
  intros B [v i] [w j] Hx Hy HB;
  unfold wfv, key, iv_le, iv_lt, iv_eq, isPlusInfinity, isMinusInfinity, isFinite, fits64 in *; cbn in *;
  unfold BIG, LLONG_MIN, LLONG_MAX in *; destruct i, j; cbn in *; try lia.

Lemma iv_le_key : forall B x y, wfv x -> wfv y -> BIG <= B -> iv_le x y = (key B x <=? key B y).
Proof. cmp_key. Qed.
Lemma iv_lt_key : forall B x y, wfv x -> wfv y -> BIG <= B -> iv_lt x y = (key B x <? key B y).
Proof. cmp_key. Qed.
Lemma iv_eq_key : forall B x y, wfv x -> wfv y -> BIG <= B -> iv_eq x y = (key B x =? key B y).
Proof. cmp_key. Qed.
Lemma key_inj : forall B x y, wfv x -> wfv y -> BIG <= B -> key B x = key B y -> x = y.
Proof. cmp_key; intros; f_equal; lia. Qed.

Lemma iv_eq_iff : forall x y, iv_eq x y = true <-> x = y.
Proof.
  intros [v i] [w j]; unfold iv_eq; cbn. split.
  - intros H. apply andb_true_iff in H. destruct H as [H1 H2]. apply eqb_prop in H1. f_equal; lia || auto.
  - intros H; inversion H; subst. rewrite eqb_reflx, Z.eqb_refl. reflexivity.
Qed.

Lemma iv_le_denote : forall x y a b, denote x = Some a -> denote y = Some b ->
  (iv_le x y = true <-> ext_le a b).
Proof.
  intros [v i] [w j] a b; unfold denote, iv_le, isPlusInfinity, isMinusInfinity, isFinite; cbn.
  destruct i, j; cbn;
  repeat match goal with |- context [if ?c then _ else _] => destruct c eqn:? end; intros H1 H2;
  inversion H1; inversion H2; subst; cbn; split; intros; try lia; try exact I; try contradiction.
Qed.
Lemma denote_inj : forall x y a, denote x = Some a -> denote y = Some a -> x = y.
Proof.
  intros [v i] [w j] a; unfold denote; cbn.
  destruct i, j; 
  repeat match goal with |- context [if ?c then _ else _] => destruct c eqn:? end; intros H1 H2;
  inversion H1; subst; inversion H2; subst; f_equal; lia.
Qed.
Lemma iv_lt_le : forall x y, wfv x -> wfv y -> iv_lt x y = iv_le x y && negb (iv_eq x y).
Proof.
  intros x y Hx Hy. rewrite (iv_lt_key BIG), (iv_le_key BIG), (iv_eq_key BIG) by (assumption || lia). lia.
Qed.

(** * pow *)
Lemma mul_assign_spec : forall x y a b, is_int x a -> is_int y b -> a <> LLONG_MIN -> b <> LLONG_MIN ->
  mul_assign x y = outcome (Z.abs (a * b) <=? LLONG_MAX) (a * b).
Proof.
  intros x y a b Hx Hy Na Nb. apply is_int_iff in Hx, Hy. destruct Hx as [-> Hx], Hy as [-> Hy].
  unfold mul_assign, finite2, outcome; cbn. rewrite safeMult_spec by assumption. destruct (_ <=? _); reflexivity.
Qed.

Lemma abs_pow_ge : forall a n, Z.abs (a ^ Z.of_nat n) <= Z.abs (a ^ Z.of_nat (S n)) \/ a = 0.
Proof.
  intros a n. destruct (Z.eq_dec a 0); [right; assumption|left].
  rewrite Nat2Z.inj_succ, Z.pow_succ_r by lia. rewrite Z.abs_mul.
  assert (1 <= Z.abs a) by lia. pose proof (Z.abs_nonneg (a ^ Z.of_nat n)). nia.
Qed.

Lemma abs_pow_mono : forall a (n m : nat), a <> 0 -> (n <= m)%nat ->
  Z.abs (a ^ Z.of_nat n) <= Z.abs (a ^ Z.of_nat m).
Proof.
  intros a n m Ha H. induction H; [lia|].
  destruct (abs_pow_ge a m); [lia|contradiction].
Qed.

Lemma pow2_big : forall a (k : nat), 2 <= Z.abs a -> (63 <= k)%nat -> LLONG_MAX < Z.abs (a ^ Z.of_nat k).
Proof.
  intros a k Ha Hk. rewrite Z.abs_pow.
  apply Z.lt_le_trans with (2 ^ 63); [reflexivity|].
  apply Z.le_trans with (2 ^ Z.of_nat k).
  - apply Z.pow_le_mono_r; lia.
  - apply Z.pow_le_mono_l; lia.
Qed.

(** loop invariant: before iteration i the accumulator is a^i *)
Lemma pow_loop_spec : forall a, fits64 a -> a <> LLONG_MIN ->
  forall rem i, (2 <= Z.abs a \/ Z.of_nat (i + rem) <= INT_MAX) ->
  (0 <= Z.of_nat i <= INT_MAX) ->
  Z.abs (a ^ Z.of_nat i) <= LLONG_MAX ->
  pow_loop rem (Z.of_nat i) (ofZ (a ^ Z.of_nat i)) (ofZ a) =
  outcome (Z.abs (a ^ Z.of_nat (i + rem)) <=? LLONG_MAX) (a ^ Z.of_nat (i + rem)).
Proof.
  intros a Fa Na. induction rem as [|rem IH]; intros i Hb Hi Hacc; cbn [pow_loop].
  - rewrite Nat.add_0_r. unfold outcome. replace (_ <=? _) with true by lia. reflexivity.
  - assert (A1 : is_int (ofZ (a ^ Z.of_nat i)) (a ^ Z.of_nat i)).
    { apply is_int_ofZ. unfold fits64, LLONG_MIN, LLONG_MAX in *; lia. }
    rewrite (mul_assign_spec _ _ _ a A1 (is_int_ofZ a Fa)); [| unfold LLONG_MIN, LLONG_MAX in *; lia | assumption].
    assert (P : a ^ Z.of_nat i * a = a ^ Z.of_nat (S i)).
    { rewrite Nat2Z.inj_succ, Z.pow_succ_r by lia. lia. }
    rewrite P. unfold outcome at 1.
    destruct (Z.abs (a ^ Z.of_nat (S i)) <=? LLONG_MAX) eqn:E; cbn [bind].
    + assert (Hlt : Z.of_nat i <> INT_MAX).
      { destruct Hb as [H2|H2]; [|lia]. intros HI.
        assert (63 <= S i)%nat by (unfold INT_MAX in *; lia).
        pose proof (pow2_big a (S i) H2 H). lia. }
      replace (Z.of_nat i =? INT_MAX) with false by lia.
      replace (Z.of_nat i + 1) with (Z.of_nat (S i)) by lia.
      rewrite IH; [|destruct Hb; [left; assumption|right; lia]|lia|lia].
      replace (S i + rem)%nat with (i + S rem)%nat by lia. reflexivity.
    + unfold outcome.
      assert (a <> 0). { intros ->. rewrite Z.pow_0_l in E by lia. cbv in E. discriminate. }
      pose proof (abs_pow_mono a (S i) (i + S rem) H ltac:(lia)).
      replace (_ <=? _) with false by lia. reflexivity.
Qed.

Lemma iv_pow_spec : forall x e a b, is_int x a -> is_int e b -> a <> LLONG_MIN -> 0 <= b ->
  (2 <= Z.abs a \/ b <= INT_MAX) ->
  iv_pow x e = outcome (Z.abs (a ^ b) <=? LLONG_MAX) (a ^ b).
Proof.
  intros x e a b Hx He Na Hb H. apply is_int_iff in Hx, He. destruct Hx as [-> Hx], He as [-> He].
  unfold iv_pow, iv_eq; cbn -[pow_loop].
  destruct (b =? 0) eqn:E0. { assert (b = 0) by lia; subst. reflexivity. }
  destruct (b =? 1) eqn:E1.
  { assert (b = 1) by lia; subst. rewrite Z.pow_1_r. unfold outcome.
    unfold fits64, LLONG_MIN, LLONG_MAX in *. replace (_ <=? _) with true by lia. reflexivity. }
  replace (b <? 0) with false by lia.
  pose proof (pow_loop_spec a Hx Na (Z.to_nat b) 0) as P.
  cbn [Z.of_nat Nat.add] in P. rewrite Z.pow_0_r in P. rewrite Z2Nat.id in P by lia.
  apply P; [assumption| unfold INT_MAX; lia | unfold LLONG_MAX; lia].
Qed.

(** negative exponents *)
Lemma iv_pow_neg : forall x e a b, is_int x a -> is_int e b -> b < 0 ->
  iv_pow x e = if a =? 0 then Err ArithmeticError
               else if a =? 1 then Ok (ofZ 1)
               else if a =? -1 then Ok (ofZ (if Z.even b then 1 else -1))
               else Ok (ofZ 0).
Proof.
  intros x e a b Hx He Hb. apply is_int_iff in Hx, He. destruct Hx as [-> Hx], He as [-> He].
  unfold iv_pow, iv_eq; cbn -[iv_mod pow_loop].
  replace (b =? 0) with false by lia. replace (b =? 1) with false by lia. replace (b <? 0) with true by lia.
  destruct (a =? 0) eqn:?; [reflexivity|].
  destruct (a =? 1) eqn:?; [reflexivity|].
  destruct (a =? -1) eqn:?; [|reflexivity].
  rewrite (iv_mod_spec _ _ b 2); [|apply is_int_ofZ; assumption | apply is_int_ofZ; unfold fits64, LLONG_MIN, LLONG_MAX; lia].
  cbn -[Z.rem Z.even].
  assert (Z.rem b 2 = 0 <-> Z.even b = true).
  { rewrite Z.even_spec. rewrite Z.rem_divide by lia. unfold Z.divide, Z.Even.
    split; intros [z Hz]; exists z; lia. }
  destruct (Z.rem b 2 =? 0) eqn:R; destruct (Z.even b) eqn:V; try reflexivity; exfalso.
  - assert (Z.rem b 2 = 0) by lia. apply H in H0. discriminate.
  - assert (Z.rem b 2 = 0) by (apply H; reflexivity). lia.
Qed.

Lemma mul_assign_unit : forall a, a = 0 \/ a = 1 -> forall r, r = 0 \/ r = 1 ->
  exists r', (r' = 0 \/ r' = 1) /\ mul_assign (ofZ r) (ofZ a) = Ok (ofZ r').
Proof.
  intros a Ha r Hr.
  exists (r * a). split; [destruct Ha, Hr; subst; auto|].
  rewrite (mul_assign_spec _ _ r a);
   try (apply is_int_ofZ; unfold fits64, LLONG_MIN, LLONG_MAX; lia); try (unfold LLONG_MIN; lia).
  unfold outcome. destruct Ha, Hr; subst; reflexivity.
Qed.

Lemma pow_loop_ub : forall a, a = 0 \/ a = 1 -> forall rem i r, r = 0 \/ r = 1 ->
  0 <= i <= INT_MAX -> INT_MAX < i + Z.of_nat rem -> pow_loop rem i (ofZ r) (ofZ a) = UB.
Proof.
  intros a Ha. induction rem as [|rem IH]; intros i r Hr Hi H; [lia|].
  cbn [pow_loop]. destruct (mul_assign_unit a Ha r Hr) as (r' & Hr' & E). rewrite E. cbn [bind].
  destruct (i =? INT_MAX) eqn:EI; [reflexivity|]. apply IH; [assumption|lia|lia].
Qed.

(** * infinity-safe plus / minus on keys *)
Lemma iv_plus_spec : forall x n, wfv x -> fits64 n ->
  iv_plus x n = if iv_inf x then Ok x else outcome (fits64b (iv_v x + n)) (iv_v x + n).
Proof.
  intros [v i] n H Hn; unfold iv_plus, wfv in *; cbn in *. destruct i; cbn; [reflexivity|].
  rewrite safePlus_spec by assumption. unfold outcome. destruct (fits64b _); reflexivity.
Qed.
Lemma iv_minus_spec : forall x n, wfv x -> fits64 n ->
  iv_minus x n = if iv_inf x then Ok x else outcome (fits64b (iv_v x - n)) (iv_v x - n).
Proof.
  intros [v i] n H Hn; unfold iv_minus, wfv in *; cbn in *. destruct i; cbn; [reflexivity|].
  rewrite safeMinus_spec by assumption. unfold outcome. destruct (fits64b _); reflexivity.
Qed.
