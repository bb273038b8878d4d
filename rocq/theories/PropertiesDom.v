(** C74: the domains that the compiler gives to the results of div, mod and pow hold every possible result.
    Specification: DomSpec.v. *)
Require Import ZArith List Bool Lia.
From Verif Require Import Base IntValModel IntValSpec IntValProofs SetModel SetSpec DomModel DomSpec DomProofs DomProofs2 DomProofs3 DomProofs4.
Import ListNotations.
Open Scope Z_scope.

Local Lemma tight_of f bx by_ s : proper bx -> proper by_ ->
  (forall a b c d, b_l bx = ofZ a -> b_u bx = ofZ b -> b_l by_ = ofZ c -> b_u by_ = ofZ d -> fits64 a -> fits64 b -> fits64 c -> fits64 d ->
     a <= b -> c <= d -> b_valid bx = true -> b_valid by_ = true ->
     forall z, elem z s -> exists v v', box f a b c d v /\ box f a b c d v' /\ v <= z <= v') -> tight f bx by_ s.
Proof.
  intros (V1 & a & b & A1 & A2 & A3) (V2 & c & d & B1 & B2 & B3) H z Hz.
  apply int_inv in A1, A2, B1, B2. destruct A1 as [A1 Fa], A2 as [A2 Fb], B1 as [B1 Fc], B2 as [B2 Fd].
  destruct (H a b c d A1 A2 B1 B2 Fa Fb Fc Fd A3 B3 V1 V2 z Hz) as (v & v' & (x & y & X & Y & E) & (x' & y' & X' & Y' & E') & L).
  assert (HB : forall b0 l u w, b_l b0 = ofZ l -> b_u b0 = ofZ u -> fits64 l -> fits64 u -> l <= w <= u -> holds b0 w).
  { intros b0 l u w L1 L2 F1 F2 W _. rewrite L1, L2. exists (Fin l), (Fin u).
    split; [apply (is_int_ofZ l F1)|]. split; [apply (is_int_ofZ u F2)|]. cbn. lia. }
  exists x, y, v, x', y', v'. repeat split; eauto; lia.
Qed.

(** Division: every quotient of values within the bounds is in the domain; both ends of the domain are taken. *)
Theorem C74_div_covers : forall bx by_ s, div_bounds bx by_ = Ok s -> covers div_value bx by_ s.
Proof. exact div_covers. Qed.
Print Assumptions C74_div_covers.
Theorem C74_div_tight : forall bx by_ s, proper bx -> proper by_ -> div_bounds bx by_ = Ok s -> tight div_value bx by_ s.
Proof.
  intros bx by_ s P1 P2 E. apply tight_of; auto. intros.
  apply (div_bounds_ok bx by_ a b c d s); assumption.
Qed.
Print Assumptions C74_div_tight.

(** Remainder *)
Theorem C74_mod_covers : forall bx by_ s, mod_bounds bx by_ = Ok s -> covers mod_value bx by_ s.
Proof. exact mod_covers. Qed.
Print Assumptions C74_mod_covers.

(** Power: bases of both signs, negative exponents, and 0 to the power of 0 included. *)
Theorem C74_pow_covers : forall bx by_ s, pow_bounds bx by_ = Ok s -> covers pow_value bx by_ s.
Proof. exact pow_covers. Qed.
Print Assumptions C74_pow_covers.
Theorem C74_pow_tight : forall bx by_ s, proper bx -> proper by_ -> pow_bounds bx by_ = Ok s -> tight pow_value bx by_ s.
Proof.
  intros bx by_ s P1 P2 E. apply tight_of; auto. intros.
  apply (pow_bounds_ok bx by_ a b c d) with (s := s); auto; unfold b_finite.
  - rewrite H9, H, H0. reflexivity.
  - rewrite H10, H1, H2. reflexivity.
Qed.
Print Assumptions C74_pow_tight.

(** No error as long as the bounds keep clear of the ends of the 64-bit range (and, for pow, the powers fit and the
    exponent fits an int). *)
Theorem C74_defined : forall bx by_ a b c d,
  b_valid bx = true -> b_valid by_ = true ->
  is_int (b_l bx) a -> is_int (b_u bx) b -> is_int (b_l by_) c -> is_int (b_u by_) d -> a <= b -> c <= d ->
  (forall z, In z [a; b; c; d] -> LLONG_MIN < z < LLONG_MAX) ->
  (exists s, div_bounds bx by_ = Ok s) /\ (exists s, mod_bounds bx by_ = Ok s) /\
  (d <= INT_MAX -> (0 <= d -> Z.abs a ^ d <= LLONG_MAX /\ Z.abs b ^ d <= LLONG_MAX) -> exists s, pow_bounds bx by_ = Ok s).
Proof.
  intros bx by_ a b c d V1 V2 A1 A2 B1 B2 L1 L2 I. apply int_inv in A1, A2, B1, B2.
  destruct A1 as [A1 Fa], A2 as [A2 Fb], B1 as [B1 Fc], B2 as [B2 Fd].
  assert (Ia := I a ltac:(cbn; auto)). assert (Ib := I b ltac:(cbn; auto)). assert (Ic := I c ltac:(cbn; auto)). assert (Id := I d ltac:(cbn; auto)).
  split; [|split].
  - apply (div_defined bx by_ a b c d); assumption.
  - apply (mod_defined bx by_ c d); assumption.
  - intros Hi Hp. apply (pow_defined bx by_ a b c d); auto; lia.
Qed.
Print Assumptions C74_defined.

Local Definition B (l u : Z) : bounds := mkB (ofZ l) (ofZ u) true.
Example C74_nonvacuous :
  proper (B (-7) 9) /\ proper (B (-2) 3) /\
  div_bounds (B (-7) 9) (B (-2) 3) = Ok [(ofZ (-9), ofZ 9)] /\
  mod_bounds (B (-7) 9) (B (-2) 3) = Ok [(ofZ (-2), ofZ 2)] /\
  pow_bounds (B (-7) 9) (B (-2) 3) = Ok [(ofZ (-343), ofZ 729)] /\
  holds (B (-7) 9) (-7) /\ holds (B (-2) 3) 3 /\ pow_value (-7) 3 = Some (-343).
Proof.
  repeat split; try reflexivity; try (eexists _, _; repeat split; try reflexivity; cbn; lia);
    intros _; eexists _, _; repeat split; try reflexivity; cbn; lia.
Qed.
