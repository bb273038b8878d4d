(** C01-C04, C51: integer values.  Statements only; proofs are in IntValProofs.v. *)
Require Import ZArith List Bool Lia.
From Verif Require Import Base IntValModel IntValSpec IntValProofs IntValPropProofs.
Open Scope Z_scope.

(** ** C01 *)
Theorem C01_add_exact_or_error : forall x y a b, is_int x a -> is_int y b ->
  (fits64 (a + b) -> exists r, iv_add x y = Ok r /\ is_int r (a + b)) /\
  (~ fits64 (a + b) -> iv_add x y = Err ArithmeticError).
Proof. exact C01_add_l. Qed.
Print Assumptions C01_add_exact_or_error.

Theorem C01_sub_exact_or_error : forall x y a b, is_int x a -> is_int y b ->
  (fits64 (a - b) -> exists r, iv_sub x y = Ok r /\ is_int r (a - b)) /\
  (~ fits64 (a - b) -> iv_sub x y = Err ArithmeticError).
Proof. exact C01_sub_l. Qed.
Print Assumptions C01_sub_exact_or_error.

Theorem C01_mod_exact_or_error : forall x y a b, is_int x a -> is_int y b ->
  (b <> 0 -> exists r, iv_mod x y = Ok r /\ is_int r (a - b * Z.quot a b)) /\
  (b = 0 -> iv_mod x y = Err ArithmeticError).
Proof. exact C01_mod_l. Qed.
Print Assumptions C01_mod_exact_or_error.

Theorem C01_neg_exact_or_error : forall x a, is_int x a ->
  (fits64 (- a) -> exists r, iv_neg x = Ok r /\ is_int r (- a)) /\
  (~ fits64 (- a) -> iv_neg x = Err ArithmeticError).
Proof. exact C01_neg_l. Qed.
Print Assumptions C01_neg_exact_or_error.

(** the compound assignments and increments agree with the binary operators *)
Theorem C01_assign_ops_agree : forall x y, 
  add_assign x y = iv_add x y /\ sub_assign x y = iv_sub x y /\
  iv_incr x = iv_add x (ofZ 1) /\ iv_decr x = iv_sub x (ofZ 1).
Proof. exact C01_assign_l. Qed.
Print Assumptions C01_assign_ops_agree.

Theorem C01_abs_exact_or_error : forall x a, is_int x a ->
  (fits64 (Z.abs a) -> exists r, iv_abs x = Ok r /\ is_int r (Z.abs a)) /\
  (~ fits64 (Z.abs a) -> iv_abs x = Err ArithmeticError).
Proof. exact C01_abs_l. Qed.
Print Assumptions C01_abs_exact_or_error.

Example C01_nonvacuous :
  is_int (ofZ LLONG_MAX) LLONG_MAX /\ is_int (ofZ 1) 1 /\
  iv_add (ofZ LLONG_MAX) (ofZ 1) = Err ArithmeticError /\
  iv_add (ofZ LLONG_MAX) (ofZ (-1)) = Ok (ofZ 9223372036854775806) /\
  iv_mod (ofZ (-7)) (ofZ 2) = Ok (ofZ (-1)).
Proof. vm_compute. repeat split. Qed.

(** ** C51: multiplication and division *)
(** no result is ever wrong *)
Theorem C51_mul_never_wraps : forall x y a b r, is_int x a -> is_int y b ->
  iv_mul x y = Ok r -> is_int r (a * b).
Proof. exact C51_mul_never_wraps_l. Qed.
Print Assumptions C51_mul_never_wraps.

Theorem C51_div_never_wrong : forall x y a b r, is_int x a -> is_int y b ->
  iv_div x y = Ok r -> b <> 0 /\ is_int r (Z.quot a b).
Proof. exact C51_div_never_wrong_l. Qed.
Print Assumptions C51_div_never_wrong.

(** away from LLONG_MIN the operators return or raise, and succeed whenever the result fits *)
Theorem C51_mul_exact_or_error_partial : forall x y a b, is_int x a -> is_int y b ->
  a <> LLONG_MIN -> b <> LLONG_MIN ->
  (LLONG_MIN < a * b <= LLONG_MAX -> exists r, iv_mul x y = Ok r /\ is_int r (a * b)) /\
  (~ (LLONG_MIN < a * b <= LLONG_MAX) -> iv_mul x y = Err ArithmeticError).
Proof. exact C51_mul_l. Qed.
Print Assumptions C51_mul_exact_or_error_partial.

Theorem C51_div_exact_or_error_partial : forall x y a b, is_int x a -> is_int y b ->
  ~ (a = LLONG_MIN /\ (b = 1 \/ b = -1)) ->
  (b <> 0 -> exists r, iv_div x y = Ok r /\ is_int r (Z.quot a b)) /\
  (b = 0 -> iv_div x y = Err ArithmeticError).
Proof. exact C51_div_l. Qed.
Print Assumptions C51_div_exact_or_error_partial.

(** FINDING: the sign flip "0 - x" in safeMult overflows (undefined) for LLONG_MIN, exactly there *)
Theorem C51_mul_undefined_iff : forall x y a b, is_int x a -> is_int y b ->
  (iv_mul x y = UB <-> b <> 0 /\ (a = LLONG_MIN \/ b = LLONG_MIN)).
Proof. exact C51_mul_ub_l. Qed.
Print Assumptions C51_mul_undefined_iff.

Theorem C51_div_by_one_refuted : exists x y, is_int x LLONG_MIN /\ is_int y 1 /\ iv_div x y = UB.
Proof. exact C51_div_refuted_l. Qed.
Print Assumptions C51_div_by_one_refuted.

Example C51_nonvacuous :
  iv_mul (ofZ 3037000500) (ofZ 3037000500) = Err ArithmeticError /\
  iv_mul (ofZ (-3037000499)) (ofZ 3037000499) = Ok (ofZ (-9223372030926249001)) /\
  iv_div (ofZ (-7)) (ofZ 2) = Ok (ofZ (-3)).
Proof. vm_compute. repeat split. Qed.

(** ** C02 *)
Theorem C02_comparisons_are_the_extended_order : forall x y a b,
  denote x = Some a -> denote y = Some b ->
  (iv_le x y = true <-> ext_le a b) /\
  (iv_lt x y = true <-> ext_lt a b) /\
  (iv_ge x y = true <-> ext_le b a) /\
  (iv_gt x y = true <-> ext_lt b a) /\
  (iv_eq x y = true <-> a = b) /\
  (iv_ne x y = true <-> a <> b).
Proof. exact C02_comparisons_l. Qed.
Print Assumptions C02_comparisons_are_the_extended_order.

Theorem C02_total_order : forall x y z, wf x -> wf y -> wf z ->
  iv_le x x = true /\
  (iv_le x y = true -> iv_le y x = true -> x = y) /\
  (iv_le x y = true -> iv_le y z = true -> iv_le x z = true) /\
  (iv_le x y = true \/ iv_le y x = true) /\
  iv_lt x y = negb (iv_le y x).
Proof. exact C02_total_order_l. Qed.
Print Assumptions C02_total_order.

Theorem C02_min_max : forall x y, wf x -> wf y ->
  (iv_min x y = x \/ iv_min x y = y) /\ (iv_max x y = x \/ iv_max x y = y) /\
  iv_le (iv_min x y) x = true /\ iv_le (iv_min x y) y = true /\
  iv_le x (iv_max x y) = true /\ iv_le y (iv_max x y) = true.
Proof. exact C02_min_max_l. Qed.
Print Assumptions C02_min_max.

Example C02_nonvacuous :
  denote (mkIV (-1) true) = Some MInf /\ denote (ofZ 3) = Some (Fin 3) /\ denote iv_infinity = Some PInf /\
  iv_lt (mkIV (-1) true) (ofZ LLONG_MIN) = true /\ iv_lt (ofZ LLONG_MAX) iv_infinity = true.
Proof. vm_compute. repeat split. Qed.

(** ** C03 *)
Theorem C03_pow_exact_or_error : forall x e a b, is_int x a -> is_int e b ->
  a <> LLONG_MIN -> 0 <= b <= INT_MAX ->
  (Z.abs (a ^ b) <= LLONG_MAX -> exists r, iv_pow x e = Ok r /\ is_int r (a ^ b)) /\
  (LLONG_MAX < Z.abs (a ^ b) -> iv_pow x e = Err ArithmeticError).
Proof. exact C03_pow_l. Qed.
Print Assumptions C03_pow_exact_or_error.

(** exponents above INT_MAX: still correct when |a| >= 2 (the loop overflows early) *)
Theorem C03_pow_large_exponent : forall x e a b, is_int x a -> is_int e b ->
  a <> LLONG_MIN -> 2 <= Z.abs a -> INT_MAX < b -> iv_pow x e = Err ArithmeticError.
Proof. exact C03_pow_large_l. Qed.
Print Assumptions C03_pow_large_exponent.

Theorem C03_pow_negative_exponent : forall x e a b, is_int x a -> is_int e b -> b < 0 ->
  (a = 0 -> iv_pow x e = Err ArithmeticError) /\
  (a <> 0 -> exists r, iv_pow x e = Ok r /\ is_int r (Z.quot 1 (a ^ (- b)))).
Proof. exact C03_pow_neg_l. Qed.
Print Assumptions C03_pow_negative_exponent.

(** FINDING: the loop counter is an int while the exponent is 64 bit *)
Theorem C03_pow_counter_refuted : exists x e, is_int x 1 /\ is_int e (INT_MAX + 1) /\ iv_pow x e = UB.
Proof. exact C03_pow_refuted_l. Qed.
Print Assumptions C03_pow_counter_refuted.

Example C03_nonvacuous :
  iv_pow (ofZ (-3)) (ofZ 5) = Ok (ofZ (-243)) /\ iv_pow (ofZ 2) (ofZ 63) = Err ArithmeticError /\
  iv_pow (ofZ 2) (ofZ 62) = Ok (ofZ 4611686018427387904) /\ iv_pow (ofZ (-1)) (ofZ (-3)) = Ok (ofZ (-1)).
Proof. vm_compute. repeat split. Qed.

(** ** C04 *)
(** everything except operator* keeps values well-formed *)
Theorem C04_results_well_formed_partial : forall x y n r, wf x -> wf y -> fits64 n ->
  iv_add x y = Ok r \/ iv_sub x y = Ok r \/ iv_div x y = Ok r \/ iv_mod x y = Ok r \/
  iv_neg x = Ok r \/ iv_abs x = Ok r \/ iv_plus x n = Ok r \/ iv_minus x n = Ok r \/
  iv_incr x = Ok r \/ iv_decr x = Ok r \/ iv_pow x y = Ok r -> wf r.
Proof. exact C04_wf_l. Qed.
Print Assumptions C04_results_well_formed_partial.

Theorem C04_neg_infinity : iv_neg iv_infinity = Ok (mkIV (-1) true) /\
  denote (mkIV (-1) true) = Some MInf /\ denote iv_infinity = Some PInf /\
  iv_neg (mkIV (-1) true) = Ok iv_infinity.
Proof. exact C04_neg_inf_l. Qed.
Print Assumptions C04_neg_infinity.

Theorem C04_plus_minus_absorb_infinity : forall x n, denote x = Some PInf \/ denote x = Some MInf ->
  iv_plus x n = Ok x /\ iv_minus x n = Ok x.
Proof. exact C04_plus_l. Qed.
Print Assumptions C04_plus_minus_absorb_infinity.

(** infinity times a unit has the right sign when the infinity is the left operand *)
Theorem C04_mul_left_infinity : forall x y a b r, denote x = Some a -> denote y = Some b ->
  (a = PInf \/ a = MInf) -> iv_mul x y = Ok r ->
  exists s, (s = 1 \/ s = -1) /\ b = Fin s /\
            denote r = Some (if s =? 1 then a else match a with PInf => MInf | _ => PInf end).
Proof. exact C04_mul_left_l. Qed.
Print Assumptions C04_mul_left_infinity.

(** FINDING: finite * infinite tests the wrong operand: 5 * infinity succeeds with a value that is
    neither finite nor plus nor minus infinity *)
Theorem C04_mul_right_infinity_refuted : exists x y r, is_int x 5 /\ denote y = Some PInf /\
  iv_mul x y = Ok r /\ ~ wf r /\ isFinite r = false /\ isPlusInfinity r = false /\ isMinusInfinity r = false.
Proof. exact C04_mul_refuted_l. Qed.
Print Assumptions C04_mul_right_infinity_refuted.

Example C04_nonvacuous : wf iv_infinity /\ wf (ofZ 7) /\ iv_div iv_infinity (ofZ (-1)) = Ok (mkIV (-1) true).
Proof. repeat split; try (eexists; vm_compute; reflexivity). Qed.
