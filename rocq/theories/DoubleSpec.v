(** Independent specification for the division of bounds. *)
Require Import ZArith.
From Verif Require Import Base IntValModel IntValSpec.
Open Scope Z_scope.

(** q is the floor (ceiling) of a/b: the largest (smallest) integer not above (below) the quotient,
    written without division *)
Definition is_floor (a b q : Z) : Prop := 0 < b /\ b * q <= a < b * (q + 1) \/ b < 0 /\ b * (q + 1) < a <= b * q.
Definition is_ceiling (a b q : Z) : Prop := 0 < b /\ b * (q - 1) < a <= b * q \/ b < 0 /\ b * q <= a < b * (q - 1).

(** the integers that doubles represent exactly and densely *)
Definition small (x : Z) : Prop := - 2 ^ 53 < x < 2 ^ 53.

(** a division that is only used where both operands are small *)
Definition smallb (x : IntVal) : bool := (Z.abs (iv_v x) <? 2 ^ 53).
Definition when_small (f : IntVal -> IntVal -> res IntVal) (x y : IntVal) : res IntVal :=
  if andb (smallb x) (smallb y) then f x y else Err ArithmeticError.
