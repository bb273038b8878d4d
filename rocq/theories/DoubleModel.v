(** Model of the double arithmetic used for bounds: static_cast<double>(long long), division,
    std::floor, std::ceil and static_cast<long long>(double).  Doubles are IEEE 754 binary64 numbers
    as specified by the standard library (Floats.SpecFloat), rounding to nearest even. *)
Require Import ZArith Floats.SpecFloat.
From Verif Require Import Base IntValModel.
Open Scope Z_scope.

(* static_cast<double>(z): [conv.fpint], round to nearest even *)
Definition dbl (z : Z) : spec_float := binary_normalize 53 1024 z 0 false.
Definition ddiv (x y : spec_float) : spec_float := SFdiv 53 1024 x y.

(* std::floor / std::ceil of a double whose result is used as an integer; None for inf and nan *)
Definition dfloor (x : spec_float) : option Z :=
  match x with
  | S754_zero _ => Some 0
  | S754_finite s m e =>
      let n := if s then Zneg m else Zpos m in
      Some (if 0 <=? e then n * 2 ^ e else n / 2 ^ (- e))
  | _ => None
  end.
Definition dceil (x : spec_float) : option Z :=
  match x with
  | S754_zero _ => Some 0
  | S754_finite s m e =>
      let n := if s then Zneg m else Zpos m in
      Some (if 0 <=? e then n * 2 ^ e else - ((- n) / 2 ^ (- e)))
  | _ => None
  end.
(* static_cast<long long>(d): undefined when the value does not fit *)
Definition cast_ll (z : option Z) : res Z := match z with Some v => ll v | None => UB end.

(* flatten_internal.hh:767-774 LinearTraits<IntLit>::floorDiv, ceilDiv *)
Definition floorDiv (v0 v1 : IntVal) : res IntVal :=
  do a <- toInt v0; do b <- toInt v1;
  do r <- cast_ll (dfloor (ddiv (dbl a) (dbl b))); Ok (ofZ r).
Definition ceilDiv (v0 v1 : IntVal) : res IntVal :=
  do a <- toInt v0; do b <- toInt v1;
  do r <- cast_ll (dceil (ddiv (dbl a) (dbl b))); Ok (ofZ r).
