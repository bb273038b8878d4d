(** Model of class IntVal, include/minizinc/values.hh:31-307 *)
Require Import ZArith List Bool Lia.
From Verif Require Import Base.
Import ListNotations.
Open Scope Z_scope.

(* values.hh:41-43  private fields _v and _infinity and the private constructor *)
Record IntVal : Type := mkIV { iv_v : Z; iv_inf : bool }.

(* values.hh:103-104 constructors from (nothing) and long long int *)
Definition ofZ (z : Z) : IntVal := mkIV z false.
(* lib/values.cpp:20 IntVal::infinity() { return IntVal(1, true); } *)
Definition iv_infinity : IntVal := mkIV 1 true.

(* values.hh:45-56 safePlus; the subtractions in the tests are evaluated in long long *)
Definition safePlus (x y : Z) : res Z :=
  if x <? 0 then
    do d <- ll (LLONG_MIN - x);
    if y <? d then Err ArithmeticError else ll (x + y)
  else
    do d <- ll (LLONG_MAX - x);
    if y >? d then Err ArithmeticError else ll (x + y).

(* values.hh:57-68 safeMinus *)
Definition safeMinus (x y : Z) : res Z :=
  if x <? 0 then
    do d <- ll (x - LLONG_MIN);
    if y >? d then Err ArithmeticError else ll (x - y)
  else
    do d <- ll (x - LLONG_MAX);
    if y <? d then Err ArithmeticError else ll (x - y).

(* values.hh:69-79 safeMult; "0 - x" is evaluated in long long before the conversion to unsigned *)
Definition safeMult (x y : Z) : res Z :=
  if y =? 0 then Ok 0
  else
    do xa <- (if x <? 0 then ll (0 - x) else Ok x);
    do ya <- (if y <? 0 then ll (0 - y) else Ok y);
    if xa >? Z.quot LLONG_MAX ya then Err ArithmeticError
    else ll (x * y).

(* values.hh:80-91 safeDiv *)
Definition safeDiv (x y : Z) : res Z :=
  if y =? 0 then Err ArithmeticError
  else if x =? 0 then Ok 0
  else if (x =? LLONG_MIN) && (y =? -1) then Err ArithmeticError
  else ll (Z.quot x y).

(* the % of long long: undefined when the quotient is not representable (LLONG_MIN % -1) *)
Definition ll_rem (x y : Z) : res Z :=
  if (x =? LLONG_MIN) && (y =? -1) then UB else ll (Z.rem x y).

(* values.hh:92-100 safeMod; LLONG_MIN % -1 would be undefined, hence the test for -1 *)
Definition safeMod (x y : Z) : res Z :=
  if y =? 0 then Err ArithmeticError
  else if y =? -1 then Ok 0
  else ll_rem x y.

(* values.hh:107-112 toInt *)
Definition toInt (x : IntVal) : res Z :=
  if iv_inf x then Err ArithmeticError else Ok (iv_v x).

(* values.hh:114-116 isFinite, isPlusInfinity, isMinusInfinity *)
Definition isFinite (x : IntVal) : bool := negb (iv_inf x).
Definition isPlusInfinity (x : IntVal) : bool := iv_inf x && (iv_v x =? 1).
Definition isMinusInfinity (x : IntVal) : bool := iv_inf x && (iv_v x =? -1).

(* values.hh:118-145 compound assignments share the finite test of the binary operators *)
Definition finite2 (x y : IntVal) (op : Z -> Z -> res Z) : res IntVal :=
  if negb (isFinite x && isFinite y) then Err ArithmeticError
  else do r <- op (iv_v x) (iv_v y); Ok (ofZ r).

Definition add_assign (x y : IntVal) : res IntVal := finite2 x y safePlus.   (* 118-124 *)
Definition sub_assign (x y : IntVal) : res IntVal := finite2 x y safeMinus.  (* 125-131 *)
Definition mul_assign (x y : IntVal) : res IntVal := finite2 x y safeMult.   (* 132-138 *)
Definition div_assign (x y : IntVal) : res IntVal := finite2 x y safeDiv.    (* 139-145 *)

(* values.hh:146-150 unary minus: keeps the infinity flag *)
Definition iv_neg (x : IntVal) : res IntVal :=
  do r <- safeMinus 0 (iv_v x); Ok (mkIV r (iv_inf x)).

(* values.hh:151-180 pre/post increment and decrement (value stored in the object) *)
Definition iv_incr (x : IntVal) : res IntVal :=
  if negb (isFinite x) then Err ArithmeticError
  else do r <- safePlus (iv_v x) 1; Ok (ofZ r).
Definition iv_decr (x : IntVal) : res IntVal :=
  if negb (isFinite x) then Err ArithmeticError
  else do r <- safeMinus (iv_v x) 1; Ok (ofZ r).

(* values.hh:235-237 operator== *)
Definition iv_eq (x y : IntVal) : bool := Bool.eqb (iv_inf x) (iv_inf y) && (iv_v x =? iv_v y).
(* values.hh:238-241 operator<= (toInt cannot throw behind the isFinite tests) *)
Definition iv_le (x y : IntVal) : bool :=
  isPlusInfinity y || isMinusInfinity x ||
  (isFinite x && isFinite y && (iv_v x <=? iv_v y)).
(* values.hh:242-246 operator< *)
Definition iv_lt (x y : IntVal) : bool :=
  (isPlusInfinity y && negb (isPlusInfinity x)) ||
  (isMinusInfinity x && negb (isMinusInfinity y)) ||
  (isFinite x && isFinite y && (iv_v x <? iv_v y)).
(* values.hh:247-249 >=, >, != *)
Definition iv_ge (x y : IntVal) : bool := iv_le y x.
Definition iv_gt (x y : IntVal) : bool := iv_lt y x.
Definition iv_ne (x y : IntVal) : bool := negb (iv_eq x y).

(* values.hh:250-261 operator+ and operator- *)
Definition iv_add (x y : IntVal) : res IntVal := finite2 x y safePlus.
Definition iv_sub (x y : IntVal) : res IntVal := finite2 x y safeMinus.

(* values.hh:262-275 operator*; note that the second branch tests y, the infinite operand *)
Definition iv_mul (x y : IntVal) : res IntVal :=
  if negb (isFinite x) then
    if isFinite y && ((iv_v y =? 1) || (iv_v y =? -1)) then
      do r <- safeMult (iv_v x) (iv_v y); Ok (mkIV r (negb (isFinite x)))
    else Err ArithmeticError
  else if negb (isFinite y) then
    if isFinite x && ((iv_v y =? 1) || (iv_v y =? -1)) then
      do r <- safeMult (iv_v x) (iv_v y); Ok (mkIV r true)
    else Err ArithmeticError
  else
    do r <- safeMult (iv_v x) (iv_v y); Ok (ofZ r).

(* values.hh:276-284 operator/ *)
Definition iv_div (x y : IntVal) : res IntVal :=
  if isFinite y && ((iv_v y =? 1) || (iv_v y =? -1)) then
    do r <- safeMult (iv_v x) (iv_v y); Ok (mkIV r (negb (isFinite x)))
  else finite2 x y safeDiv.

(* values.hh:285-290 operator% *)
Definition iv_mod (x y : IntVal) : res IntVal := finite2 x y safeMod.

(* values.hh:204-206  for (int i = 0; i < exponent.toInt(); i++) result *= *this;
   [rem] = exponent - i iterations remain; incrementing i beyond INT_MAX is undefined *)
Fixpoint pow_loop (rem : nat) (i : Z) (result base : IntVal) : res IntVal :=
  match rem with
  | O => Ok result
  | S r =>
      do result' <- mul_assign result base;
      if i =? INT_MAX then UB else pow_loop r (i + 1) result' base
  end.

(* values.hh:181-208 pow *)
Definition iv_pow (x e : IntVal) : res IntVal :=
  if negb (isFinite e) || negb (isFinite x) then Err ArithmeticError
  else if iv_eq e (ofZ 0) then Ok (ofZ 1)
  else if iv_eq e (ofZ 1) then Ok x
  else if iv_v e <? 0 then
    if iv_eq x (ofZ 0) then Err ArithmeticError
    else if iv_eq x (ofZ 1) then Ok (ofZ 1)
    else if iv_eq x (ofZ (-1)) then
      do m <- iv_mod e (ofZ 2);
      Ok (if iv_eq m (ofZ 0) then ofZ 1 else ofZ (-1))
    else Ok (ofZ 0)
  else pow_loop (Z.to_nat (iv_v e)) 0 (ofZ 1) x.

(* values.hh:215-227 infinity-safe addition/subtraction of an int *)
Definition iv_plus (x : IntVal) (n : Z) : res IntVal :=
  if isFinite x then do r <- safePlus (iv_v x) n; Ok (ofZ r) else Ok x.
Definition iv_minus (x : IntVal) (n : Z) : res IntVal :=
  if isFinite x then do r <- safeMinus (iv_v x) n; Ok (ofZ r) else Ok x.

(* values.hh:302-307 abs *)
Definition iv_abs (x : IntVal) : res IntVal :=
  if negb (isFinite x) then Ok iv_infinity
  else if iv_lt x (ofZ 0) then iv_neg x else Ok x.

(* std::min / std::max on IntVal: std::min(a,b) = (b < a) ? b : a, std::max(a,b) = (a < b) ? b : a *)
Definition iv_min (a b : IntVal) : IntVal := if iv_lt b a then b else a.
Definition iv_max (a b : IntVal) : IntVal := if iv_lt a b then b else a.
