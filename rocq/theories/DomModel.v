(** Model of the functions that give the result variables of div, mod and pow their domains:
    lib/builtins.cpp:1119-1187 and 1218-1276.  compute_int_bounds is modelled in BoundsModel.v; here its results
    are the arguments. *)
Require Import ZArith List Bool.
From Verif Require Import Base IntValModel SetModel.
Import ListNotations.
Open Scope Z_scope.

(** include/minizinc/eval_par.hh IntBounds *)
Record bounds : Type := mkB { b_l : IntVal; b_u : IntVal; b_valid : bool }.
Definition b_finite (b : bounds) : bool := b_valid b && isFinite (b_l b) && isFinite (b_u b).

(** lib/ast.cpp:2593-2595 constants.infinityInt *)
Definition unbounded : iset := [(mkIV (-1) true, iv_infinity)].

(** the eight lines builtins.cpp:1136-1143 (and again 1146-1153): the quotients of the ends *)
Definition div_corners (bx : bounds) (r : range) (mm : IntVal * IntVal) : res (IntVal * IntVal) :=
  let '(mn, mx) := mm in
  do q1 <- iv_div (b_l bx) (fst r);
  do q2 <- iv_div (b_l bx) (snd r);
  do q3 <- iv_div (b_u bx) (fst r);
  do q4 <- iv_div (b_u bx) (snd r);
  Ok (iv_min (iv_min (iv_min (iv_min mn q1) q2) q3) q4, iv_max (iv_max (iv_max (iv_max mx q1) q2) q3) q4).

(** lib/builtins.cpp:1119-1157 b_compute_div_bounds.  byr0 is the difference iterator of by.l..by.u and 0..0. *)
Definition div_bounds (bx by_ : bounds) : res iset :=
  if negb (b_finite bx) then Ok unbounded
  else if negb (b_finite by_) then Ok unbounded
  else
    do rs <- set_diff (const_range (b_l by_) (b_u by_)) (const_range (ofZ 0) (ofZ 0));
    do mm <- match rs with
             | [] => Ok (ofZ LLONG_MAX, ofZ LLONG_MIN)
             | r1 :: rs =>
                 do mm <- div_corners bx r1 (ofZ LLONG_MAX, ofZ LLONG_MIN);
                 match rs with
                 | [] => Ok mm
                 | r2 :: _ => div_corners bx r2 mm
                 end
             end;
    Ok (set_interval (fst mm) (snd mm)).

(** lib/builtins.cpp:1159-1187 b_compute_mod_bounds *)
Definition mod_sign (bx : bounds) : Z :=
  if b_valid bx then
    if isFinite (b_l bx) && (iv_v (b_l bx) >=? 0) then 1
    else if isFinite (b_u bx) && (iv_v (b_u bx) <=? 0) then -1
    else 0
  else 0.
Definition mod_bounds (bx by_ : bounds) : res iset :=
  if b_finite bx && (iv_v (b_l bx) =? 0) && (iv_v (b_u bx) =? 0) then Ok (set_interval (ofZ 0) (ofZ 0))
  else if negb (b_finite by_) then Ok unbounded
  else
    do nl <- iv_neg (b_l by_);
    do am <- iv_sub (iv_max nl (b_u by_)) (ofZ 1);
    if mod_sign bx >? 0 then Ok (set_interval (ofZ 0) am)
    else
      do na <- iv_neg am;
      if mod_sign bx <? 0 then Ok (set_interval na (ofZ 0)) else Ok (set_interval na am).

(** lib/builtins.cpp:1235-1238 the closure update *)
Definition update (mn : IntVal * IntVal) (v : IntVal) : IntVal * IntVal :=
  (iv_min (fst mn) v, iv_max (snd mn) v).

(** 1239-1241 *)
Definition pow_one (base exp : bounds) (mn : IntVal * IntVal) : IntVal * IntVal :=
  if (iv_le (b_l base) (ofZ 1) && iv_ge (b_u base) (ofZ 1)) || (iv_le (b_l exp) (ofZ 0) && iv_ge (b_u exp) (ofZ 0))
  then update mn (ofZ 1) else mn.
(** 1242-1255 *)
Definition pow_minus_one (base exp : bounds) (mn : IntVal * IntVal) : res (IntVal * IntVal) :=
  if iv_le (b_l base) (ofZ (-1)) && iv_ge (b_u base) (ofZ (-1)) then
    if iv_ne (b_l exp) (b_u exp) then Ok (update (update mn (ofZ (-1))) (ofZ 1))
    else
      do r <- iv_mod (b_l exp) (ofZ 2);
      if iv_eq r (ofZ 0) then Ok (update mn (ofZ 1)) else Ok (update mn (ofZ (-1)))
  else Ok mn.
(** 1257-1259 *)
Definition pow_upper (base exp : bounds) (mn : IntVal * IntVal) : res (IntVal * IntVal) :=
  if iv_ne (b_u base) (ofZ 0) || iv_ge (b_u exp) (ofZ 0) then
    do p <- iv_pow (b_u base) (b_u exp); Ok (update mn p)
  else Ok mn.
(** 1260-1273 *)
Definition pow_lower (base exp : bounds) (mn : IntVal * IntVal) : res (IntVal * IntVal) :=
  if iv_lt (b_l base) (ofZ 0) then
    do p <- iv_pow (b_l base) (b_u exp);
    let mn := update mn p in
    if iv_ne (b_l exp) (b_u exp) then
      do e <- iv_sub (b_u exp) (ofZ 1);
      do p <- iv_pow (b_l base) e;
      Ok (update mn p)
    else if iv_ge (b_u base) (ofZ 0) && iv_gt (b_l exp) (ofZ 0) then Ok (update mn (ofZ 0))
    else Ok mn
  else if (iv_eq (b_l base) (ofZ 0) && iv_gt (b_u exp) (ofZ 0)) ||
          (iv_gt (b_u base) (ofZ 1) && iv_lt (b_l exp) (ofZ 0)) then Ok (update mn (ofZ 0))
  else if iv_ge (b_l exp) (ofZ 0) then
    do p <- iv_pow (b_l base) (b_l exp); Ok (update mn p)
  else Ok mn.

(** lib/builtins.cpp:1218-1276 b_compute_pow_bounds *)
Definition pow_bounds (base exp : bounds) : res iset :=
  if negb (b_finite base && b_finite exp) then Ok unbounded
  else if iv_eq (b_l base) (ofZ 0) && iv_eq (b_u base) (ofZ 0) && iv_lt (b_u exp) (ofZ 0) then Ok []
  else
    let mn := pow_one base exp (iv_infinity, mkIV (-1) true) in
    do mn <- pow_minus_one base exp mn;
    do mn <- pow_upper base exp mn;
    do mn <- pow_lower base exp mn;
    Ok (set_interval (fst mn) (snd mn)).
