(** Model of the builtins that reduce an array to one value or read its index sets (lib/builtins.cpp:117-234,
    524-551, 768-880, 1569-1637).  Arguments are arrays as eval_array_lit returns them; their elements are
    expressions, evaluated one by one by eval_int and eval_bool, which may fail.  GCLock and the source locations of
    errors are not modelled. *)
Require Import ZArith List Bool.
From Verif Require Import Base IntValModel SetModel ArrModel.
Import ListNotations.
Open Scope Z_scope.

Section Red.
Variable E : Type.
Variable ev_int : E -> res IntVal. (* eval_int(env, .) *)
Variable ev_bool : E -> res bool.  (* eval_bool(env, .) *)

(* eval_int(env, ( *al)[i]) *)
Definition int_at (al : arr E) (i : Z) : res IntVal := do e <- get al i; ev_int e.
Definition bool_at (al : arr E) (i : Z) : res bool := do e <- get al i; ev_bool e.

(* builtins.cpp:130-132; n elements are left *)
Fixpoint min_loop (al : arr E) (n : nat) (i : Z) (m : IntVal) : res IntVal :=
  match n with O => Ok m | S n => do x <- int_at al i; min_loop al n (i + 1) (iv_min m x) end.
(* builtins.cpp:117-142 b_int_min, one argument that is an array *)
Definition int_min (al : arr E) : res IntVal :=
  do n <- asize al;
  if n =? 0 then Err EvalError
  else do m <- int_at al 0; min_loop al (Z.to_nat (n - 1)) 1 m.
(* builtins.cpp:156-158 *)
Fixpoint max_loop (al : arr E) (n : nat) (i : Z) (m : IntVal) : res IntVal :=
  match n with O => Ok m | S n => do x <- int_at al i; max_loop al n (i + 1) (iv_max m x) end.
(* builtins.cpp:143-167 b_int_max *)
Definition int_max (al : arr E) : res IntVal :=
  do n <- asize al;
  if n =? 0 then Err EvalError
  else do m <- int_at al 0; max_loop al (Z.to_nat (n - 1)) 1 m.

(* builtins.cpp:176-181, 191-196: the loop of b_arg_min_bool (want = false) and of b_arg_max_bool (want = true);
   IntVal(i) + al->min(0) *)
Fixpoint arg_bool_loop (want : bool) (al : arr E) (n : nat) (i : Z) : res IntVal :=
  match n with
  | O => do lo <- amin al 0; Ok (ofZ lo)
  | S n =>
      do b <- bool_at al i;
      if Bool.eqb b want then do lo <- amin al 0; iv_add (ofZ i) (ofZ lo) else arg_bool_loop want al n (i + 1)
  end.
(* builtins.cpp:169-183 b_arg_min_bool *)
Definition arg_min_bool (al : arr E) : res IntVal :=
  do n <- asize al; if n =? 0 then Err EvalError else arg_bool_loop false al (Z.to_nat n) 0.
(* builtins.cpp:184-198 b_arg_max_bool *)
Definition arg_max_bool (al : arr E) : res IntVal :=
  do n <- asize al; if n =? 0 then Err EvalError else arg_bool_loop true al (Z.to_nat n) 0.

(* builtins.cpp:208-214 *)
Fixpoint arg_min_loop (al : arr E) (n : nat) (i : Z) (m : IntVal) (m_idx : Z) : res Z :=
  match n with
  | O => Ok m_idx
  | S n =>
      do mi <- int_at al i;
      if iv_lt mi m then arg_min_loop al n (i + 1) mi i else arg_min_loop al n (i + 1) m m_idx
  end.
(* builtins.cpp:199-216 b_arg_min_int *)
Definition arg_min_int (al : arr E) : res IntVal :=
  do n <- asize al;
  if n =? 0 then Err EvalError
  else
    do m <- int_at al 0;
    do k <- arg_min_loop al (Z.to_nat (n - 1)) 1 m 0;
    do lo <- amin al 0; iv_add (ofZ k) (ofZ lo).
(* builtins.cpp:226-232 *)
Fixpoint arg_max_loop (al : arr E) (n : nat) (i : Z) (m : IntVal) (m_idx : Z) : res Z :=
  match n with
  | O => Ok m_idx
  | S n =>
      do mi <- int_at al i;
      if iv_gt mi m then arg_max_loop al n (i + 1) mi i else arg_max_loop al n (i + 1) m m_idx
  end.
(* builtins.cpp:217-234 b_arg_max_int *)
Definition arg_max_int (al : arr E) : res IntVal :=
  do n <- asize al;
  if n =? 0 then Err EvalError
  else
    do m <- int_at al 0;
    do k <- arg_max_loop al (Z.to_nat (n - 1)) 1 m 0;
    do lo <- amin al 0; iv_add (ofZ k) (ofZ lo).

(* builtins.cpp:532-534 m += eval_int *)
Fixpoint sum_loop (al : arr E) (n : nat) (i : Z) (m : IntVal) : res IntVal :=
  match n with O => Ok m | S n => do x <- int_at al i; do m <- add_assign m x; sum_loop al n (i + 1) m end.
(* builtins.cpp:524-536 b_sum_int *)
Definition sum_int (al : arr E) : res IntVal :=
  do n <- asize al; if n =? 0 then Ok (ofZ 0) else sum_loop al (Z.to_nat n) 0 (ofZ 0).
(* builtins.cpp:546-548 m *= eval_int *)
Fixpoint product_loop (al : arr E) (n : nat) (i : Z) (m : IntVal) : res IntVal :=
  match n with O => Ok m | S n => do x <- int_at al i; do m <- mul_assign m x; product_loop al n (i + 1) m end.
(* builtins.cpp:538-550 b_product_int *)
Definition product_int (al : arr E) : res IntVal :=
  do n <- asize al; if n =? 0 then Ok (ofZ 1) else product_loop al (Z.to_nat n) 0 (ofZ 1).

(* builtins.cpp:1575-1579 for (i = size; i--;); n is the value of i before the test *)
Fixpoint forall_loop (al : arr E) (n : nat) : res bool :=
  match n with
  | O => Ok true
  | S n => do b <- bool_at al (Z.of_nat n); if negb b then Ok false else forall_loop al n
  end.
(* builtins.cpp:1569-1581 b_forall_par *)
Definition forall_par (al : arr E) : res bool := do n <- asize al; forall_loop al (Z.to_nat n).
(* builtins.cpp:1588-1592 *)
Fixpoint exists_loop (al : arr E) (n : nat) : res bool :=
  match n with
  | O => Ok false
  | S n => do b <- bool_at al (Z.of_nat n); if b then Ok true else exists_loop al n
  end.
(* builtins.cpp:1582-1594 b_exists_par *)
Definition exists_par (al : arr E) : res bool := do n <- asize al; exists_loop al (Z.to_nat n).
(* builtins.cpp:1607-1611: whether some element of the second argument is false *)
Fixpoint some_false (al : arr E) (n : nat) : res bool :=
  match n with
  | O => Ok false
  | S n => do b <- bool_at al (Z.of_nat n); if negb b then Ok true else some_false al n
  end.
(* builtins.cpp:1595-1613 b_clause_par *)
Definition clause_par (pos neg : arr E) : res bool :=
  do n <- asize pos;
  do b <- exists_loop pos (Z.to_nat n);
  if b then Ok true else do n <- asize neg; some_false neg (Z.to_nat n).
(* builtins.cpp:1621-1623, 1633-1635: count += eval_bool, an int *)
Fixpoint count_loop (al : arr E) (n : nat) (count : Z) : res Z :=
  match n with
  | O => Ok count
  | S n => do b <- bool_at al (Z.of_nat n); do count <- i32 (count + Z.b2z b); count_loop al n count
  end.
(* builtins.cpp:1614-1625 b_xorall_par *)
Definition xorall_par (al : arr E) : res bool :=
  do n <- asize al; do c <- count_loop al (Z.to_nat n) 0; Ok (Z.rem c 2 =? 1).
(* builtins.cpp:1626-1637 b_iffall_par *)
Definition iffall_par (al : arr E) : res bool :=
  do n <- asize al; do c <- count_loop al (Z.to_nat n) 0; Ok (Z.rem c 2 =? 0).

(* builtins.cpp:768-776 b_index_set of an expression that is not an identifier; i counts from 1 *)
Definition index_set (al : arr E) (i : Z) : res iset :=
  if dims al <? i then Err EvalError
  else do lo <- amin al (i - 1); do hi <- amax al (i - 1); Ok (set_interval (ofZ lo) (ofZ hi)).
(* the index sets in the declaration of an identifier: int or _ (domain nullptr), $T (a TIId), or a set *)
Inductive decl_range := Anything | TypeVar | Declared (s : iset).
(* builtins.cpp:777-809 b_index_set of an identifier with declared ranges [ds] and the value [al] *)
Definition index_set_id (ds : list decl_range) (al : arr E) (i : Z) : res iset :=
  let n := len ds in
  let open_ := match ds with [TypeVar] => true | _ => false end in
  do unknown <-
    (if open_ then Ok true
     else if n >=? i then do d <- at_ ds (i - 1); Ok (match d with Anything | TypeVar => true | Declared _ => false end)
     else Ok false);
  if unknown then index_set al i
  else if n <? i then Err EvalError
  else
    do d <- at_ ds (i - 1);
    match d with
    | Declared ((lo, hi) :: s) => if isPlusInfinity hi then index_set al i else Ok ((lo, hi) :: s)
    | Declared [] => Ok []
    | _ => UB
    end.
(* builtins.cpp:820-826; the i-th of n dimensions, counted from 1.  The dimension of the type of an array literal is
   its number of dimensions *)
Fixpoint agree_loop (al0 al1 : arr E) (n : nat) (i : Z) : res bool :=
  match n with
  | O => Ok true
  | S n =>
      do s0 <- index_set al0 i; do s1 <- index_set al1 i;
      if negb (set_equal s0 s1) then Ok false else agree_loop al0 al1 n (i + 1)
  end.
(* builtins.cpp:810-828 b_index_sets_agree *)
Definition index_sets_agree (al0 al1 : arr E) : res bool :=
  if negb (dims al0 =? dims al1) then Ok false else agree_loop al0 al1 (Z.to_nat (dims al0)) 1.
End Red.
Arguments int_at {E}. Arguments bool_at {E}. Arguments int_min {E}. Arguments int_max {E}. Arguments arg_min_bool {E}. Arguments arg_max_bool {E}.
Arguments arg_min_int {E}. Arguments arg_max_int {E}. Arguments sum_int {E}. Arguments product_int {E}.
Arguments forall_par {E}. Arguments exists_par {E}. Arguments clause_par {E}. Arguments xorall_par {E}. Arguments iffall_par {E}.
Arguments index_set {E}. Arguments index_set_id {E}. Arguments index_sets_agree {E}.
