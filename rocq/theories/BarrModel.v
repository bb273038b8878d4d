(** Model of the builtins that reshape, join and select from arrays (lib/builtins.cpp:1280-1566): arrayXd and
    array1d to array6d, concat_index_1 to concat_index_6, select_from_index_1 to select_from_index_6.
    The arguments are already evaluated; types and the flag "flat" of the results are not modelled.
    A vector of expression pointers under construction is a list of optional elements (None: nullptr). *)
Require Import ZArith List Bool.
From Verif Require Import Base IntValModel SetModel ArrModel.
Import ListNotations.
Open Scope Z_scope.

(* static_cast<int> of a long long or of an unsigned int: reduced modulo 2^32 (two's complement) *)
Definition to_int (z : Z) : Z := (z + 2 ^ 31) mod 2 ^ 32 - 2 ^ 31.

Section Barr.
Variable E : Type.
Variable eqb : E -> E -> bool. (* Expression::equal *)

(* builtins.cpp:1286-1312 the loop over the index sets: dims, dim1d, infinite_dim (None: -1) *)
Fixpoint xd_dims (i : nat) (sets : list iset) (ds : list (Z * Z)) (dim1d : Z) (inf : option nat)
  : res (list (Z * Z) * Z * option nat) :=
  match sets with
  | [] => Ok (ds, dim1d, inf)
  | [] :: rest => xd_dims (S i) rest (ds ++ [(1, 0)]) 0 inf
  | [(a, b)] :: rest =>
      if isFinite a && isFinite b then
        let lo := to_int (iv_v a) in
        let hi := to_int (iv_v b) in
        do w <- width lo hi;
        xd_dims (S i) rest (ds ++ [(lo, hi)]) (u32 (dim1d * u32 w)) inf
      else
        match inf with
        | None =>
            if isFinite a then
              let lo := to_int (iv_v a) in
              xd_dims (S i) rest (ds ++ [(lo, lo)]) dim1d (Some i)
            else Err EvalError
        | Some _ => Err EvalError
        end
  | _ :: _ => Err EvalError
  end.
(* builtins.cpp:1320 dims[infinite_dim].second += d *)
Fixpoint grow (ds : list (Z * Z)) (k : nat) (d : Z) : res (list (Z * Z)) :=
  match ds, k with
  | (lo, hi) :: ds, O => do hi <- i32 (hi + d); Ok ((lo, hi) :: ds)
  | r :: ds, S k => do ds <- grow ds k d; Ok (r :: ds)
  | [], _ => UB
  end.
(* builtins.cpp:1280-1333 b_arrayXd(env, call, d); [sets] are the first d arguments *)
Definition arrayXd (sets : list iset) (al : arr E) : res (arr E) :=
  do '(ds, dim1d, inf) <- xd_dims O sets [] 1 None;
  do n <- asize al;
  do '(ds, dim1d) <-
    match inf with
    | None => Ok (ds, dim1d)
    | Some k =>
        if dim1d =? 0 then UB
        else if negb (n mod dim1d =? 0) then Err EvalError
        else
          do ds <- grow ds k (to_int (u32 (n / dim1d - 1)));
          Ok (ds, u32 (dim1d * (n / dim1d)))
    end;
  if dim1d =? n then view al ds else Err EvalError.

(* builtins.cpp:1334-1345 b_array1d_list *)
Definition array1d_list (al : arr E) : res (arr E) :=
  if dims al =? 1 then do m <- amin al 0; if m =? 1 then Ok al else view1 al
  else view1 al.

(* builtins.cpp:1358-1365; n counts i down *)
Fixpoint same_dims (n : nat) (a0 a1 : arr E) : res bool :=
  match n with
  | O => Ok true
  | S n =>
      let i := Z.of_nat n in
      do l0 <- amin a0 i; do l1 <- amin a1 i;
      if negb (l0 =? l1) then Ok false
      else
        do h0 <- amax a0 i; do h1 <- amax a1 i;
        if negb (h0 =? h1) then Ok false else same_dims n a0 a1
  end.
(* builtins.cpp:1370-1373; the order of the reads does not matter *)
Fixpoint all_dims (n : nat) (i : Z) (a : arr E) : res (list (Z * Z)) :=
  match n with
  | O => Ok []
  | S n => do lo <- amin a i; do hi <- amax a i; do ds <- all_dims n (i + 1) a; Ok ((lo, hi) :: ds)
  end.
(* builtins.cpp:1354-1378 b_arrayXd(env, call) *)
Definition arrayXd2 (a0 a1 : arr E) : res (arr E) :=
  do s <- (if dims a0 =? dims a1 then same_dims (Z.to_nat (dims a0)) a0 a1 else Ok false);
  if s : bool then Ok a1
  else do ds <- all_dims (Z.to_nat (dims a0)) 0 a0; view a1 ds.

(* builtins.cpp:1386-1392 array_dim_product of the dimensions given *)
Fixpoint dim_product (ds : list (Z * Z)) (product : Z) : res Z :=
  match ds with
  | [] => Ok product
  | (lo, hi) :: ds => do d <- i32 (hi - lo); dim_product ds (u32 (product * u32 (u32 d + 1)))
  end.

(* builtins.cpp:1433-1435, 1436-1438, 1531-1533: for (i = 0; i < n; i++) out[dst + i] = al[src + i] *)
Fixpoint copy (n : nat) (i : Z) (al : arr E) (src dst : Z) (out : list (option E)) : res (list (option E)) :=
  match n with
  | O => Ok out
  | S n =>
      do e <- get al (u32 (src + i));
      do out <- upd out (u32 (dst + i)) (Some e);
      copy n (i + 1) al src dst out
  end.
(* the constructor of an array literal needs every element *)
Fixpoint filled (out : list (option E)) : res (list E) :=
  match out with
  | [] => Ok []
  | Some e :: out => do l <- filled out; Ok (e :: l)
  | None :: _ => UB
  end.

(* builtins.cpp:1406-1416 *)
Fixpoint concat_dims (n : nat) (i : Z) (idx : Z) (a0 a1 : arr E) : res (list (Z * Z)) :=
  match n with
  | O => Ok []
  | S n =>
      do l0 <- amin a0 i; do h0 <- amax a0 i; do l1 <- amin a1 i; do h1 <- amax a1 i;
      do r <-
        (if negb (i + 1 =? idx) then
           if negb (l0 =? l1) || negb (h0 =? h1) then Err EvalError else Ok (l0, h0)
         else
           do w <- width l0 h0; do x <- i32 (w + h1); do x <- i32 (x - l1); do x <- i32 (x + 1); Ok (1, x));
      do ds <- concat_dims n (i + 1) idx a0 a1;
      Ok (r :: ds)
  end.
(* builtins.cpp:1432-1441 the loop over the blocks; [fuel] bounds the iterations *)
Fixpoint concat_blocks (fuel : nat) (a0 a1 : arr E) (b0 b1 bo size : Z) (oo o0 o1 : Z) (out : list (option E))
  : res (list (option E)) :=
  if oo <? size then
    match fuel with
    | O => Err OutOfFuel
    | S fuel =>
        do out <- copy (Z.to_nat b0) 0 a0 o0 oo out;
        do out <- copy (Z.to_nat b1) 0 a1 o1 (u32 (oo + b0)) out;
        concat_blocks fuel a0 a1 b0 b1 bo size (u32 (oo + bo)) (u32 (o0 + b0)) (u32 (o1 + b1)) out
    end
  else Ok out.
(* builtins.cpp:1395-1446 b_concat_index; idx >= 1 *)
Definition concat_index (idx : Z) (a0 a1 : arr E) : res (arr E) :=
  if negb (dims a0 =? dims a1) then Err EvalError
  else
    do ds <- concat_dims (Z.to_nat (dims a0)) 0 idx a0 a1;
    do size <- dim_product ds 1;
    let out := repeat None (Z.to_nat size) in
    do out <-
      (if negb (size =? 0) then
         do inner <- (if len ds <=? idx then Ok 1 else dim_product (skipn (Z.to_nat idx) ds) 1);
         do l0 <- amin a0 (idx - 1); do h0 <- amax a0 (idx - 1);
         do l1 <- amin a1 (idx - 1); do h1 <- amax a1 (idx - 1);
         do w0 <- width l0 h0; do w1 <- width l1 h1;
         do x <- i32 (w0 + h1); do x <- i32 (x - l1); do x <- i32 (x + 1);
         concat_blocks (Z.to_nat size) a0 a1 (u32 (u32 w0 * inner)) (u32 (u32 w1 * inner)) (u32 (u32 x * inner)) size 0 0 0 out
       else Ok out);
    do el <- filled out;
    Ok (mk eqb el ds).

(* builtins.cpp:1466-1492 the dimensions of a contiguous selection *)
Fixpoint select_dims (n : nat) (i : Z) (idx : Z) (al : arr E) (s : iset) : res (list (Z * Z)) :=
  match n with
  | O => Ok []
  | S n =>
      do lo <- amin al i; do hi <- amax al i;
      do r <-
        (if i =? idx - 1 then
           match s with
           | [] => Ok (1, 0)
           | (a, b) :: _ =>
               let mn := if isFinite a then to_int (iv_v a) else lo in
               let mx := if isFinite b then to_int (iv_v b) else hi in
               if (mn <? lo) || (hi <? mx) then Err EvalError else Ok (mn, mx)
           end
         else Ok (lo, hi));
      do ds <- select_dims n (i + 1) idx al s;
      Ok (r :: ds)
  end.
(* builtins.cpp:1503-1510 *)
Fixpoint select_out_dims (n : nat) (i : Z) (idx : Z) (al : arr E) (s : iset) : res (list (Z * Z)) :=
  match n with
  | O => Ok []
  | S n =>
      do r <-
        (if negb (i + 1 =? idx) then do lo <- amin al i; do hi <- amax al i; Ok (lo, hi)
         else do c <- SetModel.card s; do c <- toInt c; Ok (1, to_int c));
      do ds <- select_out_dims n (i + 1) idx al s;
      Ok (r :: ds)
  end.
(* builtins.cpp:1528-1538 the loop over the values of the selection *)
Fixpoint select_values (vs : list IntVal) (al : arr E) (min_idx inner : Z) (oa oo ob : Z) (out : list (option E))
  : res (list (option E)) :=
  match vs with
  | [] => Ok out
  | v :: vs =>
      do d <- iv_sub v (ofZ min_idx); do d <- toInt d;
      let src := u32 (oa + u32 (u32 d * inner)) in
      let dst := u32 (oo + ob) in
      do out <- copy (Z.to_nat inner) 0 al src dst out;
      select_values vs al min_idx inner oa oo (u32 (ob + inner)) out
  end.
(* builtins.cpp:1525-1540; the values are enumerated before the copying (no enumeration can fail here, since the
   selection is within the bounds of an int) *)
Fixpoint select_blocks (fuel : nat) (s : iset) (al : arr E) (min_idx inner sin sout size : Z) (oa oo : Z) (out : list (option E))
  : res (list (option E)) :=
  if oo <? size then
    match fuel with
    | O => Err OutOfFuel
    | S fuel =>
        do vs <- to_values s;
        do out <- select_values vs al min_idx inner oa oo 0 out;
        select_blocks fuel s al min_idx inner sin sout size (u32 (oa + sin)) (u32 (oo + sout)) out
    end
  else Ok out.
(* builtins.cpp:1458-1546 b_select_from_index; idx >= 1.  selection->min() and max() are the ends of the set *)
Definition select_from_index (idx : Z) (al : arr E) (s : iset) : res (arr E) :=
  if dims al <? idx then Err EvalError
  else
    do lo <- amin al (idx - 1); do hi <- amax al (idx - 1);
    match s with
    | [] | [_] =>
        if match s with (a, b) :: _ => iv_eq a (ofZ lo) && iv_eq b (ofZ hi) | [] => false end then Ok al
        else
          do ds <- select_dims (Z.to_nat (dims al)) 0 idx al s;
          Ok (slice al ds ds)
    | (a, b0) :: _ =>
        let b := snd (last s (a, b0)) in
        if iv_lt a (ofZ lo) || iv_gt b (ofZ hi) then Err EvalError
        else
          do ds <- select_out_dims (Z.to_nat (dims al)) 0 idx al s;
          do size <- dim_product ds 1;
          let out := repeat None (Z.to_nat size) in
          do inner <- (if len ds <=? idx then Ok 1 else dim_product (skipn (Z.to_nat idx) ds) 1);
          do w <- width lo hi;
          do c <- SetModel.card s; do c <- toInt c;
          do out <- select_blocks (Z.to_nat size) s al lo inner (u32 (u32 w * inner)) (u32 (u32 c * inner)) size 0 0 out;
          do el <- filled out;
          Ok (mk eqb el ds)
    end.
End Barr.
Arguments arrayXd {E}. Arguments array1d_list {E}. Arguments same_dims {E}. Arguments all_dims {E}. Arguments arrayXd2 {E}.
Arguments copy {E}. Arguments filled {E}. Arguments concat_dims {E}. Arguments concat_blocks {E}. Arguments concat_index {E}.
Arguments select_dims {E}. Arguments select_out_dims {E}. Arguments select_values {E}. Arguments select_blocks {E}. Arguments select_from_index {E}.

