(** Model of array literals (lib/ast.cpp:381-545, include/minizinc/ast.hh:880-983,
    include/minizinc/ast.hpp:295-417).  Elements are an arbitrary type with the test Expression::equal.
    Sharing of the element vector between array literals is not modelled: [set] returns the new array. *)
Require Import ZArith List Bool.
From Verif Require Import Base.
Import ListNotations.
Open Scope Z_scope.

(* int arithmetic: overflow is undefined; unsigned int arithmetic wraps *)
Definition i32 (z : Z) : res Z := if (INT_MIN <=? z) && (z <=? INT_MAX) then Ok z else UB.
Definition u32 (z : Z) : Z := z mod 2 ^ 32.

Section Arr.
Variable E : Type.
Variable eqb : E -> E -> bool. (* Expression::equal *)

(* ast.hh:880-983: _flag2 = false: a vector, its flag() (compressed), _dims; _flag2 = true: a view of another literal *)
Inductive arr : Type :=
| Vec (flag : bool) (v : list E) (dims : list Z)
| Slice (al : arr) (dims : list Z).

Definition at_ {A : Type} (l : list A) (i : Z) : res A :=
  if i <? 0 then UB else match nth_error l (Z.to_nat i) with Some x => Ok x | None => UB end.
Definition len {A : Type} (l : list A) : Z := Z.of_nat (length l).
(* the flat representation of (min, max) pairs, e.g. ast.cpp:536-540 *)
Fixpoint flat (d : list (Z * Z)) : list Z :=
  match d with [] => [] | (l, u) :: d => l :: u :: flat d end.
Definition dims_of (a : arr) : list Z := match a with Vec _ _ d => d | Slice _ d => d end.

(* ast.cpp:381-383 *)
Fixpoint dims (a : arr) : Z :=
  match a with
  | Slice al d => (len d - 2 * dims al) / 2
  | Vec _ _ d => match d with [] => 1 | _ => len d / 2 end
  end.
(* ast.cpp:384-397 *)
Definition amin (a : arr) (i : Z) : res Z :=
  match dims_of a with [] => Ok 1 | d => at_ d (2 * i) end.
Definition amax (a : arr) (i : Z) : res Z :=
  match dims_of a with
  | [] => match a with Vec _ v _ => i32 (len v) | Slice _ _ => UB end
  | d => at_ d (2 * i + 1)
  end.
(* max(i) - min(i) + 1 *)
Definition width (lo hi : Z) : res Z := do d <- i32 (hi - lo); i32 (d + 1).
Definition awidth (a : arr) (i : Z) : res Z := do lo <- amin a i; do hi <- amax a i; width lo hi.
(* ast.cpp:398-407 *)
Fixpoint length_loop (a : arr) (n : nat) (i : Z) (l : Z) : res Z :=
  match n with
  | O => Ok l
  | S n => do w <- awidth a i; length_loop a n (i + 1) (u32 (l * u32 w))
  end.
Definition alength (a : arr) : res Z :=
  if dims a =? 0 then Ok 0
  else do w <- awidth a 0; length_loop a (Z.to_nat (dims a - 1)) 1 (u32 w).
(* ast.hh:965 *)
Definition asize (a : arr) : res Z :=
  match a with
  | Vec false v _ => Ok (len v)
  | _ => alength a
  end.

(* ast.cpp:429-444 origIdx of a view of al with dimension vector d; n counts curDim + 1 down *)
Fixpoint origIdx_loop (al : arr) (d : list Z) (sliceOffset : Z) (n : nat) (curIdx mult oIdx : Z) : res Z :=
  match n with
  | O => Ok oIdx
  | S n =>
      let curDim := Z.of_nat n in
      do slo <- at_ d (sliceOffset + curDim * 2);
      do shi <- at_ d (sliceOffset + curDim * 2 + 1);
      do w <- width slo shi;
      if u32 w =? 0 then UB
      else
        do lo <- amin al curDim;
        do off <- i32 (slo - lo);
        let t := u32 (curIdx mod u32 w + u32 off) in
        let oIdx := u32 (oIdx + u32 (u32 mult * t)) in
        let curIdx := curIdx / u32 w in
        do aw <- awidth al curDim;
        do mult <- i32 (mult * aw);
        origIdx_loop al d sliceOffset n curIdx mult oIdx
  end.
Definition origIdx (al : arr) (d : list Z) (i : Z) : res Z :=
  origIdx_loop al d (dims (Slice al d) * 2) (Z.to_nat (dims al)) i 1 0.

(* the offset of ast.cpp:449, 459; conversions of sizes to int *)
Definition coff (a : arr) (v : list E) : res Z :=
  do l <- alength a; do l <- i32 l; do n <- i32 (len v); i32 (l - n).
(* ast.hh:981-983, ast.cpp:446-454 operator[], getSlice *)
Fixpoint get (a : arr) (i : Z) : res E :=
  match a with
  | Vec false v _ => at_ v i
  | Vec true v d =>
      do off <- coff (Vec true v d) v;
      do j <- i32 i;
      if j <=? off then at_ v 0 else at_ v (i - off)
  | Slice al d => do o <- origIdx al d i; get al o
  end.
Definition upd (l : list E) (i : Z) (e : E) : res (list E) :=
  do _ <- at_ l i; Ok (firstn (Z.to_nat i) l ++ e :: skipn (S (Z.to_nat i)) l).
(* ast.hh:971-977, ast.cpp:456-469 set, setSlice *)
Fixpoint set (a : arr) (i : Z) (e : E) : res arr :=
  match a with
  | Vec false v d => do v <- upd v i e; Ok (Vec false v d)
  | Vec true v d =>
      do off <- coff (Vec true v d) v;
      do j <- i32 i;
      do v <- (if j <=? off then upd v 0 e else upd v (i - off) e);
      Ok (Vec true v d)
  | Slice al d => do o <- origIdx al d i; do al <- set al o e; Ok (Slice al d)
  end.

(* ast.cpp:511-514: the number of further elements equal to the first one *)
Fixpoint run (e0 : E) (l : list E) : list E :=
  match l with
  | [] => []
  | e :: l' => if eqb e e0 then run e0 l' else l
  end.
(* ast.cpp:492-530 compress (the flag "flat" is not modelled); d is flat *)
Definition compress (v : list E) (d : list Z) : arr :=
  let plain := Vec false v (match d with [l; _] => if l =? 1 then [] else d | _ => d end) in
  match v with
  | v0 :: v1 :: v2 :: v3 :: rest =>
      if eqb v0 v1 && eqb v1 v2 && eqb v2 v3 then Vec true (v0 :: run v0 rest) d else plain
  | _ => plain
  end.
(* ast.cpp:532-545 *)
Definition mk (v : list E) (d : list (Z * Z)) : arr := compress v (flat d).
(* ast.hpp:359-369 *)
Definition mk1 (v : list E) : res arr := do n <- i32 (len v); Ok (compress v [1; n]).
(* ast.hpp:387-405 *)
Definition mk2 (v : list (list E)) : res arr :=
  do n <- i32 (len v);
  do m <- (match v with [] => Ok 0 | r :: _ => i32 (len r) end);
  Ok (compress (concat v) [1; n; 1; m]).
(* the dimension vector's tail holding the bounds of the view, e.g. ast.hpp:310-312 *)
Fixpoint copy_dims (d : list Z) (from : Z) (n : nat) : res (list Z) :=
  match n with
  | O => Ok []
  | S n => do x <- at_ d from; do r <- copy_dims d (from + 1) n; Ok (x :: r)
  end.
(* ast.hpp:295-327 *)
Definition view (a : arr) (d : list (Z * Z)) : res arr :=
  match a with
  | Slice al vd => do t <- copy_dims vd (dims a * 2) (Z.to_nat (dims al * 2)); Ok (Slice al (flat d ++ t))
  | Vec fl v _ =>
      Ok (Vec fl v (if fl then flat d else match flat d with [l; _] => if l =? 1 then [] else flat d | _ => flat d end))
  end.
(* ast.hpp:329-357 *)
Definition view1 (a : arr) : res arr :=
  match a with
  | Slice al vd =>
      do n <- asize a; do n <- i32 n;
      do t <- copy_dims vd (dims a * 2) (Z.to_nat (dims al * 2)); Ok (Slice al (1 :: n :: t))
  | Vec fl v _ =>
      if fl then do n <- alength a; do n <- i32 n; Ok (Vec fl v [1; n]) else Ok (Vec fl v [])
  end.
(* ast.cpp:471-490 *)
Definition slice (a : arr) (d sl : list (Z * Z)) : arr := Slice a (flat d ++ flat sl).
(* ast.cpp:408-427 *)
Definition make1d (a : arr) : res arr :=
  match dims_of a with
  | [] => Ok a
  | ad =>
      do n <- alength a; do n <- i32 n;
      match a with
      | Slice al _ => do t <- copy_dims ad (dims a * 2 + 2) (Z.to_nat (dims al * 2)); Ok (Slice al (1 :: n :: t))
      | Vec fl v _ => Ok (Vec fl v [1; n])
      end
  end.
End Arr.
Arguments Vec {E}. Arguments Slice {E}.
Arguments dims_of {E}. Arguments dims {E}. Arguments amin {E}. Arguments amax {E}. Arguments awidth {E}.
Arguments alength {E}. Arguments length_loop {E}. Arguments asize {E}. Arguments origIdx {E}. Arguments origIdx_loop {E}. Arguments coff {E}.
Arguments get {E}. Arguments set {E}. Arguments upd {E}. Arguments run {E}. Arguments compress {E}. Arguments mk {E}.
Arguments mk1 {E}. Arguments mk2 {E}. Arguments view {E}. Arguments view1 {E}. Arguments slice {E}. Arguments make1d {E}.
