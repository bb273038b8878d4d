(** Model of sort, sort_by and inverse (lib/builtins.cpp:3055-3174), of the conversions between sets and arrays
    (2408-2445, 3176-3187) and of to_enum, enum_next and enum_prev (3568-3627).  Arguments are already evaluated to
    arrays and sets; types, source locations and messages are not modelled. *)
Require Import ZArith List Bool.
From Verif Require Import Base IntValModel SetModel ArrModel BarrModel RedModel.
Import ListNotations.
Open Scope Z_scope.

(** std::stable_sort with a comparison: its result is determined by the C++ standard; modelled by insertion *)
Fixpoint st_insert {A : Type} (less : A -> A -> bool) (x : A) (l : list A) : list A :=
  match l with [] => [x] | y :: r => if less y x then y :: st_insert less x r else x :: l end.
Fixpoint stable_sort {A : Type} (less : A -> A -> bool) (l : list A) : list A :=
  match l with [] => [] | x :: r => st_insert less x (stable_sort less r) end.

Section Sort.
Variable E : Type.
Variable eqb : E -> E -> bool.
Variable ev_int : E -> res IntVal.
Variable ev_bool : E -> res bool.
Variable int_lit : IntVal -> E. (* IntLit::a *)
(* std::sort: any function that sorts (see the theorems) *)
Variable std_sort : (E -> E -> bool) -> list E -> list E.

(* builtins.cpp:3061-3064 order[i] = eval_int(env, ( *order_e)[i]) for n elements from i on *)
Fixpoint read_keys (order_e : arr E) (n : nat) (i : Z) : res (list IntVal) :=
  match n with
  | O => Ok []
  | S n => do x <- int_at ev_int order_e i; do l <- read_keys order_e n (i + 1); Ok (x :: l)
  end.
(* builtins.cpp:3072-3074 sorted[i] = ( *al)[a[i]]; the order of the reads does not matter *)
Fixpoint read_at (al : arr E) (p : list nat) : res (list E) :=
  match p with
  | [] => Ok []
  | k :: p => do e <- get al (Z.of_nat k); do l <- read_at al p; Ok (e :: l)
  end.
(* builtins.cpp:3065-3069 struct Ord *)
Definition ord (order : list IntVal) (i j : nat) : bool := iv_lt (nth i order (ofZ 0)) (nth j order (ofZ 0)).
(* builtins.cpp:3055-3078 b_sort_by_int *)
Definition sort_by_int (al order_e : arr E) : res (arr E) :=
  do n <- asize order_e;
  do order <- read_keys order_e (Z.to_nat n) 0;
  let a := stable_sort (ord order) (seq 0 (Z.to_nat n)) in
  do sorted <- read_at al a;
  mk1 eqb sorted.

(* builtins.cpp:3112-3126 struct Ord, for integers and for truth values.  Exceptions thrown by the comparison are not
   modelled: elements that cannot be evaluated compare as not less *)
Definition int_less (e0 e1 : E) : bool := match ev_int e0, ev_int e1 with Ok x, Ok y => iv_lt x y | _, _ => false end.
Definition bool_less (e0 e1 : E) : bool := match ev_bool e0, ev_bool e1 with Ok x, Ok y => Z.b2z x <? Z.b2z y | _, _ => false end.
(* builtins.cpp:3105-3132 b_sort *)
Definition sort (less : E -> E -> bool) (al : arr E) : res (arr E) :=
  do n <- asize al;
  do l <- read_at al (seq 0 (Z.to_nat n));
  mk1 eqb (std_sort less l).

(* builtins.cpp:3146-3151: ivs, minVal, maxVal *)
Fixpoint inv_read (al : arr E) (n : nat) (i : Z) (ivs : list IntVal) (mn mx : IntVal) : res (list IntVal * IntVal * IntVal) :=
  match n with
  | O => Ok (ivs, mn, mx)
  | S n => do ii <- int_at ev_int al i; inv_read al n (i + 1) (ivs ++ [ii]) (iv_min mn ii) (iv_max mx ii)
  end.
(* builtins.cpp:3159-3162; i + min_idx is computed in unsigned int *)
Fixpoint inv_fill (ivs : list IntVal) (i : Z) (mn : IntVal) (min_idx : Z) (used : list bool) (inv : list (option E))
  : res (list bool * list (option E)) :=
  match ivs with
  | [] => Ok (used, inv)
  | v :: ivs =>
      do d <- iv_sub v mn; do k <- toInt d;
      do used <- upd used k true;
      do inv <- upd inv k (Some (int_lit (ofZ (u32 (i + min_idx)))));
      inv_fill ivs (i + 1) mn min_idx used inv
  end.
(* builtins.cpp:3134-3174 b_inverse *)
Definition inverse (al : arr E) : res (arr E) :=
  do n <- asize al;
  if n =? 0 then Ok al
  else
    do min_idx <- amin al 0;
    do v0 <- int_at ev_int al 0;
    do '(ivs, mn, mx) <- inv_read al (Z.to_nat (n - 1)) 1 [v0] v0 v0;
    do d <- iv_sub mx mn; do d <- iv_add d (ofZ 1);
    if iv_ne d (ofZ n) then Err EvalError
    else
      do '(used, inv) <- inv_fill ivs 0 mn min_idx (repeat false (Z.to_nat n)) (repeat None (Z.to_nat n));
      if negb (forallb (fun b => b) used) then Err EvalError
      else
        do el <- filled inv;
        do lo <- toInt mn; do hi <- toInt mx;
        Ok (mk eqb el [(to_int lo, to_int hi)]).

(* builtins.cpp:2408-2422 b_set2array *)
Definition set2array (s : iset) : res (arr E) := do vs <- to_values s; mk1 eqb (map int_lit vs).
(* builtins.cpp:2437-2439 elems[v - set_min] = IntLit::a(i++) *)
Fixpoint sparse_fill (vs : list IntVal) (set_min : Z) (i : Z) (elems : list E) : res (list E) :=
  match vs with
  | [] => Ok elems
  | v :: vs => do z <- toInt v; do elems <- upd elems (z - set_min) (int_lit (ofZ i)); sparse_fill vs set_min (i + 1) elems
  end.
(* builtins.cpp:2424-2445 b_set_sparse_inverse *)
Definition set_sparse_inverse (s : iset) : res (arr E) :=
  match s with
  | [] => Err EvalError
  | (lo, _) :: _ =>
      let hi := snd (last s (ofZ 0, ofZ 0)) in
      do set_min <- toInt lo;
      do d <- iv_sub hi lo; do d <- iv_add d (ofZ 1); do set_size <- toInt d;
      do vs <- to_values s;
      do elems <- sparse_fill vs set_min 1 (repeat (int_lit (ofZ 1)) (Z.to_nat set_size));
      do set_max <- toInt hi;
      Ok (mk eqb elems [(to_int set_min, to_int set_max)])
  end.
(* builtins.cpp:3176-3187 b_set_to_ranges_int *)
Fixpoint range_ends (s : iset) : list E :=
  match s with [] => [] | (lo, hi) :: s => int_lit lo :: int_lit hi :: range_ends s end.
Definition set_to_ranges (s : iset) : res (arr E) := mk1 eqb (range_ends s).

End Sort.
(* builtins.cpp:3568-3583 b_to_enum *)
Definition to_enum (s : iset) (v : IntVal) : res IntVal := if set_contains s v then Ok v else Err EvalError.
(* builtins.cpp:3585-3605 b_enum_next *)
Definition enum_next (s : iset) (v : IntVal) : res IntVal :=
  do n <- iv_add v (ofZ 1); if set_contains s n then Ok n else Err EvalError.
(* builtins.cpp:3607-3627 b_enum_prev *)
Definition enum_prev (s : iset) (v : IntVal) : res IntVal :=
  do n <- iv_sub v (ofZ 1); if set_contains s n then Ok n else Err EvalError.
Arguments read_keys {E}. Arguments read_at {E}. Arguments sort_by_int {E}. Arguments int_less {E}. Arguments bool_less {E}. Arguments sort {E}.
Arguments inv_read {E}. Arguments inv_fill {E}. Arguments inverse {E}. Arguments set2array {E}. Arguments sparse_fill {E}.
Arguments set_sparse_inverse {E}. Arguments range_ends {E}. Arguments set_to_ranges {E}.
