(** Model of FloatSetVal (include/minizinc/values.hh:802-960), of the range iterators of
    include/minizinc/iter.hh instantiated at Val = FloatVal, and of the set operations of eval_floatset
    (lib/eval_par.cpp:1201-1320).

    A finite double is modelled by its rank in the order of the finite doubles: 0.0 and -0.0 have rank 0,
    the smallest positive double has rank 1, the largest finite double has rank DMAX, and negative doubles
    have the negated ranks.  All code modelled here only compares doubles and moves to the neighbouring
    double with std::nextafter, so it only depends on the ranks: std::nextafter(x, INFINITY) is rank + 1
    and std::nextafter(x, -INFINITY) is rank - 1.  Simplification: -0.0 and 0.0 are one value (they compare
    equal); no NaN (FloatVal's constructors reject it, values.hh:338-347). *)
Require Import ZArith List Bool.
From Verif Require Import Base.
Import ListNotations.
Open Scope Z_scope.

(** rank of the largest finite double: its bit pattern 0x7FEFFFFFFFFFFFFF read as an integer *)
Definition DMAX : Z := 2 ^ 63 - 2 ^ 52 - 1.

(* values.hh:333-360 FloatVal: _infinity with _v = -1.0 / finite / _infinity with _v = 1.0 *)
Inductive fval : Type := FMinus | FNum (rank : Z) | FPlus.

Definition fIsFinite (x : fval) : bool := match x with FNum _ => true | _ => false end.

(* values.hh:460-462 operator== *)
Definition f_eq (x y : fval) : bool :=
  match x, y with FNum a, FNum b => a =? b | FPlus, FPlus | FMinus, FMinus => true | _, _ => false end.
(* values.hh:463-466 operator<= *)
Definition f_le (x y : fval) : bool :=
  match x, y with
  | _, FPlus => true
  | FMinus, _ => true
  | FNum a, FNum b => a <=? b
  | _, _ => false
  end.
(* values.hh:467-471 operator< *)
Definition f_lt (x y : fval) : bool :=
  match x, y with
  | FPlus, FPlus => false
  | _, FPlus => true
  | FMinus, FMinus => false
  | FMinus, _ => true
  | FNum a, FNum b => a <? b
  | _, _ => false
  end.
(* values.hh:472-473 *)
Definition f_ge (x y : fval) : bool := f_le y x.
Definition f_gt (x y : fval) : bool := f_lt y x.
(* std::min and std::max *)
Definition f_min (x y : fval) : fval := if f_lt y x then y else x.
Definition f_max (x y : fval) : fval := if f_lt x y then y else x.

(* values.hh:805-814 struct Range; values.hh:802 FloatSetVal: its ranges in storage order *)
Notation frange := (fval * fval)%type.
Notation fset := (list frange).

(* iter.hh:284-295 overlaps; nextafter of the largest double is the (double) infinity, above every y *)
Definition f_overlaps (x y : fval) : bool :=
  match x, y with
  | FPlus, _ => true
  | _, FMinus => true
  | FNum a, FNum b => b <=? a + 1
  | _, _ => f_ge x y
  end.
(* iter.hh:298-303 next_higher; FloatVal(double) throws for an infinite double, values.hh:338-346 *)
Definition f_next_higher (x : fval) : res fval :=
  match x with
  | FNum a => if a + 1 <=? DMAX then Ok (FNum (a + 1)) else Err ArithmeticError
  | _ => Ok x
  end.
(* iter.hh:304-309 next_lower *)
Definition f_next_lower (x : fval) : res fval :=
  match x with
  | FNum a => if - DMAX <=? a - 1 then Ok (FNum (a - 1)) else Err ArithmeticError
  | _ => Ok x
  end.

(* iter.hh:35-69 MinMax with the two wrapped iterators; an iterator is the list of its remaining ranges *)
Record fit : Type := mkFit { fmi : fval; fma : fval; fi : fset; fj : fset }.
(* iter.hh:72-76 finish *)
Definition f_finish (i j : fset) : fit := mkFit (FNum 1) (FNum 0) i j.

(* iter.hh:342-352 from label next to the end of Union::operator++ *)
Fixpoint f_absorb (i : fset) : fval -> fset -> fval * fset * fset :=
  fix absorb_j (m : fval) (j : fset) {struct j} : fval * fset * fset :=
    match i with
    | (a, b) :: i' =>
        if f_overlaps m a then f_absorb i' (f_max m b) j
        else
          match j with
          | [] => (m, i, j)
          | (c, d) :: j' => if f_overlaps m c then absorb_j (f_max m d) j' else (m, i, j)
          end
    | [] =>
        match j with
        | [] => (m, i, j)
        | (c, d) :: j' => if f_overlaps m c then absorb_j (f_max m d) j' else (m, i, j)
        end
    end.

(* iter.hh:317-353 Union::operator++ *)
Definition f_union_next (i j : fset) : fit :=
  match i, j with
  | [], [] => f_finish i j
  | [], (c, d) :: j' => mkFit c d i j'
  | (a, b) :: i', [] => mkFit a b i' j
  | (a, b) :: i', (c, d) :: j' =>
      if negb (f_overlaps d a) then mkFit c d i j'
      else if negb (f_overlaps b c) then mkFit a b i' j
      else let '(m, i2, j2) := f_absorb i' (f_max b d) j' in mkFit (f_min a c) m i2 j2
  end.

(* values.hh:885-895 FloatSetVal::ai: for (; i(); ++i) s.push_back(Range(i.min(), i.max())) *)
Fixpoint f_drain (next : fit -> res fit) (fuel : nat) (st : fit) : res fset :=
  if f_le (fmi st) (fma st) then
    match fuel with
    | O => Err OutOfFuel
    | S n =>
        do st' <- next st;
        do l <- f_drain next n st';
        Ok ((fmi st, fma st) :: l)
    end
  else Ok [].

(* eval_par.cpp:1280-1283 BOT_UNION *)
Definition f_union (s t : fset) : res fset :=
  f_drain (fun st => Ok (f_union_next (fi st) (fj st))) (length s + length t) (f_union_next s t).

(* iter.hh:412-414 and 418-420 *)
Fixpoint f_skip_below (i : fset) (m : fval) : fset :=
  match i with
  | (a, b) :: i' => if f_lt b m then f_skip_below i' m else i
  | [] => []
  end.
(* iter.hh:411-424 the do-while loop; None = goto done *)
Fixpoint f_inter_align (fuel : nat) (i j : fset) : res (option (fset * fset)) :=
  match j with
  | [] => Ok None (* not reached: checked before the loop *)
  | (c, _) :: _ =>
      match f_skip_below i c with
      | [] => Ok None
      | (a, b) :: i' =>
          match f_skip_below j a with
          | [] => Ok None
          | (c', d') :: j' =>
              if f_lt b c' then
                match fuel with
                | O => Err OutOfFuel
                | S n => f_inter_align n ((a, b) :: i') ((c', d') :: j')
                end
              else Ok (Some ((a, b) :: i', (c', d') :: j'))
          end
      end
  end.
(* iter.hh:407-436 Inter::operator++ *)
Definition f_inter_next (i j : fset) : res fit :=
  match i, j with
  | [], _ | _, [] => Ok (f_finish i j)
  | _, _ =>
      do o <- f_inter_align (length i + length j) i j;
      match o with
      | Some ((a, b) :: i', (c, d) :: j') =>
          if f_lt b d then Ok (mkFit (f_max a c) (f_min b d) i' ((c, d) :: j'))
          else Ok (mkFit (f_max a c) (f_min b d) ((a, b) :: i') j')
      | _ => Ok (f_finish i j)
      end
  end.
(* eval_par.cpp:1296-1299 BOT_INTERSECT *)
Definition f_inter (s t : fset) : res fset :=
  do st <- f_inter_next s t;
  f_drain (fun st => f_inter_next (fi st) (fj st)) (length s + length t) st.

(* iter.hh:486-528 Diff::operator++; one unfolding is one iteration of while(true) *)
Fixpoint f_diff_next (fuel : nat) (m : fval) (i j : fset) : res fit :=
  match fuel with
  | O => Err OutOfFuel
  | S n =>
      match i with
      | [] => Ok (f_finish i j)
      | (a, b) :: i' =>
          let isInfinite := negb (fIsFinite m) && f_gt m (FNum 0) in
          do mi1 <- f_next_higher m;
          let '(brk, mi2, ma2, i2) :=
            if isInfinite || f_gt mi1 b then
              match i' with
              | [] => (true, mi1, b, i')
              | (a', b') :: _ => (false, a', b', i')
              end
            else (false, mi1, b, i) in
          if brk : bool then Ok (f_finish i2 j)
          else
            let j2 := f_skip_below j mi2 in
            match j2 with
            | (c, d) :: j3 =>
                if f_le c ma2 then
                  if f_ge mi2 c && f_le ma2 d then f_diff_next n ma2 i2 j2
                  else if f_le c mi2 then
                    do mi3 <- f_next_higher d;
                    match j3 with
                    | (c', d') :: _ =>
                        if f_le c' ma2 then
                          do ma3 <- f_next_lower c'; Ok (mkFit mi3 ma3 i2 j3)
                        else Ok (mkFit mi3 ma2 i2 j3)
                    | [] => Ok (mkFit mi3 ma2 i2 j3)
                    end
                  else
                    do ma3 <- f_next_lower c; Ok (mkFit mi2 ma3 i2 j2)
                else Ok (mkFit mi2 ma2 i2 j2)
            | [] => Ok (mkFit mi2 ma2 i2 j2)
            end
      end
  end.
(* iter.hh:533-542 constructor, then ai; eval_par.cpp:1284-1287 BOT_DIFF *)
Definition f_diff (s t : fset) : res fset :=
  do st <- (match s with
            | [] => Ok (f_finish s t)
            | (a, _) :: _ => do m <- f_next_lower a; f_diff_next (S (length s)) m s t
            end);
  f_drain (fun st => f_diff_next (S (length (fi st))) (fma st) (fi st) (fj st)) (length s + length t) st.

(* iter.hh:710-723 subset *)
Fixpoint f_subset (i : fset) : fset -> bool :=
  fix sub_j (j : fset) : bool :=
    match i, j with
    | (a, b) :: i', (c, d) :: j' =>
        if f_lt d a then sub_j j'
        else if f_ge a c && f_le b d then f_subset i' j
        else false
    | [], _ => true
    | _ :: _, [] => false
    end.

(* values.hh:930-941 FloatSetVal::contains *)
Fixpoint f_contains (s : fset) (v : fval) : bool :=
  match s with
  | [] => false
  | (a, b) :: s' => if f_lt v a then false else if f_le v b then true else f_contains s' v
  end.

(* values.hh:875-882 FloatSetVal::a(m, n) *)
Definition f_interval (m n : fval) : fset := if f_gt m n then [] else [(m, n)].

(* std::sort with operator< *)
Fixpoint f_insert (x : fval) (l : list fval) : list fval :=
  match l with [] => [x] | y :: l' => if f_lt y x then y :: f_insert x l' else x :: l end.
Fixpoint f_sort (l : list fval) : list fval :=
  match l with [] => [] | x :: l' => f_insert x (f_sort l') end.
(* values.hh:905-919 the loop of FloatSetVal::a(vector) *)
Fixpoint f_ranges (mn mx : fval) (l : list fval) : fset :=
  match l with
  | [] => [(mn, mx)]
  | x :: l' => if f_gt x mx then (mn, mx) :: f_ranges x x l' else f_ranges mn x l'
  end.
(* values.hh:897-924 FloatSetVal::a(vector): the value of a set literal or comprehension *)
Definition f_of_values (s0 : list fval) : fset :=
  match f_sort s0 with [] => [] | x :: l => f_ranges x x l end.

(* values.hh:843-849 width: 1 for a single finite value, otherwise infinity (None) *)
Definition f_width (r : frange) : option Z :=
  if fIsFinite (fst r) && fIsFinite (snd r) && f_eq (fst r) (snd r) then Some 1 else None.
(* iter.hh:683-694 cardinality, called by b_card for a set of float (builtins.cpp:1655-1658);
   None = infinity *)
Fixpoint f_card (s : fset) (acc : Z) : option Z :=
  match s with
  | [] => Some acc
  | r :: s' => match f_width r with Some w => f_card s' (acc + w) | None => None end
  end.
