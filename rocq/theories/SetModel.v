(** Model of IntSetVal (include/minizinc/values.hh:561-740) and of the range iterators of
    include/minizinc/iter.hh, instantiated at Val = IntVal.

    A range iterator is modelled by the list of ranges it still has to deliver: [i()] is "list is not
    empty", [i.min()]/[i.max()] are the components of the head and [++i] is the tail.  IntSetRanges
    (values.hh:743-764) is such an iterator over the stored vector. *)
Require Import ZArith List Bool Lia.
From Verif Require Import Base IntValModel.
Import ListNotations.
Open Scope Z_scope.

(* values.hh:566-575 struct Range *)
Notation range := (IntVal * IntVal)%type.
(* values.hh:561-600 IntSetVal: its ranges in storage order *)
Notation iset := (list range).

(* iter.hh:282 overlaps *)
Definition overlaps (x y : IntVal) : res bool :=
  do x1 <- iv_plus x 1; Ok (iv_ge x1 y).
(* iter.hh:296-297 *)
Definition next_higher (x : IntVal) : res IntVal := iv_plus x 1.
Definition next_lower (x : IntVal) : res IntVal := iv_minus x 1.

(* iter.hh:35-69 MinMax base class together with the two wrapped iterators *)
Record it2 : Type := mkIt { mi : IntVal; ma : IntVal; ii : iset; jj : iset }.

(* iter.hh:72-76 finish *)
Definition finish (i j : iset) : it2 := mkIt (ofZ 1) (ofZ 0) i j.

(** ** Union, iter.hh:316-365 *)

(* iter.hh:342-352, the code between label next and the end: absorb further ranges *)
Fixpoint absorb (i : iset) : IntVal -> iset -> res (IntVal * iset * iset) :=
  fix absorb_j (m : IntVal) (j : iset) {struct j} : res (IntVal * iset * iset) :=
    do oi <- (match i with [] => Ok false | (a, _) :: _ => overlaps m a end);
    match i, oi with
    | (_, b) :: i', true => absorb i' (iv_max m b) j
    | _, _ =>
        match j with
        | [] => Ok (m, i, j)
        | (c, d) :: j' =>
            do oj <- overlaps m c;
            if oj : bool then absorb_j (iv_max m d) j' else Ok (m, i, j)
        end
    end.

(* iter.hh:317-353 Union::operator++ *)
Definition union_next (i j : iset) : res it2 :=
  match i, j with
  | [], [] => Ok (finish i j)
  | [], (c, d) :: j' => Ok (mkIt c d i j')
  | (a, b) :: i', [] => Ok (mkIt a b i' j)
  | (a, b) :: i', (c, d) :: j' =>
      do o1 <- overlaps d a;
      if negb o1 then Ok (mkIt c d i j')
      else
        do o2 <- overlaps b c;
        if negb o2 then Ok (mkIt a b i' j)
        else
          do ' (m, i2, j2) <- absorb i' (iv_max b d) j';
          Ok (mkIt (iv_min a c) m i2 j2)
  end.

(* values.hh:671-680 IntSetVal::ai: for (; i(); ++i) s.push_back(Range(i.min(), i.max())).
   [next] is the operator++ of the iterator; operator() is MinMax: mi <= ma (iter.hh:84-87). *)
Fixpoint drain (next : it2 -> res it2) (fuel : nat) (st : it2) : res iset :=
  if iv_le (mi st) (ma st) then
    match fuel with
    | O => Err OutOfFuel
    | S n =>
        do st' <- next st;
        do l <- drain next n st';
        Ok ((mi st, ma st) :: l)
    end
  else Ok [].

(* IntSetVal::ai applied to a Union of two sets (e.g. lib/builtins.cpp, lib/eval_par.cpp) *)
Definition set_union (s t : iset) : res iset :=
  do st <- union_next s t;
  drain (fun st => union_next (ii st) (jj st)) (length s + length t) st.

(** ** Intersection, iter.hh:406-450 *)

(* iter.hh:412-414 and 418-420: skip ranges ending before [m] *)
Fixpoint skip_below (i : iset) (m : IntVal) : iset :=
  match i with
  | (a, b) :: i' => if iv_lt b m then skip_below i' m else i
  | [] => []
  end.

(* iter.hh:411-424 the do-while loop; None = goto done *)
Fixpoint inter_align (fuel : nat) (i j : iset) : res (option (iset * iset)) :=
  match j with
  | [] => Ok None (* not reached: checked before the loop *)
  | (c, _) :: _ =>
      match skip_below i c with
      | [] => Ok None
      | (a, b) :: i' =>
          match skip_below j a with
          | [] => Ok None
          | (c', d') :: j' =>
              if iv_lt b c' then
                match fuel with
                | O => Err OutOfFuel
                | S n => inter_align n ((a, b) :: i') ((c', d') :: j')
                end
              else Ok (Some ((a, b) :: i', (c', d') :: j'))
          end
      end
  end.

(* iter.hh:407-436 Inter::operator++ *)
Definition inter_next (i j : iset) : res it2 :=
  match i, j with
  | [], _ | _, [] => Ok (finish i j)
  | _, _ =>
      do o <- inter_align (length i + length j) i j;
      match o with
      | Some ((a, b) :: i', (c, d) :: j') =>
          if iv_lt b d then Ok (mkIt (iv_max a c) (iv_min b d) i' ((c, d) :: j'))
          else Ok (mkIt (iv_max a c) (iv_min b d) ((a, b) :: i') j')
      | _ => Ok (finish i j)
      end
  end.

Definition set_inter (s t : iset) : res iset :=
  do st <- inter_next s t;
  drain (fun st => inter_next (ii st) (jj st)) (length s + length t) st.

(** ** Difference, iter.hh:485-555 *)

(* iter.hh:486-528 Diff::operator++; one unfolding is one iteration of while(true) *)
Fixpoint diff_next (fuel : nat) (m : IntVal) (i j : iset) : res it2 :=
  match fuel with
  | O => Err OutOfFuel
  | S n =>
      match i with
      | [] => Ok (finish i j)
      | (a, b) :: i' =>
          let isInfinite := negb (isFinite m) && iv_gt m (ofZ 0) in
          do mi1 <- next_higher m;
          let '(brk, mi2, ma2, i2) :=
            if isInfinite || iv_gt mi1 b then
              match i' with
              | [] => (true, mi1, b, i')
              | (a', b') :: _ => (false, a', b', i')
              end
            else (false, mi1, b, i) in
          if brk : bool then Ok (finish i2 j)
          else
            let j2 := skip_below j mi2 in
            match j2 with
            | (c, d) :: j3 =>
                if iv_le c ma2 then
                  if iv_ge mi2 c && iv_le ma2 d then diff_next n ma2 i2 j2
                  else if iv_le c mi2 then
                    do mi3 <- next_higher d;
                    match j3 with
                    | (c', d') :: _ =>
                        if iv_le c' ma2 then
                          do ma3 <- next_lower c'; Ok (mkIt mi3 ma3 i2 j3)
                        else Ok (mkIt mi3 ma2 i2 j3)
                    | [] => Ok (mkIt mi3 ma2 i2 j3)
                    end
                  else
                    do ma3 <- next_lower c; Ok (mkIt mi2 ma3 i2 j2)
                else Ok (mkIt mi2 ma2 i2 j2)
            | [] => Ok (mkIt mi2 ma2 i2 j2)
            end
      end
  end.

Definition diff_fuel (i : iset) : nat := S (length i).

(* iter.hh:533-542 constructor, then ai *)
Definition set_diff (s t : iset) : res iset :=
  do st <- (match s with
            | [] => Ok (finish s t)
            | (a, _) :: _ => do m <- next_lower a; diff_next (diff_fuel s) m s t
            end);
  drain (fun st => diff_next (diff_fuel (ii st)) (ma st) (ii st) (jj st)) (length s + length t) st.

(** ** Predicates *)

(* iter.hh:696-707 equal *)
Fixpoint set_equal (i j : iset) : bool :=
  match i, j with
  | (a, b) :: i', (c, d) :: j' => if iv_eq a c && iv_eq b d then set_equal i' j' else false
  | [], [] => true
  | _, _ => false
  end.

(* iter.hh:710-723 subset *)
Fixpoint set_subset (i : iset) : iset -> bool :=
  fix sub_j (j : iset) : bool :=
    match i, j with
    | (a, b) :: i', (c, d) :: j' =>
        if iv_lt d a then sub_j j'
        else if iv_ge a c && iv_le b d then set_subset i' j
        else false
    | [], _ => true
    | _ :: _, [] => false
    end.

(* iter.hh:725-738 disjoint *)
Fixpoint set_disjoint (i : iset) : iset -> bool :=
  fix dis_j (j : iset) : bool :=
    match i, j with
    | (a, b) :: i', (c, d) :: j' =>
        if iv_lt d a then dis_j j'
        else if iv_lt b c then set_disjoint i' j
        else false
    | _, _ => true
    end.

(* iter.hh:671-675, 740-770 compare *)
Inductive CompareStatus : Type := CS_SUBSET | CS_DISJOINT | CS_NONE.
Fixpoint set_compare_loop (i : iset) : iset -> bool -> bool -> CompareStatus :=
  fix cmp_j (j : iset) (sub dis : bool) : CompareStatus :=
    match i, j with
    | (a, b) :: i', (c, d) :: j' =>
        if iv_lt d a then cmp_j j' sub dis
        else if iv_lt b c then set_compare_loop i' j false dis
        else if iv_ge a c && iv_le b d then set_compare_loop i' j sub false
        else if iv_le b d then set_compare_loop i' j false false
        else cmp_j j' false false (* j.max <= i.max, the only remaining case *)
    | _, _ =>
        let sub := match i with [] => sub | _ => false end in
        if sub then CS_SUBSET else if dis then CS_DISJOINT else CS_NONE
    end.
Definition set_compare (i j : iset) : CompareStatus := set_compare_loop i j true true.

(* values.hh:712-723 contains *)
Fixpoint set_contains (s : iset) (v : IntVal) : bool :=
  match s with
  | [] => false
  | (a, b) :: s' => if iv_lt v a then false else if iv_le v b then true else set_contains s' v
  end.

(* values.hh:643-651 isSubset(Range): the loop runs downwards; the result does not depend on the order *)
Fixpoint set_has_range (s : iset) (r : range) : bool :=
  match s with
  | [] => false
  | (a, b) :: s' => if set_has_range s' r then true else iv_le a (fst r) && iv_le (snd r) b
  end.

(* iter.hh:772-796 less *)
Fixpoint set_less (i j : iset) : bool :=
  match i, j with
  | [], [] => false
  | [], _ :: _ => true
  | _ :: _, [] => false
  | (a, b) :: i', (c, d) :: j' =>
      if iv_lt a c then true
      else if iv_gt a c then false
      else if iv_lt b d then match i' with [] => true | _ => false end
      else if iv_gt b d then match j' with [] => false | _ => true end
      else set_less i' j'
  end.
(* iter.hh:798-822 less_eq *)
Fixpoint set_less_eq (i j : iset) : bool :=
  match i, j with
  | [], _ => true
  | _ :: _, [] => false
  | (a, b) :: i', (c, d) :: j' =>
      if iv_lt a c then true
      else if iv_gt a c then false
      else if iv_lt b d then match i' with [] => true | _ => false end
      else if iv_gt b d then match j' with [] => false | _ => true end
      else set_less_eq i' j'
  end.

(** ** Cardinality *)
(* values.hh:623-629 width *)
Definition width (r : range) : res IntVal :=
  if isFinite (fst r) && isFinite (snd r) then
    do d <- iv_sub (snd r) (fst r); iv_add d (ofZ 1)
  else Ok iv_infinity.

(* iter.hh:682-694 cardinality *)
Fixpoint cardinality_loop (i : iset) (s : IntVal) : res IntVal :=
  match i with
  | [] => Ok s
  | r :: i' =>
      do w <- width r;
      if isFinite w then do s' <- add_assign s w; cardinality_loop i' s'
      else Ok iv_infinity
  end.
Definition cardinality (i : iset) : res IntVal := cardinality_loop i (ofZ 0).

(* values.hh:632-642 card: the same loop from the last range to the first *)
Definition card (s : iset) : res IntVal := cardinality_loop (rev s) (ofZ 0).

(** ** Bounded iterators, iter.hh:142-190 (only the one-sided uses miniter/maxiter occur) *)
(* maxiter: stop at the first range starting above the bound, cut the last one *)
Fixpoint bounded_max (s : iset) (m : IntVal) : iset :=
  match s with
  | (a, b) :: s' => if iv_le a m then (a, iv_min m b) :: bounded_max s' m else []
  | [] => []
  end.
(* miniter: ranges ending below the bound are skipped in the constructor and in operator++ *)
Fixpoint bounded_min (s : iset) (m : IntVal) : iset :=
  match s with
  | (a, b) :: s' => if iv_lt b m then bounded_min s' m else (iv_max m a, b) :: bounded_min s' m
  | [] => []
  end.

(* iter.hh:193-249 Const *)
Definition const_range (a b : IntVal) : iset := if iv_gt a b then [] else [(a, b)].

(* values.hh:661-668 IntSetVal::a(m,n) *)
Definition set_interval (m n : IntVal) : iset := if iv_gt m n then [] else [(m, n)].

(** ** Construction from a vector of values, values.hh:683-705 *)
(* std::sort with operator<; insertion sort is an exact model because the order is total and equal
   keys are identical values *)
Fixpoint insert_iv (x : IntVal) (l : list IntVal) : list IntVal :=
  match l with
  | [] => [x]
  | y :: l' => if iv_lt y x then y :: insert_iv x l' else x :: l
  end.
Fixpoint sort_iv (l : list IntVal) : list IntVal :=
  match l with [] => [] | x :: l' => insert_iv x (sort_iv l') end.

(* values.hh:689-700 the loop over s[1..] *)
Fixpoint ranges_of_sorted (mn mx : IntVal) (l : list IntVal) : res iset :=
  match l with
  | [] => Ok [(mn, mx)]
  | x :: l' =>
      do mx1 <- iv_add mx (ofZ 1);
      if iv_gt x mx1 then
        do r <- ranges_of_sorted x x l'; Ok ((mn, mx) :: r)
      else ranges_of_sorted mn x l'
  end.
Definition set_of_vector (s0 : list IntVal) : res iset :=
  match sort_iv s0 with
  | [] => Ok []
  | x :: l => ranges_of_sorted x x l
  end.

(** ** Value iteration, iter.hh:603-640 ToValues, for finite sets *)
(* one range: cur, cur+1, ..., max, then the next range.  [n] bounds the number of increments. *)
Fixpoint range_values (n : nat) (cur max : IntVal) : res (list IntVal) :=
  if iv_le cur max then
    match n with
    | O => Err OutOfFuel
    | S n' => do c' <- iv_incr cur; do l <- range_values n' c' max; Ok (cur :: l)
    end
  else Ok [].
Fixpoint to_values (s : iset) : res (list IntVal) :=
  match s with
  | [] => Ok []
  | (a, b) :: s' =>
      do l <- range_values (Z.to_nat (iv_v b - iv_v a + 1)) a b;
      do l' <- to_values s'; Ok (l ++ l')
  end.

(** ** Domain operations, include/minizinc/flatten_internal.hh *)
Inductive cmp_op : Type := BOT_LE | BOT_LQ | BOT_GR | BOT_GQ | BOT_EQ | BOT_NQ.
(* flatten_internal.hh:724-757 limitDomain (BOT_EQ is the default branch: assert(false), nullptr) *)
Definition limitDomain (bot : cmp_op) (dom : iset) (v : IntVal) : res iset :=
  match bot with
  | BOT_LE => do v' <- sub_assign v (ofZ 1); Ok (bounded_max dom v')
  | BOT_LQ => Ok (bounded_max dom v)
  | BOT_GR => do v' <- add_assign v (ofZ 1); Ok (bounded_min dom v')
  | BOT_GQ => Ok (bounded_min dom v)
  | BOT_NQ => set_diff dom (const_range v v)
  | BOT_EQ => UB
  end.
(* flatten_internal.hh:758-769 intersectDomain *)
Definition intersectDomain_range (dom : iset) (v0 v1 : IntVal) : res iset :=
  set_inter dom (const_range v0 v1).
Definition intersectDomain_dom (d0 d1 : iset) : res iset := set_inter d0 d1.
(* flatten_internal.hh:697-701 domainContains, domainEquals *)
Definition domainContains (dom : iset) (v : IntVal) : bool := set_contains dom v.
Definition domainEquals_val (dom : iset) (v : IntVal) : bool :=
  match dom with [(a, b)] => iv_eq a v && iv_eq b v | _ => false end.
(* flatten_internal.hh:720-722 domainIntersects *)
Definition domainIntersects (dom : iset) (v0 v1 : IntVal) : bool :=
  iv_gt v0 v1 ||
  match dom with
  | [] => false
  | (a, _) :: _ => iv_le a v1 && iv_le v0 (snd (last dom (v0, v0)))
  end.
