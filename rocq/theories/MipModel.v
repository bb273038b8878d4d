(** Model of the decomposition of domains for MIP solvers (lib/MIPdomains.cpp): sets of intervals, the projection
    of the domains and domain constraints of a group of linearly related integer variables onto one of them, and the
    indicator variables and linear constraints that replace them. Simplification: doubles are exact numbers. Sets of
    intervals only compare their ends, so for them an end is a whole multiple of the smallest double; in the rest
    ends are integers and INT_EPS is 0. *)
Require Import ZArith List Bool.
From Verif Require Import Base IntValSpec.
Import ListNotations.
Open Scope Z_scope.

(** outcome of a step; Internal: MZN_MIPD_assert_hard fails (lib/MIPdomains.cpp, include/minizinc/MIPdomains.hh);
    Unsat: MZN_MIPD_ASSERT_FOR_SAT fails (1190-1192); NeedsBounds: the flattening error of 1194-1199;
    Undef: a conversion of a double outside of int to int *)
Inductive out (A : Type) : Type := Done (a : A) | Unsat | NeedsBounds | Internal | Undef.
Arguments Done {A}. Arguments Unsat {A}. Arguments NeedsBounds {A}. Arguments Internal {A}. Arguments Undef {A}.
Definition obind {A B : Type} (x : out A) (f : A -> out B) : out B :=
  match x with Done a => f a | Unsat => Unsat | NeedsBounds => NeedsBounds | Internal => Internal | Undef => Undef end.

(** comparison of doubles including infinities *)
Definition xle (a b : ext) : bool :=
  match a, b with MInf, _ => true | _, PInf => true | Fin x, Fin y => x <=? y | _, _ => false end.
Definition xlt (a b : ext) : bool := negb (xle b a).
Definition xadd (a : ext) (d : Z) : ext := match a with Fin x => Fin (x + d) | _ => a end.

(** lib/MIPdomains.cpp:144-162, Interval; the flag of an interval is its position in the set *)
Record intv : Type := Iv { lf : ext; rt : ext }.
(** 171-216, SetOfIntervals: a multiset ordered by the left ends, as the list of its elements in order *)
Definition soi : Type := list intv.

(** std::multiset::lower_bound and upper_bound: positions in the order *)
Fixpoint prefix (p : intv -> bool) (s : soi) : nat :=
  match s with [] => 0%nat | v :: t => if p v then S (prefix p t) else 0%nat end.
Definition lower_bound (s : soi) (x : ext) : nat := prefix (fun v => xlt (lf v) x) s.
Definition upper_bound (s : soi) (x : ext) : nat := prefix (fun v => xle (lf v) x) s.
(** 186-193, insert: empty intervals are skipped; equal elements are inserted at the end of their range *)
Definition insert (s : soi) (v : intv) : soi * nat :=
  if xlt (rt v) (lf v) then (s, length s)
  else let p := upper_bound s (lf v) in (firstn p s ++ v :: skipn p s, p).
Definition erase (s : soi) (p : nat) : soi := firstn p s ++ skipn (S p) s.
(** erase of a range of iterators, after the check of 2193-2212 (debug builds) that the first is not behind the second *)
Definition erase_range (s : soi) (p q : nat) : out soi :=
  if (q <? p)%nat then Internal else Done (firstn p s ++ skipn q s).
Definition dflt : intv := Iv PInf MInf.

(** 2148-2216, cutOut, with split (2217-2226); iterators are positions, adjusted when elements before them are
    erased or inserted *)
Definition cut_out (s : soi) (l r : ext) : out soi :=
  match s with
  | [] => Done []
  | _ =>
      let k1 := match l with MInf => lower_bound s l | _ => upper_bound s l end in
      let '(s1, d1) :=
        match k1 with
        | O => (s, k1)
        | S k =>
            let it := nth k s dflt in
            if xlt l (rt it)
            then let '(s', _) := insert (erase s k) (Iv (lf it) l) in insert s' (Iv l (rt it))
            else (s, k1)
        end in
      let k2 := lower_bound s1 r in
      match k2 with
      | O => erase_range s1 d1 k2
      | S k =>
          let it := nth k s1 dflt in
          if match r with PInf => xlt r (rt it) | _ => xle r (rt it) end
          then
            let '(s2, p) := insert (erase s1 k) (Iv r (rt it)) in
            let d := if (k <? d1)%nat then pred d1 else d1 in
            let d := if (p <=? d)%nat then S d else d in
            erase_range s2 (if (d1 =? k)%nat then p else d) p
          else erase_range s1 d1 k2
      end
  end.

(** 2117-2130, intersect *)
Fixpoint intersect_loop (s s2 : soi) : out soi :=
  match s2 with
  | [] => Done s
  | v :: t => obind (cut_out s (rt v) (match t with [] => PInf | w :: _ => lf w end)) (fun s' => intersect_loop s' t)
  end.
Definition intersect (s s2 : soi) : out soi :=
  match s2 with [] => Done [] | v :: _ => obind (cut_out s MInf (lf v)) (fun s' => intersect_loop s' s2) end.

(** 2131-2146, cutDeltas *)
Fixpoint cut_deltas (s s2 : soi) (d : Z) : out soi :=
  match s, s2 with
  | [], _ => Done []
  | _, [] => Done s
  | _, v :: t =>
      obind (if xlt MInf (lf v) then cut_out s (xadd (lf v) (- d)) (lf v) else Done s) (fun s' =>
      obind (if xlt (rt v) PInf then cut_out s' (rt v) (xadd (rt v) d) else Done s') (fun s'' => cut_deltas s'' t d))
  end.
(** 199-205, cutDeltas of one interval *)
Definition cut_deltas1 (s : soi) (l r : ext) (d : Z) : out soi := cut_deltas s (fst (insert [] (Iv l r))) d.

(** 2228-2235, getBounds *)
Definition bounds (s : soi) : ext * ext :=
  match s with [] => (PInf, MInf) | v :: _ => (lf v, rt (last s dflt)) end.
(** 2236-2243, checkFiniteBounds *)
Definition finite_bounds (s : soi) : bool :=
  match s with [] => false | _ => xlt MInf (fst (bounds s)) && xlt (snd (bounds s)) PInf end.
(** 2244-2259, checkDisjunctStrict *)
Fixpoint disjunct_strict (s : soi) : bool :=
  match s with
  | [] => true
  | v :: t => xle (lf v) (rt v) && match t with [] => true | w :: _ => xlt (rt v) (lf w) end && disjunct_strict t
  end.

(** the rest is for sets with finite integer ends *)
Definition zof (a : ext) : Z := match a with Fin z => z | _ => 0 end.
Definition width (v : intv) : Z := zof (rt v) - zof (lf v).
(** conversion of an integral double to int: undefined outside of its range *)
Definition int_max : Z := 2147483647.
Definition to_int (z : Z) : out Z := if (- int_max - 1 <=? z) && (z <=? int_max) then Done z else Undef.
(** 2260-2269, cardInt: a sum in int *)
Fixpoint card_loop (s : soi) (nn : Z) : out Z :=
  match s with
  | [] => Done nn
  | v :: t => obind (to_int (nn + 1)) (fun n1 => obind (to_int (width v)) (fun w => obind (to_int (n1 + w)) (card_loop t)))
  end.
Definition card_int (s : soi) : out Z := card_loop s 0.
(** 2270-2277, maxInterval *)
Definition max_interval (s : soi) : Z := fold_left (fun a v => Z.max a (width v)) s (-1).
(** 2278-2289, split2Bits: the loop counts in int *)
Definition singles (l r : Z) : soi := map (fun k => Iv (Fin (l + Z.of_nat k)) (Fin (l + Z.of_nat k))) (seq 0 (Z.to_nat (r - l + 1))).
Fixpoint split_bits (s : soi) : out soi :=
  match s with
  | [] => Done []
  | v :: t =>
      obind (to_int (zof (lf v))) (fun l => obind (to_int (zof (rt v) + 1)) (fun r1 =>
      obind (split_bits t) (fun s' => Done (singles l (r1 - 1) ++ s'))))
  end.

(** a variable v of the group and the reference variable x: x = (num * v + off) / den, the pair of 1247-1248,
    with A = num/den and B = off/den. The reference is the integer variable with the least factor (1128-1149), so
    |num| <= den, unless it has an equality encoding, which is not modelled. *)
Record view : Type := View { num : Z; off : Z; den : Z }.
(** 1384-1389, rndUpIfInt, rndDownIfInt of A * c + B *)
Definition up (w : view) (c : Z) : Z := - ((- (num w * c + off w)) / den w).
Definition down (w : view) (c : Z) : Z := (num w * c + off w) / den w.
(** 1296, 1310: A * c + B differs from its rounded value by at most INT_EPS *)
Definition exact (w : view) (c : Z) : bool := (num w * c + off w) mod den w =? 0.

(** 1892-1907, convertIntSet, for the ranges of a set of integers *)
Definition convert1 (w : view) (v : intv) : intv :=
  let mn := if num w <? 0 then rt v else lf v in
  let mx := if num w <? 0 then lf v else rt v in
  Iv (match mn with Fin c => Fin (up w c) | _ => MInf end) (match mx with Fin c => Fin (down w c) | _ => PInf end).
Definition convert (w : view) (s : list intv) : soi := fold_left (fun acc v => fst (insert acc (convert1 w v))) s [].

(** 497-531, the constraints on one integer variable that are postponed to this phase; b is the 0/1 variable *)
Inductive post : Type :=
| NE (c : Z)                       (* int_ne__POST *)
| IN (S : list intv)               (* set_in__POST *)
| IN_R (S : list intv) (b : nat)   (* set_in_reif__POST *)
| LE_R (c : Z) (b : nat)           (* int_le_reif__POST *)
| GE_R (c : Z) (b : nat)           (* int_ge_reif__POST *)
| EQ_R (c : Z) (b : nat)           (* int_eq_reif__POST *)
| LE0_IF (b : nat).                (* aux_int_le_zero_if_1__POST *)

(** 1277-1368, the calls in projectVariableConstr; delta = max(1, |A|) = 1 (1261, 1929-1940) *)
Definition project_call (w : view) (s : soi) (p : post) : out soi :=
  let le c := cut_deltas1 s MInf (Fin (down w c)) 1 in
  let ge c := cut_deltas1 s (Fin (up w c)) PInf 1 in
  match p with
  | IN D => intersect s (convert w D)
  | IN_R D _ => cut_deltas s (convert w D) 1
  | LE_R c _ => if num w <? 0 then ge c else le c
  | GE_R c _ => if num w <? 0 then le c else ge c
  | EQ_R c _ => if exact w c then cut_deltas1 s (Fin (down w c)) (Fin (down w c)) 1 else Done s
  | NE c => if exact w c then cut_out s (Fin (down w c - 1)) (Fin (down w c + 1)) else Done s
  | LE0_IF _ => Done s
  end.
Fixpoint project_calls (w : view) (s : soi) (ps : list post) : out soi :=
  match ps with [] => Done s | p :: t => obind (project_call w s p) (fun s' => project_calls w s' t) end.
(** a variable of the group: its relation to the reference, its domain, its constraints *)
Record mvard : Type := MVar { mv_view : view; mv_dom : option (list intv); mv_posts : list post }.
(** 1243-1372, projectVariableConstr *)
Definition project_var (s : soi) (v : mvard) : out soi :=
  obind (match mv_dom v with Some D => intersect s (convert (mv_view v) D) | None => Done s end)
        (fun s' => project_calls (mv_view v) s' (mv_posts v)).
Fixpoint project_all (s : soi) (vs : list mvard) : out soi :=
  match vs with [] => Done s | v :: t => obind (project_var s v) (fun s' => project_all s' t) end.

(** 1391-1412, makeRangeDomains: the new domain of a variable *)
Definition new_range (w : view) (L U : Z) : Z * Z :=
  let n := Z.abs (num w) in
  let a := Z.sgn (num w) * (den w * L - off w) in
  let b := Z.sgn (num w) * (den w * U - off w) in
  let lb := if b <? a then b else a in
  let ub := if b <? a then a else b in
  (- ((- lb) / n), ub / n).

(** variables of the linear constraints: the reference, the flag of the k-th interval, the literal 1, a 0/1 variable *)
Inductive mvar : Type := MRef | MFlag (k : nat) | MOne | MB (b : nat).
Record lin : Type := Lin { terms : list (Z * mvar); is_eq : bool; rhs : Z }.
(** 1792-1889, addLinConstr: terms with coefficient 0 are dropped *)
Definition add_lin (ts : list (Z * mvar)) (eq : bool) (r : Z) : lin := Lin (filter (fun t => negb (fst t =? 0)) ts) eq r.

(** 1462-1470, considerDenseEncoding, with the options nMaxIntv2Bits = nmi and dMaxNValueDensity = dn/dd *)
Definition dense (s : soi) (nmi dn dd : Z) : out soi :=
  if max_interval s <=? nmi then split_bits s
  else obind (card_int s) (fun c => if c * dd <=? dn * Z.of_nat (length s) then split_bits s else Done s).
(** 1474-1502, createDomainFlags *)
Definition flag_terms (f : intv -> Z) (s : soi) : list (Z * mvar) :=
  map (fun kv => (f (snd kv), MFlag (fst kv))) (combine (seq 0 (length s)) s).
Definition domain_flags (s : soi) : list lin :=
  add_lin (flag_terms (fun _ => 1) s) true 1 ::
  (if 0 <? max_interval s
   then [ add_lin (flag_terms (fun v => zof (lf v)) s ++ [(-1, MRef)]) false 0;
          add_lin (flag_terms (fun v => - zof (rt v)) s ++ [(1, MRef)]) false 0 ]
   else [ add_lin (flag_terms (fun v => zof (lf v)) s ++ [(-1, MRef)]) true 0 ]).

(** 1718-1742, the flags of the intervals of s in the intervals of SS; hf: the intervals have flags *)
Fixpoint related (s : soi) (hf : bool) (SS : list intv) : out (list mvar) :=
  match SS with
  | [] => Done []
  | v :: t =>
      let i1 := lower_bound s (lf v) in
      let i2 := upper_bound s (rt v) in
      if negb (match i1 with O => true | S k => xlt (rt (nth k s dflt)) (lf v) end) then Internal else
      if negb (match i2 with O => true | S k => xle (rt (nth k s dflt)) (rt v) end) then Internal else
      if (i2 <? i1)%nat then Undef else
      if (i1 <? i2)%nat && negb hf && negb (length s =? 1)%nat then Internal else
      obind (related s hf t) (fun fs => Done (map (fun k => if hf then MFlag k else MOne) (seq i1 (i2 - i1)) ++ fs))
  end.
(** what is added to the model: linear constraints, and 0/1 variables whose domain is set to 0..0 *)
Definition added : Type := list lin * list nat.
(** 1693-1753, relateReifFlag *)
Definition relate (s : soi) (hf : bool) (b : nat) (SS : list intv) (full : bool) : out added :=
  obind (related s hf SS) (fun fs =>
  match fs with
  | [] => Done ([], [b])
  | _ => Done ([add_lin (map (fun f => (-1, f)) fs ++ [(1, MB b)]) full 0], [])
  end).
(** 1577-1674, the half-reified comparison with 0, b -> v <= 0, for an integer reference *)
Definition impl_le0 (s : soi) (hf : bool) (w : view) (b : nat) : out added :=
  let neg := num w <? 0 in
  let U := up w 0 in
  let D := down w 0 in
  let inner :=
    if neg then match lower_bound s (Fin D) with O => false | S k => xle (Fin U) (rt (nth k s dflt)) end
    else match upper_bound s (Fin U) with O => false | S k => xlt (Fin D) (rt (nth k s dflt)) end in
  if negb inner then
    relate s hf b (if neg then [Iv (Fin U) PInf] else [Iv MInf (Fin D)]) false
  else
    let bl := zof (fst (bounds s)) in
    let br := zof (snd (bounds s)) in
    if neg then
      if bl <? U then if U <=? br then Done ([add_lin [(-1, MRef); (U - bl, MB b)] false (- bl)], []) else Done ([], [b])
      else Done ([], [])
    else
      if D <? br then if bl <=? D then Done ([add_lin [(1, MRef); (br - D, MB b)] false br], []) else Done ([], [b])
      else Done ([], []).
(** 1506-1690, implementPOSTs, for one call *)
Definition impl_call (s : soi) (hf : bool) (w : view) (p : post) : out added :=
  let le c b := relate s hf b [Iv MInf (Fin (down w c))] true in
  let ge c b := relate s hf b [Iv (Fin (up w c)) PInf] true in
  match p with
  | IN_R D b => relate s hf b (convert w D) true
  | LE_R c b => if num w <? 0 then ge c b else le c b
  | GE_R c b => if num w <? 0 then le c b else ge c b
  | EQ_R c b => relate s hf b [Iv (Fin (up w c)) (Fin (down w c))] true
      (* for a fraction q, comparing integers with q is comparing them with its neighbours *)
  | LE0_IF b => impl_le0 s hf w b
  | NE _ | IN _ => Done ([], [])
  end.
Fixpoint impl_calls (s : soi) (hf : bool) (w : view) (ps : list post) : out added :=
  match ps with
  | [] => Done ([], [])
  | p :: t => obind (impl_call s hf w p) (fun a => obind (impl_calls s hf w t) (fun r => Done (fst a ++ fst r, snd a ++ snd r)))
  end.
Fixpoint impl_all (s : soi) (hf : bool) (vs : list mvard) : out added :=
  match vs with
  | [] => Done ([], [])
  | v :: t => obind (impl_calls s hf (mv_view v) (mv_posts v)) (fun a =>
              obind (impl_all s hf t) (fun r => Done (fst a ++ fst r, snd a ++ snd r)))
  end.

(** the result: the number of flags (all with domain 0..1), the constraints, the variables set to 0 and the new
    domains of the variables of the group *)
Record result : Type := Res { r_flags : nat; r_lins : list lin; r_zero : list nat; r_ranges : list (Z * Z) }.
(** 1165-1227, doProcess, without equality encodings *)
Definition process (vs : list mvard) (nmi dn dd : Z) : out result :=
  obind (project_all [Iv MInf PInf] vs) (fun s =>
  match s with
  | [] => Unsat
  | _ =>
      if negb (finite_bounds s) then NeedsBounds else
      if negb (disjunct_strict s) then Internal else
      let ranges := map (fun v => new_range (mv_view v) (zof (fst (bounds s))) (zof (snd (bounds s)))) vs in
      let hf := (2 <=? length s)%nat in
      obind (if hf then dense s nmi dn dd else Done s) (fun s1 =>
      obind (impl_all s1 hf vs) (fun a =>
      Done (Res (if hf then length s1 else 0%nat) ((if hf then domain_flags s1 else []) ++ fst a) (snd a) ranges)))
  end).
