(** Independent specification of reshaping, joining and selecting from arrays. *)
Require Import ZArith List Bool.
From Verif Require Import Base IntValModel IntValSpec SetModel ArrModel ArrSpec.
Import ListNotations.
Open Scope Z_scope.

(** an index set that is a range of integers, with the range *)
Inductive range_of : iset -> Z * Z -> Prop :=
| ro_empty : range_of [] (1, 0)
| ro_range : forall x y l u, is_int x l -> is_int y u -> l <= u -> range_of [(x, y)] (l, u).
(** an index set l..infinity *)
Definition from (s : iset) (l : Z) : Prop := exists x y, s = [(x, y)] /\ is_int x l /\ denote y = Some PInf.

(** the range r' that the selection x..y, whose ends may be infinite, takes from the index range r: an infinite end
    stands for the end of the index range; finite ends are within the range of an int *)
Definition ends (x y : IntVal) (r r' : Z * Z) : Prop :=
  (is_int x (fst r') /\ INT_MIN <= fst r' <= INT_MAX \/ denote x = Some MInf /\ fst r' = fst r) /\
  (is_int y (snd r') /\ INT_MIN <= snd r' <= INT_MAX \/ denote y = Some PInf /\ snd r' = snd r).

Section Spec.
Variable E : Type.
Variable same : E -> E -> Prop.
(** the element of el at position p is the element of el0 at position p0 *)
Definition same_at (el : list E) (p : Z) (el0 : list E) (p0 : Z) : Prop :=
  exists e e0, elem_at el p = Some e /\ elem_at el0 p0 = Some e0 /\ same e e0.

(** el joins el0 and el1 along the dimension between pre and post, where el0 has the index range r0 and el1 the
    range r1: first come the elements of el0 in that dimension, then those of el1, numbered from 1 *)
Definition joined (pre : shape) (r0 r1 : Z * Z) (post : shape) (el0 el1 el : list E) : Prop :=
  forall ip iq, in_shape ip pre -> in_shape iq post ->
  let out j := position (pre ++ (1, wid r0 + wid r1) :: post) (ip ++ j :: iq) in
  (forall i, fst r0 <= i <= snd r0 ->
     same_at el (out (i - fst r0 + 1)) el0 (position (pre ++ r0 :: post) (ip ++ i :: iq))) /\
  (forall i, fst r1 <= i <= snd r1 ->
     same_at el (out (wid r0 + (i - fst r1) + 1)) el1 (position (pre ++ r1 :: post) (ip ++ i :: iq))).
(** el keeps of el0 the indices l of one dimension, renumbered from 1 *)
Definition selected (pre : shape) (r : Z * Z) (post : shape) (l : list Z) (el0 el : list E) : Prop :=
  forall ip iq, in_shape ip pre -> in_shape iq post -> forall t v, nth_error l t = Some v ->
  same_at el (position (pre ++ (1, len l) :: post) (ip ++ (Z.of_nat t + 1) :: iq)) el0 (position (pre ++ r :: post) (ip ++ v :: iq)).
(** el keeps of el0 the index range r' of one dimension, without renumbering *)
Definition restricted (pre : shape) (r : Z * Z) (post : shape) (r' : Z * Z) (el0 el : list E) : Prop :=
  forall ip iq i, in_shape ip pre -> in_shape iq post -> fst r' <= i <= snd r' ->
  same_at el (position (pre ++ r' :: post) (ip ++ i :: iq)) el0 (position (pre ++ r :: post) (ip ++ i :: iq)).
End Spec.
Arguments same_at {E}. Arguments joined {E}. Arguments selected {E}. Arguments restricted {E}.
