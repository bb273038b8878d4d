(** Independent specification of sorting, inverting and listing. *)
Require Import ZArith List Bool Permutation.
From Verif Require Import Base IntValModel IntValSpec SetModel SetSpec ArrModel ArrSpec RedSpec.
Import ListNotations.
Open Scope Z_scope.

(** p lists the positions of xs in the order of their values, and positions with equal values in their own order *)
Definition ordered (xs : list ext) (p : list nat) : Prop :=
  Permutation p (seq 0 (length xs)) /\
  forall i j a b x y, (i < j)%nat -> nth_error p i = Some a -> nth_error p j = Some b -> nth_error xs a = Some x -> nth_error xs b = Some y ->
    ext_lt x y \/ x = y /\ (a < b)%nat.
(** el' lists the elements of el at the positions p *)
Definition taken {E : Type} (same : E -> E -> Prop) (el : list E) (p : list nat) (el' : list E) : Prop :=
  Forall2 (fun k e' => exists e, nth_error el k = Some e /\ same e' e) p el'.
(** what C++ guarantees of std::sort: with a strict weak order, the result is a permutation without inversions *)
Definition weak_order {A : Type} (less : A -> A -> bool) (l : list A) : Prop :=
  (forall a, In a l -> less a a = false) /\
  (forall a b c, In a l -> In b l -> In c l -> less a b = true -> less b c = true -> less a c = true) /\
  (forall a b c, In a l -> In b l -> In c l -> less a b = false -> less b c = false -> less a c = false).
Definition sorts {A : Type} (srt : (A -> A -> bool) -> list A -> list A) : Prop :=
  forall less l, weak_order less l -> Permutation l (srt less l) /\
    forall i j a b, (i < j)%nat -> nth_error (srt less l) i = Some a -> nth_error (srt less l) j = Some b -> less b a = false.
(** zs lists every integer of m..m+n-1 exactly once *)
Definition one_to_one (zs : list Z) (m : Z) : Prop := NoDup zs /\ forall z, In z zs <-> m <= z < m + len zs.
(** the ends of ranges, in order *)
Fixpoint in_ranges (z : Z) (l : list ext) : Prop :=
  match l with a :: b :: l => (ext_le a (Fin z) /\ ext_le (Fin z) b) \/ in_ranges z l | _ => False end.
(** increasing, and at least one integer between the end of a range and the start of the next *)
Fixpoint apart (l : list ext) : Prop :=
  match l with a :: b :: l => (exists z, ext_le a (Fin z) /\ ext_le (Fin z) b) /\ match l with c :: _ => exists z, ext_lt b (Fin z) /\ ext_lt (Fin z) c | [] => True end /\ apart l
  | [] => True | _ => False end.
