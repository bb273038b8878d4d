(** Independent specification for sets of floats. *)
Require Import ZArith List.
From Verif Require Import Base FSetModel.
Import ListNotations.
Open Scope Z_scope.

(** z is the rank of a finite double *)
Definition double (z : Z) : Prop := - DMAX <= z <= DMAX.

(** a bound at or below, and at or above, the double of rank z *)
Definition below (a : fval) (z : Z) : Prop := match a with FMinus => True | FNum x => x <= z | FPlus => False end.
Definition above (z : Z) (b : fval) : Prop := match b with FPlus => True | FNum y => z <= y | FMinus => False end.

(** the double of rank z is an element of the set *)
Definition felem (z : Z) (s : fset) : Prop := exists a b, In (a, b) s /\ below a z /\ above z b.

Definition stored (a : fval) : Prop := match a with FNum x => double x | _ => True end.
(** a range that contains at least one double *)
Definition fgood (r : frange) : Prop :=
  stored (fst r) /\ stored (snd r) /\ exists z, double z /\ below (fst r) z /\ above z (snd r).
(** every double of the first range is below every double of the second one *)
Definition before (r1 r2 : frange) : Prop :=
  forall x y, above x (snd r1) -> below (fst r2) y -> double x -> double y -> x < y.
(** there is a double between the two ranges *)
Definition apart (r1 r2 : frange) : Prop :=
  exists z, double z /\ ~ above z (snd r1) /\ ~ below (fst r2) z.

(** the sets the program stores: non-empty ranges in increasing order *)
Inductive ordered : fset -> Prop :=
| ord_nil : ordered []
| ord_one : forall r, fgood r -> ordered [r]
| ord_cons : forall r1 r2 s, fgood r1 -> before r1 r2 -> ordered (r2 :: s) -> ordered (r1 :: r2 :: s).
(** sets whose neighbouring ranges do not touch *)
Inductive spaced : fset -> Prop :=
| sp_nil : spaced []
| sp_one : forall r, fgood r -> spaced [r]
| sp_cons : forall r1 r2 s, fgood r1 -> apart r1 r2 -> spaced (r2 :: s) -> spaced (r1 :: r2 :: s).

(** no bound is the largest or the smallest finite double *)
Definition interior (s : fset) : Prop :=
  forall a b, In (a, b) s -> forall x, a = FNum x \/ b = FNum x -> - DMAX < x < DMAX.
