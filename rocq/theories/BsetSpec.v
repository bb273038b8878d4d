(** Specification for C73: unions and intersections of arrays of integer sets. *)
Require Import ZArith List.
From Verif Require Import Base IntValModel IntValSpec SetModel SetSpec.
Import ListNotations.
Open Scope Z_scope.

(** z is an element of every set, of some set *)
Definition in_all (z : Z) (l : list iset) : Prop := forall s, In s l -> elem z s.
Definition in_some (z : Z) (l : list iset) : Prop := exists s, In s l /\ elem z s.

(** every element of the range r is greater than every element of r0 *)
Definition behind (r0 r : range) : Prop :=
  forall y z, between y (fst r0) (snd r0) -> between z (fst r) (snd r) -> y < z.

(** Some set has a range that lies behind the first range of the first set and holds z, z + 1 and z + 2, where z
    is in the intersection and z + 1 is not. *)
Definition overrun (l : list iset) : Prop :=
  exists r0 t rest s r z, l = (r0 :: t) :: rest /\ In s l /\ In r s /\ behind r0 r /\
    in_all z l /\ ~ in_all (z + 1) l /\ between z (fst r) (snd r) /\ between (z + 2) (fst r) (snd r).
