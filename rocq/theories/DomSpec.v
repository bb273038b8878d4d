(** Specification for C74: the domains given to the results of div, mod and pow. *)
Require Import ZArith List.
From Verif Require Import Base IntValModel IntValSpec SetModel SetSpec DomModel.
Open Scope Z_scope.

(** The bounds are right for the value x.  Nothing is known if they are not valid. *)
Definition holds (b : bounds) (x : Z) : Prop := b_valid b = true -> between x (b_l b) (b_u b).

(** Integer division and remainder round towards zero (language definition); both are undefined for divisor 0. *)
Definition div_value (x y : Z) : option Z := if y =? 0 then None else Some (Z.quot x y).
Definition mod_value (x y : Z) : option Z := if y =? 0 then None else Some (Z.rem x y).
(** A negative power is one divided by the positive power; it is undefined for 0. *)
Definition pow_value (x e : Z) : option Z :=
  if 0 <=? e then Some (x ^ e) else if x =? 0 then None else Some (Z.quot 1 (x ^ (- e))).

(** The set s holds every value of f for arguments within the bounds. *)
Definition covers (f : Z -> Z -> option Z) (bx by_ : bounds) (s : iset) : Prop :=
  forall x y z, holds bx x -> holds by_ y -> f x y = Some z -> elem z s.

(** Every element of s lies between two values of f for arguments within the (finite) bounds. *)
Definition tight (f : Z -> Z -> option Z) (bx by_ : bounds) (s : iset) : Prop :=
  forall z, elem z s -> exists x y v x' y' v',
    holds bx x /\ holds by_ y /\ f x y = Some v /\ holds bx x' /\ holds by_ y' /\ f x' y' = Some v' /\ v <= z <= v'.
(** bounds with integers as ends and at least one value *)
Definition proper (b : bounds) : Prop :=
  b_valid b = true /\ exists l u, is_int (b_l b) l /\ is_int (b_u b) u /\ l <= u.
