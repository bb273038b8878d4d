(** Independent specification of reductions: what the elements of an array evaluate to. *)
Require Import ZArith List Bool.
From Verif Require Import Base IntValModel IntValSpec ArrModel ArrSpec.
Import ListNotations.
Open Scope Z_scope.

Section Spec.
Variable E : Type.
(** the elements evaluate, without error, to these (possibly infinite) integers *)
Definition ints (ev : E -> res IntVal) (el : list E) (xs : list ext) : Prop :=
  Forall2 (fun e x => exists v, ev e = Ok v /\ denote v = Some x) el xs.
(** the elements evaluate, without error, to these truth values *)
Definition bools (ev : E -> res bool) (el : list E) (bs : list bool) : Prop := Forall2 (fun e b => ev e = Ok b) el bs.
(** the element at position k fails with x; all elements before it evaluate *)
Definition fails_at {V : Type} (ev : E -> res V) (el : list E) (k : nat) (x : exn) : Prop :=
  (exists e, nth_error el k = Some e /\ ev e = Err x) /\
  forall j e, (j < k)%nat -> nth_error el j = Some e -> exists v, ev e = Ok v.
(** expressions that mean the same evaluate alike *)
Definition respects {V : Type} (same : E -> E -> Prop) (ev : E -> res V) : Prop := forall a b, same a b -> ev a = ev b.
End Spec.
Arguments ints {E}. Arguments bools {E}. Arguments fails_at {E V}. Arguments respects {E V}.

(** m is the least, the greatest of the elements of xs *)
Definition least (m : ext) (xs : list ext) : Prop := In m xs /\ forall x, In x xs -> ext_le m x.
Definition greatest (m : ext) (xs : list ext) : Prop := In m xs /\ forall x, In x xs -> ext_le x m.
(** k is the first position of xs that satisfies P *)
Definition first_pos {V : Type} (P : V -> Prop) (xs : list V) (k : nat) : Prop :=
  (exists x, nth_error xs k = Some x /\ P x) /\ forall j x, (j < k)%nat -> nth_error xs j = Some x -> ~ P x.
(** k is the last such position *)
Definition last_pos {V : Type} (P : V -> Prop) (xs : list V) (k : nat) : Prop :=
  (exists x, nth_error xs k = Some x /\ P x) /\ forall j x, (k < j)%nat -> nth_error xs j = Some x -> ~ P x.
Definition zsum (l : list Z) : Z := fold_right Z.add 0 l.
Definition zproduct (l : list Z) : Z := fold_right Z.mul 1 l.
(** exclusive or of all of bs *)
Definition xor_all (bs : list bool) : bool := fold_right xorb false bs.
(** the same index range, as a set of integers *)
Definition same_range (r s : Z * Z) : Prop := forall z, fst r <= z <= snd r <-> fst s <= z <= snd s.
(** same is an equivalence that holds of expressions that compare equal *)
Definition equivalence {E : Type} (eqb : E -> E -> bool) (same : E -> E -> Prop) : Prop :=
  (forall e, same e e) /\ (forall a b, same a b -> same b a) /\ (forall a b c, same a b -> same b c -> same a c) /\
  (forall a b, eqb a b = true -> same a b).
