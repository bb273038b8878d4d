(** The arguments that survive combining and splitting. *)
Require Import ZArith List Bool.
From Verif Require Import Base StrModel.
Import ListNotations.
Open Scope Z_scope.

(** bell, backspace, tab, newline, vertical tab, form feed, carriage return *)
Definition is_ctl (x : Z) : Prop := 7 <= x <= 13.
(** no such control character, and every backslash is followed by a character other than backslash and double quote *)
Definition plain (a : str) : Prop :=
  (forall x, In x a -> ~ is_ctl x) /\
  (forall p q, a = p ++ 92 :: q -> exists x q', q = x :: q' /\ x <> 92 /\ x <> 34).
(** words separated by single blanks *)
Fixpoint join (v : list str) : str :=
  match v with [] => [] | a :: r => a ++ match r with [] => [] | _ => 32 :: join r end end.
Definition word (a : str) : Prop := forall x, In x a -> x <> 32 /\ x <> 34 /\ x <> 92.
