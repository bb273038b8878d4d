(** Independent specification: integers extended with two infinities. *)
Require Import ZArith Bool.
From Verif Require Import Base IntValModel.
Open Scope Z_scope.

Inductive ext : Type := MInf | Fin (z : Z) | PInf.

(** order of the extended integers *)
Definition ext_le (a b : ext) : Prop :=
  match a, b with
  | MInf, _ => True
  | _, PInf => True
  | Fin x, Fin y => x <= y
  | _, _ => False
  end.
Definition ext_lt (a b : ext) : Prop := ext_le a b /\ a <> b.

(** what a stored IntVal means: None for a value that denotes nothing (ill-formed) *)
Definition denote (x : IntVal) : option ext :=
  if iv_inf x then
    if iv_v x =? 1 then Some PInf else if iv_v x =? -1 then Some MInf else None
  else if (LLONG_MIN <=? iv_v x) && (iv_v x <=? LLONG_MAX) then Some (Fin (iv_v x)) else None.

Definition wf (x : IntVal) : Prop := exists e, denote x = Some e.

Definition is_int (x : IntVal) (z : Z) : Prop := denote x = Some (Fin z).
