(** Independent specification for the specialisation of polymorphic functions. *)
Require Import List Arith Bool String.
From Verif Require Import SpecialiseModel.
Import ListNotations.

(** bool is below int, and int below float *)
Inductive below : base -> base -> Prop :=
| b_refl : forall b, below b b
| b_bool_int : below BoolBase IntBase
| b_bool_float : below BoolBase FloatBase
| b_int_float : below IntBase FloatBase.

(** place o of the parameter list is governed by the type-inst variable v *)
Definition governed (ps : list param) (v : nat) (o : occ) : Prop :=
  exists p, nth_error ps (fst o) = Some p /\
    match snd o with
    | None => p_dom p = Some v
    | Some j => nth_error (p_ranges p) j = Some (Some v)
    end.
(** the places come in reading order: index sets before elements, parameter by parameter *)
Definition before (o o' : occ) : Prop :=
  fst o < fst o' \/ (fst o = fst o' /\ match snd o, snd o' with
                                        | Some j, Some j' => j < j' | Some _, None => True | None, _ => False end).
Definition first_place (ps : list param) (v : nat) (o : occ) : Prop :=
  governed ps v o /\ forall o', governed ps v o' -> o' = o \/ before o o'.

(** base type and enumerated type at a place *)
Definition place_base (T : nat -> aty) (o : occ) : base :=
  match snd o with None => tbase (T (fst o)) | Some _ => IntBase end.
Definition place_enum (T : nat -> aty) (o : occ) : nat :=
  match snd o with None => telem (T (fst o)) | Some j => tindex (T (fst o)) j end.

(** what the type checker guarantees for a call: the types at the places of one variable are comparable, an
    index set is not a float, and only integers have an enumerated type *)
Definition well_typed_call (ps : list param) (T : nat -> aty) : Prop :=
  (forall v o o', governed ps v o -> governed ps v o' ->
     below (place_base T o) (place_base T o') \/ below (place_base T o') (place_base T o)) /\
  (forall v o i j, governed ps v o -> governed ps v (i, Some j) -> place_base T o <> FloatBase) /\
  (forall o, place_enum T o <> 0 -> place_base T o = IntBase).

(** equal up to var/par and optionality *)
Definition same_up_to_inst (t t' : kty) : Prop := kcore t = kcore t' /\ kid t = kid t'.
