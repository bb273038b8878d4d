(** Independent specification of arrays: shapes, row-major positions, and how arrays are built. *)
Require Import ZArith List Bool.
From Verif Require Import Base ArrModel.
Import ListNotations.
Open Scope Z_scope.

(** one index range per dimension *)
Definition shape := list (Z * Z).
Definition wid (r : Z * Z) : Z := snd r - fst r + 1.
Fixpoint card (sh : shape) : Z := match sh with [] => 1 | r :: sh => wid r * card sh end.
Definition range_ok (r : Z * Z) : Prop := INT_MIN <= fst r /\ snd r <= INT_MAX /\ 0 <= wid r <= INT_MAX.
Definition shape_ok (sh : shape) : Prop := sh <> [] /\ Forall range_ok sh /\ card sh <= INT_MAX.

(** an index tuple in a shape, and its position in row-major order *)
Definition in_shape (idx : list Z) (sh : shape) : Prop := Forall2 (fun i r => fst r <= i <= snd r) idx sh.
Fixpoint position (sh : shape) (idx : list Z) : Z :=
  match sh, idx with
  | r :: sh, i :: idx => (i - fst r) * card sh + position sh idx
  | _, _ => 0
  end.

Section Spec.
Variable E : Type.
Variable eqb : E -> E -> bool.
(** element at a position *)
Definition elem_at (el : list E) (p : Z) : option E := nth_error el (Z.to_nat p).
(** a slice selects a subrange of every dimension (or nothing) *)
Definition sub_range (s r : Z * Z) : Prop := range_ok s /\ (wid s = 0 \/ fst r <= fst s /\ snd s <= snd r).
(** the elements of a slice: at every index tuple of the slice, the element of the array at that tuple *)
Definition slice_of (sh : shape) (el : list E) (sl : shape) (el' : list E) : Prop :=
  len el' = card sl /\
  forall idx, in_shape idx sl -> elem_at el' (position sl idx) = elem_at el (position sh idx).

(** arrays as the rest of the compiler can build them, with their shape and their elements in row-major order *)
Inductive built : arr E -> shape -> list E -> Prop :=
| b_mk : forall v sh, shape_ok sh -> card sh = len v -> built (mk eqb v sh) sh v
| b_mk1 : forall v a, mk1 eqb v = Ok a -> built a [(1, len v)] v
| b_mk2 : forall vv m a, Forall (fun r => len r = m) vv -> (vv = [] -> m = 0) -> shape_ok [(1, len vv); (1, m)] ->
    mk2 eqb vv = Ok a -> built a [(1, len vv); (1, m)] (concat vv)
| b_view : forall a sh el sh' a', built a sh el -> shape_ok sh' -> card sh' = card sh -> view a sh' = Ok a' -> built a' sh' el
| b_view1 : forall a sh el a', built a sh el -> view1 a = Ok a' -> built a' [(1, card sh)] el
| b_slice : forall a sh el sh' sl el', built a sh el -> Forall2 sub_range sl sh -> shape_ok sh' -> card sh' = card sl ->
    slice_of sh el sl el' -> built (slice a sh' sl) sh' el'
| b_make1d : forall fl v d sh el a', built (Vec fl v d) sh el -> make1d (Vec fl v d) = Ok a' -> built a' [(1, card sh)] el.
(** whether the elements are stored compressed (the first of a run of equal leading elements only) *)
Fixpoint compressed (a : arr E) : bool := match a with Vec fl _ _ => fl | Slice al _ => compressed al end.
End Spec.
Arguments elem_at {E}. Arguments slice_of {E}. Arguments built {E}. Arguments compressed {E}.
