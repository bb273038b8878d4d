(** What an array access means for a given assignment of the variables. *)
Require Import ZArith List Bool Lia.
From Verif Require Import SliceModel.
Import ListNotations.
Open Scope Z_scope.

(** an array has at least one dimension, and one element for each tuple of indices *)
Definition wf {E} (a : arr E) : Prop :=
  adims a <> [] /\ Forall (fun d => fst d <= snd d + 1) (adims a) /\ Z.of_nat (length (aelems a)) = product (adims a).

(** the element at the indices: elements are in row-major order, that is, an array of d+1 dimensions is a list of blocks, one for each first index *)
Fixpoint element {E} (ds : list range) (l : list E) (idx : list Z) : option E :=
  match ds, idx with
  | [], [] => nth_error l 0
  | d :: ds, i :: idx =>
      if (fst d <=? i) && (i <=? snd d) then
        let block := Z.to_nat (product ds) in
        element ds (firstn block (skipn (Z.to_nat (i - fst d) * block) l)) idx
      else None
  | _, _ => None
  end.

(** the value of an access to indices that may be absent (none): absent if an index is; undefined (none) if one of the others is outside of its index set.  If all are absent the value is absent *)
Fixpoint fill_absent (ds : list range) (vs : list (option Z)) : list Z :=
  match ds, vs with
  | d :: ds, Some v :: r => v :: fill_absent ds r
  | d :: ds, None :: r => fst d :: fill_absent ds r
  | _, _ => []
  end.
Definition absentb {A} (o : option A) : bool := match o with None => true | _ => false end.
Definition access_value {E} (a : arr E) (vs : list (option Z)) : option (option E) :=
  if forallb absentb vs then Some None
  else match element (adims a) (aelems a) (fill_absent (adims a) vs) with
       | None => None
       | Some e => Some (if existsb absentb vs then None else Some e)
       end.

(** the values of indices; none: one of them is undefined *)
Fixpoint ix_value (r : nat -> Z) (i : ix) : option (option Z) :=
  match i with
  | IPar v => Some v
  | IVar k => Some (Some (r k))
  | IAcc y l =>
      match (fix go (l : list ix) := match l with
                                     | [] => Some []
                                     | i :: l => match ix_value r i, go l with Some v, Some vs => Some (v :: vs) | _, _ => None end
                                     end) l with
      | Some vs => access_value y vs
      | None => None
      end
  end.
Fixpoint ix_values (r : nat -> Z) (l : list ix) : option (list (option Z)) :=
  match l with [] => Some [] | i :: l => match ix_value r i, ix_values r l with Some v, Some vs => Some (v :: vs) | _, _ => None end end.
(** the value of a[l] *)
Definition source_value {E} (r : nat -> Z) (a : arr E) (l : list ix) : option (option E) :=
  match ix_values r l with Some vs => access_value a vs | None => None end.
Definition out_value {E} (r : nat -> Z) (o : out E) : option (option E) :=
  match o with OFixed v => Some v | OUndef => None | OElement a l => source_value r a l end.

(** the arrays inside are arrays, with as many indices as dimensions, and none of the fixed indices is absent *)
Fixpoint ix_ok (i : ix) : Prop :=
  match i with
  | IPar v => v <> None
  | IVar _ => True
  | IAcc y l => wf y /\ length l = length (adims y) /\ (fix go (l : list ix) := match l with [] => True | i :: l => ix_ok i /\ go l end) l
  end.
Definition nonempty (ds : list range) : Prop := Forall (fun d => fst d <= snd d) ds.
(** every index set inside is non-empty *)
Fixpoint ix_nonempty (i : ix) : Prop :=
  match i with
  | IAcc y l => nonempty (adims y) /\ (fix go (l : list ix) := match l with [] => True | i :: l => ix_nonempty i /\ go l end) l
  | _ => True
  end.
