(** Model of the flattening of array accesses, lib/flatten/flatten_arrayaccess.cpp, and of the access itself,
    include/minizinc/eval_par.hh:57-77 (on unbounded integers here; its machine arithmetic is in AccessModel). *)
Require Import ZArith List Bool Lia.
Import ListNotations.
Open Scope Z_scope.

Definition range : Type := Z * Z.
Definition rwidth (d : range) : Z := snd d - fst d + 1.
Fixpoint product (ds : list range) : Z := match ds with [] => 1 | d :: r => rwidth d * product r end.
(** eval_par.hh:65-74: realdim is divided by the width of each dimension in turn; none: success.fail *)
Fixpoint walk (ds : list range) (idx : list Z) (realdim realidx : Z) : option Z :=
  match ds, idx with
  | [], [] => Some realidx
  | d :: ds, ix :: idx =>
      if (ix <? fst d) || (snd d <? ix) then None
      else let rd := Z.quot realdim (rwidth d) in walk ds idx rd (realidx + (ix - fst d) * rd)
  | _, _ => None
  end.
(** an array literal: index sets and elements *)
Record arr (E : Type) : Type := mkArr { adims : list range; aelems : list E }.
Arguments mkArr {E}. Arguments adims {E}. Arguments aelems {E}.
(** eval_par.hh:57-77 *)
Definition access {E} (a : arr E) (idx : list Z) : option E :=
  match walk (adims a) idx (product (adims a)) 0 with
  | Some i => nth_error (aelems a) (Z.to_nat i)
  | None => None
  end.

(** an index after following identifiers: fixed (none: absent), a variable, or an access to a fixed array *)
Inductive ix : Type := IPar (v : option Z) | IVar (k : nat) | IAcc (y : arr Z) (l : list ix).
Definition is_par (i : ix) : bool := match i with IPar _ => true | _ => false end.

(** 66-92: the vector idx with the values vs at the places that are not fixed, and the minimum of the index set for absent
    indices.  Simplified: the loop below only changes these places, so it is written on vs *)
Fixpoint fill (ds : list range) (ixs : list ix) (vs : list Z) : list Z :=
  match ds, ixs with
  | d :: ds, IPar (Some v) :: r => v :: fill ds r vs
  | d :: ds, IPar None :: r => fst d :: fill ds r vs
  | d :: ds, _ :: r => match vs with v :: vs => v :: fill ds r vs | [] => [] end
  | _, _ => []
  end.
(** dims and newaccess, 84-90 *)
Fixpoint var_dims (ds : list range) (ixs : list ix) : list range :=
  match ds, ixs with
  | d :: ds, IPar _ :: r => var_dims ds r
  | d :: ds, _ :: r => d :: var_dims ds r
  | _, _ => []
  end.
Definition var_ixs (ixs : list ix) : list ix := filter (fun i => negb (is_par i)) ixs.

Definition zrange (lo hi : Z) : list Z := map (fun k => lo + Z.of_nat k) (seq 0 (Z.to_nat (hi - lo + 1))).
Fixpoint collect {A} (l : list (option A)) : option (list A) :=
  match l with
  | [] => Some []
  | Some x :: r => match collect r with Some xs => Some (x :: xs) | None => None end
  | None :: _ => None
  end.
Definition set_at (vs : list Z) (i : nat) (v : Z) : list Z := firstn i vs ++ v :: skipn (S i) vs.

(** 119-157: one turn of the loop; the state is vs, the stack (its top first) and elems.  A failed access ends it (none) *)
Definition state (E : Type) : Type := list Z * list nat * list E.
Definition turn {E} (ds : list range) (acc : list Z -> option E) (s : state E) : state E + option (list E) :=
  let '(vs, stack, elems) := s in
  match stack with
  | [] => inr (Some elems)
  | cur :: st =>
      let d := nth cur ds (0, 0) in
      if Nat.eqb cur (length ds - 1) then
        match collect (map (fun i => acc (set_at vs cur i)) (zrange (fst d) (snd d))) with
        | None => inr None
        | Some es => inl (match zrange (fst d) (snd d) with [] => vs | _ => set_at vs cur (snd d) end, st, elems ++ es)
        end
      else if nth cur vs 0 =? snd d then inl (set_at vs cur (fst d), st, elems)
      else inl (set_at vs cur (nth cur vs 0 + 1), rev (seq (S cur) (length ds - S cur)) ++ stack, elems)
  end.
(** the loop, for a number of turns (none: it has not ended) *)
Fixpoint run {E} (fuel : nat) (ds : list range) (acc : list Z -> option E) (s : state E) : option (option (list E)) :=
  match fuel with
  | O => None
  | S f => match turn ds acc s with inr o => Some o | inl s => run f ds acc s end
  end.

(** the flattened access: a fixed element or absence, no value, or a call of element with an array and indices *)
Inductive out (E : Type) : Type := OFixed (v : option E) | OUndef | OElement (a : arr E) (l : list ix).
Arguments OFixed {E}. Arguments OUndef {E}. Arguments OElement {E}.

Definition absent_par (i : ix) : bool := match i with IPar None => true | _ => false end.
(** 94-117: all indices are fixed *)
Definition fixed_access {E} (a : arr E) (ixs : list ix) : out E :=
  if forallb absent_par ixs then OFixed None
  else match access a (fill (adims a) ixs []) with
       | None => OUndef
       | Some e => OFixed (if existsb absent_par ixs then None else Some e)
       end.
(** 34-172: the array that is left when the fixed indices are filled in *)
Definition slice {E} (fuel : nat) (a : arr E) (ixs : list ix) : option (option (arr E)) :=
  let ds := var_dims (adims a) ixs in
  match run fuel ds (fun vs => access a (fill (adims a) ixs vs)) (map fst ds, rev (seq 0 (length ds)), []) with
  | None => None
  | Some None => Some None
  | Some (Some es) => Some (Some (mkArr ds es))
  end.
(** 190-200: the elements of the array at the values of the inner array, if these all are in the index set *)
Definition compose {E} (a : arr E) (y : arr Z) : option (arr E) :=
  match adims a with
  | [d] => match collect (map (fun i => if (i <? fst d) || (snd d <? i) then None else nth_error (aelems a) (Z.to_nat (i - fst d))) (aelems y)) with
           | Some es => Some (mkArr (adims y) es)
           | None => None
           end
  | _ => None
  end.
(** 32-217, 306-378: fuel bounds the returns to start_flatten_arrayaccess, and the loops *)
Fixpoint flatten_access {E} (fuel : nat) (a : arr E) (ixs : list ix) : option (out E) :=
  match fuel with
  | O => None
  | S f =>
      let go (a : arr E) (ixs : list ix) : option (out E) :=
        match ixs with
        | [IAcc y l] => match compose a y with Some a' => flatten_access f a' l | None => Some (OElement a ixs) end
        | _ => Some (OElement a ixs)
        end in
      if existsb is_par ixs then
        if forallb is_par ixs then Some (fixed_access a ixs)
        else match slice f a ixs with
             | None => None
             | Some None => Some OUndef
             | Some (Some a') => go a' (var_ixs ixs)
             end
      else go a ixs
  end.
