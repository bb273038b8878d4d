(** * What a comprehension means

    The generators are read from left to right, each where clause at the end of
    its generator.  [elements gs s] is the list of the stores under which the
    generated expression is taken, in order; [None] if evaluating a where
    clause stopped the program. *)

From Coq Require Import ZArith List Bool Sorting.Sorted.
From Verif Require Import CompModel.
Import ListNotations.

Fixpoint concat_all {A} (l : list (option (list A))) : option (list A) :=
  match l with
  | [] => Some []
  | None :: _ => None
  | Some x :: rest => match concat_all rest with None => None | Some r => Some (x ++ r) end
  end.

(** Several variables ranging over the same values. *)
Fixpoint each (ds : list nat) (vals : list Z) (k : store -> option (list store)) (s : store)
    : option (list store) :=
  match ds with
  | [] => k s
  | d :: rest => concat_all (map (fun v => each rest vals k (upd s d v)) vals)
  end.

Fixpoint elements (gs : list gen) (s : store) : option (list store) :=
  match gs with
  | [] => Some [s]
  | GAsn d e :: rest => elements rest (upd s d (e s))
  | GIn ds _ src w :: rest =>
      each ds (src s)
        (fun s' => match w with
                   | None => elements rest s'
                   | Some e => match weval e s' with
                               | None => None
                               | Some false => Some []
                               | Some true => elements rest s'
                               end
                   end) s
  end.

(** The value of [f] does not depend on the variables [xs]. *)
Definition ignores {A} (xs : list nat) (f : store -> A) : Prop :=
  forall s s', (forall x, ~ In x xs -> s x = s' x) -> f s = f s'.

(** A part of a where clause depends on its identifiers only, and these are
    not variables of later generators. *)
Fixpoint part_ok (later : list nat) (w : wexp) : Prop :=
  match w with
  | WAnd a b => part_ok later a /\ part_ok later b
  | WAtom _ ids f =>
      (forall s s', (forall x, In x ids -> s x = s' x) -> f s = f s')
      /\ (forall x, In x ids -> ~ In x later)
  end.

(** Evaluating the where clause never stops the program. *)
Fixpoint never_stops (w : wexp) : Prop :=
  match w with
  | WAnd a b => never_stops a /\ never_stops b
  | WAtom _ _ f => forall s, f s <> None
  end.

(** The scoping rules of the language: at least one variable per generator; an
    expression does not mention the variables of its own or later generators. *)
Fixpoint scoped (gs : list gen) : Prop :=
  match gs with
  | [] => True
  | GAsn d e :: rest => ignores (d :: decls rest) e /\ scoped rest
  | GIn ds vub src w :: rest =>
      ds <> [] /\ ignores (ds ++ decls rest) src
      /\ match vub with None => True | Some ub => ignores (ds ++ decls rest) ub end
      /\ match w with None => True | Some e => part_ok (decls rest) e end
      /\ scoped rest
  end.

Definition well_formed (gs : list gen) : Prop := NoDup (decls gs) /\ scoped gs.

Definition wheres_total (gs : list gen) : Prop :=
  Forall (fun g => match g with GIn _ _ _ (Some w) => never_stops w | _ => True end) gs.

(** A variable set takes a value below its upper bound. *)
Definition bounds_ok (gs : list gen) : Prop :=
  Forall (fun g => match g with
                   | GIn _ (Some ub) src _ =>
                       forall s, StronglySorted Z.lt (ub s) /\ StronglySorted Z.lt (src s)
                                 /\ incl (src s) (ub s)
                   | _ => True
                   end) gs.

(** The sum of a list of possibly undefined numbers. *)
Fixpoint sum_all (l : list (option Z)) : option Z :=
  match l with
  | [] => Some 0%Z
  | None :: _ => None
  | Some v :: rest => match sum_all rest with None => None | Some r => Some (v + r)%Z end
  end.

(** An array of optional values without the absent ones; undefined if an
    element is. *)
Fixpoint present (l : list (option (option Z))) : option (list Z) :=
  match l with
  | [] => Some []
  | None :: _ => None
  | Some None :: rest => present rest
  | Some (Some v) :: rest =>
      match present rest with None => None | Some r => Some (v :: r) end
  end.
