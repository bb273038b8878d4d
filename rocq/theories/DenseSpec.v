(** Specification for C48 and C56: plain maps and plain sets. *)
Require Import ZArith List Bool Lia.
From Verif Require Import Base DenseModel.
Import ListNotations.
Open Scope Z_scope.

(** operations on an identifier map *)
Inductive mop (T : Type) := MInsert (k : key) (t : T) | MRemove (k : key) | MClear.
Arguments MInsert {T}. Arguments MRemove {T}. Arguments MClear {T}.

Definition mstep {T} (dflt : T) (d : dense T) (o : mop T) : res (dense T) :=
  match o with
  | MInsert k t => insert dflt d k t
  | MRemove k => remove dflt d k
  | MClear => Ok (clear d)
  end.
Fixpoint mrun {T} (dflt : T) (d : dense T) (h : list (mop T)) : res (dense T) :=
  match h with
  | [] => Ok d
  | o :: r => do d' <- mstep dflt d o; mrun dflt d' r
  end.

(** The value a key has after a history (most recent operation first).  A named key keeps its first value until it
    is removed; an integer key has its last value. *)
Fixpoint value {T} (rh : list (mop T)) (k : key) : option T :=
  match rh with
  | [] => None
  | MClear :: _ => None
  | MRemove k' :: r => if key_dec k' k then None else value r k
  | MInsert k' t :: r =>
      if key_dec k' k then
        match k with
        | KInt _ => Some t
        | KName _ => match value r k with Some t' => Some t' | None => Some t end
        end
      else value r k
  end.

(** identifiers whose index and the vector sizes they lead to (3/2 of it) fit an int *)
Definition id_ok (k : key) : Prop := match k with KName _ => True | KInt n => 0 <= n < 1431655765 end.
Definition mop_ok {T} (o : mop T) : Prop :=
  match o with MInsert k _ => id_ok k | MRemove k => id_ok k | MClear => True end.

(** operations on the occurrence map *)
Inductive vop := VAdd (v : key) (i : Z) | VRemove (v : key) (i : Z) | VRemoveAll (v : key)
               | VUnify (v0 v1 : key) | VClear.
Definition vstep (s : vocc) (o : vop) : res vocc :=
  match o with
  | VAdd v i => vadd s v i
  | VRemove v i => do ' (s', _) <- vremove s v i; Ok s'
  | VRemoveAll v => vremoveAll s v
  | VUnify a b => vunify s a b
  | VClear => Ok (vclear s)
  end.
Fixpoint vrun (s : vocc) (h : list vop) : res vocc :=
  match h with
  | [] => Ok s
  | o :: r => do s' <- vstep s o; vrun s' r
  end.
Definition vop_ids (o : vop) : list key :=
  match o with
  | VAdd v _ => [v] | VRemove v _ => [v] | VRemoveAll v => [v] | VUnify a b => [a; b] | VClear => []
  end.

(** [same rh v w]: v and w have been unified (most recent operation first) *)
Fixpoint same (rh : list vop) (v w : key) : Prop :=
  match rh with
  | [] => v = w
  | VUnify a b :: r => same r v w \/ (same r v a /\ same r b w) \/ (same r v b /\ same r a w)
  | _ :: r => same r v w
  end.

(** [occurs rh v i]: item i has been added to a variable that is now the same as v, and not been removed from it
    since *)
Fixpoint occurs (rh : list vop) (v : key) (i : Z) : Prop :=
  match rh with
  | [] => False
  | VAdd w j :: r => (same r v w /\ i = j) \/ occurs r v i
  | VRemove w j :: r => occurs r v i /\ ~ (same r v w /\ i = j)
  | VRemoveAll w :: r => occurs r v i /\ ~ same r v w
  | VUnify a b :: r => occurs r v i \/ (same r v a /\ occurs r b i) \/ (same r v b /\ occurs r a i)
  | VClear :: _ => False
  end.

(** [legal rh]: items are only removed from variables that have (or had) one, and the map is not cleared; these are
    the assertions of VarOccurrences::remove and removeAllOccurrences *)
Fixpoint legal (rh : list vop) : Prop :=
  match rh with
  | [] => True
  | VRemove v _ :: r => (exists w i, In (VAdd w i) r /\ same r v w) /\ legal r
  | VRemoveAll v :: r => (exists w i, In (VAdd w i) r /\ same r v w) /\ legal r
  | VClear :: _ => False
  | _ :: r => legal r
  end.
