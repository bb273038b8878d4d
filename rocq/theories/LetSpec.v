(** * What a let expression means

    Relational semantics: a local variable without a right-hand side may take
    any value of its domain; an undefined right-hand side or one outside the
    declared domain makes the enclosing Boolean expression false. *)
From Coq Require Import ZArith List Bool.
From Verif Require Import CompModel CompSpec LetModel.
Import ListNotations.

Fixpoint truth (e : lexp) (s : store) : bool :=
  match e with
  | LAtom f => f s
  | LNot a => negb (truth a s)
  | LAnd a b => truth a s && truth b s
  | LOr a b => truth a s || truth b s
  | LImp a b => implb (truth a s) (truth b s)
  | LIff a b => Bool.eqb (truth a s) (truth b s)
  | LXor a b => xorb (truth a s) (truth b s)
  | LFree y dom k => existsb (fun v => truth k (upd s y v)) dom
  | LDef y dom rhs k =>
      match rhs s with
      | None => false
      | Some v => match dom with
                  | None => true
                  | Some l => existsb (Z.eqb v) l
                  end && truth k (upd s y v)
      end
  | LCon c k => truth c s && truth k s
  end.

(** The local variables of an expression. *)
Fixpoint bound (e : lexp) : list nat :=
  match e with
  | LAtom _ => []
  | LNot a => bound a
  | LAnd a b | LOr a b | LImp a b | LIff a b | LXor a b | LCon a b => bound a ++ bound b
  | LFree y _ k => y :: bound k
  | LDef y _ _ k => y :: bound k
  end.

(** The scoping rules: an expression does not depend on variables that are not
    in scope where it stands ([out]). *)
Fixpoint in_scope (out : list nat) (e : lexp) : Prop :=
  match e with
  | LAtom f => ignores out f
  | LNot a => in_scope out a
  | LAnd a b | LOr a b | LImp a b | LIff a b | LXor a b | LCon a b =>
      in_scope (bound b ++ out) a /\ in_scope (bound a ++ out) b
  | LFree y _ k => in_scope out k
  | LDef y _ rhs k => ignores (y :: bound k ++ out) rhs /\ in_scope out k
  end.

Definition well_scoped (e : lexp) : Prop := NoDup (bound e) /\ in_scope [] e.

(** Every local variable without a right-hand side has a value to take. *)
Fixpoint inhabited (e : lexp) : Prop :=
  match e with
  | LAtom _ => True
  | LNot a => inhabited a
  | LAnd a b | LOr a b | LImp a b | LIff a b | LXor a b | LCon a b => inhabited a /\ inhabited b
  | LFree _ dom k => dom <> [] /\ inhabited k
  | LDef _ _ _ k => inhabited k
  end.

(** A solution of the flat model that agrees with [s] on the other variables:
    the new variables [h] take values of their domains. *)
Definition extends (h : list (nat * list Z)) (s s' : store) : Prop :=
  (forall y dom, In (y, dom) h -> In (s' y) dom)
  /\ (forall x, ~ In x (map fst h) -> s' x = s x).

(** Where local variables without a right-hand side stand: under an even number
    of negations and left-hand sides of implications ([Some true]) and not below
    an equivalence or exclusive or ([None]). *)
Fixpoint only_positive (p : option bool) (e : lexp) : Prop :=
  match e with
  | LAtom _ => True
  | LNot a => only_positive (option_map negb p) a
  | LAnd a b | LOr a b | LCon a b => only_positive p a /\ only_positive p b
  | LImp a b => only_positive (option_map negb p) a /\ only_positive p b
  | LIff a b | LXor a b => only_positive None a /\ only_positive None b
  | LFree _ _ k => p = Some true /\ only_positive p k
  | LDef _ _ _ k => only_positive p k
  end.
