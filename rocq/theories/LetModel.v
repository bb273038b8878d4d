(** * Local variables: flattening of let expressions in Boolean contexts

    Models lib/flatten/flatten_let.cpp:16-134 for Boolean let expressions, with
    the contexts of lib/flatten.cpp:239-267 ([bplus], [bminus] of CtxModel).

    A let expression is a chain of its items: [let {i1; i2; ...} in e] is one
    constructor per item with the rest as its last argument.  Subexpressions
    other than Boolean operators and lets are given by their values as functions
    of the store; an undefined Boolean subexpression is false there.

    Simplifications: local variables are integers; the right-hand sides of
    declarations contain no lets of their own; the annotations promise_total,
    promise_monotone and promise_antitone are not modelled. *)

From Coq Require Import ZArith List Bool.
From Verif Require Import CtxModel CompModel.
Import ListNotations.

Inductive lexp : Type :=
| LAtom (f : store -> bool)
| LNot (a : lexp)
| LAnd (a b : lexp)
| LOr (a b : lexp)
| LImp (a b : lexp)
| LIff (a b : lexp)
| LXor (a b : lexp)
(** [var dom: y] without a right-hand side *)
| LFree (y : nat) (dom : list Z) (k : lexp)
(** [var dom: y = rhs]; [None]: the right-hand side is undefined *)
| LDef (y : nat) (dom : option (list Z)) (rhs : store -> option Z) (k : lexp)
(** [constraint c] *)
| LCon (c k : lexp).

(** The flattened expression: the variables created for it, with their domains,
    and its value as a function of the store. *)
Definition flat : Type := list (nat * list Z) * (store -> bool).

Definition flat2 (op : bool -> bool -> bool) (a b : option flat) : option flat :=
  match a, b with
  | Some (ha, ga), Some (hb, gb) => Some (ha ++ hb, fun s => op (ga s) (gb s))
  | _, _ => None
  end.

(** mk_domain_constraint, flatten_let.cpp:55-65. *)
Definition in_dom (dom : option (list Z)) (v : Z) : bool :=
  match dom with None => true | Some l => existsb (Z.eqb v) l end.

(** The context of the operands: flatten_unop.cpp:24-28 (not), flatten_call.cpp:434-447
    and 752 (forall, exists, clause, to which flatten_binop.cpp:1851-1897 and
    1978-2071 translate and, or, implication), flatten_binop.cpp:2105 and 2144 (equivalence, xor).  A
    conjunction that must hold passes C_ROOT on (flatten_binop.cpp:1853-1872).

    flatten_let.cpp:24-88: items in order; a variable without a right-hand side
    is an error in a context that is not positive (flatten_let.cpp:69-74, [None]
    here), otherwise a new variable (75-80); the definedness of a right-hand
    side, the domain constraint and the constraints are conjoined with the body
    (cs, 43-66, 89-97, and 98-123). *)
Fixpoint flatten (c : bctx) (e : lexp) : option flat :=
  match e with
  | LAtom f => Some ([], f)
  | LNot a =>
      match flatten (bminus c) a with
      | Some (h, g) => Some (h, fun s => negb (g s))
      | None => None
      end
  | LAnd a b =>
      let c' := match c with C_ROOT => C_ROOT | _ => bplus c end in
      flat2 andb (flatten c' a) (flatten c' b)
  | LOr a b => flat2 orb (flatten (bplus c) a) (flatten (bplus c) b)
  | LImp a b => flat2 implb (flatten (bminus c) a) (flatten (bplus c) b)
  | LIff a b => flat2 Bool.eqb (flatten C_MIX a) (flatten C_MIX b)
  | LXor a b => flat2 xorb (flatten C_MIX a) (flatten C_MIX b)
  | LFree y dom k =>
      match c with
      | C_NEG | C_MIX => None
      | _ =>
          match flatten c k with
          | Some (h, g) => Some ((y, dom) :: h, g)
          | None => None
          end
      end
  | LDef y dom rhs k =>
      match flatten c k with
      | Some (h, g) =>
          Some (h, fun s => match rhs s with
                            | Some v => in_dom dom v && g (upd s y v)
                            | None => false
                            end)
      | None => None
      end
  | LCon a k => flat2 andb (flatten c a) (flatten c k)
  end.
