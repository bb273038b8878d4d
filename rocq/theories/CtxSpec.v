(** Specification for C45, C46, C62, C63. *)
Require Import ZArith List Bool.
From Verif Require Import Base CtxModel.
Import ListNotations.
Open Scope Z_scope.

(** ** Truth values *)
Definition bmeaning (op : bop) (a b : bool) : bool :=
  match op with
  | AND => a && b | OR => a || b | IMPL => negb a || b | RIMPL => a || negb b | EQUIV => Bool.eqb a b | XOR => xorb a b
  end.
Section Truth.
Variable v : nat -> bool.                       (* the truth values of all other subexpressions *)
Variable userop : bop -> bool -> bool -> bool.  (* the meanings of overloaded operators *)
Variable usernot : bool -> bool.
Fixpoint truth (e : bexp) : bool :=
  match e with
  | BAtom n => v n
  | BNot bi e => if bi then negb (truth e) else usernot (truth e)
  | BBin bi op l r => if bi then bmeaning op (truth l) (truth r) else userop op (truth l) (truth r)
  end.
Definition call_truth (c : bcall) : bool :=
  match c with
  | CForall l => forallb truth l
  | CExists l => existsb truth l
  | CClause p n => existsb truth p || existsb (fun e => negb (truth e)) n
  end.
Definition posted_truth (p : posted) : bool :=
  match p with
  | PCall neg c => xorb neg (call_truth c)
  | PExp neg e => xorb neg (truth e)
  | PAll l => forallb (fun p => xorb (fst p) (truth (snd p))) l
  | PTrue => true
  | POp neg op a b => xorb neg (bmeaning op (truth a) (truth b))
  | PUser neg op a b => xorb neg (userop op (truth a) (truth b))
  | PDefine neg a b => Bool.eqb (truth a) (xorb neg (truth b))
  end.
End Truth.
(** nested operators are gone: in a conjunction no argument is a conjunction; in a disjunction no positive argument is a disjunction
    or a negation *)
Definition agg_done (bot : bop) (e : bexp) : Prop :=
  match e with
  | BBin true op _ _ => op <> bot
  | BNot true _ => bot = AND
  | _ => True
  end.
Definition call_done (bot : bop) (c : bcall) : Prop :=
  match c with
  | CForall l => bot = AND /\ Forall (agg_done AND) l
  | CExists l | CClause l _ => bot = OR /\ Forall (agg_done OR) l
  end.

(** ** Contexts *)
(** in context c, the variable r may stand for the expression e *)
Definition bsound (c : bctx) (r e : bool) : Prop :=
  match c with
  | C_ROOT => r = true /\ e = true
  | C_POS => r = true -> e = true
  | C_NEG => e = true -> r = true
  | C_MIX => r = e
  end.
Definition isound (c : bctx) (r e : Z) : Prop :=
  match c with
  | C_ROOT | C_POS => r <= e
  | C_NEG => e <= r
  | C_MIX => r = e
  end.
(** being sound for context c suffices for context d *)
Definition covers (c d : bctx) : Prop := forall r e, bsound c r e -> bsound d r e.
(** the recorded context covers every use, and nothing stronger than necessary is recorded *)
Definition weakest_cover (c : bctx) (uses : list bctx) : Prop :=
  (forall u, In u uses -> covers c u) /\ (forall d, (forall u, In u uses -> covers d u) -> covers d c).
(** the context in which the result stands for the expression (negated if neg), up to root *)
Definition out_ctx (neg : bool) (b : bctx) : bctx := if neg then bminus b else bplus b.

Definition cmeaning (op : cop) (x y : Z) : bool :=
  match op with LE => x <? y | LQ => x <=? y | GR => y <? x | GQ => y <=? x | EQ => x =? y | NQ => negb (x =? y) end.
Definition in_bnds (b : bnds) (x : Z) : Prop := match b with Some (l, u) => l <= x <= u | None => True end.
Definition b2z (b : bool) : Z := if b then 1 else 0.
(** what forall and exists compute *)
Definition junct (isforall : bool) (l : list bool) : bool := if isforall then forallb (fun x => x) l else existsb (fun x => x) l.
(** the context annotations, and the others, of a variable *)
Definition ctxs (l : list ann) : list bctx := flat_map (fun a => match a with ACtx c => [c] | AOther _ => [] end) l.
Definition others (l : list ann) : list nat := flat_map (fun a => match a with ACtx _ => [] | AOther n => [n] end) l.
(** if the bounds of the operand are known, all its values have the same sign *)
Definition sign_definite (b : bnds) : Prop := match b with Some (l, u) => u < 0 \/ 0 <= l | None => True end.
Definition excludes_0 (b : bnds) : Prop := match b with Some (l, u) => u < 0 \/ 0 < l | None => False end.
(** whether the result of what is posted is negated, and whether it is flattened in the returned context (otherwise all its parts must
    hold, or it defines a variable in mixed context) *)
Definition posted_neg (p : posted) : bool :=
  match p with PCall n _ | PExp n _ | POp n _ _ _ | PUser n _ _ _ => n | _ => false end.
Definition has_ctx (p : posted) : bool := match p with PDefine _ _ _ | PAll _ | PTrue => false | _ => true end.
(** what is known about an expression is right under the assignment *)
Definition right_about (v : nat -> bool) (uo : bop -> bool -> bool -> bool) (un : bool -> bool) (f : bexp -> option bool) : Prop :=
  forall e b, f e = Some b -> truth v uo un e = b.
