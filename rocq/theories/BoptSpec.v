(** Specification for the Boolean part of the optimiser of flat models (C72): what a flat model means. *)
From Coq Require Import List Bool Arith.
From Verif Require Import BoptModel.
Import ListNotations.

Section Spec.
(** The meaning of the constraints the optimiser does not know, and the output variables. *)
Variable other : nat -> list bool -> bool.
Variable output : nat -> bool.

Definition value (sg : nat -> bool) (a : arg) : bool :=
  match a with Lit b => b | Ident x => sg x end.

(** The truth value of a constraint when every name has a value. *)
Definition truth (sg : nat -> bool) (e : expr) : bool :=
  match e with
  | ELit b => b
  | EId x => sg x
  | EForall l => forallb (value sg) l
  | EExists l => existsb (value sg) l
  | EClause p n => existsb (value sg) p || existsb (fun a => negb (value sg a)) n
  | EEq a b => Bool.eqb (value sg a) (value sg b)
  | EOther f l => other f (map (value sg) l)
  end.

(** A solution of a flat model gives a value to every declared variable.  A name [x] stands for the variable
    [rd s x].  Each declaration "var d: v = e" says that v is in d and equal to e. *)
Definition solution (s : state) (sg : nat -> bool) : Prop :=
  (forall v, gone s v = false ->
     (forall b, dm s v = Some b -> sg v = b) /\
     (forall e, rh s v = Some e -> sg v = truth (fun x => sg (rd s x)) e)) /\
  (forall c e, cons s c = Some e -> truth (fun x => sg (rd s x)) e = true).

(** What the output model shows for an output variable: the value of the variable, a constant, or whatever is
    shown for another output variable. *)
Inductive shown (s : state) (sg : nat -> bool) : nat -> bool -> Prop :=
| shown_var : forall v, out s v = OVar -> gone s v = false -> shown s sg v (sg v)
| shown_fix : forall v b, out s v = OFix b -> shown s sg v b
| shown_alias : forall v w b, out s v = OAlias w -> shown s sg w b -> shown s sg v b.

(** [om] is a possible output: the values of the output variables in some solution. *)
Definition prints (s : state) (om : nat -> bool) : Prop :=
  exists sg, solution s sg /\ forall v, output v = true -> shown s sg v (om v).

(** A flat model as the flattener hands it over.  [order] lists its items. *)
Record input (s : state) (order : list item) : Prop := {
  in_names : forall x, rd s x = x;
  in_out : forall v, out s v = OVar;
  in_queues : vq s = [] /\ cq s = [];
  in_output : forall v, output v = true -> gone s v = false;
  (* a variable that is not declared has no domain and no right hand side *)
  in_none : forall v, gone s v = true -> dm s v = None /\ rh s v = None;
  in_order_v : forall v, gone s v = false -> In (IV v) order;
  in_order_c : forall c, cons s c <> None -> In (IC c) order;
  (* the table of occurrences is complete, and every name is declared *)
  in_occ : forall i e x, item_expr s i = Some e -> In x (ids e) -> In i (occ s x) /\ gone s x = false;
  (* a variable equal to a literal has it as its domain; only such a variable has a computed domain *)
  in_lit : forall v b, rh s v = Some (ELit b) -> dm s v = Some b;
  in_cmp : forall v, cmp s v = true -> exists b, rh s v = Some (ELit b)
}.

(** The names in the conjunctions that are constraints. *)
Definition conjunct (s : state) (x : nat) : Prop :=
  exists c l, cons s c = Some (EForall l) /\ In (Ident x) l.
(** The variables phase 1 unifies with others: the two sides of an equality or of a declaration "v = x". *)
Definition equated (s : state) (x : nat) : Prop :=
  (exists c y, cons s c = Some (EEq (Ident x) (Ident y)) \/ cons s c = Some (EEq (Ident y) (Ident x))) \/
  (exists v, rh s v = Some (EId x)) \/ (exists y, rh s x = Some (EId y)).

(** Conditions under which the optimiser is shown to be right.  The second and the third are needed (see the
    refutations).  The last two keep names out of the right hand sides after phase 1. *)
Record regular (s : state) : Prop := {
  (* no conjunct of a top level conjunction is the literal false, or is unified with another variable *)
  reg_lit : forall c l, cons s c = Some (EForall l) -> ~ In (Lit false) l;
  reg_conj : forall x, conjunct s x -> ~ equated s x;
  (* a constraint that is a name is already fixed *)
  reg_id : forall c x, cons s c = Some (EId x) -> dm s x <> None;
  (* if v is declared equal to x, x is not declared equal to a name, nor is v a side of an equality constraint *)
  reg_alias : forall v x y, rh s v = Some (EId x) -> rh s x <> Some (EId y);
  reg_eq : forall c v y x,
    cons s c = Some (EEq (Ident v) (Ident y)) \/ cons s c = Some (EEq (Ident y) (Ident v)) ->
    rh s v <> Some (EId x)
}.
End Spec.
