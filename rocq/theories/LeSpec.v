(** Specification for C68: what a flat model with linear inequalities means, and when two have the same solutions. *)
Require Import ZArith List.
From Verif Require Import Base IntValModel SetModel SetSpec LinModel LinSpec LeModel.
Import ListNotations.
Open Scope Z_scope.

(** an inequality; the other items are predicates over their variables (a declaration with a right hand side is one of them) *)
Definition sat (I : nat -> list Z -> Prop) (s : valuation) (i : fitem) : Prop :=
  match i with
  | Lin cs xs c => lin_value s cs xs (ofZ 0) <= iv_v c
  | Oth p vs => I p (map (vid s) vs)
  end.
Definition solves (V : venv) (I : nat -> list Z -> Prop) (s : valuation) (m : list fitem) : Prop :=
  respects s (v_def V) /\ (forall i d, v_dom V i = Some d -> elem (vid s i) d) /\ Forall (sat I s) m.

(** the variables of an item *)
Definition vars (i : fitem) : list ident :=
  match i with Lin _ xs _ => flat_map (fun t => match t with TId v => [v] | _ => [] end) xs | Oth _ vs => vs end.

(** Model m' is model m without the variables E: they are not output, have no right hand side, and are not mentioned in m'; every solution of m
    is one of m', and every solution of m' becomes one of m by changing the values of variables in E only. *)
Definition same_without (V : venv) (E : list ident) (m m' : list fitem) : Prop :=
  (forall v, In v E -> v_out V v = false /\ v_def V v = RNone /\ forall i, In i m' -> ~ In v (vars i)) /\
  forall I,
    (forall s, solves V I s m -> solves V I s m') /\
    (forall s, solves V I s m' -> exists s', solves V I s' m /\ forall v, ~ In v E -> vid s' v = vid s v).

(** inequalities as simplify_lin leaves them: every variable once, no constants, no zero coefficients, finite numbers (and coefficients
    that can be negated) *)
Definition tidy (V : venv) (i : fitem) : Prop :=
  match i with
  | Lin cs xs c =>
      length cs = length xs /\ Forall fin cs /\ Forall (fun a => iv_v a <> 0 /\ iv_v a <> LLONG_MIN) cs /\ fin c /\
      NoDup xs /\ Forall (fun t => exists v, t = TId v /\ (v_def V v = RNone \/ exists r, v_def V v = RExp r)) xs
  | Oth _ _ => True
  end.
(** identifiers are not aliases, and literals in declarations are finite *)
Definition resolved (V : venv) : Prop := fin_decls (v_def V) /\ forall i j, v_def V i <> RId j.

(** a*u - a*v <= 0 *)
Definition link (i : fitem) : Prop := exists a b u v c, i = Lin [a; b] [u; v] c /\ iv_v a = - iv_v b /\ iv_v c = 0.
(** variables can be put into groups so that both variables of a link are in the same group, and every other inequality has at most one
    variable of each group *)
Definition apart (group : ident -> Z) (i : fitem) : Prop :=
  match i with
  | Lin cs xs c => (link i /\ forall v w, In v (vars i) -> In w (vars i) -> group v = group w) \/ (~ link i /\ NoDup (map group (vars i)))
  | Oth _ _ => True
  end.
