(** Independent specification for deep copies. *)
Require Import List Arith.
From Verif Require Import CopyModel.
Import ListNotations.

(** a program graph with nodes below n: references stay inside, identifiers refer to declarations, and a
    declaration's fields are visited after it is registered *)
Definition graph (h : nat -> node) (n : nat) : Prop :=
  0 < n /\
  forall e, e < n ->
    (forall k, In k (npre (h e)) \/ In k (npost (h e)) \/ In k (nann (h e)) -> k < n) /\
    (forall d, nkind (h e) = KId d -> 0 < d < n /\ (exists i, nkind (h d) = KDecl i)) /\
    (forall i, nkind (h e) = KDecl i -> npre (h e) = []).

(** references followed before the copy of a node is registered *)
Definition early_ref (h : nat -> node) (e k : nat) : Prop := In k (npre (h e)) \/ nkind (h e) = KId k.
(** these references have no cycle *)
Definition guarded (h : nat -> node) (n : nat) : Prop :=
  exists rank : nat -> nat, forall e k, e < n -> early_ref h e k -> rank k < rank e.

(** b stands for a in the copy: null for null, a constant for itself, otherwise a copy of a *)
Definition stands (h : nat -> node) (R : nat -> nat -> Prop) (a b : nat) : Prop :=
  (a = 0 /\ b = 0) \/ (nkind (h a) = KConst /\ b = a) \/ R a b.

(** node c of the graph h' looks like node e of h, and what it refers to stands for what e refers to *)
Definition looks_like (h h' : nat -> node) (R : nat -> nat -> Prop) (e c : nat) : Prop :=
  match nkind (h e) with
  | KConst => False
  | KNode =>
      nkind (h' c) = KNode /\ nlab (h' c) = nlab (h e) /\
      Forall2 (stands h R) (npre (h e)) (npre (h' c)) /\
      Forall2 (stands h R) (npost (h e)) (npost (h' c)) /\
      Forall2 (stands h R) (nann (h e)) (nann (h' c))
  | KDecl _ =>
      nlab (h' c) = nlab (h e) /\
      (exists i, nkind (h' c) = KDecl i /\ nkind (h' i) = KId c /\ nlab (h' i) = nlab (h e)) /\
      Forall2 (stands h R) (npost (h e)) (npost (h' c)) /\
      Forall2 (stands h R) (nann (h e)) (nann (h' c))
  | KId d => (* an identifier becomes the identifier of the copied declaration *)
      exists cd, R d cd /\ nkind (h' cd) = KDecl c /\ nkind (h' c) = KId cd
  end.

Definition is_id (x : node) : Prop := exists d, nkind x = KId d.
