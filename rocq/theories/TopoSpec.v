(** Specification for C49: free names, dependencies and well-formed models. *)
Require Import ZArith List Bool Lia Relations.
From Verif Require Import Base TopoModel.
Import ListNotations.
Open Scope Z_scope.

(** the name an item of a scope declares, if it is a declaration *)
Definition binds (e : ex) : option Z := match e with EDecl _ nm _ _ => nm | _ => None end.
Definition names (l : list ex) : list Z := flat_map (fun e => match binds e with Some n => [n] | None => [] end) l.

(** [free e n]: name n occurs in e outside of the scope of a local declaration of n.  A local declaration is visible
    in the later items and in the body of its comprehension or let expression. *)
Inductive free : ex -> Z -> Prop :=
| F_id : forall n, free (EId n) n
| F_node : forall an ps e n, In e an \/ In e ps -> free e n -> free (ENode an ps) n
| F_ann : forall an items b e n, In e an -> free e n -> free (EScope an items b) n
| F_scope : forall an items b n, free_in items b n -> free (EScope an items b) n
| F_decl : forall v nm ps an e n, In e ps \/ In e an -> free e n -> free (EDecl v nm ps an) n
with free_in : list ex -> ex -> Z -> Prop :=
| FS_item : forall i r b n, free i n -> free_in (i :: r) b n
| FS_later : forall i r b n, binds i <> Some n -> free_in r b n -> free_in (i :: r) b n
| FS_body : forall b n, free b n -> free_in [] b n.

(** no name is declared twice in the same scope *)
Inductive distinct_names : ex -> Prop :=
| DN_id : forall n, distinct_names (EId n)
| DN_node : forall an ps, (forall e, In e an \/ In e ps -> distinct_names e) -> distinct_names (ENode an ps)
| DN_scope : forall an items b, NoDup (names items) -> (forall e, In e an \/ In e items \/ e = b -> distinct_names e) ->
    distinct_names (EScope an items b)
| DN_decl : forall v nm ps an, (forall e, In e ps \/ In e an -> distinct_names e) -> distinct_names (EDecl v nm ps an).

(** the declarations (objects) in an expression; each is a node of its own in the syntax tree *)
Fixpoint ids (e : ex) : list Z :=
  match e with
  | EId _ => []
  | ENode an ps => flat_map ids an ++ flat_map ids ps
  | EScope an items b => flat_map ids an ++ flat_map ids items ++ ids b
  | EDecl v _ ps an => v :: flat_map ids ps ++ flat_map ids an
  end.
Definition iids (i : item) : list Z :=
  match i with
  | IDecl d => ids d
  | IFun ti params an body => flat_map ids (ti ++ params ++ an) ++ ids body
  | IExpr es => flat_map ids es
  | IInclude => []
  end.
(** a syntax tree: declaration items hold declarations, and no node occurs twice *)
Definition tree (is_ : list item) : Prop :=
  NoDup (flat_map iids is_) /\ forall d, In (IDecl d) is_ -> exists v nm ps an, d = EDecl v nm ps an.

(** names used by an item that are not declared inside it *)
Definition ifree (i : item) (n : Z) : Prop :=
  match i with
  | IDecl d => free d n
  | IFun ti params an body =>
      (exists e, In e (ti ++ params ++ an) /\ free e n) \/ (free body n /\ ~ In n (names params))
  | IExpr es => exists e, In e es /\ free e n
  | IInclude => False
  end.
Definition inames (i : item) : Prop :=
  match i with
  | IDecl d => distinct_names d
  | IFun ti params an body =>
      NoDup (names params) /\ (forall e, In e (ti ++ params ++ an) -> distinct_names e) /\ distinct_names body
  | IExpr es => forall e, In e es -> distinct_names e
  | IInclude => True
  end.

(** no name is declared twice in one scope, and every name used is declared *)
Definition well_defined (is_ : list item) : Prop :=
  NoDup (names (top_decls is_)) /\
  forall i, In i is_ -> inames i /\ forall n, ifree i n -> In n (names (top_decls is_)).

(** declaration d of the model uses declaration d' of the model *)
Definition dep (is_ : list item) (d d' : ex) : Prop :=
  In d (top_decls is_) /\ In d' (top_decls is_) /\ exists n, binds d' = Some n /\ free d n.
Definition acyclic (is_ : list item) : Prop := forall d, ~ clos_trans ex (dep is_) d d.

(** groups of items in the sorted model: include items, declarations, others *)
Definition rank (i : item) : Z := match i with IInclude => 0 | IDecl _ => 1 | _ => 2 end.
