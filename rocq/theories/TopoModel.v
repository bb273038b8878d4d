(** Model of Scopes (lib/typecheck.cpp:34-103) and of the topological sorting of declarations by TopoSorter
    (lib/typecheck.cpp:1189-1395, 4928-4985). *)
Require Import ZArith List Bool Lia.
From Verif Require Import Base.
Import ListNotations.
Open Scope Z_scope.

(** Expressions as TopoSorter::run sees them (lib/typecheck.cpp:1247-1395).  Names and variable declarations
    (VarDecl pointers) are numbers.
    - [EId n]: an identifier (without annotations).  The constant `absent' and identifiers with annotations are
      [ENode]s.
    - [ENode anns parts]: every other expression without its own scope: literals, calls, operators, type-insts, ...;
      [parts] are the subexpressions in the order in which run visits them (for binary operators the order of
      the explicit stack, lib/typecheck.cpp:1323-1342).
    - [EScope anns items body]: a comprehension (items: generator expressions, generator variables, where
      clauses) or a let expression (items: declarations and constraints).
    - [EDecl v name parts anns]: variable declaration v; parts are its type-inst and right hand side. *)
Inductive ex :=
| EId (n : Z)
| ENode (anns parts : list ex)
| EScope (anns items : list ex) (body : ex)
| EDecl (v : Z) (name : option Z) (parts anns : list ex).

(** one scope: the names declared in it (lib/typecheck.cpp: Scopes::Scope, an IdMap) and whether it is a toplevel
    scope.  ST_FUN and ST_INNER scopes differ only in the shadowing warning, which is not modelled. *)
Definition table := list (Z * ex).
Definition scope := (bool * table)%type.

Fixpoint lookup (n : Z) (m : table) : option ex :=
  match m with
  | [] => None
  | (n', d) :: r => if n' =? n then Some d else lookup n r
  end.

(** Scopes::add, lib/typecheck.cpp:36-75, into the table of the innermost scope.  Not modelled: the test that enums
    are declared at top level only, warnings, and internal negative identifiers (which may be declared twice). *)
Definition add (m : table) (d : ex) : res table :=
  match d with
  | EDecl v (Some n) _ _ => match lookup n m with None => Ok ((n, d) :: m) | Some _ => Err TypeError end
  | _ => Ok m
  end.

(** Scopes::find, lib/typecheck.cpp:85-103; innermost scope first; the last scope is the one of the model ([_s[0]]).
    From a toplevel scope the search continues in the last scope. *)
Definition last_table (sc : list scope) : table := snd (last sc (true, [])).
Fixpoint find_ (top : table) (sc : list scope) (n : Z) : option ex :=
  match sc with
  | [] => None
  | (t, m) :: r =>
      match lookup n m with
      | Some d => Some d
      | None => match r with
                | [] => None
                | _ => if t : bool then lookup n top else find_ top r n
                end
      end
  end.
Definition find (sc : list scope) (n : Z) : option ex := find_ (last_table sc) sc n.

(** TopoSorter::pos and TopoSorter::decls (include/minizinc/typecheck.hh:62-74).  pos maps a declaration to its position,
    where None is the -1 of a declaration being processed; decls is the list of declarations, latest first. *)
Record state := mkS { pos : list (Z * option Z); decls : list Z }.

Fixpoint pfind (v : Z) (p : list (Z * option Z)) : option (option Z) :=
  match p with
  | [] => None
  | (v', x) :: r => if v' =? v then Some x else pfind v r
  end.

Fixpoint foldM {S A} (g : S -> A -> res S) (s : S) (l : list A) : res S :=
  match l with
  | [] => Ok s
  | a :: r => do s' <- g s a; foldM g s' r
  end.

(** the loop over the generators of a comprehension (lib/typecheck.cpp:1302-1311) and over the items of a let
    expression (1374-1379): each item is run and then, if it is a declaration, added to the scope *)
Fixpoint runItems (r : table -> state -> ex -> res state) (m : table) (st : state) (items : list ex) : res (table * state) :=
  match items with
  | [] => Ok (m, st)
  | i :: rest =>
      do st' <- r m st i;
      do m' <- add m i;
      runItems r m' st' rest
  end.

(** TopoSorter::run and TopoSorter::checkId, lib/typecheck.cpp:1219-1395.  [sc] is the stack of scopes.  The
    annotations of an expression are visited before and after it (1251-1255 and 1390-1394), those of a declaration twice
    at its end.  Not modelled: ignoreUnknownIds, the payload of local declarations, and the reordering of let items
    (1381-1389), which keeps declarations in their order.  The recursion is bounded by fuel; C49_terminates shows that it
    suffices. *)
Fixpoint run (fuel : nat) (sc : list scope) (st : state) (e : ex) : res state :=
  match fuel with
  | O => Err OutOfFuel
  | S f =>
      match e with
      | EId n =>
          match find sc n with
          | None => Err TypeError                       (* undefined identifier *)
          | Some (EDecl v nm ps an as d) =>
              match pfind v (pos st) with
              | None => run f ((true, []) :: sc) st d
              | Some None => Err TypeError              (* circular definition *)
              | Some (Some _) => Ok st
              end
          | Some _ => UB                                (* only declarations are in scope tables *)
          end
      | ENode an ps =>
          do st1 <- foldM (run f sc) st an;
          do st2 <- foldM (run f sc) st1 ps;
          foldM (run f sc) st2 an
      | EScope an items body =>
          do st1 <- foldM (run f sc) st an;
          do ' (m, st2) <- runItems (fun m => run f ((false, m) :: sc)) [] st1 items;
          do st3 <- run f ((false, m) :: sc) st2 body;
          foldM (run f sc) st3 an
      | EDecl v nm ps an =>
          match pfind v (pos st) with
          | None =>
              do st1 <- foldM (run f sc) (mkS ((v, None) :: pos st) (decls st)) ps;
              do st2 <- foldM (run f sc) st1 an;
              let st3 := mkS ((v, Some (Z.of_nat (length (decls st2)))) :: pos st2) (v :: decls st2) in
              foldM (run f sc) st3 an
          | Some None => UB                             (* assertion, 1357 *)
          | Some (Some _) => foldM (run f sc) st an
          end
      end
  end.

(** Items: declarations; function items (type-inst, parameters, annotations, body); constraint, solve and output
    items (their expressions); include items *)
Inductive item :=
| IDecl (d : ex)
| IFun (ti : list ex) (params anns : list ex) (body : ex)
| IExpr (es : list ex)
| IInclude.

(** TSV1, lib/typecheck.cpp:4928-4964 *)
Definition runItem (fuel : nat) (G : table) (st : state) (i : item) : res state :=
  let sc := [(true, G)] in
  match i with
  | IDecl d => run fuel sc st d
  | IFun ti params an body =>
      do st1 <- foldM (run fuel sc) st (ti ++ params ++ an);
      do m <- foldM add [] params;
      run fuel ((false, m) :: sc) st1 body
  | IExpr es => foldM (run fuel sc) st es
  | IInclude => Ok st
  end.

(** TSV0 (4782) enters all declarations of the model into the outermost scope *)
Definition top_decls (is_ : list item) : list ex :=
  flat_map (fun i => match i with IDecl d => [d] | _ => [] end) is_.

Fixpoint size (e : ex) : nat :=
  match e with
  | EId _ => 1
  | ENode an ps => S (list_sum (map size an) + list_sum (map size ps))
  | EScope an items b => S (list_sum (map size an) + list_sum (map size items) + size b)
  | EDecl _ _ ps an => S (list_sum (map size ps) + list_sum (map size an))
  end.
Definition isize (i : item) : nat :=
  match i with
  | IDecl d => S (size d)
  | IFun ti params an body => list_sum (map size (ti ++ params ++ an)) + size body
  | IExpr es => list_sum (map size es)
  | IInclude => 0
  end.
Definition enough (is_ : list item) : nat := S (list_sum (map isize is_)) + S (list_sum (map isize is_)).

Definition topo_state (is_ : list item) : res state :=
  do G <- foldM add [] (top_decls is_);
  foldM (runItem (enough is_) G) (mkS [] []) is_.

(** lib/typecheck.cpp:4967-4984 SortByPayload and std::stable_sort (insertion of each item before the first later item
    that is not less; the result of a stable sort is determined by the order) *)
Definition payload (st : state) (d : ex) : Z :=
  match d with
  | EDecl v _ _ _ => match pfind v (pos st) with Some (Some p) => p | _ => 0 end
  | _ => 0
  end.
Definition item_lt (st : state) (i j : item) : bool :=
  match i, j with
  | IInclude, IInclude => false
  | IInclude, _ => true
  | IDecl d, IDecl d' => payload st d <? payload st d'
  | IDecl _, IInclude => false
  | IDecl _, _ => true
  | _, _ => false
  end.
Fixpoint insert_item (st : state) (i : item) (l : list item) : list item :=
  match l with
  | [] => [i]
  | j :: r => if item_lt st j i then j :: insert_item st i r else i :: l
  end.
Fixpoint stable_sort (st : state) (l : list item) : list item :=
  match l with
  | [] => []
  | i :: r => insert_item st i (stable_sort st r)
  end.

(** the part of typecheck that orders the items of a model *)
Definition toposort (is_ : list item) : res (list item) :=
  do st <- topo_state is_; Ok (stable_sort st is_).
