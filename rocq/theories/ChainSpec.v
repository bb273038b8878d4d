(** What flat Boolean models mean (specification for C18). *)
Require Import List Bool Arith.
From Verif Require Import ChainModel.
Import ListNotations.

Section SEM.
Variable V : nat -> vinfo.
(** the meaning of the other predicates, for given values of all variables that are not Boolean *)
Variable I : nat -> list bool -> bool.

Definition value (s : nat -> bool) (x : arg) : bool := match x with AVar v => s v | ALit b => b end.
Definition all_true (s : nat -> bool) (l : list arg) : Prop := forall x, In x l -> value s x = true.
Definition some_true (s : nat -> bool) (l : list arg) : Prop := exists x, In x l /\ value s x = true.

Definition def_holds (s : nat -> bool) (d : def) : Prop :=
  match d with
  | DForall l => all_true s l
  | DExists l => some_true s l
  | DCall p l _ => I p (map (value s) l) = true
  end.

(** clause(p, n): if all of n hold then one of p does; p_imp(l, c): c implies p(l); a variable with a definition is equivalent
    to it, or implies it if it is annotated as occurring in positive context only *)
Definition holds (s : nat -> bool) (it : item) : Prop :=
  match it with
  | Clause p n => all_true s n -> some_true s p
  | RevMap _ => True
  | Imp p l c => value s c = true -> I p (map (value s) l) = true
  | Other p l => I p (map (value s) l) = true
  | Decl v =>
      (forall b, v_dom (V v) = Some b -> s v = b) /\
      (forall d, v_def (V v) = Some d ->
         (s v = true -> def_holds s d) /\ (v_pos (V v) = false -> def_holds s d -> s v = true))
  end.

Definition solution (s : nat -> bool) (l : list item) : Prop := forall it, In it l -> holds s it.

Definition occurs (v : nat) (it : item) : Prop :=
  match it with
  | Clause p n => In (AVar v) p \/ In (AVar v) n
  | RevMap _ => False
  | Imp _ l c => In (AVar v) l \/ c = AVar v
  | Other _ l => In (AVar v) l
  | Decl w => In (AVar v) (def_args (v_def (V w)))
  end.
End SEM.

(** Model l' is model l without the variables E: they are not output, have no domain, and occur in l' at most as positive
    literals of clauses; every solution of l is one of l', and every solution of l' becomes one of l by changing the
    values of variables in E only.  So the solutions are the same on all other variables. *)
Definition same_without (V : nat -> vinfo) (E : list nat) (l l' : list item) : Prop :=
  (forall v, In v E -> v_out (V v) = false /\ v_dom (V v) = None /\
     forall it, In it l' -> occurs V v it -> exists p n, it = Clause p n /\ ~ In (AVar v) n) /\
  forall I,
    (forall s, solution V I s l -> solution V I s l') /\
    (forall s, solution V I s l' -> exists s', solution V I s' l /\ forall v, ~ In v E -> s' v = s v).

(** a variable occurs negatively: in the negative part of a clause, or as the control variable of a half-reified predicate *)
Definition negative (l : list item) (v : nat) : Prop :=
  (exists p n, In (Clause p n) l /\ In (AVar v) n) \/ (exists p ys, In (Imp p ys (AVar v)) l).

(** no variable that occurs negatively is an argument of a half-reified predicate, or of the definition by such a predicate of
    a variable annotated as positive *)
Definition separate (V : nat -> vinfo) (l : list item) : Prop :=
  forall v, negative l v ->
    (forall p ys c, In (Imp p ys c) l -> ~ In (AVar v) ys) /\
    (forall w p ys h, In (Decl w) l -> v_def (V w) = Some (DCall p ys h) -> v_pos (V w) = true -> ~ In (AVar v) ys).

(** every variable is declared at most once *)
Definition declared_once (l : list item) : Prop :=
  NoDup (flat_map (fun it => match it with Decl v => [v] | _ => [] end) l).

(** no clause says that a variable implies itself *)
Definition no_loop (l : list item) : Prop := forall x, ~ In (Clause [AVar x] [AVar x]) l.

(** no clause has more than one negative literal, and no variable is defined as the disjunction of nothing *)
Definition short (V : nat -> vinfo) (l : list item) : Prop :=
  (forall p n, In (Clause p n) l -> length n <= 1) /\
  (forall v, In (Decl v) l -> v_def (V v) <> Some (DExists [])).
