(** Model of the flattening of if-then-else: lib/flatten/flatten_ite.cpp, and of the predicates it calls,
    share/minizinc/std/fzn_if_then_else_*.mzn.
    Values are integers (Booleans, floats and sets take part in the same way); conditions are par Booleans or given by
    their flattened variable. *)
Require Import ZArith List Bool Lia.
Import ListNotations.
Open Scope Z_scope.

(** expressions: an identifier, the absent value, anything else (numbered) *)
Inductive exp : Type := EId (x : nat) | EAbsent | EOp (k : nat).
(** Boolean expressions: conjunctions, equations (the flag: the left side is neither an array nor a struct), anything else *)
Inductive bexp : Type := BAnd (a b : bexp) | BEq (scalar : bool) (l r : exp) | BOp (k : nat).
(** conditions after flattening, 311-312 *)
Inductive cond : Type := CPar (b : bool) | CVar (k : nat).

(** 24-49, get_conjuncts: the stack gives the conjuncts from left to right (written as a recursion here) *)
Fixpoint conjuncts (e : bexp) : list bexp := match e with BAnd a b => conjuncts a ++ conjuncts b | _ => [e] end.
(** the identifier and the other side of an equation, 57-62 *)
Definition eq_parts (l r : exp) : option (nat * exp) :=
  match l with
  | EId x => Some (x, r)
  | _ => match r with EId y => Some (y, l) | _ => None end
  end.
Definition eqmap : Type := list (nat * (exp * bexp)).
Definition find_eq (m : eqmap) (x : nat) : option (exp * bexp) :=
  match find (fun p => Nat.eqb (fst p) x) m with Some p => Some (snd p) | None => None end.
(** 51-77, classify_conjunct *)
Definition classify (st : eqmap * list bexp) (e : bexp) : eqmap * list bexp :=
  match e with
  | BEq true l r =>
      match eq_parts l r with
      | Some (x, o) => match find_eq (fst st) x with None => (fst st ++ [(x, (o, e))], snd st) | Some _ => (fst st, snd st ++ [e]) end
      | None => (fst st, snd st ++ [e])
      end
  | _ => (fst st, snd st ++ [e])
  end.
(** 178-192, for one branch *)
Definition split_branch (b : bexp) : eqmap * list bexp := fold_left classify (conjuncts b) ([], []).
Definition has (m : eqmap) (x : nat) : bool := match find_eq m x with Some _ => true | None => false end.
(** eq_occurrences: the identifiers (each once; their order does not matter) and in how many branches they occur *)
Definition idents (sp : list (eqmap * list bexp)) : list nat := nodup Nat.eq_dec (flat_map (fun p => map fst (fst p)) sp).
Definition occurs (sp : list (eqmap * list bexp)) (x : nat) : nat := length (filter (fun p => has (fst p) x) sp).

(** what stands in a branch of a generated conditional: a value, or Boolean expressions that must all hold *)
Inductive br : Type := BrE (e : exp) | BrB (l : list bexp).
(** a conditional: the variable that gets the value (none: the result true), and the branches, the last one for else *)
Definition row : Type := option nat * list br.
(** 193-265: sp has one entry for each branch, the last for else *)
Definition kept (sp : list (eqmap * list bexp)) (x : nat) : bool := Nat.leb (length sp - 1) (occurs sp x).
Definition rest_of (sp : list (eqmap * list bexp)) (p : eqmap * list bexp) : list bexp :=
  snd p ++ flat_map (fun x => if kept sp x then [] else match find_eq (fst p) x with Some (_, b) => [b] | None => [] end) (idents sp).
Definition eq_left (sp : list (eqmap * list bexp)) (p : eqmap * list bexp) : list nat := filter (kept sp) (map fst (fst p)).
Definition eq_row (sp : list (eqmap * list bexp)) (x : nat) : row :=
  (Some x, map (fun p => match find_eq (fst p) x with Some (e, _) => BrE e | None => BrE (EId x) end) sp).
Definition rows (bs : list bexp) : list row :=
  let sp := map split_branch bs in
  map (eq_row sp) (filter (kept sp) (idents sp)) ++
  (if forallb (fun p => match rest_of sp p with [] => true | _ => false end) sp then []
   else [(None, map (fun bp => match eq_left sp (snd bp) with [] => BrB [fst bp] | _ => BrB (rest_of sp (snd bp)) end) (combine bs sp))]).

(** 305-347, 394-398, 409-411: the conditions with the number of the branch (none: the dummy value, 343); inl: only this
    branch is flattened *)
Fixpoint clauses (i : nat) (allpar : bool) (cs : list cond) (acc : list (cond * option nat)) : nat + list (cond * option nat) :=
  match cs with
  | [] =>
      if allpar then inl i
      else inr (match last acc (CVar 0, None) with (CPar true, _) => acc | _ => acc ++ [(CPar true, Some i)] end)
  | CPar true :: _ => if allpar then inl i else inr (acc ++ [(CPar true, Some i)])
  | CPar false :: r => clauses (S i) allpar r (acc ++ [(CPar false, None)])
  | CVar k :: r => clauses (S i) false r (acc ++ [(CVar k, Some i)])
  end.

(** 364-391, 424-430, 450-465: the bounds of the result; none: infinite.  Simplified: integers only *)
Definition ends : Type := option Z * option Z.
Definition min_end (a b : option Z) : option Z := match a, b with Some x, Some y => Some (Z.min x y) | _, _ => None end.
Definition max_end (a b : option Z) : option Z := match a, b with Some x, Some y => Some (Z.max x y) | _, _ => None end.
Fixpoint hull (l : list ends) : option ends :=
  match l with
  | [] => None
  | [b] => Some b
  | b :: r => match hull r with Some h => Some (min_end (fst b) (fst h), max_end (snd b) (snd h)) | None => None end
  end.
Fixpoint all_bounds (bnd : exp -> option ends) (l : list exp) : option (list ends) :=
  match l with
  | [] => Some []
  | e :: r => match bnd e, all_bounds bnd r with Some b, Some bs => Some (b :: bs) | _, _ => None end
  end.
Definition dom_of (bnd : exp -> option ends) (l : list exp) : option ends :=
  match all_bounds bnd l with
  | Some bs => match hull bs with Some (None, None) => None | h => h end
  | None => None
  end.
Definition row_exps (cl : list (cond * option nat)) (bs : list br) : list exp :=
  flat_map (fun c => match snd c with Some i => match nth_error bs i with Some (BrE e) => [e] | _ => [] end | None => [] end) cl.

(** the flattened form of a constraint: one branch alone; or conditions, conditionals, and domains *)
Inductive flat : Type := Direct (b : bexp) | Emit (cl : list (cond * option nat)) (rs : list row) (ds : list (nat * ends)).
Definition flatten_root (bnd : exp -> option ends) (isint : nat -> bool) (cs : list cond) (bs : list bexp) : flat :=
  match clauses 0 true cs [] with
  | inl i => Direct (nth i bs (BOp 0))
  | inr cl =>
      let rs := rows bs in
      Emit cl rs (flat_map (fun r => match fst r with
                                     | Some x => if isint x then match dom_of bnd (row_exps cl (snd r)) with Some d => [(x, d)] | None => [] end else []
                                     | None => [] end) rs)
  end.
(** 274-282: in other positions there is one conditional, for a new variable *)
Inductive flatv : Type := DirectV (e : exp) | EmitV (cl : list (cond * option nat)) (bs : list br) (d : option ends).
Definition flatten_value (bnd : exp -> option ends) (cs : list cond) (es : list exp) : flatv :=
  match clauses 0 true cs [] with
  | inl i => DirectV (nth i es EAbsent)
  | inr cl => EmitV cl (map BrE es) (dom_of bnd (row_exps cl (map BrE es)))
  end.

(** fzn_if_then_else_int.mzn:1-7 and the other versions: p i says that the variable equals x[i]; d[i]: no condition before i holds *)
Definition ite_pred (c : list bool) (p : nat -> Prop) : Prop :=
  exists d : nat -> bool,
    (forall i, (i < length c)%nat -> d i = match i with O => true | S j => negb (nth j c false) && d j end) /\
    (forall i, (i < length c)%nat -> nth i c false = true /\ d i = true -> p i).
(** fzn_if_then_else_partiality.mzn:1-12 *)
Definition part_pred (c : list bool) (df : nat -> bool) (b : bool) : Prop :=
  exists d : nat -> bool,
    (forall i, (i < length c)%nat -> d i = match i with O => true | S j => negb (nth j c false) && d j end) /\
    (forall i, (i < length c)%nat -> b = true /\ nth i c false = true /\ d i = true -> df i = true) /\
    (forall i, (i < length c)%nat -> d i = true /\ nth i c false = true /\ df i = true -> b = true).

(** * Tuples and records, 79-137 *)
Inductive sty : Type := SLeaf | STup (l : list sty).
(** the value of a branch, and its fields (counted from 0) *)
Inductive sexp : Type := SThen (j : nat) | SElse | SFld (e : sexp) (i : nat).
(** ite_struct_split: one conditional for each field that is not a struct (none: an access past the end of then_decl, 107) *)
Fixpoint struct_split (t : sty) (thens : list sexp) (els : sexp) : option (list (list sexp * sexp)) :=
  match t with
  | SLeaf => Some [(thens, els)]
  | STup fs =>
      (fix go (i : nat) (fs : list sty) : option (list (list sexp * sexp)) :=
         match fs with
         | [] => Some []
         | SLeaf :: r => match go (S i) r with Some l => Some ((map (fun e => SFld e i) thens, SFld els i) :: l) | None => None end
         | f :: r =>
             match nth_error thens i with
             | None => None
             | Some d =>
                 match struct_split f (map (fun _ => SFld d i) thens) (SFld els i), go (S i) r with
                 | Some a, Some l => Some (a ++ l)
                 | _, _ => None
                 end
             end
         end) 0%nat fs
  end.
