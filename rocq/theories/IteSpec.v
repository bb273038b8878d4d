(** What an if-then-else means, and what its flattened form means, for a given assignment of the variables. *)
Require Import ZArith List Bool Lia.
From Verif Require Import IteModel.
Import ListNotations.
Open Scope Z_scope.

Definition assignment : Type := nat -> Z.
(** the meaning of the parts that are not looked into: value and definedness of expressions, the value that stands for
    absence, truth of Boolean expressions, values of the conditions' variables *)
Record meaning : Type := { opv : nat -> assignment -> Z; opd : nat -> assignment -> bool; absent : Z;
                           opb : nat -> assignment -> bool; opc : nat -> assignment -> bool }.

Definition value (M : meaning) (e : exp) (a : assignment) : Z :=
  match e with EId x => a x | EAbsent => absent M | EOp k => opv M k a end.
Definition defined (M : meaning) (e : exp) (a : assignment) : bool :=
  match e with EOp k => opd M k a | _ => true end.
(** an equation with an undefined side is false *)
Fixpoint holds (M : meaning) (b : bexp) (a : assignment) : Prop :=
  match b with
  | BAnd x y => holds M x a /\ holds M y a
  | BEq _ l r => defined M l a = true /\ defined M r a = true /\ value M l a = value M r a
  | BOp k => opb M k a = true
  end.
Definition cond_val (M : meaning) (c : cond) (a : assignment) : bool :=
  match c with CPar b => b | CVar k => opc M k a end.

(** branch m is the one taken: no condition before it holds, and its own condition holds or it is the else branch *)
Definition taken (M : meaning) (a : assignment) (cs : list cond) (m : nat) : Prop :=
  (m <= length cs)%nat /\
  (forall i c, (i < m)%nat -> nth_error cs i = Some c -> cond_val M c a = false) /\
  (forall c, nth_error cs m = Some c -> cond_val M c a = true).

(** * Meaning of the flattened form *)
Definition in_ends (d : ends) (v : Z) : Prop :=
  (match fst d with Some l => l <= v | None => True end) /\ (match snd d with Some u => v <= u | None => True end).
Definition cond_vals (M : meaning) (a : assignment) (cl : list (cond * option nat)) : list bool := map (fun c => cond_val M (fst c) a) cl.
(** the variable of the conditional equals branch k *)
Definition br_true (M : meaning) (a : assignment) (target : option nat) (bs : list br) (k : nat) : Prop :=
  match target, nth_error bs k with
  | Some x, Some (BrE e) => a x = value M e a
  | None, Some (BrB l) => forall b, In b l -> holds M b a
  | _, _ => False
  end.
(** nothing is known about the dummy values: they make a conditional false *)
Definition row_true (M : meaning) (a : assignment) (cl : list (cond * option nat)) (r : row) : Prop :=
  ite_pred (cond_vals M a cl) (fun i => match nth_error cl i with Some (_, Some k) => br_true M a (fst r) (snd r) k | _ => False end).
(** the definedness that goes with clause i; it is written down only where it is not known to be true (lit) *)
Definition br_def (M : meaning) (lit : exp -> bool) (a : assignment) (bs : list br) (k : nat) : bool :=
  match nth_error bs k with Some (BrE e) => lit e || defined M e a | _ => true end.
Definition clause_def (M : meaning) (lit : exp -> bool) (a : assignment) (cl : list (cond * option nat)) (rs : list (list br)) (i : nat) : bool :=
  match nth_error cl i with Some (_, Some k) => forallb (fun bs => br_def M lit a bs k) rs | _ => true end.
Definition all_lit (lit : exp -> bool) (cl : list (cond * option nat)) (rs : list (list br)) : bool :=
  forallb (fun bs => forallb lit (row_exps cl bs)) rs.
(** 532-580 *)
Definition def_true (M : meaning) (lit : exp -> bool) (a : assignment) (cl : list (cond * option nat)) (rs : list (list br)) (b : bool) : Prop :=
  if all_lit lit cl rs then b = true else part_pred (cond_vals M a cl) (clause_def M lit a cl rs) b.

Definition flat_true (M : meaning) (lit : exp -> bool) (a : assignment) (f : flat) : Prop :=
  match f with
  | Direct b => holds M b a
  | Emit cl rs ds =>
      (forall r, In r rs -> row_true M a cl r) /\ def_true M lit a cl (map snd rs) true /\
      (forall x d, In (x, d) ds -> in_ends d (a x))
  end.
(** y: the value of the new variable; b: the value of the definedness variable *)
Definition flatv_true (M : meaning) (lit : exp -> bool) (a : assignment) (f : flatv) (y : Z) (b : bool) : Prop :=
  match f with
  | DirectV e => y = value M e a /\ b = defined M e a
  | EmitV cl bs d =>
      ite_pred (cond_vals M a cl)
        (fun i => match nth_error cl i with
                  | Some (_, Some k) => match nth_error bs k with Some (BrE e) => y = value M e a | _ => False end
                  | _ => False end) /\
      def_true M lit a cl [bs] b /\ match d with Some d => in_ends d y | None => True end
  end.

(** what is assumed of the other parts of the compiler: bounds are bounds, for the assignments within the declared
    domains, and definedness is called literally true only where it is *)
Definition sound_bounds (M : meaning) (dom : assignment -> Prop) (bnd : exp -> option ends) : Prop :=
  forall e d a, bnd e = Some d -> dom a -> in_ends d (value M e a).
Definition sound_lit (M : meaning) (dom : assignment -> Prop) (lit : exp -> bool) : Prop :=
  forall e a, lit e = true -> dom a -> defined M e a = true.

(** * Tuples *)
Inductive sval : Type := VLeaf (z : Z) | VTup (l : list sval).
Fixpoint leaves (v : sval) : list Z := match v with VLeaf z => [z] | VTup l => flat_map leaves l end.
(** a value has a type *)
Inductive has_type : sval -> sty -> Prop :=
  | T_leaf z : has_type (VLeaf z) SLeaf
  | T_tup vs ts : Forall2 has_type vs ts -> has_type (VTup vs) (STup ts).
Fixpoint sval_of (vs : list sval) (els : sval) (e : sexp) : option sval :=
  match e with
  | SThen j => nth_error vs j
  | SElse => Some els
  | SFld e i => match sval_of vs els e with Some (VTup l) => nth_error l i | _ => None end
  end.
(** the fields of the result, from the first to the last, if then-branch j (none: the else branch) is taken *)
Definition result_leaves (vs : list sval) (els : sval) (rs : list (list sexp * sexp)) (j : option nat) : list (option sval) :=
  map (fun r => match j with
                | Some j => match nth_error (fst r) j with Some e => sval_of vs els e | None => None end
                | None => sval_of vs els (snd r) end) rs.
Definition flat_type (t : sty) : Prop := exists ts, t = STup ts /\ forall f, In f ts -> f = SLeaf.
