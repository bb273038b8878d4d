(** Independent specification of linear expressions and comparisons. *)
Require Import ZArith List Permutation.
From Verif Require Import Base IntValModel IntValSpec SetModel SetSpec LinModel.
Import ListNotations.
Open Scope Z_scope.

(** a solution assigns an integer to every identifier and to every other expression *)
Record valuation : Type := { vid : ident -> Z; vexp : Z -> Z }.

(** a stored integer that is finite and in range *)
Definition fin (v : IntVal) : Prop := is_int v (iv_v v).
Definition fin_term (t : term) : Prop := match t with TLit v => fin v | _ => True end.

Definition tval (s : valuation) (t : term) : Z :=
  match t with TLit v => iv_v v | TId i => vid s i | TExp r => vexp s r end.

Fixpoint dot (c v : list Z) : Z :=
  match c, v with
  | a :: c', b :: v' => a * b + dot c' v'
  | _, _ => 0
  end.
(** c1*x1 + ... + cn*xn + d *)
Definition lin_value (s : valuation) (c : list IntVal) (x : list term) (d : IntVal) : Z :=
  dot (map iv_v c) (map (tval s) x) + iv_v d.

(** the solution respects the definitions of identifiers *)
Definition respects (s : valuation) (ds : decls) : Prop :=
  forall i, match ds i with
            | RId j => vid s i = vid s j
            | RLit v => is_int v (vid s i)
            | RExp r => vid s i = vexp s r
            | RNone => True
            end.
(** literals in definitions are finite *)
Definition fin_decls (ds : decls) : Prop := forall i v, ds i = RLit v -> fin v.

(** std::sort: some permutation of the indices in which no element is smaller than an earlier one *)
Definition sorts (sort : list term -> list nat) : Prop :=
  forall x, Forall fin_term x -> Permutation (sort x) (seq 0 (length x)) /\
    forall p q, (p < q < length x)%nat ->
      cmp_term (getx x (nth q (sort x) 0%nat)) (getx x (nth p (sort x) 0%nat)) = false.

(** the value of an expression built from +, -, *, div; div truncates *)
Fixpoint leval (s : valuation) (e : lexp) : Z :=
  match e with
  | LPar v => iv_v v
  | LTerm t => tval s t
  | LPlus a b => leval s a + leval s b
  | LMinus a b => leval s a - leval s b
  | LMult a b => leval s a * leval s b
  | LIDiv a b => Z.quot (leval s a) (leval s b)
  | LOver r => vexp s r
  end.
(** all constants in the expression are finite *)
Fixpoint fin_lexp (e : lexp) : Prop :=
  match e with
  | LPar v => fin v
  | LTerm t => fin_term t
  | LPlus a b | LMinus a b | LMult a b | LIDiv a b => fin_lexp a /\ fin_lexp b
  | LOver _ => True
  end.

Definition linexp_value (s : valuation) (e : linexp) : Z :=
  match e with
  | MLit v => iv_v v
  | MTerm t => tval s t
  | MLin c x d => lin_value s c x d
  end.

(** one side of a comparison; a literal may be infinite *)
Definition side_value (s : valuation) (e : lside) : option ext :=
  match e with
  | SLit v => denote v
  | SId i => Some (Fin (vid s i))
  | SLin c x d => Some (Fin (lin_value s c x d))
  | SOther => None
  end.
Definition side_ok (e : lside) : Prop :=
  match e with
  | SLit v => wf v
  | SId _ => True
  | SLin c x d => Forall fin c /\ Forall fin_term x /\ fin d /\ length c = length x
  | SOther => True
  end.

(** the six comparison operators on extended integers *)
Definition holds (op : cmp_op) (a b : ext) : Prop :=
  match op with
  | BOT_LE => ext_lt a b | BOT_LQ => ext_le a b
  | BOT_GR => ext_lt b a | BOT_GQ => ext_le b a
  | BOT_EQ => a = b | BOT_NQ => a <> b
  end.

Definition update_meaning (s : valuation) (u : dom_update) : Prop :=
  match u with
  | NoUpdate => True
  | SetDom i d => elem (vid s i) d
  | NoSolution => False
  end.
(** what the flattened form says about a solution *)
Definition out_meaning (s : valuation) (o : lin_out) : Prop :=
  match o with
  | OConst b => b = true
  | ODom i d => elem (vid s i) d
  | OCmp op a b => allowed op (tval s a) (tval s b)
  | OBind i j => vid s i = vid s j
  | OEqVars a b => tval s a = tval s b
  | OLin k c x d u =>
      let v := dot (map iv_v c) (map (tval s) x) in
      match k with KLe => v <= iv_v d | KEq => v = iv_v d | KNe => v <> iv_v d end /\
      update_meaning s u
  end.

(** the solution lies within the known bounds and the declared domains *)
Definition in_bounds (s : valuation) (bnd : term -> option (IntVal * IntVal)) : Prop :=
  forall t l u, bnd t = Some (l, u) -> between (tval s t) l u.
Definition in_domains (s : valuation) (dom : ident -> option iset) : Prop :=
  forall i d, dom i = Some d -> nf d /\ elem (vid s i) d.

(** floorDiv and ceilDiv round the quotient down and up; they may refuse arguments *)
Definition rounds_down (f : IntVal -> IntVal -> res IntVal) : Prop :=
  forall x y r, fin x -> fin y -> iv_v y <> 0 -> f x y = Ok r -> is_int r (iv_v x / iv_v y).
Definition rounds_up (f : IntVal -> IntVal -> res IntVal) : Prop :=
  forall x y r, fin x -> fin y -> iv_v y <> 0 -> f x y = Ok r -> is_int r (- ((- iv_v x) / iv_v y)).

(** the outcome of flattening expresses the proposition P about the solution s; under double negation
    constants are the complement *)
Definition expresses (s : valuation) (dn : bool) (P : Prop) (o : lin_out) : Prop :=
  match o with
  | OConst b => b = true <-> (if dn then ~ P else P)
  | _ => out_meaning s o <-> P
  end.

Definition is_lit (t : term) : Prop := exists v, t = TLit v.

(** size of a linear expression: the sum of |coefficient| * max(1, |literal|) *)
Definition tweight (t : term) : Z := match t with TLit v => Z.max 1 (Z.abs (iv_v v)) | _ => 1 end.
Fixpoint weight (c : list IntVal) (x : list term) : Z :=
  match c, x with
  | v :: c', t :: x' => Z.abs (iv_v v) * tweight t + weight c' x'
  | _, _ => 0
  end.
Definition small_lits (x : list term) : Prop := Forall (fun t => match t with TLit v => Z.abs (iv_v v) <= LLONG_MAX | _ => True end) x.

(** identifiers are defined by identifiers at most n steps away *)
Definition acyclic (ds : decls) (n : nat) : Prop :=
  exists rank : ident -> nat, (forall i, (rank i < n)%nat) /\ forall i j, ds i = RId j -> (rank j < rank i)%nat.
