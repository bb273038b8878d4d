(** C11-C13, C52: linear expressions and comparisons.  Statements only; proofs are in LinProofs*.v. *)
Require Import ZArith List Bool Lia.
From Verif Require Import Base IntValModel IntValSpec SetModel SetSpec LinModel LinSpec LinProofs LinProofs2 LinProofs3.
Import ListNotations.
Open Scope Z_scope.

(** ** C11: simplify_lin *)
(** the value is unchanged in every solution *)
Theorem C11_value_preserved : forall s fuel ds sort c x d c' x' d',
  sorts sort -> fin_decls ds -> respects s ds ->
  Forall fin c -> Forall fin_term x -> fin d -> length c = length x ->
  simplify_lin fuel ds sort c x d = Ok (c', x', d') ->
  lin_value s c' x' d' = lin_value s c x d.
Proof. exact C11_value_l. Qed.
Print Assumptions C11_value_preserved.

(** no coefficient is zero, no term is a literal, no term occurs twice *)
Theorem C11_normal_form : forall fuel ds sort c x d c' x' d',
  sorts sort -> fin_decls ds ->
  Forall fin c -> Forall fin_term x -> fin d -> length c = length x ->
  simplify_lin fuel ds sort c x d = Ok (c', x', d') ->
  length c' = length x' /\ Forall (fun v => iv_v v <> 0) c' /\ Forall (fun t => ~ is_lit t) x' /\ NoDup x'.
Proof. exact C11_nf_l. Qed.
Print Assumptions C11_normal_form.

(** it succeeds unless a sum could leave the 64-bit range or identifiers are defined in terms of themselves *)
Theorem C11_succeeds : forall fuel ds sort c x d,
  sorts sort -> fin_decls ds -> acyclic ds fuel ->
  Forall fin c -> Forall fin_term x -> fin d -> length c = length x ->
  (forall x', resolve_all fuel ds x = Ok x' -> small_lits x' /\ weight c x' + Z.abs (iv_v d) <= LLONG_MAX) ->
  exists r, simplify_lin fuel ds sort c x d = Ok r.
Proof. exact C11_total_l. Qed.
Print Assumptions C11_succeeds.

(** 3*x + 2*5 - y + 4*y - 3*x' + 1 with x' := x; the order used is one std::sort may return *)
Definition ds1 : decls := fun i => match i with Num 7 => RId (Num 1) | _ => RNone end.
Example C11_nonvacuous :
  sorts insertion /\ fin_decls ds1 /\ acyclic ds1 3 /\
  simplify_lin 3 ds1 insertion (map ofZ [3; 2; -1; 4; -3])
     [TId (Num 1); TLit (ofZ 5); TId (Name 9); TId (Name 9); TId (Num 7)] (ofZ 1)
  = Ok ([ofZ 3], [TId (Name 9)], ofZ 11).
Proof.
  split; [exact insertion_sorts|]. split; [intros i v; unfold ds1; destruct i as [[|[|[|[|[|[|[|[|]]]]]]]]|]; discriminate|].
  split; [|vm_compute; reflexivity].
  exists (fun i => match i with Num 7 => 2%nat | _ => 1%nat end). split.
  - destruct i as [[|[|[|[|[|[|[|[|]]]]]]]]|]; lia.
  - intros i j. unfold ds1. destruct i as [[|[|[|[|[|[|[|[|]]]]]]]]|]; intros H; inversion H; lia.
Qed.

(** ** C12: collect_linexps and mklinexp *)
Theorem C12_collect_value : forall s in_c e coeffs vars k co va k',
  fin in_c -> fin_lexp e -> Forall fin coeffs -> Forall fin_lexp vars -> fin k -> length coeffs = length vars ->
  collect_linexps in_c e coeffs vars k = Ok (co, va, k') ->
  length co = length va /\
  dot (map iv_v co) (map (leval s) va) + iv_v k' =
  dot (map iv_v coeffs) (map (leval s) vars) + iv_v k + iv_v in_c * leval s e.
Proof. exact C12_collect_l. Qed.
Print Assumptions C12_collect_value.

(** the work stack is exhausted after at most as many steps as the expression has nodes *)
Theorem C12_terminates : forall in_c e coeffs vars k, collect_linexps in_c e coeffs vars k <> Err OutOfFuel.
Proof. exact collect_linexps_fuel. Qed.
Print Assumptions C12_terminates.

(** the linear expression built for c0*e0 + c1*e1 has that value *)
Theorem C12_mklinexp_value : forall s fuel ds sort enc c0 c1 e0 e1 r,
  sorts sort -> fin_decls ds -> respects s ds ->
  (forall e, fin_lexp e -> fin_term (enc e) /\ tval s (enc e) = leval s e) ->
  fin c0 -> fin c1 -> fin_lexp e0 -> fin_lexp e1 ->
  mklinexp fuel ds sort enc c0 c1 e0 e1 = Ok r ->
  linexp_value s r = iv_v c0 * leval s e0 + iv_v c1 * leval s e1.
Proof. exact mklinexp_ok. Qed.
Print Assumptions C12_mklinexp_value.

(** 2*(x - (3*y + 4)) div 1 *)
Example C12_nonvacuous :
  let x := LTerm (TId (Num 1)) in let y := LTerm (TId (Num 2)) in
  let lit z := LPar (ofZ z) in
  collect_linexps (ofZ 2) (LIDiv (LMinus x (LPlus (LMult (lit 3) y) (lit 4))) (lit 1)) [] [] (ofZ 0)
  = Ok ([ofZ (-6); ofZ 2], [y; x], ofZ (-8)).
Proof. vm_compute. reflexivity. Qed.

(** ** C52: sum and lin_exp calls *)
Theorem C52_linexp_call_value : forall s fuel ds sort lin_def keep cs ts d r,
  sorts sort -> fin_decls ds -> respects s ds ->
  (forall t c x e, lin_def t = Some (c, x, e) ->
      Forall fin c /\ Forall fin_term x /\ fin e /\ length c = length x /\ tval s t = lin_value s c x e) ->
  length cs = length ts -> Forall fin cs -> Forall fin_term ts -> fin d ->
  flatten_linexp_call fuel ds sort lin_def keep cs ts d = Ok r ->
  linexp_value s r = lin_value s cs ts d.
Proof. exact linexp_call_ok. Qed.
Print Assumptions C52_linexp_call_value.

Theorem C52_sum_value : forall s fuel ds sort lin_def keep ts r,
  sorts sort -> fin_decls ds -> respects s ds ->
  (forall t c x e, lin_def t = Some (c, x, e) ->
      Forall fin c /\ Forall fin_term x /\ fin e /\ length c = length x /\ tval s t = lin_value s c x e) ->
  Forall fin_term ts ->
  flatten_sum fuel ds sort lin_def keep ts = Ok r ->
  linexp_value s r = fold_right Z.add 0 (map (tval s) ts).
Proof. exact C52_sum_l. Qed.
Print Assumptions C52_sum_value.

(** sum([a, b, a]) where b was defined as 2*a - c + 3 *)
Example C52_nonvacuous :
  let a := TId (Num 1) in let b := TId (Num 2) in let c := TId (Num 3) in
  flatten_sum 2 (fun _ => RNone) insertion
    (fun t => match t with TId (Num 2) => Some ([ofZ 2; ofZ (-1)], [a; c], ofZ 3) | _ => None end)
    (fun _ => false) [a; b; a]
  = Ok (MLin [ofZ 4; ofZ (-1)] [a; c] (ofZ 3)).
Proof. vm_compute. reflexivity. Qed.

(** ** C13: comparisons *)
(** For every solution within the known bounds and domains, the flattened form says exactly what the
    comparison says.  Infinite literals are allowed on one side. *)
Theorem C13_comparison_equivalent : forall s fuel ds sort bnd dom revmap fdiv cdiv root dn rTrue own_id,
  in_bounds s bnd -> in_domains s dom -> (root = true -> dn = false) ->
  rounds_down fdiv -> rounds_up cdiv ->
  sorts sort -> fin_decls ds -> respects s ds ->
  forall bot le0 le1 a b o,
  side_ok le0 -> side_ok le1 -> side_value s le0 = Some a -> side_value s le1 = Some b ->
  (exists z, a = Fin z) \/ (exists z, b = Fin z) ->
  linexp_binop fuel ds sort bnd dom revmap fdiv cdiv root dn rTrue own_id bot le0 le1 = Ok o ->
  expresses s dn (holds bot a b) o.
Proof. exact binop_ok. Qed.
Print Assumptions C13_comparison_equivalent.

Definition exact_fdiv (x y : IntVal) : res IntVal :=
  let q := iv_v x / iv_v y in if (LLONG_MIN <=? q) && (q <=? LLONG_MAX) then Ok (ofZ q) else Err ArithmeticError.
Definition exact_cdiv (x y : IntVal) : res IntVal :=
  let q := - ((- iv_v x) / iv_v y) in if (LLONG_MIN <=? q) && (q <=? LLONG_MAX) then Ok (ofZ q) else Err ArithmeticError.
Example C13_nonvacuous_rounding : rounds_down exact_fdiv /\ rounds_up exact_cdiv.
Proof.
  split; intros x y r _ _ _ H; unfold exact_fdiv, exact_cdiv in H; cbn zeta in H;
    match type of H with (if ?b then _ else _) = _ => destruct b eqn:E end; inversion H; unfold is_int, denote, ofZ;
    cbn [iv_inf iv_v]; rewrite E; reflexivity.
Qed.
Example C13_nonvacuous :
  let x := Num 1 in let y := Num 2 in let z := Num 3 in
  let go := linexp_binop 2 (fun _ => RNone) insertion
    (fun t => match t with TId (Num 1) => Some (ofZ 0, ofZ 9) | TId (Num 2) => Some (ofZ (-3), ofZ 4) | _ => None end)
    (fun i => match i with Num 1 => Some [(ofZ 0, ofZ 9)] | Num 2 => Some [(ofZ (-3), ofZ 4)] | _ => None end)
    (fun _ => false) exact_fdiv exact_cdiv true false true true in
  (* 2x + 3y > 7 + x  ~~>  -x - 3y <= -8 *)
  go BOT_GR (SLin [ofZ 2; ofZ 3] [TId x; TId y] (ofZ 0)) (SLin [ofZ 1] [TId x] (ofZ 7))
    = Ok (OLin KLe [ofZ (-1); ofZ (-3)] [TId x; TId y] (ofZ (-8)) NoUpdate) /\
  (* z = 2x + 3y: bounds of z *)
  go BOT_EQ (SId z) (SLin [ofZ 2; ofZ 3] [TId x; TId y] (ofZ 0))
    = Ok (OLin KEq [ofZ 1; ofZ (-2); ofZ (-3)] [TId z; TId x; TId y] (ofZ 0) (SetDom z [(ofZ (-9), ofZ 30)])) /\
  (* x <= 5 tightens the domain, x <= 20 is true, 12 <= x is false *)
  go BOT_LQ (SId x) (SLit (ofZ 5)) = Ok (ODom x [(ofZ 0, ofZ 5)]) /\
  go BOT_LQ (SId x) (SLit (ofZ 20)) = Ok (OConst true) /\
  go BOT_LQ (SLit (ofZ 12)) (SId x) = Ok (OConst false) /\
  go BOT_LQ (SId x) (SLit (mkIV 1 true)) = Ok (OConst true).
Proof. vm_compute. repeat split. Qed.
