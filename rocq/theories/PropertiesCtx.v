(** C45, C46, C62, C63: Boolean flattening and contexts.  Statements only; proofs are in CtxProofs.v. *)
Require Import ZArith List Bool Lia.
From Verif Require Import Base CtxModel CtxSpec CtxProofs.
Import ListNotations.
Open Scope Z_scope.

(** C45: for every expression and every truth assignment, aggregation terminates without error, the call it builds is true exactly when
    the conjunction (disjunction) of the operands, negated if requested, is; and nested operators of the same kind are gone. *)
Theorem C45_aggregate : forall l r negArgs bot, bot = AND \/ bot = OR ->
  exists c, aggregate l r negArgs bot = Ok c /\ call_done bot c /\
    forall v uo un, call_truth v uo un c = bmeaning bot (xorb negArgs (truth v uo un l)) (xorb negArgs (truth v uo un r)).
Proof.
  intros l r negArgs bot Hbot.
  destruct (aggregate_ok (fun _ => true) (fun _ _ _ => true) (fun _ => true) l r negArgs bot Hbot) as (c & H1 & H2 & _).
  exists c. split; [exact H1|]. split; [exact H2|]. intros v uo un.
  destruct (aggregate_ok v uo un l r negArgs bot Hbot) as (c' & H1' & _ & H3'). congruence.
Qed.
Print Assumptions C45_aggregate.

(** C45: the same for the conjuncts posted when a conjunction must hold. *)
Theorem C45_root : forall l r negArgs, exists cs, root_conjuncts (S (S (bsize l + bsize r))) negArgs [l; r] = Ok cs /\
  forall v uo un, forallb (fun p => xorb (fst p) (truth v uo un (snd p))) cs = xorb negArgs (truth v uo un l) && xorb negArgs (truth v uo un r).
Proof.
  intros l r negArgs.
  destruct (root_ok (fun _ => true) (fun _ _ _ => true) (fun _ => true) negArgs (S (S (bsize l + bsize r))) [l; r]) as (cs & H1 & _); [cbn; lia|].
  exists cs. split; [exact H1|]. intros v uo un.
  destruct (root_ok v uo un negArgs (S (S (bsize l + bsize r))) [l; r]) as (cs' & H1' & H2'); [cbn; lia|].
  replace cs with cs' by congruence. rewrite H2'. cbn. rewrite andb_true_r. reflexivity.
Qed.
Print Assumptions C45_root.

(** a \/ (not (b /\ not c) \/ (d -> e)) *)
Example C45_nonvacuous :
  aggregate (BAtom 0) (BBin true OR (BNot true (BBin true AND (BAtom 1) (BNot true (BAtom 2)))) (BBin true IMPL (BAtom 3) (BAtom 4))) false OR
  = Ok (CClause [BAtom 0; BBin true IMPL (BAtom 3) (BAtom 4)] [BBin true AND (BAtom 1) (BNot true (BAtom 2))]) /\
  aggregate (BAtom 0) (BBin true AND (BNot true (BAtom 1)) (BBin true OR (BAtom 2) (BAtom 3))) true OR
  = Ok (CClause [BAtom 1] [BAtom 0; BBin true OR (BAtom 2) (BAtom 3)]).
Proof. split; reflexivity. Qed.

(** C46: a context, moved to the argument of a monotone (antitone) function, is enough for the result of the function. *)
Theorem C46_monotone : forall c f, (f false = true -> f true = true) -> forall r e, bsound (bplus c) r e -> bsound (bplus c) (f r) (f e).
Proof. exact bplus_mono. Qed.
Print Assumptions C46_monotone.
Theorem C46_antitone : forall c f, (f true = true -> f false = true) -> forall r e, bsound (bminus c) r e -> bsound (bplus c) (f r) (f e).
Proof. exact bminus_mono. Qed.
Print Assumptions C46_antitone.
(** C46: signs multiply. *)
Theorem C46_signs : forall c, bplus (bplus c) = bplus c /\ bminus (bplus c) = bminus c /\ bplus (bminus c) = bminus c /\
  bminus (bminus c) = bplus c /\ (c <> C_ROOT -> bplus c = c).
Proof. intros []; repeat split; intros H; congruence. Qed.
Print Assumptions C46_signs.
(** C46: the contexts given to the arguments of forall, exists and clause are enough for the result, with and without negation. *)
Theorem C46_junction : forall q b neg q' argneg argb rs es, junct_call q b neg = (q', argneg, argb) ->
  Forall2 (fun r e => bsound (out_ctx argneg argb) r (xorb argneg e)) rs es ->
  bsound (out_ctx neg b) (junct q' rs) (xorb neg (junct q es)).
Proof. exact junct_ok. Qed.
Print Assumptions C46_junction.
Theorem C46_clause : forall b rp ep rn en,
  Forall2 (bsound (fst (clause_ctx b))) rp ep -> Forall2 (bsound (snd (clause_ctx b))) rn en ->
  bsound (bplus b) (existsb (fun x => x) rp || existsb negb rn) (existsb (fun x => x) ep || existsb negb en).
Proof. exact clause_ok. Qed.
Print Assumptions C46_clause.
(** C46: after any sequence of uses, the variable carries exactly one context annotation, the weakest that covers its uses and what was
    recorded before; its other annotations are unchanged. *)
Theorem C46_record : forall l us, (length (ctxs l) <= 1)%nat -> ctxs l ++ us <> [] ->
  exists c, annToCtx (fold_left addCtxAnn us l) = (c, true) /\ ctxs (fold_left addCtxAnn us l) = [c] /\
    weakest_cover c (ctxs l ++ us) /\ others (fold_left addCtxAnn us l) = others l.
Proof. exact addAll_ok. Qed.
Print Assumptions C46_record.
(** C46: the order and multiplicity of uses do not matter. *)
Theorem C46_order : forall l us us', (length (ctxs l) <= 1)%nat -> (forall u, In u us <-> In u us') ->
  annToCtx (fold_left addCtxAnn us l) = annToCtx (fold_left addCtxAnn us' l).
Proof. exact addAll_order. Qed.
Print Assumptions C46_order.
Example C46_nonvacuous :
  annToCtx (fold_left addCtxAnn [C_POS; C_NEG; C_POS] [AOther 3; ACtx C_POS; AOther 4]) = (C_MIX, true) /\
  annToCtx (fold_left addCtxAnn [C_NEG; C_ROOT; C_MIX] [AOther 3]) = (C_ROOT, true) /\
  annToCtx (fold_left addCtxAnn [C_NEG; C_NEG] []) = (C_NEG, true) /\
  junct_call true C_NEG true = (false, true, C_NEG) /\ out_ctx true C_NEG = C_POS.
Proof. repeat split. Qed.

(** C62: the integer contexts given to the operands of a comparison are enough for its result; a negated comparison is replaced by its
    complement. *)
Theorem C62_compare : forall op b neg rx ex ry ey,
  isound (fst (compare_ctx op b)) rx ex -> isound (snd (compare_ctx op b)) ry ey ->
  bsound (out_ctx neg b) (cmeaning (fst (compare_op op neg)) rx ry) (xorb neg (cmeaning op ex ey)).
Proof. exact compare_ok. Qed.
Print Assumptions C62_compare.
(** C62: linear expressions of any length and any coefficients. *)
Theorem C62_linear : forall i cs rs es, Forall2 (fun c p => isound (lin_ctx c i) (fst p) (snd p)) cs (combine rs es) ->
  length rs = length cs -> length es = length cs ->
  isound (bplus i) (fold_right Z.add 0 (map (fun p => fst p * snd p) (combine cs rs)))
                   (fold_right Z.add 0 (map (fun p => fst p * snd p) (combine cs es))).
Proof. exact lin_ok. Qed.
Print Assumptions C62_linear.
Theorem C62_bool2int : forall i r e, bsound (bool2int_ctx i) r e -> isound (bplus i) (b2z r) (b2z e).
Proof. exact bool2int_ok. Qed.
Print Assumptions C62_bool2int.
(** C62: products, when all values of each operand whose bounds are known have the same sign. *)
Theorem C62_product_partial : forall b0 b1 i r0 e0 r1 e1, sign_definite b0 -> sign_definite b1 ->
  in_bnds b0 r0 -> in_bnds b0 e0 -> in_bnds b1 r1 -> in_bnds b1 e1 ->
  isound (fst (mult_ctx b0 b1 i)) r0 e0 -> isound (snd (mult_ctx b0 b1 i)) r1 e1 ->
  isound (bplus i) (r0 * r1) (e0 * e1).
Proof. exact mult_ok. Qed.
Print Assumptions C62_product_partial.
(** C62: quotients, when in addition the divisor is known not to be zero. *)
Theorem C62_quotient_partial : forall b0 b1 i r0 e0 r1 e1, sign_definite b0 -> excludes_0 b1 ->
  in_bnds b0 r0 -> in_bnds b0 e0 -> in_bnds b1 r1 -> in_bnds b1 e1 ->
  isound (fst (idiv_ctx b0 b1 i)) r0 e0 -> isound (snd (idiv_ctx b0 b1 i)) r1 e1 ->
  isound (bplus i) (r0 ÷ r1) (e0 ÷ e1).
Proof. exact idiv_ok. Qed.
Print Assumptions C62_quotient_partial.
Example C62_nonvacuous :
  (sign_definite (Some (2, 5)) /\ sign_definite (Some (-4, -1)) /\ in_bnds (Some (2, 5)) 3 /\ in_bnds (Some (2, 5)) 4 /\
   in_bnds (Some (-4, -1)) (-3) /\ in_bnds (Some (-4, -1)) (-2) /\
   isound (fst (mult_ctx (Some (2, 5)) (Some (-4, -1)) C_POS)) 4 3 /\ isound (snd (mult_ctx (Some (2, 5)) (Some (-4, -1)) C_POS)) (-3) (-2) /\
   isound (bplus C_POS) (4 * -3) (3 * -2)) /\
  (excludes_0 (Some (-4, -1)) /\ isound (fst (idiv_ctx (Some (2, 5)) (Some (-4, -1)) C_NEG)) 3 4 /\
   isound (snd (idiv_ctx (Some (2, 5)) (Some (-4, -1)) C_NEG)) (-2) (-1)).
Proof. cbn. lia. Qed.
(** C62: false for products and quotients with an operand of both signs: the code tests the upper bound, not the lower one, for
    positivity.  r0 may stand for e0, yet the product does not stand for the product. *)
Theorem C62_product_refuted : exists b1 i r0 e0 r1, in_bnds b1 r1 /\ isound (fst (mult_ctx None b1 i)) r0 e0 /\ ~ isound (bplus i) (r0 * r1) (e0 * r1).
Proof. exists (Some (-5, 5)), C_POS, 1, 2, (-5). cbn. lia. Qed.
Print Assumptions C62_product_refuted.
Theorem C62_quotient_refuted : exists b0 b1 i e0 r1 e1, in_bnds b0 e0 /\ excludes_0 b1 /\ in_bnds b1 r1 /\ in_bnds b1 e1 /\
  isound (snd (idiv_ctx b0 b1 i)) r1 e1 /\ ~ isound (bplus i) (e0 ÷ r1) (e0 ÷ e1).
Proof. exists (Some (-10, 10)), (Some (1, 10)), C_POS, (-10), 2, 1. cbn. lia. Qed.
Print Assumptions C62_quotient_refuted.

(** C63: a Boolean operator, negated or not, in any context, is translated without error to something that is true exactly when the
    (negated) operator applied to its operands is, and is flattened in the same context up to the sign of the negation.  par and flat
    are what is known about the values of expressions before and after flattening. *)
Theorem C63_operator_partial : forall v uo un par flat isid, right_about v uo un par -> right_about v uo un flat ->
  forall op e0 e1 b neg root, (b = C_ROOT -> neg = false) ->
  exists p b', translate par flat isid true op e0 e1 b neg root = Ok (p, b') /\
    posted_truth v uo un p = xorb neg (bmeaning op (truth v uo un e0) (truth v uo un e1)) /\
    (has_ctx p = true -> out_ctx (posted_neg p) b' = out_ctx neg b).
Proof. exact translate_ok. Qed.
Print Assumptions C63_operator_partial.
(** not ((a /\ b) \/ c) must hold: a /\ b and c must be false; not (a xor b) is a = b; not (a -> b) is a /\ not b *)
Example C63_nonvacuous :
  let no := fun _ : bexp => None in
  translate no no (fun _ => false) true OR (BBin true AND (BAtom 0) (BAtom 1)) (BAtom 2) C_NEG true true =
    Ok (PAll [(true, BBin true AND (BAtom 0) (BAtom 1)); (true, BAtom 2)], C_POS) /\
  translate no no (fun _ => false) true XOR (BAtom 0) (BAtom 1) C_POS true false = Ok (POp false EQUIV (BAtom 0) (BAtom 1), C_NEG) /\
  translate no no (fun _ => false) true IMPL (BAtom 0) (BAtom 1) C_POS true false = Ok (PCall false (CForall [BAtom 0; BNot true (BAtom 1)]), C_NEG).
Proof. repeat split. Qed.
(** C63: false for conjunctions that are not built in (with optional operands): the negation is dropped, even if the overloaded
    operator has the usual meaning. *)
Theorem C63_optional_refuted : exists v par flat isid e0 e1 p b',
  right_about v bmeaning negb par /\ right_about v bmeaning negb flat /\
  translate par flat isid false AND e0 e1 C_NEG true false = Ok (p, b') /\
  posted_truth v bmeaning negb p <> xorb true (bmeaning AND (truth v bmeaning negb e0) (truth v bmeaning negb e1)).
Proof.
  exists (fun _ => true), (fun _ => None), (fun _ => None), (fun _ => false), (BAtom 0), (BAtom 1), (PUser false AND (BAtom 0) (BAtom 1)), C_POS.
  repeat split; try discriminate; intros e b H; discriminate.
Qed.
Print Assumptions C63_optional_refuted.
