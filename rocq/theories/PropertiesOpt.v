(** C14: classification and rewriting of FlatZinc constraints.  Statements only; proofs are in
    OptProofs.v. *)
Require Import ZArith List Bool Lia Permutation.
From Verif Require Import Base IntValModel IntValSpec SetModel SetSpec PropertiesSet LinModel LinSpec LinProofs2
  DoubleModel DoubleSpec OptModel OptSpec OptProofs.
Import ListNotations.
Open Scope Z_scope.

(** entailed constraints hold, failed ones do not and rewritten ones are equivalent, for every assignment
    within the domains.  Missing from the full property: bounds of a single-variable int_lin_le whose
    right hand side or coefficient is 2^53 or more in magnitude (false for them, see below). *)
Theorem C14_status_sound_partial : forall fuel ds sort dom bdom vsort lt s t,
  sorts sort -> fin_decls ds -> respects s ds -> in_domains s dom -> in_bdomains t bdom ->
  (forall l, Permutation (vsort l) l) ->
  forall top c st, con_ok c ->
  process fuel ds sort dom bdom (guard53 dquot_floor) (guard53 dquot_ceil) vsort lt top c = Ok st ->
  right_status s t c st.
Proof. exact C14_status_l. Qed.
Print Assumptions C14_status_sound_partial.

(** calls used as expressions keep their value *)
Theorem C14_expression_value : forall fuel ds sort s, sorts sort -> fin_decls ds -> respects s ds ->
  forall e st, exp_ok e -> process_exp fuel ds sort e = Ok st ->
  match st with SOk => True | SRewrite e' => exp_value s e' = exp_value s e | _ => False end.
Proof. exact C14_exp_l. Qed.
Print Assumptions C14_expression_value.

Definition x1 := TId (Num 1).
Definition go dom bdom c :=
  process 3 (fun _ => RNone) insertion dom bdom dquot_floor dquot_ceil (fun l => l) (fun _ _ => true) true c.

(** FINDING: 3*x <= 3*2^53 - 1 is declared entailed for x in 0..2^53, but 2^53 violates it *)
Theorem C14_large_bound_refuted :
  go (fun _ => Some [R 0 (2 ^ 53)]) (fun _ => None) (FLin LinLe [ofZ 3] [x1] (ofZ (3 * 2 ^ 53 - 1))) = Ok SEntailed /\
  ~ sat {| vid := fun _ => 2 ^ 53; vexp := fun _ => 0 |} {| bvid := fun _ => false; bvexp := fun _ => false |}
      (FLin LinLe [ofZ 3] [x1] (ofZ (3 * 2 ^ 53 - 1))).
Proof. split; [vm_compute; reflexivity|]. cbn. lia. Qed.
Print Assumptions C14_large_bound_refuted.
(** FINDING: membership of an unbounded variable in the empty set reads outside the set *)
Theorem C14_set_in_empty_refuted : go (fun _ => None) (fun _ => None) (FSetIn x1 []) = UB.
Proof. reflexivity. Qed.
Print Assumptions C14_set_in_empty_refuted.

Example C14_nonvacuous :
  let d := fun _ : ident => Some [R 1 5] in let nd := fun _ : ident => @None bool in
  go d nd (FLin LinLe [ofZ 2; ofZ 1] [x1; x1] (ofZ 10)) = Ok (SRewrite (FIntLe x1 (TLit (ofZ 3)))) /\
  go d nd (FLin LinLe [ofZ (-2)] [x1] (ofZ (-11))) = Ok SFailed /\
  go d nd (FLin LinEq [ofZ 2] [x1] (ofZ 7)) = Ok SFailed /\
  go d nd (FSetIn x1 [R 0 5]) = Ok SEntailed /\
  go d nd (FElement (TLit (ofZ 2)) [x1; TLit (ofZ 4)] x1) = Ok (SRewrite (FIntEq (TLit (ofZ 4)) x1)) /\
  go d nd (FClause [BId (Num 3); BId (Num 2)] [BId (Num 2)]) = Ok SEntailed /\
  go d (fun _ => Some true) (FForall [BId (Num 1); BLit true]) = Ok SEntailed /\
  in_domains {| vid := fun _ => 4; vexp := fun _ => 0 |} d /\ nf [R 1 5].
Proof.
  assert (N : nf [R 1 5]) by (apply nf_one; exists 1, (Fin 1), (Fin 5); cbn; repeat split; lia).
  cbn zeta. do 7 (split; [vm_compute; reflexivity|]). split; auto. intros i d H. inversion H; subst. split; auto.
  exists (ofZ 1), (ofZ 5). split; [left; reflexivity|]. exists (Fin 1), (Fin 5). cbn. repeat split; lia.
Qed.
