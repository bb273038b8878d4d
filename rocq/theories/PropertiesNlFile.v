(** C99: the NL file for a solver has the solutions of the FlatZinc model. *)
Require Import List ZArith QArith Bool String Lia Permutation.
From Verif Require Import NlFileModel NlFileSpec NlFileProofs NlFileProofs2 NlFileProofs3 NlFileProofs4.
Import ListNotations.
Open Scope Q_scope.

(** The file of a model with at least two variables and without integer divisions has exactly the solutions of the model,
    whatever the mathematical functions are, provided the assertions of the translation hold.  Missing: a single variable
    and integer division (both refuted below) and models that violate the assertions. *)
Theorem C99_faithful_partial : forall F power ds cs names f env, well_formed ds cs ->
  (forall x y z, ~ In (Bin IDiv x y z) cs) -> (1 < List.length ds)%nat -> translate true ds cs = Some (names, f) ->
  (nl_solution F power f (map env names) <-> fzn_solution F power env ds cs).
Proof.
  intros F power ds cs names f env [ND [AR OK]] NDIV LEN H. unfold translate in H.
  destruct (collect true ds cs) as [s|] eqn:C; [|discriminate]. destruct (print s) as [f'|] eqn:P; [|discriminate].
  injection H as H1 H2; subst.
  assert (CO : forall c, In c cs -> call_ok c).
  { intros c I. pose proof (OK c I) as O.
    destruct c as [cs' vs v|cs' vs v|cs' vs v|cs' vs v|x y|x y|x y|x y|o x y z|o x y|x y|x y]; cbn in *; auto.
    destruct o; auto. exact (NDIV _ _ _ I). }
  destruct (collect_ok F power env ds cs s ND CO C) as [A K].
  rewrite (print_ok F power env s f); [exact A|rewrite K; exact ND| |exact P].
  rewrite <- (map_length fst), K, map_length. exact LEN.
Qed.

(** What the solver returns, one value per variable in the order of the file, is a solution of the model when each value is
    given to the variable whose name has the same position. *)
Theorem C99_readback_partial : forall F power ds cs names f vals, well_formed ds cs ->
  (forall x y z, ~ In (Bin IDiv x y z) cs) -> (1 < List.length ds)%nat -> translate true ds cs = Some (names, f) ->
  nl_solution F power f vals -> fzn_solution F power (fun n => assoc n names vals) ds cs.
Proof.
  intros F power ds cs names f vals WF NDIV LEN H S.
  apply (C99_faithful_partial F power ds cs names f _ WF NDIV LEN H).
  unfold translate in H. destruct (collect true ds cs) as [s|] eqn:C; [|discriminate].
  destruct (print s) as [f'|] eqn:P; [|discriminate]. injection H as H1 H2; subst names f'.
  destruct WF as [ND [AR OK]]. pose proof (collect_names true ds cs s ND AR C) as [K _].
  rewrite assoc_map; [exact S| |].
  - eapply Permutation_NoDup; [apply vnames_perm|]. rewrite K. exact ND.
  - destruct S as [L _]. rewrite L. unfold print in P.
    destruct (map_opt (fun n => option_map v_bound (lookup n (n_vars s))) (vnames s)); [|discriminate].
    destruct (map_opt (out_alg s) _); [|discriminate]. destruct (map_opt (map_opt (out_token s)) (n_log s)); [|discriminate].
    injection P as P; subst f. cbn [f_vars]. rewrite <- (Permutation_length (vnames_perm s)), map_length. reflexivity.
Qed.

(** Every variable has exactly one column and the header marks exactly the integer ones as integer, in both kinds of
    builds. *)
Theorem C99_columns : forall dbg ds cs names f, well_formed ds cs -> translate dbg ds cs = Some (names, f) ->
  Permutation (map d_name ds) names /\ f_vars f = List.length ds /\
  forall i d, In d ds -> nth_error names i = Some (d_name d) -> integer_column f i = d_int d.
Proof.
  intros dbg ds cs names f [ND [AR OK]] H. unfold translate in H.
  destruct (collect dbg ds cs) as [s|] eqn:C; [|discriminate]. destruct (print s) as [f'|] eqn:P; [|discriminate].
  injection H as H1 H2; subst names f'. pose proof (collect_names dbg ds cs s ND AR C) as [K _].
  split; [rewrite <- K; apply vnames_perm|]. split.
  - unfold print in P.
    destruct (map_opt (fun n => option_map v_bound (lookup n (n_vars s))) (vnames s)); [|discriminate].
    destruct (map_opt (out_alg s) _); [|discriminate]. destruct (map_opt (map_opt (out_token s)) (n_log s)); [|discriminate].
    injection P as P; subst f. cbn [f_vars]. rewrite <- (map_length fst), K, map_length. reflexivity.
  - intros i d I N. pose proof (integer_ok s f i (d_name d) P N) as M. rewrite (collect_kinds dbg ds cs s ND C) in M.
    apply in_map_iff in M. destruct M as [d' [E I']]. injection E as E1 E2.
    assert (d' = d); [|subst; auto]. clear - ND I I' E1. induction ds as [|a l IH]; [destruct I|]. cbn in ND. inversion ND; subst.
    destruct I as [I|I], I' as [I'|I']; subst; auto; exfalso;
      match goal with K : ~ In _ _ |- _ => apply K end; [rewrite <- E1|rewrite E1]; apply in_map; assumption.
Qed.

(** Builds without assertions write the same file where the assertions hold, and they write a file for every model with
    range domains and without constraints that only bound a variable. *)
Theorem C99_release : forall ds cs r, translate true ds cs = Some r -> translate false ds cs = Some r.
Proof. apply translate_release. Qed.

Theorem C99_written_partial : forall ds cs, well_formed ds cs ->
  (forall d, In d ds -> d_dom d = None \/ exists r, d_dom d = Some [r]) ->
  (forall c, In c cs -> match c with
                        | CEq (AC _) (AV _) | CEq (AV _) (AC _) | CLe (AC _) (AV _) | CLe (AV _) (AC _) => False
                        | _ => True
                        end) ->
  exists r, translate false ds cs = Some r.
Proof.
  intros ds cs [ND [AR OK]] D C. destruct (collect_release ds cs D C) as [s E]. unfold translate. rewrite E.
  destruct (print_total s _ (collect_names false ds cs s ND AR E)) as [f P]. rewrite P. eauto.
Qed.

(** the integer division of the specification is the usual one that rounds towards zero *)
Theorem C99_division_meaning : forall x y : Z, y <> 0%Z -> truncate (inject_Z x / inject_Z y) = inject_Z (Z.quot x y).
Proof.
  intros x [|p|p] N; [congruence| |]; unfold truncate, Qdiv, Qinv, Qmult, inject_Z; cbn [Qnum Qden]; f_equal.
  - rewrite Z.mul_1_r, Pos.mul_1_l. reflexivity.
  - rewrite Pos.mul_1_l. change (Z.neg p) with (- Z.pos p)%Z. rewrite Z.quot_opp_r by discriminate.
    rewrite <- Z.quot_opp_l by discriminate. f_equal. lia.
Qed.

Definition int_var (n : string) (l u : Q) : decl := mkD n true true (Some [(l, u)]).

(** If there is only one variable its bounds are not written: models with different solutions get the same file. *)
Theorem C99_single_refuted : exists d1 d2 r env,
  well_formed [d1] [] /\ well_formed [d2] [] /\ translate true [d1] [] = Some r /\ translate true [d2] [] = Some r /\
  forall F power, fzn_solution F power env [d1] [] /\ ~ fzn_solution F power env [d2] [].
Proof.
  exists (int_var "x" 1 10), (int_var "x" 5 7). eexists. exists (fun _ => 2).
  split; [|split; [|split; [reflexivity|split; [reflexivity|]]]].
  1,2: split; [repeat constructor; auto|split; [intros c n []|intros c []]].
  intros F power. split.
  - split; [|intros c []]. intros d [E|[]]; subst. exists 1, 10. cbn. split; [left; reflexivity|split; discriminate].
  - intros [D _]. specialize (D _ (or_introl eq_refl)). destruct D as [l [u [[E|[]] [A B]]]]. injection E as E1 E2; subst.
    cbn in A. apply A. reflexivity.
Qed.

(** Integer division is written as real division: 7 div 2 = 3 is a solution of the model but not of the file. *)
Theorem C99_division_refuted : exists ds cs names f env,
  well_formed ds cs /\ translate true ds cs = Some (names, f) /\
  forall F power, fzn_solution F power env ds cs /\ ~ nl_solution F power f (map env names).
Proof.
  exists [int_var "x" 0 9; int_var "y" 1 9; int_var "z" 0 9], [Bin IDiv (AV "x") (AV "y") (AV "z")].
  eexists _, _, (fun n => if String.eqb n "x" then 7 else if String.eqb n "y" then 2 else 3).
  split; [|split; [reflexivity|]].
  - split; [|split].
    + cbn. repeat constructor; cbn; intuition discriminate.
    + intros c n [E|[]]; subst. cbn. intuition congruence.
    + intros c [E|[]]; subst. exact I.
  - intros F power. split.
    + split.
      * intros d [E|[E|[E|[]]]]; subst; (eexists _, _; split; [left; reflexivity|split; discriminate]).
      * intros c [E|[]]; subst. cbn. split; [discriminate|reflexivity].
    + intros [_ [_ [A _]]]. specialize (A _ (or_introl eq_refl)). destruct A as [q [R W]]. cbn in R, W.
      inversion R as [| |? f' ? x' ? N' R'|? ? x' g1' y' ? ? N' R1' R2' B'|]; subst; [discriminate|].
      inversion R1'; subst. inversion R2'; subst. cbn in B'. injection B' as B'. subst q. discriminate W.
Qed.

(** A product that is one of its factors: builds with assertions give up; the others write a constraint in whose linear part
    a variable occurs twice, which the format does not allow. *)
Theorem C99_duplicate_refuted : exists ds cs names f c,
  well_formed ds cs /\ translate true ds cs = None /\ translate false ds cs = Some (names, f) /\
  In c (f_cons f) /\ ~ NoDup (map fst (a_jac c)).
Proof.
  exists [int_var "x" 0 9; int_var "y" 0 9], [Bin ITimes (AV "x") (AV "y") (AV "x")]. eexists _, _, _.
  split; [|split; [reflexivity|split; [reflexivity|split; [left; reflexivity|]]]].
  - split; [|split].
    + cbn. repeat constructor; cbn; intuition discriminate.
    + intros c n [E|[]]; subst. cbn. intuition congruence.
    + intros c [E|[]]; subst. exact I.
  - cbn. intro H. inversion H as [|? ? NI _]; subst. apply NI. cbn. auto.
Qed.

(** a model with float and integer variables, nonlinear and linear constraints and updates of bounds *)
Example C99_nonvacuous : exists ds cs names f env,
  well_formed ds cs /\ (forall x y z, ~ In (Bin IDiv x y z) cs) /\ (1 < List.length ds)%nat /\
  translate true ds cs = Some (names, f) /\ names = ["a"; "x"; "y"; "b"; "z"]%string /\
  (List.length (f_cons f) = 4 /\ List.length (f_log f) = 1)%nat /\
  forall F power, F "sqrt"%string 4 = 2 -> fzn_solution F power env ds cs.
Proof.
  exists [int_var "x" 0 9; int_var "y" 1 9; int_var "z" 0 9; mkD "a" false true None; mkD "b" false false (Some [(0, 100)])],
         [Bin ITimes (AV "x") (AV "y") (AV "z"); LinLe [2; -(1)] ["x"; "y"]%string (AC 4); Un FSqrt (AV "a") (AV "b");
          CLe (AC 1) (AV "a"); LinNe [1; 3] ["x"; "y"]%string (AV "x"); CLe (AV "b") (AV "z")].
  eexists _, _, (fun n => if String.eqb n "x" then 2 else if String.eqb n "y" then 3 else if String.eqb n "z" then 6
                          else if String.eqb n "a" then 4 else 2).
  split; [|split; [|split; [cbn; lia|split; [reflexivity|split; [reflexivity|split; [split; reflexivity|]]]]]].
  - split; [|split].
    + cbn. repeat constructor; cbn; intuition discriminate.
    + intros c n I. cbn in I. intuition (subst; cbn in *; intuition congruence).
    + intros c I. cbn in I. intuition (subst; cbn; auto).
  - intros x y z I. cbn in I. intuition discriminate.
  - intros F power SQ. split.
    + intros d I. cbn in I.
      repeat (destruct I as [I|I]; [subst d; try exact I; try (eexists _, _; split; [left; reflexivity|split; discriminate])|]);
        try contradiction.
    + intros c I. cbn in I.
      repeat (destruct I as [I|I]; [subst c; cbn; rewrite ?SQ; try reflexivity; try discriminate; try (intro; discriminate)|]); try contradiction.
Qed.

Print Assumptions C99_faithful_partial.
Print Assumptions C99_readback_partial.
Print Assumptions C99_columns.
Print Assumptions C99_release.
Print Assumptions C99_written_partial.
Print Assumptions C99_division_meaning.
Print Assumptions C99_single_refuted.
Print Assumptions C99_division_refuted.
Print Assumptions C99_duplicate_refuted.
Print Assumptions C99_nonvacuous.
