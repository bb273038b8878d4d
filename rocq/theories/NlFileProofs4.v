(** The header tells which variables are integer. *)
Require Import List ZArith QArith Bool String Lia Permutation.
From Verif Require Import NlFileModel NlFileSpec NlFileProofs NlFileProofs2 NlFileProofs3.
Import ListNotations.

Definition kinds (s : nl) : list (string * bool) := map (fun p => (fst p, v_int (snd p))) (n_vars s).

Lemma store_kinds : forall n v w vs, lookup n vs = Some w -> v_int v = v_int w ->
  map (fun p => (fst p, v_int (snd p))) (store n v vs) = map (fun p => (fst p, v_int (snd p))) vs.
Proof.
  induction vs as [|[m u] r IH]; cbn; intros H E; [discriminate|]. destruct (String.eqb n m); cbn.
  - injection H as H; subst. rewrite E. reflexivity.
  - rewrite IH by assumption. reflexivity.
Qed.
Lemma update_kinds : forall s n f s', update_var s n f = Some s' -> kinds s' = kinds s.
Proof.
  intros s n f s' H. unfold update_var in H. destruct (lookup n (n_vars s)) as [v|] eqn:L; [|discriminate].
  destruct (f (v_bound v)) as [b|]; [|discriminate]. injection H as H; subst. unfold kinds. cbn [n_vars].
  apply store_kinds with (w := v); [exact L|reflexivity].
Qed.
Lemma analyse_kinds : forall dbg s c s', analyse dbg s c = Some s' -> kinds s' = kinds s.
Proof.
  intros dbg s c s' H. destruct c as [cs vs v|cs vs v|cs vs v|cs vs v|x y|x y|x y|x y|o x y z|o x y|x y|x y]; cbn [analyse] in H;
    try (apply check_some in H; destruct H as [H _]); try (apply check_some in H; destruct H as [H _]);
    try (injection H as H; subst; reflexivity).
  - destruct x as [?|n], y as [?|m]; cbn [nlcons_eq] in H; try (eapply update_kinds; eassumption);
      try (destruct (String.eqb n m)); injection H as H; subst; reflexivity.
  - destruct x as [?|n], y as [?|m]; cbn [nlcons_le] in H; try (eapply update_kinds; eassumption);
      try (destruct (String.eqb n m)); injection H as H; subst; reflexivity.
  - destruct (binary_ok (fun _ => 0%Q) _ _ _ _ _ _ _ H) as [j [_ E]]. subst. reflexivity.
  - destruct (unary_ok (fun _ => 0%Q) _ _ _ _ _ _ H) as [j [_ E]]. subst. reflexivity.
  - destruct (unary_ok (fun _ => 0%Q) _ _ _ _ _ _ H) as [j [_ E]]. subst. reflexivity.
Qed.
Lemma collect_kinds : forall dbg ds cs s, NoDup (map d_name ds) -> collect dbg ds cs = Some s ->
  kinds s = map (fun d => (d_name d, d_int d)) ds.
Proof.
  intros dbg ds cs s ND H. unfold collect in H.
  destruct (fold_opt (add_decl dbg) (mkNl [] [] []) ds) as [s1|] eqn:E; [|discriminate].
  assert (K1 : kinds s1 = map (fun d => (d_name d, d_int d)) ds).
  { assert (G : forall l s0 s', NoDup (map fst (n_vars s0) ++ map d_name l) -> fold_opt (add_decl dbg) s0 l = Some s' ->
                kinds s' = kinds s0 ++ map (fun d => (d_name d, d_int d)) l).
    { induction l as [|d l IH]; intros s0 s' ND0 F0; cbn [fold_opt map] in *.
      - injection F0 as F0; subst. rewrite app_nil_r. reflexivity.
      - destruct (add_decl dbg s0 d) as [s2|] eqn:E2; [|discriminate].
        assert (NI : ~ In (d_name d) (map fst (n_vars s0)))
          by (intro I; apply NoDup_remove_2 in ND0; apply ND0; apply in_or_app; left; exact I).
        unfold add_decl in E2. destruct (match d_dom d with None => Some make_none | Some [(l, u)] => make_bounded dbg l u | Some _ => None end)
          as [b|]; [|discriminate]. injection E2 as E2; subst s2. rewrite store_new in F0 by exact NI.
        apply IH in F0.
        + rewrite F0. unfold kinds. cbn [n_vars]. rewrite map_app, <- app_assoc. reflexivity.
        + cbn [n_vars]. rewrite map_app, <- app_assoc. exact ND0. }
    rewrite (G ds (mkNl [] [] []) s1 ND E). reflexivity. }
  clear E. revert s1 K1 H. induction cs as [|c cs IH]; intros s1 K1 H; cbn [fold_opt] in H; [injection H as H; subst; exact K1|].
  destruct (analyse dbg s1 c) as [s2|] eqn:E; [|discriminate]. apply (IH s2); [|exact H].
  rewrite (analyse_kinds _ _ _ _ E). exact K1.
Qed.

Lemma group_kind : forall s a b n, In n (group s a b) -> In (n, b) (kinds s).
Proof.
  intros s a b n H. unfold group in H. apply in_map_iff in H. destruct H as [[m v] [E I]]. cbn in E; subst.
  apply filter_In in I. destruct I as [I C]. apply andb_true_iff in C. destruct C as [_ C]. apply eqb_prop in C. cbn in C.
  unfold kinds. apply in_map_iff. exists (n, v). cbn. rewrite C. auto.
Qed.

Lemma integer_ok : forall s f i n, print s = Some f -> nth_error (vnames s) i = Some n -> In (n, integer_column f i) (kinds s).
Proof.
  intros s f i n P N. unfold print in P.
  destruct (map_opt (fun n => option_map v_bound (lookup n (n_vars s))) (vnames s)); [|discriminate].
  destruct (map_opt (out_alg s) _); [|discriminate]. destruct (map_opt (map_opt (out_token s)) (n_log s)); [|discriminate].
  injection P as P; subst f. unfold integer_column. cbn [f_nonlin f_nonlinint f_vars f_linint].
  pose proof (Permutation_length (vnames_perm s)) as LP. rewrite map_length in LP.
  assert (LI : (i < List.length (vnames s))%nat) by (apply nth_error_Some; congruence).
  rewrite LP. revert N LI. unfold vnames. rewrite !app_length.
  set (A := group s true false). set (B := group s true true). set (C := group s false false). set (D := group s false true).
  intros N LI.
  destruct (Nat.ltb i (List.length A)) eqn:E1; [apply Nat.ltb_lt in E1|apply Nat.ltb_ge in E1].
  { rewrite nth_error_app1 in N by exact E1. apply nth_error_In in N.
    replace (_ || _) with false; [exact (group_kind s true false n N)|]. symmetry. apply orb_false_iff. split.
    - apply andb_false_iff. left. apply Nat.leb_gt. lia.
    - apply Nat.leb_gt. lia. }
  rewrite nth_error_app2 in N by exact E1.
  destruct (Nat.ltb (i - List.length A) (List.length B)) eqn:E2; [apply Nat.ltb_lt in E2|apply Nat.ltb_ge in E2].
  { rewrite nth_error_app1 in N by exact E2. apply nth_error_In in N.
    replace (_ || _) with true; [exact (group_kind s true true n N)|]. symmetry. apply orb_true_iff. left.
    apply andb_true_iff. split; [apply Nat.leb_le|apply Nat.ltb_lt]; lia. }
  rewrite nth_error_app2 in N by exact E2.
  destruct (Nat.ltb (i - List.length A - List.length B) (List.length C)) eqn:E3; [apply Nat.ltb_lt in E3|apply Nat.ltb_ge in E3].
  { rewrite nth_error_app1 in N by exact E3. apply nth_error_In in N.
    replace (_ || _) with false; [exact (group_kind s false false n N)|]. symmetry. apply orb_false_iff. split.
    - apply andb_false_iff. right. apply Nat.ltb_ge. lia.
    - apply Nat.leb_gt. lia. }
  rewrite nth_error_app2 in N by exact E3. apply nth_error_In in N.
  replace (_ || _) with true; [exact (group_kind s false true n N)|]. symmetry. apply orb_true_iff. right. apply Nat.leb_le. lia.
Qed.
