(** Proofs about the processing of a solver's output stream. *)
Require Import ZArith List Bool String Lia Sorted.
From Verif Require Import Base StrModel SolnModel SolnSpec.
Import ListNotations.
Open Scope Z_scope.

(** *** strings *)
Lemma str_eqb_spec : forall a b, str_eqb a b = true <-> a = b.
Proof.
  induction a as [|x a IH]; destruct b as [|y b]; cbn; try (split; congruence).
  rewrite andb_true_iff, Z.eqb_eq, IH. split; [intros [-> ->]; reflexivity|intros [= -> ->]; auto].
Qed.
Lemma str_eqb_neq : forall a b, str_eqb a b = false <-> a <> b.
Proof. intros. rewrite <- (str_eqb_spec a b). destruct (str_eqb a b); split; congruence. Qed.

Lemma cstr_id : forall d, no_nul d -> cstr d = d.
Proof.
  induction d as [|c d IH]; intros H; cbn; [reflexivity|].
  destruct (Z.eqb_spec c 0) as [->|N]; [exfalso; apply H; left; reflexivity|].
  rewrite IH; [reflexivity|]. intro. apply H. right. assumption.
Qed.

Lemma split_lines_app : forall a b, split_lines (a ++ b) =
  let '(la, ra) := split_lines a in let '(lb, rb) := split_lines b in
  match lb with [] => (la, ra ++ rb) | l :: lb' => (la ++ (ra ++ l) :: lb', rb) end.
Proof.
  induction a as [|c a IH]; intros b; cbn.
  - destruct (split_lines b) as [[|l lb] rb]; reflexivity.
  - rewrite IH. destruct (split_lines a) as [la ra]. destruct (split_lines b) as [lb rb].
    destruct (c =? NL).
    + destruct lb; reflexivity.
    + destruct lb as [|l lb]; destruct la as [|l0 la]; reflexivity.
Qed.

Lemma split_lines_line : forall l, ~ In 10 l -> split_lines (l ++ [10]) = ([l], []).
Proof.
  induction l as [|c l IH]; intros H; cbn; [reflexivity|].
  rewrite IH by (intro; apply H; right; assumption).
  destruct (Z.eqb_spec c NL) as [E|N]; [exfalso; apply H; left; exact E|reflexivity].
Qed.
Lemma split_lines_rest : forall l, ~ In 10 l -> split_lines l = ([], l).
Proof.
  induction l as [|c l IH]; intros H; cbn; [reflexivity|].
  rewrite IH by (intro; apply H; right; assumption).
  destruct (Z.eqb_spec c NL) as [E|N]; [exfalso; apply H; left; exact E|reflexivity].
Qed.
Lemma split_lines_terminated : forall ls r, Forall is_line ls -> ~ In 10 r -> split_lines (terminated ls ++ r) = (ls, r).
Proof.
  induction ls as [|l ls IH]; intros r F Hr; cbn.
  - apply split_lines_rest. exact Hr.
  - inversion F as [|? ? [L _] F']; subst. rewrite <- app_assoc, split_lines_app, split_lines_line by exact L.
    change (flat_map (fun l0 => l0 ++ [10]) ls) with (terminated ls). rewrite IH by assumption.
    destruct ls as [|l' ls]; cbn; [reflexivity|reflexivity].
Qed.

(** *** the line processor does not look at the raw copy nor at the unfinished line *)
Definition omap (f : s2o -> s2o) (r : outcome) : outcome := match r with Going st => Going (f st) | Thrown st => Thrown (f st) end.

Ltac dm := repeat match goal with
  | |- context [match ?x with _ => _ end] => lazymatch x with context [match _ with _ => _ end] => fail | _ => destruct x end
  end.

Lemma flush_part : forall e p st, flush_statistics e (with_part p st) = omap (with_part p) (flush_statistics e st).
Proof. intros. unfold flush_statistics. cbn. dm; reflexivity. Qed.
Lemma flush_raw : forall e p st, flush_statistics e (put_raw p st) = omap (put_raw p) (flush_statistics e st).
Proof. intros. unfold flush_statistics. cbn. dm; reflexivity. Qed.
Lemma parse_part : forall e p st, parse_assignments e (with_part p st) = omap (with_part p) (parse_assignments e st).
Proof. intros. unfold parse_assignments. cbn. dm; reflexivity. Qed.
Lemma parse_raw : forall e p st, parse_assignments e (put_raw p st) = omap (put_raw p) (parse_assignments e st).
Proof. intros. unfold parse_assignments. cbn. dm; reflexivity. Qed.
Lemma eval_part : forall o e s p st, eval_output o e s (with_part p st) = omap (with_part p) (eval_output o e s st).
Proof. intros. unfold eval_output. cbn. destruct (e_output e s); [|reflexivity]. destruct (o_unique o || o_canon o); cbn;
  [destruct (set_insert s0 (s_canon st)) as [c []]|]; cbn; try reflexivity; destruct (e_check e s); cbn; dm; reflexivity. Qed.
Lemma eval_raw : forall o e s p st, eval_output o e s (put_raw p st) = omap (put_raw p) (eval_output o e s st).
Proof. intros. unfold eval_output. cbn. destruct (e_output e s); [|reflexivity]. destruct (o_unique o || o_canon o); cbn;
  [destruct (set_insert s0 (s_canon st)) as [c []]|]; cbn; try reflexivity; destruct (e_check e s); cbn; dm; reflexivity. Qed.
Lemma status_part : forall o s p st, eval_status o s (with_part p st) = with_part p (eval_status o s st).
Proof. intros. unfold eval_status. cbn. dm; reflexivity. Qed.
Lemma status_raw : forall o s p st, eval_status o s (put_raw p st) = put_raw p (eval_status o s st).
Proof. intros. unfold eval_status. cbn. dm; reflexivity. Qed.
Lemma comment_part : forall o e l p st, comment_line o e l (with_part p st) = omap (with_part p) (comment_line o e l st).
Proof. intros. unfold comment_line, put_both. destruct (str_eqb (firstn 13 l) (lit "%%%mzn-core: ")), (str_eqb (firstn 13 l) (lit "%%%mzn-stat: ")), (o_json o), (str_eqb l (lit "%%%mzn-stat-end")), (o_noncanon o); cbn; try reflexivity; destruct (e_stats e (s_stats st)); reflexivity. Qed.
Lemma comment_raw : forall o e l p st, comment_line o e l (put_raw p st) = omap (put_raw p) (comment_line o e l st).
Proof. intros. unfold comment_line, put_both. destruct (str_eqb (firstn 13 l) (lit "%%%mzn-core: ")), (str_eqb (firstn 13 l) (lit "%%%mzn-stat: ")), (o_json o), (str_eqb l (lit "%%%mzn-stat-end")), (o_noncanon o); cbn; try reflexivity; destruct (e_stats e (s_stats st)); reflexivity. Qed.

Lemma line_part : forall o e l p st, complete_line o e l (with_part p st) = omap (with_part p) (complete_line o e l st).
Proof.
  intros. unfold complete_line. cbn [s_ignore with_part].
  destruct (0 <? s_ignore st); [reflexivity|]. destruct (assoc (strip_cr l) input_map) as [s|].
  - rewrite flush_part. destruct (flush_statistics e st) as [st1|st1]; cbn; [|reflexivity].
    rewrite parse_part, !status_part.
    destruct s; try reflexivity. destruct (parse_assignments e st1); cbn; [apply eval_part|reflexivity].
  - change (with_solution (s_solution (with_part p st) ++ strip_cr l ++ [NL]) (with_part p st))
      with (with_part p (with_solution (s_solution st ++ strip_cr l ++ [NL]) st)).
    destruct (o_comments o); [|reflexivity]. destruct (first_nonspace (strip_cr l)) as [c|]; [|reflexivity].
    destruct (c =? 37); [|reflexivity]. apply comment_part.
Qed.
Lemma line_raw : forall o e l p st, complete_line o e l (put_raw p st) = omap (put_raw p) (complete_line o e l st).
Proof.
  intros. unfold complete_line. cbn [s_ignore put_raw].
  destruct (0 <? s_ignore st); [reflexivity|]. destruct (assoc (strip_cr l) input_map) as [s|].
  - rewrite flush_raw. destruct (flush_statistics e st) as [st1|st1]; cbn; [|reflexivity].
    rewrite parse_raw, !status_raw.
    destruct s; try reflexivity. destruct (parse_assignments e st1); cbn; [apply eval_raw|reflexivity].
  - change (with_solution (s_solution (put_raw p st) ++ strip_cr l ++ [NL]) (put_raw p st))
      with (put_raw p (with_solution (s_solution st ++ strip_cr l ++ [NL]) st)).
    destruct (o_comments o); [|reflexivity]. destruct (first_nonspace (strip_cr l)) as [c|]; [|reflexivity].
    destruct (c =? 37); [|reflexivity]. apply comment_raw.
Qed.

Definition ost (r : outcome) : s2o := match r with Going s | Thrown s => s end.
Lemma wp_self : forall st, with_part (s_part st) st = st.
Proof. destruct st; reflexivity. Qed.
Lemma wp_wp : forall p q st, with_part p (with_part q st) = with_part p st.
Proof. reflexivity. Qed.
Lemma wp_raw : forall p q st, with_part p (put_raw q st) = put_raw q (with_part p st).
Proof. reflexivity. Qed.
Lemma raw_raw : forall p q st, put_raw p (put_raw q st) = put_raw (q ++ p) st.
Proof. intros. unfold put_raw. cbn. rewrite <- app_assoc. reflexivity. Qed.
Lemma raw_nil : forall st, put_raw [] st = st.
Proof. intros []; unfold put_raw; cbn. rewrite app_nil_r. reflexivity. Qed.

Lemma line_keeps_part : forall o e l st, s_part (ost (complete_line o e l st)) = s_part st.
Proof.
  intros. rewrite <- (wp_self st) at 1. rewrite line_part. destruct (complete_line o e l st); reflexivity.
Qed.
Lemma feed_lines_raw : forall o e ls p st, feed_lines o e ls (put_raw p st) = omap (put_raw p) (feed_lines o e ls st).
Proof.
  induction ls as [|l ls IH]; intros p st; cbn [feed_lines]; [reflexivity|].
  rewrite wp_raw, line_raw. cbn [s_part put_raw].
  destruct (complete_line o e (s_part st ++ l) (with_part [] st)) as [s|s]; cbn [omap obind]; [apply IH|reflexivity].
Qed.
Lemma feed_lines_app : forall o e a b st, feed_lines o e (a ++ b) st = obind (feed_lines o e a st) (feed_lines o e b).
Proof.
  induction a as [|l a IH]; intros b st; cbn [feed_lines app obind]; [reflexivity|].
  destruct (complete_line o e (s_part st ++ l) (with_part [] st)); cbn [obind]; [apply IH|reflexivity].
Qed.

(** feeding one chunk: the copy of the raw stream comes last *)
Lemma feed_eq : forall o e d st, no_nul d -> feed o e d st =
  let '(ls, rest) := split_lines d in
  obind (feed_lines o e ls st) (fun s => Going (put_raw (if o_raw o then d else []) (with_part (s_part s ++ rest) s))).
Proof.
  intros. unfold feed. rewrite cstr_id by assumption. destruct (split_lines d) as [ls rest].
  destruct (feed_lines o e ls st); cbn [obind]; [|reflexivity]. destruct (o_raw o); [|rewrite raw_nil]; reflexivity.
Qed.

Lemma same_refl : forall r, same_result r r.
Proof. destruct r; reflexivity. Qed.
Lemma same_trans : forall a b c, same_result a b -> same_result b c -> same_result a c.
Proof. intros [] [] []; cbn; intros; try contradiction; congruence. Qed.

Lemma feed_app : forall o e a b st, no_nul a -> no_nul b ->
  same_result (obind (feed o e a st) (feed o e b)) (feed o e (a ++ b) st).
Proof.
  intros o e a b st Ha Hb.
  assert (no_nul (a ++ b)) as Hab by (unfold no_nul in *; rewrite in_app_iff; tauto).
  rewrite (feed_eq o e a st Ha), (feed_eq o e (a ++ b) st Hab), split_lines_app.
  destruct (split_lines a) as [la ra].
  destruct (split_lines b) as [lb rb] eqn:Eb.
  set (ka := if o_raw o then a else []). set (kb := if o_raw o then b else []).
  assert ((if o_raw o then a ++ b else []) = ka ++ kb) as -> by (subst ka kb; destruct (o_raw o); reflexivity).
  destruct lb as [|l lb].
  - destruct (feed_lines o e la st) as [s1|s1]; cbn [obind]; [|reflexivity].
    rewrite (feed_eq o e b _ Hb), Eb. cbn [feed_lines obind same_result]. fold kb.
    rewrite <- raw_raw. cbn [s_part put_raw with_part]. rewrite <- app_assoc. reflexivity.
  - rewrite feed_lines_app. destruct (feed_lines o e la st) as [s1|s1]; cbn [obind]; [|reflexivity].
    rewrite (feed_eq o e b _ Hb), Eb. fold kb. cbn [feed_lines s_part put_raw with_part].
    rewrite wp_raw, wp_wp, line_raw, <- app_assoc.
    destruct (complete_line o e (s_part s1 ++ ra ++ l) (with_part [] s1)) as [s2|s2]; cbn [omap obind]; [|reflexivity].
    rewrite feed_lines_raw. destruct (feed_lines o e lb s2) as [s3|s3]; cbn [omap obind]; [|reflexivity].
    cbn [same_result]. rewrite <- raw_raw. reflexivity.
Qed.

Lemma no_nul_app : forall a b, no_nul (a ++ b) <-> no_nul a /\ no_nul b.
Proof. intros. unfold no_nul. rewrite in_app_iff. tauto. Qed.
Lemma no_nul_concat : forall cs, no_nul (List.concat cs) -> Forall no_nul cs.
Proof. induction cs; cbn; intros H; [constructor|]. apply no_nul_app in H. constructor; [apply H|apply IHcs, H]. Qed.

Lemma feed_all_concat : forall o e cs st, no_nul (List.concat cs) ->
  same_result (feed_all o e cs st) (feed o e (List.concat cs) st).
Proof.
  induction cs as [|c cs IH]; intros st H.
  - rewrite feed_eq by exact H. cbn. destruct st; unfold put_raw, with_part; cbn. rewrite app_nil_r.
    destruct (o_raw o); rewrite app_nil_r; reflexivity.
  - cbn [feed_all List.concat] in *. apply no_nul_app in H as [Hc Hcs].
    eapply same_trans; [|apply feed_app; assumption].
    destruct (feed o e c st) as [s|s]; cbn [obind]; [apply IH; exact Hcs|reflexivity].
Qed.
