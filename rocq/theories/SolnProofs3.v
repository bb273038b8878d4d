(** The filter for interactive solvers. *)
Require Import ZArith List Bool String Lia.
From Verif Require Import Base StrModel SolnModel SolnSpec SolnProofs SolnProofs2.
Import ListNotations.
Open Scope Z_scope.

(** *** the solution processor only appends to its output *)
Definition pre (x : list piece) (st : s2o) : s2o := with_out (x ++ s_out st) st.
Lemma pre_put : forall x ps st, pre x (put ps st) = put ps (pre x st).
Proof. intros. unfold pre, put, with_out. cbn. rewrite app_assoc. reflexivity. Qed.

Ltac pp := cbn [omap]; repeat (rewrite pre_put || (progress unfold put_both)); try reflexivity.
Lemma flush_pre : forall e p st, flush_statistics e (pre p st) = omap (pre p) (flush_statistics e st).
Proof.
  intros. unfold flush_statistics. cbn [pre s_stats with_out]. destruct (s_stats st); [reflexivity|]. destruct (e_stats e _); [|reflexivity].
  cbn [omap]. f_equal. unfold pre, put, with_out, with_stats. cbn. rewrite app_assoc. reflexivity.
Qed.
Lemma parse_pre : forall e p st, parse_assignments e (pre p st) = omap (pre p) (parse_assignments e st).
Proof. intros. unfold parse_assignments. cbn. destruct (e_parse e (s_solution st)); reflexivity. Qed.
Ltac sh := cbn [omap]; f_equal; unfold pre, put, put_noncanon, with_out, with_canon, with_nsolns, with_stats, with_solution; cbn; rewrite <- ?app_assoc; try reflexivity.
Lemma pre_noncanon : forall x ps st, pre x (put_noncanon ps st) = put_noncanon ps (pre x st).
Proof. reflexivity. Qed.
Lemma pre_nsolns : forall x v st, pre x (with_nsolns v st) = with_nsolns v (pre x st).
Proof. reflexivity. Qed.
Lemma pre_canon : forall x v st, pre x (with_canon v st) = with_canon v (pre x st).
Proof. reflexivity. Qed.
Lemma pre_status : forall x v st, pre x (with_status v st) = with_status v (pre x st).
Proof. reflexivity. Qed.
Lemma pre_printed : forall x v st, pre x (with_printed v st) = with_printed v (pre x st).
Proof. reflexivity. Qed.
Lemma pre_logged : forall x v st, pre x (logged v st) = logged v (pre x st).
Proof. reflexivity. Qed.
Lemma pre_checker : forall x (c : str) st, (match c with [] => pre x st | z :: r => put [PChecker (z :: r)] (pre x st) end) =
  pre x (match c with [] => st | z :: r => put [PChecker (z :: r)] st end).
Proof. intros x [|z r] st; [reflexivity|]. rewrite pre_put. reflexivity. Qed.
Lemma new_pre : forall o t c p st,
  let f st := let st := match c with [] => st | z :: r => put [PChecker (z :: r)] st end in
        let st := with_nsolns (s_nsolns st + 1) st in
        Going (if o_canon o then
                 if o_noncanon o then put_noncanon [PSol t] st else st
               else
                 let st := if negb (str_eqb (o_comma o) []) && (1 <? s_nsolns st) then put [PComma] st else st in
                 put [PSol t] st) in
  f (pre p st) = omap (pre p) (f st).
Proof.
  intros o t c p st. cbv beta zeta. rewrite pre_checker. generalize (match c with [] => st | z :: r => put [PChecker (z :: r)] st end).
  clear st. intros st. change (s_nsolns (pre p st)) with (s_nsolns st). rewrite <- pre_nsolns.
  generalize (with_nsolns (s_nsolns st + 1) st). clear st. intros st. change (s_nsolns (pre p st)) with (s_nsolns st). cbn [omap].
  f_equal. destruct (o_canon o).
  - destruct (o_noncanon o); [rewrite pre_noncanon|]; reflexivity.
  - rewrite pre_put. f_equal. destruct (negb _ && _); [rewrite pre_put|]; reflexivity.
Qed.
Lemma eval_pre : forall o e s p st, eval_output o e s (pre p st) = omap (pre p) (eval_output o e s st).
Proof.
  intros. unfold eval_output. destruct (e_output e s) as [t|]; [|reflexivity]. destruct (o_unique o || o_canon o).
  - change (s_canon (pre p st)) with (s_canon st). destruct (set_insert t (s_canon st)) as [c []]; cbv beta iota;
      rewrite <- pre_canon; [|reflexivity]. exact (new_pre o t (e_check e s) p _).
  - exact (new_pre o t (e_check e s) p st).
Qed.
Lemma status_pre : forall o s p st, eval_status o s (pre p st) = pre p (eval_status o s st).
Proof.
  intros. unfold eval_status. rewrite pre_printed, pre_put, pre_status. repeat f_equal. rewrite <- pre_logged.
  generalize (logged (EvStatus s) st). clear st. intros st. destruct (o_canon o); [|reflexivity]. rewrite pre_put. reflexivity.
Qed.
Lemma comment_pre : forall o e l p st, comment_line o e l (pre p st) = omap (pre p) (comment_line o e l st).
Proof.
  intros. unfold comment_line, put_both.
  destruct (str_eqb (firstn 13 l) (lit "%%%mzn-core: ")), (str_eqb (firstn 13 l) (lit "%%%mzn-stat: ")), (o_json o), (str_eqb l (lit "%%%mzn-stat-end")), (o_noncanon o); cbn [pre s_stats with_out];
    try (sh; fail); destruct (e_stats e (s_stats st)); try reflexivity; sh.
Qed.
Lemma line_pre : forall o e l p st, complete_line o e l (pre p st) = omap (pre p) (complete_line o e l st).
Proof.
  intros. unfold complete_line. cbn [s_ignore pre with_out].
  destruct (0 <? s_ignore st); [reflexivity|]. destruct (assoc (strip_cr l) input_map) as [s|].
  - change (with_out (p ++ s_out st) st) with (pre p st). rewrite flush_pre. destruct (flush_statistics e st) as [st1|st1]; cbn [omap obind]; [|reflexivity].
    rewrite parse_pre, !status_pre. change (s_solution (pre p st1)) with (s_solution st1).
    destruct s; try reflexivity. destruct (parse_assignments e st1); cbn [omap obind]; [apply eval_pre|reflexivity].
  - change (with_solution (s_solution (pre p st) ++ strip_cr l ++ [NL]) (pre p st))
      with (pre p (with_solution (s_solution st ++ strip_cr l ++ [NL]) st)).
    destruct (o_comments o); [|reflexivity]. destruct (first_nonspace (strip_cr l)) as [c|]; [|reflexivity].
    destruct (c =? 37); [|reflexivity]. exact (comment_pre o e (strip_cr l) p (with_solution (s_solution st ++ strip_cr l ++ [NL]) st)).
Qed.
Lemma feed_lines_pre : forall o e ls p st, feed_lines o e ls (pre p st) = omap (pre p) (feed_lines o e ls st).
Proof.
  induction ls as [|l ls IH]; intros p st; cbn [feed_lines]; [reflexivity|].
  change (with_part [] (pre p st)) with (pre p (with_part [] st)). rewrite line_pre. change (s_part (pre p st)) with (s_part st).
  destruct (complete_line o e (s_part st ++ l) (with_part [] st)) as [s|s]; cbn [omap obind]; [apply IH|reflexivity].
Qed.
Lemma feed_pre : forall o e d p st, feed o e d (pre p st) = omap (pre p) (feed o e d st).
Proof.
  intros. unfold feed. destruct (split_lines (cstr d)) as [ls r]. rewrite feed_lines_pre.
  destruct (feed_lines o e ls st) as [s|s]; cbn [omap obind]; [|reflexivity]. destruct (o_raw o); reflexivity.
Qed.

Lemma text_app : forall o a b, text o (a ++ b) = text o a ++ text o b.
Proof. intros. apply flat_map_app. Qed.
Lemma pre_self : forall st, pre (s_out st) (with_out [] st) = st.
Proof. intros []. unfold pre, with_out. cbn. rewrite app_nil_r. reflexivity. Qed.
Lemma same_put : forall o a b ps qs, same_text o a b -> text o ps = text o qs -> same_text o (put ps a) (put qs b).
Proof.
  intros o a b ps qs [A B] E. split; [|cbn [s_out put]; rewrite !text_app, B, E; reflexivity].
  destruct a, b; unfold with_out, put in *; cbn in *. injection A; intros; subst. reflexivity.
Qed.
Lemma same_feed : forall o e d a b, same_text o a b ->
  match feed o e d a, feed o e d b with
  | Going x, Going y | Thrown x, Thrown y => same_text o x y
  | _, _ => False
  end.
Proof.
  intros o e d a b [A B]. rewrite <- (pre_self a), <- (pre_self b), <- A, !feed_pre.
  destruct (feed o e d (with_out [] a)) as [s|s]; cbn [omap]; (split; [reflexivity|]); cbn [s_out pre with_out]; rewrite !text_app, B; reflexivity.
Qed.
Lemma same_sym : forall o a b, same_text o a b -> same_text o b a.
Proof. intros o a b [A B]. split; congruence. Qed.
Lemma same_tr : forall o a b c, same_text o a b -> same_text o b c -> same_text o a c.
Proof. intros o a b c [A B] [C D]. split; congruence. Qed.

(** *** a line with partial echo and without *)
Definition Rel (o : opts) (bm : str) (c st : inter) (part : str) : Prop :=
  i_part c = [] /\ i_echoed c = O /\ i_part st = part /\ i_in st = i_in c /\ (i_echoed st <= List.length part)%nat /\
  with_out [] (i_inner st) = with_out [] (i_inner c) /\
  text o (s_out (i_inner st)) = text o (s_out (i_inner c)) ++ firstn (i_echoed st) part /\
  (i_echoed st <> O -> i_in st = false /\ is_prefix (firstn (i_echoed st) part) bm = false).

Lemma is_prefix_spec : forall a b, is_prefix a b = true <-> exists r, b = a ++ r.
Proof.
  induction a as [|x a IH]; intros b; cbn.
  - split; [intros _; exists b; reflexivity|auto].
  - destruct b as [|y b]; [split; [discriminate|intros (r & H); discriminate]|].
    rewrite andb_true_iff, Z.eqb_eq, IH. split.
    + intros (-> & r & ->). exists r. reflexivity.
    + intros (r & [= -> ->]). split; [reflexivity|]. exists r. reflexivity.
Qed.
Lemma strip_is : forall l m, strip_cr l = m -> uncr l m.
Proof. intros l m <-. apply strip_cr_uncr. Qed.
Lemma uncr_fun : forall l a b, uncr l a -> uncr l b -> a = b.
Proof.
  intros l a b [E|[E N]] [F|[F M]].
  - rewrite E in F. apply app_inj_tail in F. tauto.
  - exfalso. apply (M a). exact E.
  - exfalso. apply (N b). exact F.
  - congruence.
Qed.
Lemma strip_iff : forall l m, str_eqb (strip_cr l) m = true <-> uncr l m.
Proof.
  intros. rewrite str_eqb_spec. split; [apply strip_is|]. intros H. eapply uncr_fun; [apply strip_cr_uncr|exact H].
Qed.

Definition ireset (st : inter) : inter := mkInt (i_inner st) [] 0 (i_in st).

Lemma step_line : forall o e bm em c st part l, Rel o bm c st part -> unambiguous bm (part ++ l) ->
  match process_line o e bm em (part ++ l) st, process_line o e bm em (part ++ l) c with
  | IGoing x, IGoing y => Rel o bm (ireset y) (ireset x) []
  | IThrown x, IThrown y => same_text o (i_inner x) (i_inner y)
  | _, _ => False
  end.
Proof.
  intros o e bm em c st part l (C1 & C2 & P & I & K & W & T & E) U. unfold process_line. rewrite C2, I. cbn [skipn].
  assert (forall x y : inter, same_text o (i_inner x) (i_inner y) -> i_in x = i_in y -> Rel o bm (ireset y) (ireset x) []) as R.
  { intros x y [A B] D. unfold Rel, ireset. cbn. rewrite app_nil_r. repeat split; auto; try lia; contradiction. }
  destruct (i_echoed st) as [|k] eqn:Ek.
  - cbn [skipn firstn] in *. rewrite app_nil_r in T. destruct (i_in c); cbn [negb].
    + destruct (str_eqb (strip_cr (part ++ l)) em); [apply R; [split; assumption|reflexivity]|].
      pose proof (same_feed o e ((part ++ l) ++ [NL]) (i_inner st) (i_inner c) (conj W T)) as F.
      destruct (feed o e ((part ++ l) ++ [NL]) (i_inner st)), (feed o e ((part ++ l) ++ [NL]) (i_inner c)); try contradiction; [apply R; [exact F|reflexivity]|exact F].
    + destruct (str_eqb (strip_cr (part ++ l)) bm); [apply R; [split; assumption|reflexivity]|].
      apply R; [|reflexivity]. cbn [i_inner]. apply same_put; [split; assumption|reflexivity].
  - destruct (E ltac:(discriminate)) as [E1 E2]. rewrite <- I, E1. cbn [negb].
    set (q := firstn (S k) part) in *.
    assert (part ++ l = q ++ skipn (S k) (part ++ l)) as Eq.
    { subst q. rewrite <- (firstn_skipn (S k) (part ++ l)) at 1. f_equal. rewrite firstn_app. replace (S k - List.length part)%nat with O by lia. cbn [firstn]. apply app_nil_r. }
    assert (q <> []) as Hq. { subst q. destruct part; cbn in *; [lia|discriminate]. }
    destruct (str_eqb (strip_cr (skipn (S k) (part ++ l))) bm) eqn:M1.
    { exfalso. apply strip_iff in M1 as [M|[M _]]; rewrite M in Eq; destruct (U q) as [U1 U2]; [apply U2; exact Eq|apply Hq, U1; exact Eq]. }
    destruct (str_eqb (strip_cr (part ++ l)) bm) eqn:M2.
    { exfalso. apply strip_iff in M2 as [M|[M _]]; [destruct (U []) as [_ U2]; apply U2; exact M|].
      assert (is_prefix q bm = true) as Y by (apply is_prefix_spec; eexists; rewrite <- M; exact Eq). congruence. }
    apply R; cbn [i_in i_inner]; [|congruence]. split.
    + unfold put, with_out in *. cbn in *. injection W; intros. f_equal; assumption.
    + cbn [s_out put]. rewrite !text_app, T. cbn [text flat_map render]. rewrite !app_nil_r.
      rewrite <- app_assoc. f_equal. rewrite Eq at 2. rewrite app_assoc. reflexivity.
Qed.

Lemma lines_rel : forall o e bm em ls c st, Rel o bm c st [] -> Forall (unambiguous bm) ls ->
  match ifeed_lines o e bm em ls st, ifeed_lines o e bm em ls c with
  | IGoing x, IGoing y => Rel o bm y x []
  | IThrown x, IThrown y => same_text o (i_inner x) (i_inner y)
  | _, _ => False
  end.
Proof.
  induction ls as [|l ls IH]; intros c st R F; cbn [ifeed_lines]; [exact R|].
  inversion F as [|? ? U F']; subst. pose proof (step_line o e bm em c st [] l R U) as S.
  destruct R as (C1 & C2 & P & _). rewrite C1, P. cbn [app] in *.
  destruct (process_line o e bm em l st), (process_line o e bm em l c); try contradiction; [|exact S].
  apply IH; assumption.
Qed.

(** a chunk *)
Lemma chunk_rel : forall o e bm em d c st part, Rel o bm c st part -> ~ In 10 part -> no_nul d ->
  Forall (unambiguous bm) (fst (split_lines (part ++ d))) ->
  match ifeed o e bm em d st, ifeed_lines o e bm em (fst (split_lines (part ++ d))) c with
  | IGoing x, IGoing y => Rel o bm y x (snd (split_lines (part ++ d)))
  | IThrown x, IThrown y => same_text o (i_inner x) (i_inner y)
  | _, _ => False
  end.
Proof.
  intros o e bm em d c st part R Hp Hd F. unfold ifeed. rewrite cstr_id by exact Hd.
  rewrite split_lines_app, (split_lines_rest part Hp) in *. destruct (split_lines d) as [ls rest] eqn:Ed.
  assert (forall y x part', Rel o bm y x part' ->
     match (let part := i_part x ++ rest in let remainder := skipn (i_echoed x) part in
       if negb (i_in x) && negb (str_eqb remainder []) && negb (is_prefix remainder bm)
       then IGoing (mkInt (put [PText remainder] (i_inner x)) part (List.length part) (i_in x))
       else IGoing (mkInt (i_inner x) part (i_echoed x) (i_in x))) with
     | IGoing x' => Rel o bm y x' (part' ++ rest) | IThrown _ => False end) as Q.
  { intros y x part' (C1 & C2 & P & I & K & W & T & E). cbn zeta. rewrite P.
    assert (firstn (i_echoed x) (part' ++ rest) = firstn (i_echoed x) part') as Ef.
    { rewrite firstn_app. replace (i_echoed x - List.length part')%nat with O by lia. cbn [firstn]. apply app_nil_r. }
    destruct (negb (i_in x) && _ && _) eqn:Ec.
    - apply andb_true_iff in Ec as [Ec Ec3]. apply andb_true_iff in Ec as [Ec1 Ec2]. apply negb_true_iff in Ec1, Ec2, Ec3.
      unfold Rel. cbn [i_part i_echoed i_inner i_in]. repeat split; auto; try lia.
      + cbn [s_out put]. rewrite text_app, T, <- app_assoc. f_equal. cbn [text flat_map render]. rewrite app_nil_r.
        rewrite firstn_all, <- Ef. apply firstn_skipn.
      + rewrite firstn_all. destruct (i_echoed x) as [|k] eqn:Ek; [exact Ec3|].
        destruct (E ltac:(discriminate)) as [_ E2]. destruct (is_prefix (part' ++ rest) bm) eqn:Y; [|reflexivity].
        apply is_prefix_spec in Y as (r & Y). assert (is_prefix (firstn (S k) part') bm = true) as Z; [|congruence].
        apply is_prefix_spec. exists (skipn (S k) (part' ++ rest) ++ r). rewrite app_assoc, <- Ef, firstn_skipn. exact Y.
    - unfold Rel. cbn [i_part i_echoed i_inner i_in]. rewrite Ef. repeat split; auto; [rewrite app_length; lia|apply E; assumption|apply E; assumption]. }
  destruct ls as [|l ls]; cbn [fst snd] in *.
  - cbn [ifeed_lines]. specialize (Q _ _ _ R). cbn zeta in Q. cbn zeta.
    match goal with |- context [if ?b then _ else _] => destruct b end; exact Q.
  - cbn [ifeed_lines app]. inversion F as [|? ? U F']; subst. pose proof (step_line o e bm em c st part l R U) as S.
    destruct R as (C1 & C2 & P & _). rewrite C1, P. cbn [app].
    destruct (process_line o e bm em (part ++ l) st) as [x|x], (process_line o e bm em (part ++ l) c) as [y|y]; try contradiction; [|exact S].
    pose proof (lines_rel o e bm em ls _ _ S F') as L. fold (ireset x). fold (ireset y).
    destruct (ifeed_lines o e bm em ls (ireset x)) as [x'|x'], (ifeed_lines o e bm em ls (ireset y)) as [y'|y']; try contradiction; [|exact L].
    specialize (Q _ _ _ L). cbn zeta in Q. cbn zeta.
    match goal with |- context [if ?b then _ else _] => destruct b end; exact Q.
Qed.

Lemma ifeed_lines_app : forall o e bm em a b st, i_part st = [] -> i_echoed st = O ->
  ifeed_lines o e bm em (a ++ b) st = match ifeed_lines o e bm em a st with IGoing s => ifeed_lines o e bm em b s | IThrown s => IThrown s end.
Proof.
  induction a as [|l a IH]; intros b st Hp He; cbn [ifeed_lines app]; [reflexivity|].
  destruct (process_line o e bm em (i_part st ++ l) st); [|reflexivity]. apply IH; reflexivity.
Qed.

Lemma split_rest_line : forall d, ~ In 10 (snd (split_lines d)).
Proof.
  induction d as [|c d IH]; cbn; [auto|]. destruct (split_lines d) as [ls r]. cbn in IH.
  destruct (Z.eqb_spec c NL); [exact IH|]. destruct ls; cbn; [|exact IH]. intros [->|K]; [apply n; reflexivity|auto].
Qed.

Lemma split_two : forall a b la ra, split_lines a = (la, ra) -> ~ In 10 ra ->
  fst (split_lines (a ++ b)) = la ++ fst (split_lines (ra ++ b)) /\ snd (split_lines (a ++ b)) = snd (split_lines (ra ++ b)).
Proof.
  intros a b la ra E H. rewrite !split_lines_app, E, (split_lines_rest ra H).
  destruct (split_lines b) as [[|l lb] rb]; cbn; rewrite ?app_nil_r; auto.
Qed.

Lemma chunks_rel : forall o e bm em cs c st part, Rel o bm c st part -> ~ In 10 part -> no_nul (List.concat cs) ->
  Forall (unambiguous bm) (fst (split_lines (part ++ List.concat cs))) ->
  match ifeed_all o e bm em cs st, ifeed_lines o e bm em (fst (split_lines (part ++ List.concat cs))) c with
  | IGoing x, IGoing y => Rel o bm y x (snd (split_lines (part ++ List.concat cs)))
  | IThrown x, IThrown y => same_text o (i_inner x) (i_inner y)
  | _, _ => False
  end.
Proof.
  induction cs as [|d cs IH]; intros c st part R Hp Hn F; cbn [ifeed_all List.concat] in *.
  - rewrite app_nil_r, split_lines_rest by exact Hp. cbn. exact R.
  - apply no_nul_app in Hn as [Hd Hn]. rewrite app_assoc in *.
    pose proof (chunk_rel o e bm em d c st part R Hp Hd) as S. pose proof (split_rest_line (part ++ d)) as Hr.
    destruct (split_lines (part ++ d)) as [la ra] eqn:Ea. cbn [fst snd] in *.
    destruct (split_two (part ++ d) (List.concat cs) la ra Ea Hr) as [E1 E2].
    rewrite E1 in F. rewrite E1, E2. apply Forall_app in F as [F1 F2]. specialize (S F1).
    rewrite ifeed_lines_app by apply R.
    destruct (ifeed o e bm em d st) as [x|x], (ifeed_lines o e bm em la c) as [y|y]; try contradiction; [|exact S].
    apply IH; assumption.
Qed.

(** *** whole runs *)
Lemma terminated_no_nul : forall ls, Forall is_line ls -> no_nul (terminated ls).
Proof.
  intros ls F. induction F as [|l ls [_ H] F IH]; cbn; [intros []|].
  apply no_nul_app. split; [|exact IH]. apply no_nul_app. split; [exact H|]. intros [K|[]]. discriminate.
Qed.
Lemma rel_init : forall o bm, Rel o bm (inter_init o) (inter_init o) [].
Proof. intros. unfold Rel. cbn. repeat split; auto; contradiction. Qed.

Lemma run_rel : forall o e bm em cs ls, List.concat cs = terminated ls -> Forall is_line ls -> Forall (unambiguous bm) ls ->
  match ifeed_all o e bm em cs (inter_init o), ifeed_lines o e bm em ls (inter_init o) with
  | IGoing x, IGoing y => same_text o (i_inner x) (i_inner y) /\ i_in x = i_in y
  | IThrown x, IThrown y => same_text o (i_inner x) (i_inner y)
  | _, _ => False
  end.
Proof.
  intros o e bm em cs ls Ec Fl U.
  pose proof (split_lines_terminated ls [] Fl (fun x => x)) as Es. rewrite app_nil_r in Es.
  pose proof (chunks_rel o e bm em cs (inter_init o) (inter_init o) [] (rel_init o bm) (fun x => x)) as R.
  cbn [app] in R. rewrite Ec, Es in R. cbn [fst snd] in R. specialize (R (terminated_no_nul _ Fl) U).
  destruct (ifeed_all o e bm em cs (inter_init o)), (ifeed_lines o e bm em ls (inter_init o)); try contradiction; [|exact R].
  destruct R as (C1 & C2 & P & I & K & W & T & E). cbn in K. assert (i_echoed st = O) as Z by lia. rewrite Z in T. cbn in T. rewrite app_nil_r in T.
  split; [split|]; assumption.
Qed.

Lemma chunking_irrelevant : forall o e bm em cs ds ls, List.concat cs = terminated ls -> List.concat ds = terminated ls ->
  Forall is_line ls -> Forall (unambiguous bm) ls ->
  same_run o (ifeed_all o e bm em cs (inter_init o)) (ifeed_all o e bm em ds (inter_init o)).
Proof.
  intros o e bm em cs ds ls Ec Ed Fl U. pose proof (run_rel o e bm em cs ls Ec Fl U) as A. pose proof (run_rel o e bm em ds ls Ed Fl U) as B.
  destruct (ifeed_all o e bm em cs (inter_init o)), (ifeed_all o e bm em ds (inter_init o)), (ifeed_lines o e bm em ls (inter_init o)); try contradiction; cbn.
  - destruct A, B. split; [eapply same_tr; [eassumption|apply same_sym; assumption]|congruence].
  - eapply same_tr; [eassumption|apply same_sym; assumption].
Qed.

Lemma lines_play : forall o e bm em ls st st', i_part st = [] -> i_echoed st = O -> ifeed_lines o e bm em ls st = IGoing st' ->
  plays o e bm em (i_in st) ls (i_inner st) (i_inner st') (i_in st').
Proof.
  induction ls as [|l ls IH]; intros st st' Hp He H; cbn [ifeed_lines] in H; [injection H as <-; constructor|].
  rewrite Hp in H. cbn [app] in H. unfold process_line in H. rewrite He in H. cbn [skipn] in H.
  destruct (i_in st); cbn [negb] in H.
  - destruct (str_eqb (strip_cr l) em) eqn:M.
    + apply plays_close; [apply strip_iff; exact M|]. apply IH in H; [exact H|reflexivity|reflexivity].
    + assert (~ uncr l em) as N by (rewrite <- strip_iff, M; discriminate).
      destruct (feed o e (l ++ [NL]) (i_inner st)) as [s1|s1] eqn:Ef; [|discriminate].
      eapply plays_pass; [exact N|exact Ef|]. apply IH in H; [exact H|reflexivity|reflexivity].
  - destruct (str_eqb (strip_cr l) bm) eqn:M.
    + apply plays_begin; [apply strip_iff; exact M|]. apply IH in H; [exact H|reflexivity|reflexivity].
    + assert (~ uncr l bm) as N by (rewrite <- strip_iff, M; discriminate).
      apply plays_show; [exact N|]. apply IH in H; [exact H|reflexivity|reflexivity].
Qed.

Lemma run_plays : forall o e bm em cs ls st, List.concat cs = terminated ls -> Forall is_line ls -> Forall (unambiguous bm) ls ->
  ifeed_all o e bm em cs (inter_init o) = IGoing st ->
  exists s, plays o e bm em false ls (s2o_init o) s (i_in st) /\ same_text o (i_inner st) s.
Proof.
  intros o e bm em cs ls st Ec Fl U H. pose proof (run_rel o e bm em cs ls Ec Fl U) as R. rewrite H in R.
  destruct (ifeed_lines o e bm em ls (inter_init o)) as [y|y] eqn:E; [|contradiction]. destruct R as [R I].
  exists (i_inner y). split; [|exact R]. rewrite I. apply (lines_play o e bm em ls (inter_init o) y eq_refl eq_refl E).
Qed.
