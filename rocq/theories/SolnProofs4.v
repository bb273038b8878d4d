(** Unsatisfiable cores. *)
Require Import ZArith List Bool String Lia.
From Verif Require Import Base StrModel SolnModel SolnSpec SolnProofs SolnProofs2.
Import ListNotations.
Open Scope Z_scope.

Lemma ident_start_spec : forall c, is_ident_start c = true <-> ident_first c.
Proof. intros. unfold is_ident_start, ident_first. rewrite !orb_true_iff, !andb_true_iff, !Z.leb_le, Z.eqb_eq. lia. Qed.
Lemma ident_char_spec : forall c, is_ident_char c = true <-> ident_other c.
Proof. intros. unfold is_ident_char, ident_other. rewrite orb_true_iff, ident_start_spec, andb_true_iff, !Z.leb_le. tauto. Qed.

Lemma ident_end_spec : forall s, Forall ident_other (firstn (ident_end s) s) /\ (forall c r, skipn (ident_end s) s = c :: r -> ~ ident_other c)
  /\ (ident_end s <= List.length s)%nat.
Proof.
  induction s as [|c s IH]; cbn; [split; [constructor|split; [discriminate|lia]]|].
  destruct (is_ident_char c) eqn:E; cbn.
  - destruct IH as (A & B & C). split; [constructor; [apply ident_char_spec; exact E|exact A]|]. split; [exact B|lia].
  - split; [constructor|]. split; [|lia]. intros d r [= -> ->]. rewrite <- ident_char_spec, E. discriminate.
Qed.

Lemma resolve_token_spec : forall m t, t <> [] -> resolves m t (resolve_token m t).
Proof.
  intros m [|c r] H; [contradiction|]. unfold resolve_token. destruct (is_ident_start c) eqn:E.
  - destruct (ident_end_spec r) as (A & B & C).
    assert (leading (c :: r) (firstn (S (ident_end r)) (c :: r)) (skipn (S (ident_end r)) (c :: r))) as L.
    { split; [symmetry; apply firstn_skipn|]. split; [exists c, (firstn (ident_end r) r); split; [reflexivity|split; [apply ident_start_spec; exact E|exact A]]|exact B]. }
    destruct (assoc (firstn (S (ident_end r)) (c :: r)) m) as [v|] eqn:Ea.
    + destruct (Nat.eqb_spec (S (ident_end r)) (List.length (c :: r))) as [El|Nl].
      * rewrite El, firstn_all in Ea. rewrite El, firstn_all, skipn_all in L. apply res_name; assumption.
      * apply res_comparison with (i := firstn (S (ident_end r)) (c :: r)); [exact L| |exact Ea].
        intros K. apply (f_equal (@List.length Z)) in K. rewrite skipn_length in K. cbn in *. lia.
    + eapply res_unknown; eassumption.
  - apply res_other. intros i r' (Eq & (c' & r2 & -> & F & _) & _). injection Eq as <- _. apply ident_start_spec in F. congruence.
Qed.

Lemma drop_ws_hd : forall s, (forall c r, s = c :: r -> is_ws c = false) -> drop_ws s = s.
Proof. intros [|c r] H; cbn; [reflexivity|]. rewrite (H c r eq_refl). reflexivity. Qed.
Lemma drop_ws_app : forall w s, Forall (fun c => is_ws c = true) w -> (forall c r, s = c :: r -> is_ws c = false) -> drop_ws (w ++ s) = s.
Proof. induction 1 as [|c w H F IH]; intros K; cbn; [apply drop_ws_hd; exact K|]. rewrite H. apply IH; assumption. Qed.
Lemma trim_spec : forall w s v, Forall (fun c => is_ws c = true) w -> Forall (fun c => is_ws c = true) v ->
  (forall c r, (s = c :: r \/ s = r ++ [c]) -> is_ws c = false) -> s <> [] -> trim (w ++ s ++ v) = s.
Proof.
  intros w s v Fw Fv H N. unfold trim. rewrite drop_ws_app; [|exact Fw|].
  - rewrite rev_app_distr, drop_ws_app; [apply rev_involutive|apply Forall_rev; exact Fv|].
    intros c r E. apply (H c (rev r)). right. rewrite <- (rev_involutive s), E. reflexivity.
  - intros c r E. destruct s as [|d s]; [contradiction|]. cbn in E. injection E as <- _. apply (H d s). left. reflexivity.
Qed.

Lemma entry_ws : forall e, entry e -> forall c r, (e = c :: r \/ e = r ++ [c]) -> is_ws c = false.
Proof.
  intros e (N & _ & (L & _) & H) c r K. specialize (H c r K).
  assert (c <> 10). { intros ->. apply L. destruct K as [->| ->]; [left; reflexivity|apply in_or_app; right; left; reflexivity]. }
  unfold is_ws. rewrite !orb_false_iff, !Z.eqb_neq. tauto.
Qed.
Lemma trim_entry : forall e, entry e -> trim e = e.
Proof.
  intros e H. pose proof (trim_spec [] e []) as T. rewrite app_nil_r in T. apply T; [constructor|constructor|apply entry_ws; exact H|apply H].
Qed.
Lemma trim_blank_entry : forall e, entry e -> trim (32 :: e) = e.
Proof.
  intros e H. pose proof (trim_spec [32] e []) as T. rewrite app_nil_r in T. apply T; [repeat constructor|constructor|apply entry_ws; exact H|apply H].
Qed.

Lemma split_on_free : forall c s, ~ In c s -> split_on c s = [s].
Proof.
  induction s as [|x s IH]; intros H; cbn; [reflexivity|].
  destruct (Z.eqb_spec x c) as [->|N]; [exfalso; apply H; left; reflexivity|]. rewrite IH by (intro; apply H; right; assumption). reflexivity.
Qed.
Lemma split_on_app : forall c s t, ~ In c s -> split_on c (s ++ c :: t) = s :: split_on c t.
Proof.
  induction s as [|x s IH]; intros t H; cbn; [rewrite Z.eqb_refl; reflexivity|].
  destruct (Z.eqb_spec x c) as [->|N]; [exfalso; apply H; left; reflexivity|]. rewrite IH by (intro; apply H; right; assumption). reflexivity.
Qed.

Definition item (m : list (str * str)) (t : str) : list str := match trim t with [] => [] | t' => [resolve_token m t'] end.
Lemma item_entry : forall m e, entry e -> item m e = [resolve_token m e] /\ item m (32 :: e) = [resolve_token m e].
Proof.
  intros m e H. unfold item. rewrite trim_entry, trim_blank_entry by exact H. destruct H as [N _]. destruct e; [contradiction|auto].
Qed.
Lemma split_core : forall m es, Forall entry es -> es <> [] ->
  flat_map (item m) (split_on 44 (32 :: join (lit ", ") es)) = List.map (resolve_token m) es /\
  flat_map (item m) (split_on 44 (join (lit ", ") es)) = List.map (resolve_token m) es.
Proof.
  induction es as [|e es IH]; intros F N; [contradiction|]. inversion F as [|? ? He F']; subst.
  destruct (item_entry m e He) as [I1 I2]. assert (~ In 44 e) as H44 by apply He. assert (~ In 44 (32 :: e)) as H44' by (intros [K|K]; [discriminate|auto]).
  destruct es as [|e2 es].
  - cbn [join List.map]. rewrite !split_on_free by assumption. cbn [flat_map]. rewrite I1, I2. auto.
  - destruct (IH F' ltac:(discriminate)) as [A _]. change (join (lit ", ") (e :: e2 :: es)) with (e ++ 44 :: 32 :: join (lit ", ") (e2 :: es)).
    rewrite app_comm_cons. rewrite (split_on_app 44 (32 :: e)), (split_on_app 44 e) by assumption. cbn [flat_map]. rewrite I1, I2, A. auto.
Qed.

Lemma resolve_core_list : forall m w v es, Forall (fun c => is_ws c = true) w -> Forall (fun c => is_ws c = true) v -> Forall entry es ->
  resolve_core m (w ++ (lit "[" ++ join (lit ", ") es ++ lit "]") ++ v) = List.map (resolve_token m) es.
Proof.
  intros m w v es Fw Fv Fe. unfold resolve_core.
  set (j := join (lit ", ") es).
  rewrite trim_spec; [|exact Fw|exact Fv| |discriminate].
  - change (lit "[" ++ j ++ lit "]") with (91 :: (j ++ [93])).
    cbv iota beta zeta. rewrite Z.eqb_refl. replace (last (91 :: j ++ [93]) 0) with 93 by (rewrite app_comm_cons, last_last; reflexivity).
    cbn [Z.eqb andb Pos.eqb]. cbn [skipn List.length]. rewrite app_length. cbn [List.length].
    replace (S (List.length j + 1) - 2)%nat with (List.length j) by lia. rewrite firstn_app, firstn_all, Nat.sub_diag. cbn [firstn]. rewrite app_nil_r.
    fold (item m). change (fun t => match trim t with [] => [] | z :: l => [resolve_token m (z :: l)] end) with (item m).
    destruct es as [|e es]; [reflexivity|]. subst j. apply split_core; [exact Fe|discriminate].
  - intros c r [E|E]; [injection E as <- _; reflexivity|]. rewrite app_assoc in E. apply app_inj_tail in E as [_ <-]. reflexivity.
Qed.

Lemma strip_cr_keep : forall l c, c <> 13 -> strip_cr (l ++ [c]) = l ++ [c].
Proof.
  intros l c H. destruct (strip_cr_uncr (l ++ [c])) as [E|[E _]]; [|symmetry; exact E].
  apply app_inj_tail in E as [_ E]. contradiction.
Qed.

Lemma core_line : forall o e es st, o_comments o = true -> o_json o = false -> s_part st = [] -> s_ignore st = 0 -> Forall entry es ->
  exists rs st', Forall2 (resolves (o_assume o)) es rs /\
    feed o e (lit "%%%mzn-core: [" ++ join (lit ", ") es ++ lit "]" ++ [10]) st = Going st' /\
    s_out st' = s_out st ++ [PText (lit "%%%mzn-core: [" ++ join (lit ", ") rs ++ lit "]" ++ [10])].
Proof.
  intros o e es st Hc Hj Hp Hi Fe. set (j := join (lit ", ") es).
  assert (is_line j) as Lj.
  { subst j. clear - Fe. induction Fe as [|x es (_ & _ & L & _) F IH]; [split; intros []|]. destruct es as [|y es]; [exact L|].
    change (join (lit ", ") (x :: y :: es)) with (x ++ lit ", " ++ join (lit ", ") (y :: es)). destruct L, IH.
    split; rewrite !in_app_iff; cbn; intros [K|[K|K]]; try tauto; intuition discriminate. }
  exists (List.map (resolve_token (o_assume o)) es).
  assert (Forall2 (resolves (o_assume o)) es (List.map (resolve_token (o_assume o)) es)) as F2.
  { clear - Fe. induction Fe as [|x es H F IH]; cbn; constructor; [apply resolve_token_spec; apply H|exact IH]. }
  set (line := lit "%%%mzn-core: [" ++ j ++ lit "]").
  assert (is_line line) as Ll. { subst line. destruct Lj. split; rewrite !in_app_iff; cbn; intuition discriminate. }
  assert (lit "%%%mzn-core: [" ++ j ++ lit "]" ++ [10] = terminated [line] ++ []) as -> by (subst line; unfold terminated; cbn [flat_map]; rewrite !app_nil_r, <- !app_assoc; reflexivity).
  assert (no_nul (terminated [line] ++ [])) as Hn. { destruct Ll. unfold terminated. cbn [flat_map]. rewrite !app_nil_r. apply no_nul_app. split; [assumption|]. intros [K|[]]; discriminate. }
  rewrite (feed_eq _ _ _ _ Hn), split_lines_terminated; [|repeat constructor; apply Ll|intros []].
  cbn [feed_lines]. rewrite Hp. cbn [app].
  assert (strip_cr line = line) as Hs by (subst line; rewrite app_assoc; apply strip_cr_keep; discriminate).
  unfold complete_line. rewrite Hs. cbn [s_ignore with_part]. rewrite Hi. cbn [Z.ltb Z.compare].
  assert (assoc line input_map = None) as ->.
  { destruct (assoc line input_map) as [s|] eqn:E; [|reflexivity]. apply assoc_message in E. destruct s; discriminate E. }
  rewrite Hc. assert (first_nonspace line = Some 37) as -> by reflexivity. cbn [Z.eqb Pos.eqb].
  unfold comment_line. assert (str_eqb (firstn 13 line) (lit "%%%mzn-core: ") = true) as -> by reflexivity.
  assert (resolve_core (o_assume o) (skipn 13 line) = List.map (resolve_token (o_assume o)) es) as ->.
  { pose proof (resolve_core_list (o_assume o) [] [] es) as R. rewrite app_nil_r in R. apply R; [constructor|constructor|exact Fe]. }
  unfold core_message. rewrite Hj. cbn [obind]. eexists. split; [exact F2|]. split; [reflexivity|].
  unfold put_both. destruct (o_noncanon o); reflexivity.
Qed.
