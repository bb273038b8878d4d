Require Import List ZArith Bool Lia String Ascii.
From Verif Require Import NlSolModel NlSolSpec.
Import ListNotations.
Open Scope Z_scope.

Notation rd ls tl := (mkRd ls tl false).
Notation dead s := (mkRd [] None s).

Lemma str_app_assoc : forall a b c : string, (a ++ (b ++ c) = (a ++ b) ++ c)%string.
Proof. induction a as [|x a IH]; intros; cbn; [reflexivity|rewrite IH; reflexivity]. Qed.
Lemma str_app_nil : forall a : string, (a ++ "" = a)%string.
Proof. induction a as [|x a IH]; cbn; [reflexivity|rewrite IH; reflexivity]. Qed.

Lemma read_msg_ok : forall msg fuel ls tl buf acc, (forall l, In l msg -> l <> EmptyString) -> (List.length msg < fuel)%nat ->
  read_msg fuel (rd (msg ++ EmptyString :: ls) tl) buf acc = (rd ls tl, EmptyString, (acc ++ text msg)%string).
Proof.
  induction msg as [|l msg IH]; intros [|fuel] ls tl buf acc N L; try (cbn in L; lia); cbn.
  - rewrite str_app_nil. reflexivity.
  - destruct l as [|c l]; [exfalso; apply (N EmptyString); [left; reflexivity|reflexivity]|].
    rewrite IH; [|intros; apply N; right; assumption|cbn in L; lia]. f_equal. cbn [text]. rewrite <- !str_app_assoc. reflexivity.
Qed.
Lemma read_msg_cut : forall msg fuel buf acc, (forall l, In l msg -> l <> EmptyString) -> (List.length msg < fuel)%nat ->
  exists b m, read_msg fuel (rd msg None) buf acc = (dead true, b, m).
Proof.
  induction msg as [|l msg IH]; intros [|fuel] buf acc N L; try (cbn in L; lia); cbn.
  - eauto.
  - destruct l as [|c l]; [exfalso; apply (N EmptyString); [left; reflexivity|reflexivity]|].
    apply IH; [intros; apply N; right; assumption|cbn in L; lia].
Qed.
Lemma skip_lines_ok : forall os ls tl buf, exists b, skip_lines (List.length os) (rd (os ++ ls) tl) buf = (rd ls tl, b).
Proof. induction os as [|o os IH]; intros ls tl buf; cbn; [eauto|apply IH]. Qed.
Lemma skip_lines_dead : forall n buf, skip_lines n (dead true) buf = (dead true, buf).
Proof. induction n as [|n IH]; intros buf; cbn; [reflexivity|apply IH]. Qed.
Lemma skip_lines_cut : forall os k buf, exists b, skip_lines (List.length os + S k) (rd os None) buf = (dead true, b).
Proof. induction os as [|o os IH]; intros k buf; cbn; [rewrite skip_lines_dead; eauto|apply IH]. Qed.
Lemma skip_duals_ok : forall os ls tl buf, exists b, skip_duals (List.length os) (rd (os ++ ls) tl) buf = (rd ls tl, b).
Proof. induction os as [|o os IH]; intros ls tl buf; cbn; [eauto|apply IH]. Qed.
Lemma skip_duals_cut : forall os k buf, skip_duals (List.length os + S k) (rd os None) buf = (dead true, EmptyString).
Proof. induction os as [|o os IH]; intros k buf; cbn; [reflexivity|apply IH]. Qed.

Section V.
Context {V : Type} (stod : string -> option V).
Lemma read_values_ok : forall ps vals ls tl buf acc, Forall2 (fun l v => stod l = Some v) ps vals ->
  exists b, read_values stod (List.length ps) (rd (ps ++ ls) tl) buf acc = (Some (rd ls tl, b, acc ++ vals), acc ++ vals).
Proof.
  intros ps vals ls tl buf acc F. revert buf acc. induction F as [|l v ps vals E F IH]; intros buf acc; cbn.
  - rewrite app_nil_r. eauto.
  - rewrite E. destruct (IH l (acc ++ [v])%list) as [b Q]. exists b. rewrite Q, <- app_assoc. reflexivity.
Qed.
Lemma read_values_cut : forall ps k buf acc, (forall l, In l ps -> stod l <> None) ->
  exists vec w, read_values stod (List.length ps + S k) (rd ps None) buf acc = (Some (dead true, EmptyString, vec), w).
Proof.
  induction ps as [|l ps IH]; intros k buf acc A; cbn; [eauto|].
  destruct (stod l) as [v|] eqn:E; [|exfalso; apply (A l); [left; reflexivity|exact E]]. apply IH. intros; apply A; right; assumption.
Qed.
Lemma read_values_dead : forall n acc, exists vec w, read_values stod n (dead true) EmptyString acc = (Some (dead true, EmptyString, vec), w).
Proof. intros [|n] acc; cbn; eauto. Qed.
Lemma body_dead : forall msg s b, s_status (parse_body stod msg (dead s) b) = PARSE_ERROR.
Proof. intros msg [|] b; reflexivity. Qed.

Lemma drop_app : forall h s, drop (String.length h) (h ++ s)%string = Some s.
Proof. induction h as [|c h IH]; intros s; cbn; [reflexivity|apply IH]. Qed.

Lemma body_ok : forall f vals code msg rest tl buf, good_file stod f vals code ->
  parse_body stod msg (rd ([f_ncon f; f_nduals f; f_nvar f; f_nprim f] ++ f_duals f ++ f_prims f ++ f_objno f :: rest) tl) buf =
  mkSol msg (status_of code) vals.
Proof.
  intros f vals code msg rest tl buf (_ & _ & G3 & G4 & G5 & h & sub & G6 & G7 & G8). unfold parse_body. cbn [app getline r_lines r_stopped r_tail negb].
  rewrite G3. cbn [getline r_lines r_stopped r_tail negb]. rewrite G4, !Nat2Z.id.
  destruct (skip_duals_ok (f_duals f) (f_prims f ++ f_objno f :: rest)%list tl (f_nprim f)) as [b Q]. rewrite Q.
  destruct (read_values_ok (f_prims f) vals (f_objno f :: rest) tl b [] G5) as [b' Q']. rewrite Q'. cbn [app].
  unfold finish. cbn [getline r_lines r_stopped]. rewrite G7, <- G6, drop_app, G8. reflexivity.
Qed.

Lemma parse_ok : forall f vals code rest tl, good_file stod f vals code ->
  parse stod (rd (file_lines f ++ rest) tl) = mkSol (text (f_message f)) (status_of code) vals.
Proof.
  intros f vals code rest tl G. unfold parse, file_lines. rewrite <- !app_assoc. cbn [app r_lines].
  pose proof G as (G1 & G2 & _). rewrite read_msg_ok; [|exact G1|rewrite app_length; lia]. cbn [getline r_lines r_stopped r_tail].
  rewrite (proj2 (String.eqb_eq "Options" "Options") eq_refl). cbn [andb getline r_lines r_stopped r_tail]. rewrite G2, Nat2Z.id.
  match goal with |- context [skip_lines _ (rd (_ ++ ?l) _) ?b] => destruct (skip_lines_ok (f_opts f) l tl b) as [b0 Q]; rewrite Q end.
  apply (body_ok f vals code (text (f_message f)) rest tl b0 G).
Qed.

Lemma split_app : forall A (p q a b : list A), (p ++ q = a ++ b)%list ->
  (exists p', p = a ++ p' /\ b = p' ++ q)%list \/ (exists x q', a = p ++ x :: q')%list.
Proof.
  induction p as [|y p IH]; intros q a b E.
  - destruct a as [|x a]; [left; exists []; split; [reflexivity|symmetry; exact E]|right; exists x, a; reflexivity].
  - destruct a as [|x a]; [left; exists (y :: p); split; [reflexivity|symmetry; exact E]|]. cbn in E. injection E as -> E.
    destruct (IH _ _ _ E) as [(p' & -> & ->)|(z & q' & ->)]; [left; exists p'; split; reflexivity|right; exists z, q'; reflexivity].
Qed.

Lemma finish_dead : forall msg s (vec : list V), s_status (finish msg (dead s) EmptyString vec) = PARSE_ERROR.
Proof. intros msg [|] vec; reflexivity. Qed.

Lemma body_cut : forall f vals code msg p q buf, good_file stod f vals code -> q <> [] ->
  ([f_ncon f; f_nduals f; f_nvar f; f_nprim f] ++ f_duals f ++ f_prims f ++ [f_objno f] = p ++ q)%list ->
  s_status (parse_body stod msg (rd p None) buf) = PARSE_ERROR.
Proof.
  intros f vals code msg p q buf (_ & _ & G3 & G4 & G5 & _) NQ E. symmetry in E.
  apply split_app in E. destruct E as [(p4 & -> & E)|(x & q' & E)].
  2:{ destruct p as [|a [|b [|c [|d p]]]].
      - apply body_dead.
      - reflexivity.
      - cbn in E. injection E as <- <- _. unfold parse_body. cbn [getline r_lines r_stopped r_tail negb]. rewrite G3. reflexivity.
      - cbn in E. injection E as <- <- <- _. unfold parse_body. cbn [getline r_lines r_stopped r_tail negb]. rewrite G3. reflexivity.
      - cbn in E. injection E as _ _ _ _ E. destruct p; discriminate. }
  unfold parse_body. cbn [app getline r_lines r_stopped r_tail negb]. rewrite G3. cbn [getline r_lines r_stopped r_tail negb]. rewrite G4, !Nat2Z.id.
  symmetry in E. apply split_app in E. destruct E as [(p5 & -> & E)|(x & q' & E)].
  2:{ rewrite E at 1. rewrite app_length. cbn [List.length]. rewrite skip_duals_cut.
      match goal with |- context [read_values stod ?n (dead true) EmptyString []] => destruct (read_values_dead n []) as (vec & w & Q); rewrite Q end.
      apply finish_dead. }
  destruct (skip_duals_ok (f_duals f) p5 None (f_nprim f)) as [b Q]. rewrite Q. clear Q.
  symmetry in E. apply split_app in E. destruct E as [(p6 & -> & E)|(x & q' & E)].
  2:{ rewrite E at 1. rewrite app_length. cbn [List.length].
      destruct (read_values_cut p5 (List.length q') b []) as (vec & w & Q).
      { intros l X Z. rewrite E in G5. clear - G5 X Z. apply Forall2_app_inv_l in G5. destruct G5 as (v1 & v2 & F & _ & _).
        induction F; [contradiction|]. destruct X as [->|X]; [congruence|auto]. }
      rewrite Q. apply finish_dead. }
  destruct p6 as [|y p6].
  - destruct (read_values_ok (f_prims f) vals [] None b [] G5) as [b' Q]. rewrite Q. apply (finish_dead msg false).
  - cbn in E. injection E as _ E. destruct p6; [cbn in E; congruence|discriminate].
Qed.

Lemma parse_cut : forall f vals code p q, good_file stod f vals code -> q <> [] -> (file_lines f = p ++ q)%list ->
  s_status (parse stod (rd p None)) = PARSE_ERROR.
Proof.
  intros f vals code p q G NQ E. pose proof G as (G1 & G2 & _). unfold file_lines in E. symmetry in E. rewrite app_assoc in E.
  apply split_app in E. unfold parse. destruct E as [(p1 & -> & E)|(x & q' & E)].
  2:{ assert (PM : exists q2, f_message f = (p ++ q2)%list).
      { symmetry in E. apply split_app in E. destruct E as [(p' & -> & E)|(y & q2 & E)]; [|exists (y :: q2); exact E].
        destruct p' as [|z p']; [exists []; rewrite !app_nil_r; reflexivity|]. cbn in E. injection E as _ E. destruct p'; discriminate. }
      destruct PM as [q2 PM].
      destruct (read_msg_cut p (S (S (List.length p))) EmptyString EmptyString) as (b & m & Q).
      - intros l X. apply G1. rewrite PM. apply in_or_app. left. exact X.
      - lia.
      - cbn [r_lines]. rewrite Q. cbn [getline r_stopped andb]. apply body_dead. }
  rewrite <- app_assoc. cbn [app r_lines]. rewrite read_msg_ok; [|exact G1|rewrite app_length; lia].
  destruct p1 as [|a [|b p2]].
  - cbn [getline r_stopped r_lines r_tail andb]. apply body_dead.
  - cbn in E. injection E as <- _. cbn [getline r_stopped r_lines r_tail]. rewrite (proj2 (String.eqb_eq "Options" "Options") eq_refl). apply body_dead.
  - cbn in E. injection E as <- <- E. cbn [getline r_stopped r_lines r_tail]. rewrite (proj2 (String.eqb_eq "Options" "Options") eq_refl).
    cbn [andb getline r_lines r_stopped r_tail]. rewrite G2, Nat2Z.id.
    symmetry in E. apply split_app in E. destruct E as [(p3 & -> & E)|(x & q' & E)].
    + destruct (skip_lines_ok (f_opts f) p3 None (f_nopts f)) as [b Q]. rewrite Q. eapply body_cut; [exact G|exact NQ|exact E].
    + rewrite E at 1. rewrite app_length. cbn [List.length]. destruct (skip_lines_cut p2 (List.length q') (f_nopts f)) as [b Q]. rewrite Q. apply body_dead.
Qed.
End V.

Lemma status_meaning : forall c, meaning c (status_of c).
Proof.
  intros c. unfold status_of.
  repeat match goal with |- context [if ?b then _ else _] => destruct b eqn:?; [|] end;
  repeat match goal with
         | H : (_ && _)%bool = true |- _ => apply andb_true_iff in H; destruct H
         | H : (_ && _)%bool = false |- _ => apply andb_false_iff in H
         | H : (_ =? _) = true |- _ => apply Z.eqb_eq in H
         | H : (_ =? _) = false |- _ => apply Z.eqb_neq in H
         | H : (_ <=? _) = true |- _ => apply Z.leb_le in H
         | H : (_ <? _) = true |- _ => apply Z.ltb_lt in H
         | H : (_ <=? _) = false \/ (_ <? _) = false |- _ => rewrite Z.leb_gt, Z.ltb_ge in H
         end; try (constructor; lia); subst; constructor; lia.
Qed.
Lemma meaning_fun : forall c s s', meaning c s -> meaning c s' -> s = s'.
Proof. intros c s s' A B; inversion A; subst; inversion B; subst; try reflexivity; lia. Qed.

(** ** the log *)
Fixpoint unlines (ls : list string) (t : string) : string :=
  match ls with [] => t | l :: ls' => (l ++ endl ++ unlines ls' t)%string end.
Fixpoint no_nl (s : string) : Prop := match s with EmptyString => True | String c s' => c <> newline /\ no_nl s' end.
Lemma split_spec : forall s ls t, split_lines s = (ls, t) -> s = unlines ls t /\ no_nl t /\ Forall no_nl ls.
Proof.
  induction s as [|c s IH]; intros ls t E; cbn in E; [injection E as <- <-; repeat split; constructor|].
  destruct (split_lines s) as [ls' t'] eqn:Q. destruct (IH ls' t' eq_refl) as (A & B & C).
  destruct (Ascii.eqb c newline) eqn:N.
  - injection E as <- <-. apply Ascii.eqb_eq in N. subst c. split; [cbn; rewrite A; reflexivity|]. split; [exact B|constructor; [exact I|exact C]].
  - apply Ascii.eqb_neq in N. destruct ls' as [|l ls']; injection E as <- <-.
    + split; [cbn; rewrite A; reflexivity|]. split; [split; assumption|constructor].
    + split; [cbn; rewrite A; reflexivity|]. split; [exact B|]. inversion C; subst. constructor; [split; assumption|assumption].
Qed.
Definition ends (start : bool) (s : string) : bool :=
  (fix go (b : bool) (s : string) : bool := match s with EmptyString => b | String c s' => go (Ascii.eqb c newline) s' end) start s.
Lemma commented_app : forall a b st, commented st (a ++ b)%string = (commented st a ++ commented (ends st a) b)%string.
Proof.
  induction a as [|c a IH]; intros b st; [reflexivity|]. cbn [String.append commented]. rewrite IH. cbn [ends].
  rewrite <- str_app_assoc. reflexivity.
Qed.
Lemma ends_app : forall a b st, ends st (a ++ b)%string = ends (ends st a) b.
Proof. induction a as [|c a IH]; intros b st; [reflexivity|]. cbn. apply IH. Qed.
Lemma commented_plain : forall t, no_nl t -> commented false t = t /\ ends false t = false.
Proof.
  induction t as [|c t IH]; intros N; [split; reflexivity|]. destruct N as [N1 N2]. apply Ascii.eqb_neq in N1.
  destruct (IH N2) as [A B]. cbn. rewrite N1. cbn in A, B. split; [rewrite A; reflexivity|exact B].
Qed.
Lemma commented_start : forall t, no_nl t -> t <> EmptyString -> commented true t = ("% " ++ t)%string /\ ends true t = false.
Proof.
  intros [|c t] N NE; [contradiction|]. destruct N as [N1 N2]. apply Ascii.eqb_neq in N1.
  destruct (commented_plain t N2) as [A B]. cbn. rewrite N1. cbn in B. split; [rewrite A; reflexivity|exact B].
Qed.
Lemma commented_line : forall l st, no_nl l -> commented st (l ++ endl)%string = ((if st then "% " else "") ++ l ++ endl)%string /\ ends st (l ++ endl)%string = true.
Proof.
  intros l st N. split.
  - destruct l as [|c l]; [destruct st; reflexivity|]. rewrite commented_app. destruct st.
    + destruct (commented_start (String c l) N) as [A B]; [discriminate|]. rewrite A, B, <- str_app_assoc. reflexivity.
    + destruct (commented_plain (String c l) N) as [A B]. rewrite A, B. reflexivity.
  - rewrite ends_app. reflexivity.
Qed.
Lemma log_lines_ok : forall ls inl out i, Forall no_nl ls -> log_lines inl ls = (out, i) ->
  out = commented (negb inl) (unlines ls EmptyString) /\ i = negb (ends (negb inl) (unlines ls EmptyString)).
Proof.
  induction ls as [|l ls IH]; intros inl out i F E; cbn in E.
  - injection E as <- <-. cbn. rewrite negb_involutive. split; reflexivity.
  - destruct (log_lines false ls) as [o j] eqn:Q. injection E as <- <-. inversion F; subst.
    destruct (IH false o j H2 Q) as [A B]. cbn [unlines]. rewrite (str_app_assoc l endl (unlines ls EmptyString)).
    destruct (commented_line l (negb inl) H1) as [C D]. rewrite (commented_app (l ++ endl)), (ends_app (l ++ endl)), C, D. cbn [negb] in A, B. rewrite <- A, <- B.
    split; [|reflexivity]. rewrite <- !str_app_assoc. destruct inl; reflexivity.
Qed.
Lemma unlines_app : forall ls t, unlines ls t = (unlines ls EmptyString ++ t)%string.
Proof. induction ls as [|l ls IH]; intros t; cbn [unlines]; [reflexivity|]. rewrite (IH t), !str_app_assoc. reflexivity. Qed.
Lemma ends_lines : forall ls st, ls <> [] -> ends st (unlines ls EmptyString) = true.
Proof.
  induction ls as [|l ls IH]; intros st N; [contradiction|]. cbn [unlines]. rewrite str_app_assoc, ends_app.
  replace (ends st (l ++ endl)) with true by (rewrite ends_app; reflexivity). destruct ls as [|l' ls]; [reflexivity|apply IH; discriminate].
Qed.
Lemma split_nl : forall s t, split_lines s = ([], t) -> has_newline s = false.
Proof.
  induction s as [|c s IH]; intros t E; [reflexivity|]. cbn in *. destruct (split_lines s) as [ls t'] eqn:Q.
  destruct (Ascii.eqb c newline); [discriminate|]. destruct ls; [|discriminate]. cbn. eapply IH. reflexivity.
Qed.
Lemma feed_ok : forall inl s out i, (inl = false \/ has_newline s = true \/ s = EmptyString) -> feed inl s = (out, i) ->
  out = commented (negb inl) s /\ i = negb (ends (negb inl) s).
Proof.
  intros inl s out i C E. unfold feed in E. destruct (split_lines s) as [ls t] eqn:Q. destruct (split_spec s ls t Q) as (A & B & F).
  destruct (log_lines inl ls) as [o j] eqn:LL. destruct (log_lines_ok ls inl o j F LL) as [O1 O2].
  rewrite A, unlines_app, commented_app, ends_app, <- O1.
  destruct t as [|c t].
  - injection E as <- <-. cbn. rewrite str_app_nil. split; [reflexivity|exact O2].
  - assert (J : j = false).
    { rewrite O2. destruct ls as [|l ls]; [|rewrite ends_lines by discriminate; reflexivity]. cbn. destruct C as [->|[C|C]]; [reflexivity| |].
      - apply split_nl in Q. congruence.
      - subst s. discriminate. }
    rewrite J in E. injection E as <- <-. assert (Z : ends (negb inl) (unlines ls EmptyString) = true) by (destruct (ends _ _); [reflexivity|cbn in O2; congruence]).
    rewrite Z. destruct (commented_start (String c t) B) as [X Y]; [discriminate|]. rewrite X, Y. split; reflexivity.
Qed.
Lemma feed_all_ok : forall chunks inl, (inl = false \/ match chunks with [] => True | c :: _ => has_newline c = true \/ c = EmptyString end) ->
  (forall c, In c (tl chunks) -> has_newline c = true \/ c = EmptyString) ->
  feed_all inl chunks = commented (negb inl) (joined chunks).
Proof.
  induction chunks as [|c cs IH]; intros inl C0 CS; [reflexivity|]. cbn. destruct (feed inl c) as [o i] eqn:E.
  destruct (feed_ok inl c o i C0 E) as [A B]. rewrite commented_app, <- A.
  rewrite IH; [rewrite B, negb_involutive; reflexivity| |].
  - destruct cs as [|c' cs]; [right; exact I|right; apply CS; left; reflexivity].
  - intros x X. apply CS. cbn. destruct cs as [|c' cs]; [contradiction|right; exact X].
Qed.
