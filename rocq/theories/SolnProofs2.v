(** What a stream of lines means to Solns2Out: the solutions and statuses it contains, and what is printed. *)
Require Import ZArith List Bool String Lia Sorted.
From Verif Require Import Base StrModel SolnModel SolnSpec SolnProofs.
Import ListNotations.
Open Scope Z_scope.

(** *** order and sets of strings *)
Lemma ltb_lt : forall a b, str_ltb a b = true <-> str_lt a b.
Proof.
  induction a as [|x a IH]; destruct b as [|y b]; cbn; (split; intros H).
  - discriminate. - inversion H. - constructor. - reflexivity. - discriminate. - inversion H.
  - destruct (Z.ltb_spec x y); [constructor; assumption|]. destruct (Z.ltb_spec y x); [discriminate|].
    assert (x = y) as -> by lia. apply lt_tail, IH, H.
  - inversion H; subst.
    + destruct (Z.ltb_spec x y); [reflexivity|lia].
    + rewrite Z.ltb_irrefl. apply IH. assumption.
Qed.
Lemma ltb_tri : forall a b, str_ltb a b = false -> str_ltb b a = false -> a = b.
Proof.
  induction a as [|x a IH]; destruct b as [|y b]; cbn; intros H K; try discriminate; [reflexivity|].
  destruct (Z.ltb_spec x y); [discriminate|]. destruct (Z.ltb_spec y x); [discriminate|].
  assert (x = y) as -> by lia. f_equal. apply IH; assumption.
Qed.
Lemma lt_trans : forall a b, str_lt a b -> forall c, str_lt b c -> str_lt a c.
Proof.
  induction 1 as [y b|x y a b H|x a b H IH]; intros c K; inversion K; subst;
    solve [apply lt_nil|apply lt_head; lia|apply lt_tail; auto].
Qed.
Lemma lt_irrefl : forall a, ~ str_lt a a.
Proof. induction a; intros H; inversion H; subst; [lia|auto]. Qed.

Lemma set_insert_spec : forall s l l' b, StronglySorted str_lt l -> set_insert s l = (l', b) ->
  StronglySorted str_lt l' /\ (forall x, In x l' <-> x = s \/ In x l) /\ (b = true <-> ~ In s l).
Proof.
  induction l as [|x l IH]; intros l' b S H; cbn in H.
  - injection H as <- <-. split; [repeat constructor|]. split; [|split; auto]. intros y. cbn. split; [intros [->|[]]; auto|intros [->|[]]; auto].
  - inversion S as [|? ? S' F]; subst. destruct (str_ltb s x) eqn:E1.
    + injection H as <- <-. apply ltb_lt in E1. split; [|split].
      * constructor; [exact S|]. constructor; [exact E1|]. eapply Forall_impl; [|exact F]. intros y Hy. eapply lt_trans; eassumption.
      * intros y. cbn. intuition.
      * split; [|reflexivity]. intros _ [->|K]; [eapply lt_irrefl; eassumption|].
        rewrite Forall_forall in F. apply F in K. apply (lt_irrefl s). eapply lt_trans; eassumption.
    + destruct (str_ltb x s) eqn:E2.
      * destruct (set_insert s l) as [r b'] eqn:E. injection H as <- <-. destruct (IH _ _ S' eq_refl) as (A & B & C).
        apply ltb_lt in E2. split; [|split].
        -- constructor; [exact A|]. rewrite Forall_forall in *. intros y Hy. apply B in Hy as [->|Hy]; auto.
        -- intros y. cbn. rewrite B. intuition.
        -- rewrite C. cbn. split; [|intuition]. intros N [->|K]; [eapply lt_irrefl; eassumption|auto].
      * injection H as <- <-. assert (s = x) as -> by (apply ltb_tri; assumption). split; [exact S|]. split.
        -- intros y. cbn. intuition.
        -- split; [discriminate|]. intros N. exfalso. apply N. left. reflexivity.
Qed.

Lemma firsts_app : forall seen l r x, firsts seen l r ->
  ((In x seen \/ In x l) -> firsts seen (l ++ [x]) r) /\
  (~ (In x seen \/ In x l) -> firsts seen (l ++ [x]) (r ++ [x])).
Proof.
  induction 1 as [seen|seen y l r Hy H IH|seen y l r Hy H IH]; cbn.
  - split; intros K; [destruct K as [K|[]]; apply firsts_old; [exact K|constructor]|apply firsts_new; [tauto|constructor]].
  - destruct IH as [A B]. split; intros K.
    + apply firsts_old; [exact Hy|]. apply A. destruct K as [K|[<-|K]]; auto.
    + apply firsts_old; [exact Hy|]. apply B. tauto.
  - destruct IH as [A B]. split; intros K.
    + apply firsts_new; [exact Hy|]. apply A. cbn. destruct K as [K|[<-|K]]; auto.
    + apply firsts_new; [exact Hy|]. apply B. cbn. tauto.
Qed.
Lemma firsts_in : forall seen l r, firsts seen l r -> forall x, In x r <-> In x l /\ ~ In x seen.
Proof.
  induction 1 as [seen|seen y l r Hy H IH|seen y l r Hy H IH]; intros x; cbn.
  - tauto.
  - rewrite IH. split; [tauto|]. intros [[->|K] N]; tauto.
  - rewrite IH. cbn. split.
    + intros [->|[K N]]; [auto|]. split; [auto|]. intro. apply N. auto.
    + intros [[->|K] N]; [auto|]. destruct (list_eq_dec Z.eq_dec y x); [auto|]. right. split; [exact K|]. intros [?|?]; auto.
Qed.
Lemma firsts_nodup : forall seen l r, firsts seen l r -> NoDup r.
Proof.
  induction 1 as [seen|seen y l r Hy H IH|seen y l r Hy H IH]; [constructor|exact IH|].
  constructor; [|exact IH]. intros K. eapply (firsts_in _ _ _ H) in K. apply K. left. reflexivity.
Qed.

(** *** the standard messages *)
Lemma assoc_message : forall l s, assoc l input_map = Some s <-> std_message s = Some l.
Proof.
  intros l s. unfold input_map. cbn [assoc].
  repeat (match goal with |- context [str_eqb l ?k] =>
     let E := fresh in destruct (str_eqb l k) eqn:E;
       [apply str_eqb_spec in E; subst l; split; [intros [= <-]; reflexivity|destruct s; cbn; let K := fresh in intros K; try discriminate K; reflexivity]|apply str_eqb_neq in E] end).
  split; [discriminate|]. destruct s; cbn [std_message]; intros [= <-]; try (exfalso; match goal with K : _ <> _ |- _ => apply K; reflexivity end).
Qed.
Lemma assoc_text : forall l, assoc l input_map = None -> forall s, std_message s <> Some l.
Proof. intros l H s K. apply assoc_message in K. congruence. Qed.

Lemma strip_cr_uncr : forall l, uncr l (strip_cr l).
Proof.
  induction l as [|c l IH].
  - right. split; [reflexivity|]. intros [|? ?]; discriminate.
  - destruct l as [|d l].
    + cbn. destruct (Z.eqb_spec c CR) as [->|N]; [left; reflexivity|right]. split; [reflexivity|].
      intros [|? [|? ?]]; cbn; intros [= ]. subst. apply N. reflexivity.
    + change (strip_cr (c :: d :: l)) with (c :: strip_cr (d :: l)). destruct IH as [E|[E N]].
      * left. cbn [app]. rewrite <- E. reflexivity.
      * right. rewrite <- E. split; [reflexivity|]. intros [|x k]; cbn; intros [= ]; subst. eapply N; eassumption.
Qed.


Lemma sol_app : forall a b, solutions (a ++ b) = solutions a ++ solutions b.
Proof. intros. apply flat_map_app. Qed.
Lemma stat_app : forall a b, statuses (a ++ b) = statuses a ++ statuses b.
Proof. intros. apply flat_map_app. Qed.
Lemma evst_app : forall a b, ev_statuses (a ++ b) = ev_statuses a ++ ev_statuses b.
Proof. intros. apply flat_map_app. Qed.
Lemma evtx_app : forall a b, ev_texts (a ++ b) = ev_texts a ++ ev_texts b.
Proof. intros. apply flat_map_app. Qed.

(** *** the invariant of a run *)
Record Inv (o : opts) (e : evals) (st : s2o) (outs fs : list str) : Prop := mkInv {
  v_outs : List.map Some outs = List.map (e_output e) (ev_texts (s_log st));
  v_fs : if o_unique o || o_canon o then firsts [] outs fs else fs = outs;
  v_n : s_nsolns st = Z.of_nat (List.length fs);
  v_statuses : statuses (s_out st) = ev_statuses (s_log st);
  v_status : s_status st = last (List.map ev_status (s_log st)) UNKNOWN;
  v_printed : s_printed st = negb (match ev_statuses (s_log st) with [] => true | _ => false end);
  v_sols : if o_canon o then canon_prints e (s_log st) (solutions (s_out st)) else solutions (s_out st) = fs;
  v_noncanon : solutions (s_noncanon st) = (if o_canon o && o_noncanon o then fs else []);
  v_canon : if o_unique o || o_canon o then StronglySorted str_lt (s_canon st) /\ (forall x, In x (s_canon st) <-> In x outs)
            else s_canon st = [] }.
Definition inv o e st := exists outs fs, Inv o e st outs fs.

Lemma inv_init : forall o e, inv o e (s2o_init o).
Proof.
  intros. exists [], []. constructor; cbn; try reflexivity.
  - destruct (o_unique o || o_canon o); [constructor|reflexivity].
  - destruct (o_canon o); [constructor|reflexivity].
  - destruct (o_canon o && o_noncanon o); reflexivity.
  - destruct (o_unique o || o_canon o); [|reflexivity]. split; [constructor|tauto].
Qed.

(** steps that only add text to the outputs or change the collected text *)
Definition quiet (st st' : s2o) : Prop :=
  s_log st' = s_log st /\ s_canon st' = s_canon st /\ s_nsolns st' = s_nsolns st /\ s_status st' = s_status st /\
  s_printed st' = s_printed st /\ solutions (s_out st') = solutions (s_out st) /\
  statuses (s_out st') = statuses (s_out st) /\ solutions (s_noncanon st') = solutions (s_noncanon st).
Lemma inv_quiet : forall o e st st' outs fs, quiet st st' -> Inv o e st outs fs -> Inv o e st' outs fs.
Proof.
  intros o e st st' outs fs (A & B & C & D & E & F & G & H) []. constructor; rewrite ?A, ?B, ?C, ?D, ?E, ?F, ?G, ?H; assumption.
Qed.
Lemma quiet_refl : forall st, quiet st st.
Proof. repeat split. Qed.
Lemma quiet_put : forall o m st, quiet st (put_both o m st).
Proof.
  intros. unfold put_both. destruct (o_noncanon o); repeat split; cbn; rewrite ?sol_app, ?stat_app; cbn; apply app_nil_r.
Qed.
Lemma quiet_trans : forall a b c, quiet a b -> quiet b c -> quiet a c.
Proof. unfold quiet. intuition congruence. Qed.

Lemma flush_quiet : forall e st st', flush_statistics e st = Going st' -> quiet st st' /\ s_solution st' = s_solution st /\ s_ignore st' = s_ignore st.
Proof.
  unfold flush_statistics. intros e st st' H. destruct (s_stats st); [injection H as <-; split; [apply quiet_refl|auto]|].
  destruct (e_stats e _); [injection H as <-|discriminate]. split; [|auto].
  repeat split; cbn; rewrite ?sol_app, ?stat_app; cbn; apply app_nil_r.
Qed.
Lemma comment_quiet : forall o e l st st', comment_line o e l st = Going st' -> quiet st st' /\ s_solution st' = s_solution st /\ s_ignore st' = s_ignore st.
Proof.
  unfold comment_line. intros o e l st st' H.
  assert (forall m s, quiet st s -> s_solution s = s_solution st -> s_ignore s = s_ignore st ->
            quiet st (put_both o m s) /\ s_solution (put_both o m s) = s_solution st /\ s_ignore (put_both o m s) = s_ignore st) as P.
  { intros m s Q A B. split; [eapply quiet_trans; [exact Q|apply quiet_put]|].
    unfold put_both. destruct (o_noncanon o); auto. }
  assert (forall v, quiet st (with_stats v st)) as W by (intros; repeat split).
  destruct (str_eqb (firstn 13 l) _); [injection H as <-; apply P; auto using quiet_refl|].
  destruct (o_json o); [|injection H as <-; apply P; auto using quiet_refl].
  destruct (str_eqb (firstn 13 l) _); [injection H as <-; apply P; auto|].
  destruct (str_eqb l _); [|injection H as <-; apply P; auto using quiet_refl].
  destruct (e_stats e (s_stats st)); [injection H as <-; apply P; auto|discriminate].
Qed.

Lemma last_snoc : forall A (l : list A) x d, last (l ++ [x]) d = x.
Proof. intros. apply last_last. Qed.

(** the copy of the raw stream is only written at the end of a chunk *)
Lemma line_keeps_raw : forall o e l st, s_raw (ost (complete_line o e l st)) = s_raw st.
Proof.
  intros. unfold complete_line. destruct (0 <? s_ignore st); [reflexivity|].
  assert (forall s1, s_raw (ost (flush_statistics e s1)) = s_raw s1) as F by (intros; unfold flush_statistics; dm; reflexivity).
  assert (forall s1, s_raw (ost (parse_assignments e s1)) = s_raw s1) as P by (intros; unfold parse_assignments; dm; reflexivity).
  assert (forall s s1, s_raw (eval_status o s s1) = s_raw s1) as S by (intros; unfold eval_status; dm; reflexivity).
  assert (forall s s1, s_raw (ost (eval_output o e s s1)) = s_raw s1) as V.
  { intros. unfold eval_output. cbn. destruct (e_output e s); [|reflexivity]. destruct (o_unique o || o_canon o); cbn;
    [destruct (set_insert s0 (s_canon s1)) as [c []]|]; cbn; try reflexivity; destruct (e_check e s); cbn; dm; reflexivity. }
  destruct (assoc (strip_cr l) input_map) as [s|].
  - specialize (F st). destruct (flush_statistics e st) as [s1|s1]; cbn [obind ost] in *; [|exact F].
    destruct s; cbn [ost]; try (rewrite S; exact F). specialize (P s1). destruct (parse_assignments e s1) as [s2|s2]; cbn [obind ost] in *; [|congruence].
    rewrite V. congruence.
  - destruct (o_comments o); [|reflexivity]. destruct (first_nonspace (strip_cr l)) as [c|]; [|reflexivity]. destruct (c =? 37); [|reflexivity].
    unfold comment_line, put_both. dm; reflexivity.
Qed.
Lemma lines_keep_raw : forall o e ls st st', feed_lines o e ls st = Going st' -> s_raw st' = s_raw st.
Proof.
  induction ls as [|l ls IH]; intros st st' H; cbn [feed_lines] in H; [injection H as <-; reflexivity|].
  pose proof (line_keeps_raw o e (s_part st ++ l) (with_part [] st)) as K. destruct (complete_line o e (s_part st ++ l) (with_part [] st)) as [s1|s1]; cbn [obind ost] in *; [|discriminate].
  rewrite (IH _ _ H), K. reflexivity.
Qed.

(** a separator: parseAssignments followed by evalOutput *)
Lemma sol_step : forall o e st s1 s2, inv o e st ->
  parse_assignments e st = Going s1 -> eval_output o e (s_solution st) s1 = Going s2 ->
  inv o e s2 /\ s_log s2 = s_log st ++ [EvSolution (s_solution st)] /\ s_solution s2 = [] /\ s_ignore s2 = s_ignore st.
Proof.
  intros o e st s1 s2 (outs & fs & [H1 H2 H3 H4 H5 H6 H7 H8 H9]) P E.
  unfold parse_assignments in P. cbn [s_solution logged] in P. destruct (e_parse e (s_solution st)); [|discriminate].
  injection P as <-. unfold eval_output in E. destruct (e_output e (s_solution st)) as [t|] eqn:Et; [|discriminate].
  assert (List.map Some (outs ++ [t]) = List.map (e_output e) (ev_texts (s_log st ++ [EvSolution (s_solution st)]))) as H1'.
  { rewrite evtx_app, !map_app, H1. cbn. rewrite Et. reflexivity. }
  assert (forall p, canon_prints e (s_log st) p -> canon_prints e (s_log st ++ [EvSolution (s_solution st)]) p) as CP by (intros; apply cp_solution; assumption).
  assert (SAT = last (List.map ev_status (s_log st ++ [EvSolution (s_solution st)])) UNKNOWN) as HS by (rewrite map_app; cbn; rewrite last_snoc; reflexivity).
  assert (ev_statuses (s_log st ++ [EvSolution (s_solution st)]) = ev_statuses (s_log st)) as Hev by (rewrite evst_app; apply app_nil_r).
  cbn [s_canon with_status with_solution logged] in E.
  destruct (o_unique o || o_canon o) eqn:Eu.
  - destruct (set_insert t (s_canon st)) as [c b] eqn:Ei. destruct H9 as [Hs Hc].
    destruct (set_insert_spec _ _ _ _ Hs Ei) as (Hs' & Hc' & Hb).
    assert (forall x, In x c <-> In x (outs ++ [t])) as Hc2.
    { intros x. rewrite Hc', Hc, in_app_iff. cbn. intuition. }
    destruct (firsts_app _ _ _ t H2) as [FA FB]. destruct b.
    + assert (~ In t outs) as Ht by (rewrite <- Hc; apply Hb; reflexivity).
      assert (firsts [] (outs ++ [t]) (fs ++ [t])) as H2' by (apply FB; cbn; tauto).
      assert (Z.of_nat (List.length fs) + 1 = Z.of_nat (List.length (fs ++ [t]))) as Hl by (rewrite app_length; cbn; lia).
      assert (exists s3, (s3 = match e_check e (s_solution st) with [] => with_canon c (with_status SAT (with_solution [] (logged (EvSolution (s_solution st)) st))) | ck => put [PChecker ck] (with_canon c (with_status SAT (with_solution [] (logged (EvSolution (s_solution st)) st)))) end) /\
         s_log s3 = s_log st ++ [EvSolution (s_solution st)] /\ s_canon s3 = c /\ s_nsolns s3 = s_nsolns st /\ s_status s3 = SAT /\ s_printed s3 = s_printed st /\
         solutions (s_out s3) = solutions (s_out st) /\ statuses (s_out s3) = statuses (s_out st) /\ solutions (s_noncanon s3) = solutions (s_noncanon st) /\ s_solution s3 = [] /\ s_ignore s3 = s_ignore st) as (s3 & E3 & A1 & A2 & A3 & A4 & A5 & A6 & A7 & A8 & A9 & A10).
      { eexists. split; [reflexivity|]. destruct (e_check e (s_solution st)); cbn; rewrite ?sol_app, ?stat_app; cbn; rewrite ?app_nil_r; repeat split. }
      rewrite <- E3 in E. clear E3. injection E as <-.
      destruct (o_canon o) eqn:Ec.
      * destruct (o_noncanon o) eqn:En; cbn [s_log s_solution s_ignore put_noncanon with_nsolns]; (split; [|auto]); exists (outs ++ [t]), (fs ++ [t]); constructor; rewrite ?Ec, ?Eu, ?En in *;
          cbn [s_log s_solution s_ignore s_canon s_nsolns s_status s_printed s_out s_noncanon put_noncanon with_nsolns orb] in *; rewrite ?A1, ?A2, ?A3, ?A4, ?A5, ?A6, ?A7, ?A8, ?sol_app in *;
          rewrite ?orb_true_r, ?Hev in *; cbn [solutions flat_map andb app] in *; rewrite ?app_nil_r; auto; try congruence.
        all: try (split; assumption).
      * assert (forall st', st' = put [PSol t] (with_nsolns (s_nsolns s3 + 1) s3) \/ st' = put [PSol t] (put [PComma] (with_nsolns (s_nsolns s3 + 1) s3)) ->
           inv o e st' /\ s_log st' = s_log st ++ [EvSolution (s_solution st)] /\ s_solution st' = [] /\ s_ignore st' = s_ignore st) as K.
        { intros st' [->| ->]; cbn [s_log s_solution s_ignore put with_nsolns]; (split; [|auto]); exists (outs ++ [t]), (fs ++ [t]); constructor; rewrite ?Ec, ?Eu in *;
          cbn [s_log s_solution s_ignore s_canon s_nsolns s_status s_printed s_out s_noncanon put with_nsolns] in *; rewrite ?A1, ?A2, ?A3, ?A4, ?A5, ?A8, ?sol_app, ?stat_app, ?A6, ?A7 in *;
          rewrite ?Hev in *; cbn [solutions statuses flat_map andb app] in *; rewrite ?app_nil_r in *; auto; try congruence.
          all: try (split; assumption). }
        apply K. match goal with |- context [if ?b then _ else _] => destruct b end; auto.
    + assert (In t outs) as Ht. { rewrite <- Hc. destruct (in_dec (list_eq_dec Z.eq_dec) t (s_canon st)) as [K|K]; [exact K|]. apply Hb in K. discriminate. }
      injection E as <-. cbn [s_log s_solution s_ignore with_canon with_status with_solution logged]. split; [|auto].
      exists (outs ++ [t]), fs. constructor;
        cbn [s_log s_solution s_ignore s_canon s_nsolns s_status s_printed s_out s_noncanon with_canon with_status with_solution logged];
        rewrite ?Eu, ?Hev; auto.
      * destruct (o_canon o); auto.
  - apply orb_false_iff in Eu as [Eu Ec].
    assert (exists s3, (s3 = match e_check e (s_solution st) with [] => (with_status SAT (with_solution [] (logged (EvSolution (s_solution st)) st))) | ck => put [PChecker ck] ((with_status SAT (with_solution [] (logged (EvSolution (s_solution st)) st)))) end) /\
         s_log s3 = s_log st ++ [EvSolution (s_solution st)] /\ s_canon s3 = s_canon st /\ s_nsolns s3 = s_nsolns st /\ s_status s3 = SAT /\ s_printed s3 = s_printed st /\
         solutions (s_out s3) = solutions (s_out st) /\ statuses (s_out s3) = statuses (s_out st) /\ solutions (s_noncanon s3) = solutions (s_noncanon st) /\ s_solution s3 = [] /\ s_ignore s3 = s_ignore st) as (s3 & E3 & A1 & A2 & A3 & A4 & A5 & A6 & A7 & A8 & A9 & A10).
    { eexists. split; [reflexivity|]. destruct (e_check e (s_solution st)); cbn; rewrite ?sol_app, ?stat_app; cbn; rewrite ?app_nil_r; repeat split. }
    rewrite <- E3 in E. clear E3. injection E as <-. rewrite Ec in *.
    assert (Z.of_nat (List.length fs) + 1 = Z.of_nat (List.length (fs ++ [t]))) as Hl by (rewrite app_length; cbn; lia).
    assert (forall st', st' = put [PSol t] (with_nsolns (s_nsolns s3 + 1) s3) \/ st' = put [PSol t] (put [PComma] (with_nsolns (s_nsolns s3 + 1) s3)) ->
           inv o e st' /\ s_log st' = s_log st ++ [EvSolution (s_solution st)] /\ s_solution st' = [] /\ s_ignore st' = s_ignore st) as K.
    { intros st' [->| ->]; cbn [s_log s_solution s_ignore put with_nsolns]; (split; [|auto]); exists (outs ++ [t]), (fs ++ [t]); constructor; rewrite ?Ec, ?Eu in *;
      cbn [s_log s_solution s_ignore s_canon s_nsolns s_status s_printed s_out s_noncanon put with_nsolns orb] in *; rewrite ?A1, ?A2, ?A3, ?A4, ?A5, ?A8, ?sol_app, ?stat_app, ?A6, ?A7 in *;
      rewrite ?Hev in *; cbn [solutions statuses flat_map andb app] in *; rewrite ?app_nil_r in *; auto; try congruence. }
    apply K. match goal with |- context [if ?b then _ else _] => destruct b end; auto.
Qed.

(** a status line *)
Lemma with_commas_sols : forall o l b, solutions (with_commas o b l) = l /\ statuses (with_commas o b l) = [].
Proof.
  induction l as [|t l IH]; intros b; cbn; [auto|]. destruct (IH false) as [A B].
  destruct (negb (str_eqb (o_comma o) []) && negb b); cbn; fold (solutions (with_commas o false l)); fold (statuses (with_commas o false l)); rewrite A, B; auto.
Qed.
Lemma texts_in : forall evs t, In t (ev_texts evs) <-> In (EvSolution t) evs.
Proof.
  intros evs t. unfold ev_texts. rewrite in_flat_map. split.
  - intros ([u|s] & H & K); [|destruct K]. destruct K as [->|[]]. exact H.
  - intros H. exists (EvSolution t). split; [exact H|left; reflexivity].
Qed.
Lemma outs_in : forall e evs outs, List.map Some outs = List.map (e_output e) (ev_texts evs) ->
  forall x, In x outs <-> exists t, In (EvSolution t) evs /\ e_output e t = Some x.
Proof.
  intros e evs outs H x. split.
  - intros K. apply (in_map Some) in K. rewrite H, in_map_iff in K. destruct K as (t & E & K). exists t. rewrite <- texts_in. auto.
  - intros (t & K & E). apply texts_in, (in_map (e_output e)) in K. rewrite E, <- H, in_map_iff in K. destruct K as (y & [= ->] & K). exact K.
Qed.
Lemma status_step : forall o e s st, inv o e st -> s <> SAT ->
  inv o e (eval_status o s st) /\ s_log (eval_status o s st) = s_log st ++ [EvStatus s] /\
  s_solution (eval_status o s st) = s_solution st /\ s_ignore (eval_status o s st) = s_ignore st.
Proof.
  intros o e s st (outs & fs & [H1 H2 H3 H4 H5 H6 H7 H8 H9]) Hs. unfold eval_status.
  assert (ev_texts (s_log st ++ [EvStatus s]) = ev_texts (s_log st)) as Ht by (rewrite evtx_app; apply app_nil_r).
  destruct (with_commas_sols o (s_canon st) true) as [C1 C2].
  destruct (o_canon o) eqn:Ec; cbn [s_log s_solution s_ignore put with_printed with_status logged s_canon]; (split; [|auto]); exists outs, fs; constructor;
    cbn [s_log s_canon s_nsolns s_status s_printed s_out s_noncanon put with_printed with_status logged];
    rewrite ?Ht, ?Ec, ?stat_app, ?sol_app, ?C1, ?C2, ?evst_app, ?map_app; cbn [ev_status List.map]; rewrite ?last_snoc, ?app_nil_r; try assumption; try reflexivity; try congruence.
  - rewrite H4. reflexivity.
  - destruct (ev_statuses (s_log st)); reflexivity.
  - cbn. rewrite ?app_nil_r. apply cp_status; [exact H7|rewrite orb_true_r in H9; apply H9|].
    rewrite orb_true_r in H9. intros x. rewrite (proj2 H9). apply outs_in. exact H1.
  - rewrite H4. reflexivity.
  - destruct (ev_statuses (s_log st)); reflexivity.
Qed.

(** one complete line *)
Lemma line_step : forall o e l st st', inv o e st -> s_ignore st <= 0 -> complete_line o e l st = Going st' ->
  inv o e st' /\ s_ignore st' <= 0 /\
  exists evs, s_log st' = s_log st ++ evs /\ 
    forall ls evs' q, reads (s_solution st') ls evs' q -> reads (s_solution st) (strip_cr l :: ls) (evs ++ evs') q.
Proof.
  intros o e l st st' I Hi H. unfold complete_line in H.
  destruct (Z.ltb_spec 0 (s_ignore st)) as [|_]; [lia|].
  destruct (assoc (strip_cr l) input_map) as [s|] eqn:Ea.
  - apply assoc_message in Ea. destruct (flush_statistics e st) as [s1|s1] eqn:Ef; cbn [obind] in H; [|discriminate].
    destruct (flush_quiet _ _ _ Ef) as (Q & E1 & E2).
    assert (inv o e s1) as I1 by (destruct I as (outs & fs & I); exists outs, fs; eapply inv_quiet; eassumption).
    assert (s_log s1 = s_log st) as El by apply Q.
    assert (forall s', s' <> SAT -> std_message s' = Some (strip_cr l) -> Going (eval_status o s' s1) = Going st' ->
      inv o e st' /\ s_ignore st' <= 0 /\ exists evs, s_log st' = s_log st ++ evs /\ 
      forall ls evs' q, reads (s_solution st') ls evs' q -> reads (s_solution st) (strip_cr l :: ls) (evs ++ evs') q) as S.
    { intros s' Hs Em [= <-]. destruct (status_step o e s' s1 I1 Hs) as (A & B & C & D). split; [exact A|]. split; [lia|].
      exists [EvStatus s']. rewrite B, El, C, E1. split; [reflexivity|]. intros. apply reads_status; assumption. }
    destruct s; try (apply (S _) in H; [exact H|discriminate|exact Ea]).
    destruct (parse_assignments e s1) as [s2|s2] eqn:Ep; cbn [obind] in H; [|discriminate].
    destruct (sol_step o e s1 s2 st' I1 Ep H) as (A & B & C & D). split; [exact A|]. split; [lia|].
    exists [EvSolution (s_solution s1)]. rewrite B, El, C, E1. split; [reflexivity|]. intros. apply reads_solution; assumption.
  - assert (quiet st (with_solution (s_solution st ++ strip_cr l ++ [NL]) st)) as Q0 by (repeat split).
    assert (quiet st st' /\ s_solution st' = s_solution st ++ strip_cr l ++ [NL] /\ s_ignore st' = s_ignore st) as (Q & E1 & E2).
    { destruct (o_comments o); [|injection H as <-; auto]. destruct (first_nonspace (strip_cr l)) as [c|]; [|injection H as <-; auto].
      destruct (c =? 37); [|injection H as <-; auto].
      destruct (comment_quiet _ _ _ _ _ H) as (Q & E1 & E2). split; [exact (quiet_trans _ _ _ Q0 Q)|]. rewrite E1, E2. auto. }
    split; [destruct I as (outs & fs & I); exists outs, fs; eapply inv_quiet; eassumption|]. split; [lia|].
    exists []. rewrite app_nil_r. split; [apply Q|]. intros ls evs' q R. apply reads_text; [apply assoc_text; exact Ea|].
    rewrite E1 in R. exact R.
Qed.

Lemma lines_run : forall o e ls st st', inv o e st -> s_ignore st <= 0 -> s_part st = [] -> feed_lines o e ls st = Going st' ->
  inv o e st' /\ s_part st' = [] /\
  exists evs, s_log st' = s_log st ++ evs /\ reads (s_solution st) (List.map strip_cr ls) evs (s_solution st').
Proof.
  induction ls as [|l ls IH]; intros st st' I Hi Hp H; cbn [feed_lines] in H.
  - injection H as <-. split; [exact I|]. split; [exact Hp|]. exists []. rewrite app_nil_r. split; [reflexivity|constructor].
  - rewrite Hp in H. cbn [app] in H. assert (with_part [] st = st) as Ew by (rewrite <- Hp; apply wp_self). rewrite Ew in H.
    destruct (complete_line o e l st) as [s1|s1] eqn:E; cbn [obind] in H; [|discriminate].
    destruct (line_step _ _ _ _ _ I Hi E) as (I1 & Hi1 & evs & El & R).
    assert (s_part s1 = []) as Hp1 by (rewrite <- Hp; pose proof (line_keeps_part o e l st) as K; rewrite E in K; exact K).
    destruct (IH _ _ I1 Hi1 Hp1 H) as (I2 & Hp2 & evs2 & El2 & R2).
    split; [exact I2|]. split; [exact Hp2|]. exists (evs ++ evs2). rewrite El2, El, app_assoc. split; [reflexivity|].
    apply R. exact R2.
Qed.

Lemma ignored_lines : forall o e ls st, inv o e st -> s_part st = [] -> 0 <= s_ignore st ->
  exists st', inv o e st' /\ s_part st' = [] /\ s_log st' = s_log st /\ s_solution st' = s_solution st /\
    s_ignore st' = Z.max 0 (s_ignore st - Z.of_nat (List.length ls)) /\
    feed_lines o e (firstn (Z.to_nat (s_ignore st)) ls) st = Going st'.
Proof.
  induction ls as [|l ls IH]; intros st I Hp Hi.
  - exists st. rewrite firstn_nil. cbn. repeat split; auto; try lia.
  - destruct (Z.eq_dec (s_ignore st) 0) as [E0|N0].
    + rewrite E0. cbn. exists st. repeat split; auto.
    + replace (Z.to_nat (s_ignore st)) with (S (Z.to_nat (s_ignore st - 1))) by lia. cbn [firstn feed_lines].
      rewrite Hp. cbn [app]. assert (with_part [] st = st) as Ew by (rewrite <- Hp; apply wp_self). rewrite Ew.
      assert (complete_line o e l st = Going (with_ignore (s_ignore st - 1) st)) as ->.
      { unfold complete_line. destruct (Z.ltb_spec 0 (s_ignore st)); [reflexivity|lia]. }
      cbn [obind]. destruct (IH (with_ignore (s_ignore st - 1) st)) as (st' & A & B & C & D & F & G).
      * destruct I as (outs & fs & []). exists outs, fs. constructor; assumption.
      * exact Hp.
      * cbn. lia.
      * exists st'. cbn [s_ignore with_ignore s_log s_solution] in *. repeat split; auto. rewrite F. cbn [List.length]. lia.
Qed.

Lemma stream_run : forall o e cs ls r st', List.concat cs = terminated ls ++ r -> Forall is_line ls -> is_line r -> 0 <= o_ignore o ->
  feed_all o e cs (s2o_init o) = Going st' ->
  inv o e st' /\ s_part st' = r /\ (s_raw st' = if o_raw o then List.concat cs else []) /\
  reads [] (List.map strip_cr (skipn (Z.to_nat (o_ignore o)) ls)) (s_log st') (s_solution st').
Proof.
  intros o e cs ls r st' Ec Fl Fr Hi H.
  assert (no_nul (List.concat cs)) as Hn.
  { rewrite Ec. apply no_nul_app. split; [|apply Fr]. clear - Fl. induction Fl as [|l ls [_ H] F IH]; cbn; [intros []|].
    apply no_nul_app. split; [|exact IH]. apply no_nul_app. split; [exact H|]. intros [K|[]]. discriminate. }
  pose proof (feed_all_concat o e cs (s2o_init o) Hn) as S. rewrite H in S. rewrite (feed_eq _ _ _ _ Hn), Ec in S.
  rewrite split_lines_terminated in S; [|exact Fl|apply Fr]. rewrite <- Ec in S.
  assert (feed_lines o e ls (s2o_init o) = obind (feed_lines o e (firstn (Z.to_nat (o_ignore o)) ls) (s2o_init o)) (feed_lines o e (skipn (Z.to_nat (o_ignore o)) ls))) as E
    by (rewrite <- feed_lines_app, firstn_skipn; reflexivity).
  destruct (ignored_lines o e ls (s2o_init o) (inv_init o e) eq_refl Hi) as (s1 & I1 & P1 & L1 & S1 & N1 & F1).
  cbn [s_ignore s2o_init] in F1. rewrite F1 in E. cbn [obind] in E. rewrite E in S.
  destruct (feed_lines o e (skipn (Z.to_nat (o_ignore o)) ls) s1) as [s2|s2] eqn:E2; cbn [obind] in S; [|destruct S].
  cbn [same_result] in S. subst st'.
  assert (skipn (Z.to_nat (o_ignore o)) ls = [] \/ s_ignore s1 <= 0) as [K|K].
  { destruct (Nat.le_gt_cases (List.length ls) (Z.to_nat (o_ignore o))) as [L|L]; [left; apply skipn_all2; exact L|right].
    rewrite N1. cbn [s_ignore s2o_init]. lia. }
  - rewrite K in *. cbn in E2. injection E2 as <-. cbn [List.map s_log s_solution s_part s_raw put_raw with_part].
    rewrite P1. split; [|split; [reflexivity|split]].
    + destruct I1 as (outs & fs & []). exists outs, fs. constructor; assumption.
    + rewrite (lines_keep_raw _ _ _ _ _ F1). reflexivity.
    + rewrite L1, S1. cbn. constructor.
  - destruct (lines_run _ _ _ _ _ I1 K P1 E2) as (I2 & P2 & evs & L2 & R2).
    cbn [List.map s_log s_solution s_part s_raw put_raw with_part]. rewrite P2. split; [|split; [reflexivity|split]].
    + destruct I2 as (outs & fs & []). exists outs, fs. constructor; assumption.
    + rewrite (lines_keep_raw _ _ _ _ _ E2), (lines_keep_raw _ _ _ _ _ F1). reflexivity.
    + rewrite L2, L1. rewrite S1 in R2. exact R2.
Qed.
