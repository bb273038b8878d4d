(** Proofs about CmdModel. *)
Require Import ZArith List Bool Lia ZifyBool.
From Verif Require Import Base StrModel CmdModel CmdSpec.
Import ListNotations.
Open Scope Z_scope.

Ltac zb := repeat match goal with
  | H : (_ =? _) = true |- _ => apply Z.eqb_eq in H
  | H : (_ =? _) = false |- _ => apply Z.eqb_neq in H end.

Fixpoint plainb (a : str) : bool :=
  match a with
  | [] => true
  | x :: r => negb ((7 <=? x) && (x <=? 13)) && plainb r &&
      (if x =? BS then match r with [] => false | y :: _ => negb (y =? BS) && negb (y =? DQ) end else true)
  end.
Lemma plainb_ok : forall a, plainb a = true <-> plain a.
Proof.
  induction a as [|x r IH].
  - split; auto. intros _. split; [intros x []|]. intros [|? p] q H; discriminate.
  - cbn [plainb]. split.
    + intros H. apply andb_true_iff in H. destruct H as [H H3]. apply andb_true_iff in H. destruct H as [H1 H2]. apply IH in H2. destruct H2 as [A B]. split.
      * intros y [<-|Hy]; [unfold is_ctl; lia|]. auto.
      * intros [|y p] q E.
        -- injection E as -> ->. destruct q as [|y q]; [discriminate|]. exists y, q. unfold BS, DQ in H3. cbn in H3. split; auto. lia.
        -- injection E as -> E. eapply B; eauto.
    + intros [A B]. assert (P : plain r). { split; [intros y Hy; apply A; right; auto|]. intros p q ->. apply (B (x :: p) q). reflexivity. }
      apply IH in P. rewrite P. apply andb_true_iff. split; [apply andb_true_iff; split; auto|].
      * specialize (A x (or_introl eq_refl)). unfold is_ctl in A. lia.
      * destruct (x =? BS) eqn:E; auto. zb. subst x. destruct (B [] r eq_refl) as (y & q & -> & N1 & N2). unfold BS, DQ. lia.
Qed.

(** the text of an argument only grows, and the finished arguments stay *)
Definition reach (st st' : cst) : Prop :=
  (c_args st' = c_args st /\ exists t, c_oss st' = c_oss st ++ t) \/ exists t r, c_args st' = c_args st ++ (c_oss st ++ t) :: r.
Lemma reach_refl : forall st, reach st st.
Proof. intros st. left. split; auto. exists []. now rewrite app_nil_r. Qed.
Lemma reach_trans : forall a b c, reach a b -> reach b c -> reach a c.
Proof.
  intros a b c [[A (t & T)]|(t & r & A)] [[B (u & U)]|(u & q & B)].
  - left. split; [congruence|]. exists (t ++ u). rewrite U, T. now rewrite app_assoc.
  - right. exists (t ++ u), q. rewrite B, A, T. now rewrite app_assoc.
  - right. exists t, r. congruence.
  - right. exists t, (r ++ (c_oss b ++ u) :: q). rewrite B, A. rewrite <- app_assoc. reflexivity.
Qed.
Lemma reach_emit : forall t st, reach st (emit t st).
Proof. intros t st. left. split; auto. exists t. reflexivity. Qed.
Lemma reach_same : forall st q e, reach st (mkC (c_args st) (c_oss st) q e).
Proof. intros. left. split; auto. exists []. cbn. now rewrite app_nil_r. Qed.
Lemma step_reach : forall st x, reach st (step st x).
Proof.
  intros st x. unfold step.
  repeat match goal with |- reach _ (if ?b then _ else _) => destruct b end; try apply reach_emit; try apply reach_same.
  right. exists [], []. cbn. now rewrite app_nil_r.
Qed.
Lemma fold_reach : forall s st, reach st (fold_left step s st).
Proof. induction s as [|x s IH]; intros st; cbn; [apply reach_refl|]. eapply reach_trans; [apply step_reach|apply IH]. Qed.
Lemma finish_prefix : forall s st, exists t r, finish (fold_left step s st) = c_args st ++ (c_oss st ++ t) :: r.
Proof.
  intros s st. unfold finish. destruct (fold_reach s st) as [[A (t & T)]|(t & r & A)].
  - exists t, []. rewrite A, T. reflexivity.
  - exists t, (r ++ [c_oss (fold_left step s st)]). rewrite A, <- app_assoc. reflexivity.
Qed.

Definition inq (c : list str) (o : str) : cst := mkC c o true false.
Definition inqe (c : list str) (o : str) : cst := mkC c o true true.
Lemma step_ord : forall c o x, x <> DQ -> x <> BS -> step (inq c o) x = inq c (o ++ [x]).
Proof. intros c o x H1 H2. unfold step, inq; cbn [c_inq c_esc]. replace (x =? DQ) with false by lia. replace (x =? BS) with false by lia. reflexivity. Qed.
Lemma step_ord_e : forall c o x, x <> DQ -> x <> BS -> step (inqe c o) x = inq c (o ++ [BS; x]).
Proof. intros c o x H1 H2. unfold step, inqe; cbn [c_inq c_esc]. replace (x =? DQ) with false by lia. replace (x =? BS) with false by lia. reflexivity. Qed.
Lemma step_bs : forall c o e, step (mkC c o true e) BS = inqe c o.
Proof. reflexivity. Qed.
Lemma step_bs0 : forall c o, step (inq c o) BS = inqe c o.
Proof. reflexivity. Qed.
Lemma step_bs_e : forall c o, step (inqe c o) BS = inqe c o.
Proof. reflexivity. Qed.
Lemma step_dq_e : forall c o, step (inqe c o) DQ = inq c (o ++ [DQ]).
Proof. reflexivity. Qed.

(** the encodings *)
Inductive kind : Z -> str -> Prop :=
| k_ctl : forall x l, is_ctl x -> l <> BS -> l <> DQ -> l <> x -> kind x [BS; l]
| k_dq : kind DQ [BS; DQ]
| k_bs : kind BS [BS; BS]
| k_ord : forall x, ~ is_ctl x -> x <> DQ -> x <> BS -> kind x [x].
Lemma enc1_kind : forall x, kind x (enc1 x).
Proof.
  intros x. unfold enc1.
  repeat match goal with |- kind _ (if ?b then _ else _) => let E := fresh in destruct b eqn:E; [zb; subst x|zb] end.
  1-7: apply k_ctl; unfold is_ctl, BS, DQ; lia.
  - apply k_dq.
  - apply k_bs.
  - apply k_ord; auto. unfold is_ctl. lia.
Qed.

(** a plain argument is read back *)
Lemma plain_read : forall a c o, plainb a = true -> fold_left step (enc a) (inq c o) = inq c (o ++ a).
Proof.
  induction a as [|x r IH]; intros c o P; [cbn; now rewrite app_nil_r|].
  cbn [plainb] in P. apply andb_true_iff in P. destruct P as [P P3]. apply andb_true_iff in P. destruct P as [P1 P2].
  change (enc (x :: r)) with (enc1 x ++ enc r). rewrite fold_left_app. destruct (enc1_kind x).
  - unfold is_ctl in H. lia.
  - cbn [fold_left]. rewrite step_bs0, step_dq_e, IH by auto. now rewrite <- app_assoc.
  - cbn [fold_left]. rewrite step_bs0, step_bs_e. rewrite Z.eqb_refl in P3. destruct r as [|y r]; [discriminate|].
    apply andb_true_iff in P3. destruct P3 as [N1 N2]. specialize (IH c (o ++ [BS]) P2). cbn [plainb] in P2. apply andb_true_iff in P2. destruct P2 as [P2 _]. apply andb_true_iff in P2. destruct P2 as [P2 _].
    change (enc (y :: r)) with (enc1 y ++ enc r) in *. rewrite fold_left_app in *.
    assert (K : enc1 y = [y]). { destruct (enc1_kind y); try reflexivity; unfold is_ctl, DQ, BS in *; lia. }
    rewrite K in *. cbn [fold_left] in *. rewrite step_ord in IH by lia. rewrite step_ord_e by lia.
    replace (o ++ BS :: y :: r) with ((o ++ [BS]) ++ y :: r) by (rewrite <- app_assoc; reflexivity). rewrite <- IH. now rewrite <- app_assoc.
  - cbn [fold_left]. rewrite step_ord, IH by auto. now rewrite <- app_assoc.
Qed.

(** an argument that is not plain is not *)
Definition differs (l : list str) (c : list str) (a : str) : Prop := forall r, l <> c ++ a :: r.
Lemma prefix_inj : forall (A : Type) (c : list A) x y r s, c ++ x :: r = c ++ y :: s -> x = y.
Proof. intros A c x y r s H. apply app_inv_head in H. now injection H. Qed.
Lemma conflict : forall s c o x t y u q e, x <> y -> differs (finish (fold_left step s (mkC c (o ++ x :: t) q e))) c (o ++ y :: u).
Proof.
  intros s c o x t y u q e N r H. destruct (finish_prefix s (mkC c (o ++ x :: t) q e)) as (t' & r' & E). rewrite E in H. cbn [c_args c_oss] in H.
  apply prefix_inj in H. rewrite <- app_assoc in H. apply app_inv_head in H. injection H. auto.
Qed.
Lemma conflict2 : forall s c o b x t y u q e, x <> y -> differs (finish (fold_left step s (mkC c (o ++ b :: x :: t) q e))) c (o ++ b :: y :: u).
Proof.
  intros s c o b x t y u q e N. replace (o ++ b :: x :: t) with ((o ++ [b]) ++ x :: t) by (rewrite <- app_assoc; reflexivity).
  replace (o ++ b :: y :: u) with ((o ++ [b]) ++ y :: u) by (rewrite <- app_assoc; reflexivity). apply conflict; auto.
Qed.
(** after a backslash: the next text is a quote, or a backslash and some other character *)
Lemma esc_run : forall r c o rest u, differs (finish (fold_left step (enc r ++ DQ :: rest) (inqe c o))) c (o ++ BS :: BS :: u).
Proof.
  induction r as [|x r IH]; intros c o rest u.
  - cbn [enc flat_map app fold_left]. rewrite step_dq_e. apply conflict. discriminate.
  - change (enc (x :: r)) with (enc1 x ++ enc r). rewrite <- app_assoc, fold_left_app. destruct (enc1_kind x); cbn [fold_left].
    + rewrite step_bs_e. rewrite step_ord_e by auto. apply conflict2; auto.
    + rewrite step_bs_e, step_dq_e. apply conflict. discriminate.
    + rewrite !step_bs_e. apply IH.
    + rewrite step_ord_e by auto. apply conflict2; auto.
Qed.
Lemma bad_read : forall a c o rest, plainb a = false -> differs (finish (fold_left step (enc a ++ DQ :: rest) (inq c o))) c (o ++ a).
Proof.
  induction a as [|x r IH]; intros c o rest P; [discriminate|].
  change (enc (x :: r)) with (enc1 x ++ enc r). rewrite <- app_assoc, fold_left_app. cbn [plainb] in P. destruct (enc1_kind x); cbn [fold_left].
  - rewrite step_bs0, step_ord_e by auto. apply conflict. unfold is_ctl, BS in *. lia.
  - rewrite step_bs0, step_dq_e. change (o ++ DQ :: r) with (o ++ [DQ] ++ r). rewrite app_assoc. apply IH.
    cbn in P. rewrite andb_true_r in P. exact P.
  - rewrite step_bs0, step_bs_e. destruct r as [|y r].
    + cbn [enc flat_map app fold_left]. rewrite step_dq_e. apply conflict. discriminate.
    + destruct (Z.eq_dec y BS) as [->|N1]; [apply esc_run|]. destruct (Z.eq_dec y DQ) as [->|N2].
      { change (enc (DQ :: r)) with ([BS; DQ] ++ enc r). rewrite <- app_assoc, fold_left_app. cbn [fold_left]. rewrite step_bs_e, step_dq_e. apply conflict. discriminate. }
      assert (P' : plainb (y :: r) = false).
      { destruct (plainb (y :: r)); auto. exfalso. rewrite Z.eqb_refl in P. replace (y =? BS) with false in P by lia. replace (y =? DQ) with false in P by lia. discriminate. }
      specialize (IH c (o ++ [BS]) rest P'). rewrite <- app_assoc in IH. change (enc (y :: r)) with (enc1 y ++ enc r) in *. rewrite <- app_assoc, fold_left_app in *.
      destruct (enc1_kind y); cbn [fold_left] in *; try congruence.
      * rewrite step_bs_e, step_ord_e by auto. apply conflict2; auto.
      * rewrite step_ord in IH by auto. rewrite step_ord_e by auto. rewrite <- app_assoc in IH. exact IH.
  - rewrite step_ord by auto. change (o ++ x :: r) with (o ++ [x] ++ r). rewrite app_assoc. apply IH.
    replace (x =? BS) with false in P by lia. rewrite andb_true_r in P. unfold is_ctl in H.
    replace ((7 <=? x) && (x <=? 13)) with false in P by lia. exact P.
Qed.

Lemma vec_read : forall v c, v <> [] -> forallb plainb v = true ->
  finish (fold_left step (combine_cmd_line v) (mkC c [] false false)) = c ++ v.
Proof.
  induction v as [|a v IH]; intros c N P; [congruence|]. cbn [forallb] in P. apply andb_true_iff in P. destruct P as [P1 P2].
  cbn [combine_cmd_line]. cbn [fold_left]. change (step (mkC c [] false false) DQ) with (inq c []). rewrite fold_left_app, plain_read by auto. cbn [app fold_left].
  change (step (inq c a) DQ) with (mkC c a false false). destruct v as [|b v]; [reflexivity|].
  cbn [fold_left]. change (step (mkC c a false false) SP) with (mkC (c ++ [a]) [] false false). rewrite IH by (auto; discriminate). now rewrite <- app_assoc.
Qed.
Lemma vec_bad : forall v c, forallb plainb v = false ->
  finish (fold_left step (combine_cmd_line v) (mkC c [] false false)) <> c ++ v.
Proof.
  induction v as [|a v IH]; intros c P; [discriminate|]. cbn [forallb] in P.
  cbn [combine_cmd_line]. cbn [fold_left]. change (step (mkC c [] false false) DQ) with (inq c []).
  destruct (plainb a) eqn:Pa.
  - cbn in P. rewrite fold_left_app, plain_read by auto. cbn [app fold_left].
    change (step (inq c a) DQ) with (mkC c a false false). destruct v as [|b v]; [discriminate|].
    cbn [fold_left]. change (step (mkC c a false false) SP) with (mkC (c ++ [a]) [] false false). intros H. apply (IH (c ++ [a]) P). rewrite H. now rewrite <- app_assoc.
  - pose proof (bad_read a c [] (match v with [] => [] | _ => SP :: combine_cmd_line v end) Pa) as D. cbn [app] in D. apply D.
Qed.
Lemma C41_l : forall v, parse_cmd_line (combine_cmd_line v) = v <-> v <> [] /\ Forall plain v.
Proof.
  intros v. assert (F : forallb plainb v = true <-> Forall plain v).
  { rewrite forallb_forall, Forall_forall. split; intros H a Ha; apply plainb_ok; auto. }
  unfold parse_cmd_line. split.
  - intros H. split; [intros ->; discriminate|]. apply F. destruct (forallb plainb v) eqn:E; auto. exfalso. exact (vec_bad v [] E H).
  - intros [N P]. apply F in P. exact (vec_read v [] N P).
Qed.
Lemma word_read : forall a c o, word a -> fold_left step a (mkC c o false false) = mkC c (o ++ a) false false.
Proof.
  induction a as [|x a IH]; intros c o W; [cbn; now rewrite app_nil_r|]. cbn [fold_left]. destruct (W x (or_introl eq_refl)) as (A & B & C).
  replace (step (mkC c o false false) x) with (mkC c (o ++ [x]) false false).
  - rewrite IH by (intros y Hy; apply W; right; auto). now rewrite <- app_assoc.
  - unfold step; cbn [c_inq c_esc]. unfold SP, BS, DQ. replace (x =? 32) with false by lia. replace (x =? 92) with false by lia. replace (x =? 34) with false by lia. reflexivity.
Qed.
Lemma C41_words_l : forall v, v <> [] -> Forall word v -> parse_cmd_line (join v) = v.
Proof.
  intros v N W. unfold parse_cmd_line. assert (G : forall c, finish (fold_left step (join v) (mkC c [] false false)) = c ++ v); [|exact (G [])].
  induction W as [|a v Wa _ IH]; [congruence|]. intros c. cbn [join]. rewrite fold_left_app, word_read by auto. cbn [app]. destruct v as [|b v]; [reflexivity|].
  cbn [fold_left]. change (step (mkC c a false false) 32) with (mkC (c ++ [a]) [] false false). rewrite IH by discriminate. now rewrite <- app_assoc.
Qed.
