Require Import ZArith List Bool Lia ZifyBool.
From Verif Require Import Base IntValModel IntValSpec IntValProofs.
Open Scope Z_scope.

Lemma fits64b_iff : forall z, fits64b z = true <-> fits64 z.
Proof. unfold fits64b, fits64; intros; lia. Qed.

Lemma outcome_split : forall (b : bool) z (P : Prop) r, (b = true <-> P) -> (P -> fits64 z) -> r = outcome b z ->
  (P -> exists v, r = Ok v /\ is_int v z) /\ (~ P -> r = Err ArithmeticError).
Proof.
  intros b z P r Hb Hz ->. unfold outcome. split; intros H.
  - apply Hb in H as Hb'. rewrite Hb'. eexists; split; [reflexivity|]. apply is_int_ofZ; auto.
  - destruct b; [exfalso; apply H; apply Hb; reflexivity|reflexivity].
Qed.

Lemma C01_add_l : forall x y a b, is_int x a -> is_int y b ->
  (fits64 (a + b) -> exists r, iv_add x y = Ok r /\ is_int r (a + b)) /\
  (~ fits64 (a + b) -> iv_add x y = Err ArithmeticError).
Proof.
  intros. eapply outcome_split; [apply fits64b_iff|auto|apply iv_add_spec; assumption].
Qed.
Lemma C01_sub_l : forall x y a b, is_int x a -> is_int y b ->
  (fits64 (a - b) -> exists r, iv_sub x y = Ok r /\ is_int r (a - b)) /\
  (~ fits64 (a - b) -> iv_sub x y = Err ArithmeticError).
Proof.
  intros. eapply outcome_split; [apply fits64b_iff|auto|apply iv_sub_spec; assumption].
Qed.
Lemma C01_neg_l : forall x a, is_int x a ->
  (fits64 (- a) -> exists r, iv_neg x = Ok r /\ is_int r (- a)) /\
  (~ fits64 (- a) -> iv_neg x = Err ArithmeticError).
Proof.
  intros. eapply outcome_split; [apply fits64b_iff|auto|apply iv_neg_spec; assumption].
Qed.

Lemma rem_fits : forall a b, fits64 b -> b <> 0 -> fits64 (Z.rem a b).
Proof.
  intros a b Hb N.
  assert (Z.abs (Z.rem a b) < Z.abs b).
  { rewrite <- Z.rem_abs by lia. apply Z.rem_bound_pos; lia. }
  unfold fits64, LLONG_MIN, LLONG_MAX in *; lia.
Qed.

Lemma C01_mod_l : forall x y a b, is_int x a -> is_int y b ->
  (b <> 0 -> exists r, iv_mod x y = Ok r /\ is_int r (a - b * Z.quot a b)) /\
  (b = 0 -> iv_mod x y = Err ArithmeticError).
Proof.
  intros x y a b Hx Hy. rewrite (iv_mod_spec x y a b Hx Hy). unfold outcome. split; intros H.
  - replace (b =? 0) with false by lia. eexists; split; [reflexivity|].
    replace (a - b * (a ÷ b)) with (Z.rem a b) by (pose proof (Z.quot_rem' a b); lia).
    apply is_int_ofZ, rem_fits; [|assumption]. apply is_int_iff in Hy. tauto.
  - subst. reflexivity.
Qed.

Lemma C01_assign_l : forall x y, 
  add_assign x y = iv_add x y /\ sub_assign x y = iv_sub x y /\
  iv_incr x = iv_add x (ofZ 1) /\ iv_decr x = iv_sub x (ofZ 1).
Proof.
  intros [v i] [w j]. repeat split; unfold iv_incr, iv_decr, iv_add, iv_sub, finite2; destruct i; reflexivity.
Qed.

Lemma C01_abs_l : forall x a, is_int x a ->
  (fits64 (Z.abs a) -> exists r, iv_abs x = Ok r /\ is_int r (Z.abs a)) /\
  (~ fits64 (Z.abs a) -> iv_abs x = Err ArithmeticError).
Proof.
  intros x a H. unfold iv_abs. pose proof H as H0. apply is_int_iff in H0. destruct H0 as [-> F].
  change (negb (isFinite (ofZ a))) with false. cbv iota.
  change (iv_lt (ofZ a) (ofZ 0)) with (a <? 0).
  destruct (a <? 0) eqn:E.
  - replace (Z.abs a) with (- a) by lia. apply C01_neg_l; assumption.
  - replace (Z.abs a) with a by lia. split; [intros; eexists; split; [reflexivity|assumption]|contradiction].
Qed.

Lemma C51_mul_never_wraps_l : forall x y a b r, is_int x a -> is_int y b ->
  iv_mul x y = Ok r -> is_int r (a * b).
Proof.
  intros x y a b r Hx Hy. apply is_int_iff in Hx, Hy. destruct Hx as [-> Hx], Hy as [-> Hy].
  intros H. unfold iv_mul in H. cbn [ofZ iv_v iv_inf isFinite negb] in H.
  destruct (Z.eq_dec b 0) as [->|N0].
  { cbn in H. inversion H; subst. rewrite Z.mul_0_r. reflexivity. }
  destruct (Z.eq_dec a LLONG_MIN) as [->|Na].
  { rewrite (proj2 (safeMult_ub LLONG_MIN b Hx Hy)) in H; [discriminate|tauto]. }
  destruct (Z.eq_dec b LLONG_MIN) as [->|Nb].
  { rewrite (proj2 (safeMult_ub a LLONG_MIN Hx Hy)) in H; [discriminate|tauto]. }
  rewrite safeMult_spec in H by assumption.
  destruct (_ <=? _) eqn:E; cbn in H; [|discriminate]. inversion H; subst.
  apply is_int_ofZ. unfold fits64, LLONG_MIN, LLONG_MAX in *; lia.
Qed.

Lemma C51_mul_l : forall x y a b, is_int x a -> is_int y b ->
  a <> LLONG_MIN -> b <> LLONG_MIN ->
  (LLONG_MIN < a * b <= LLONG_MAX -> exists r, iv_mul x y = Ok r /\ is_int r (a * b)) /\
  (~ (LLONG_MIN < a * b <= LLONG_MAX) -> iv_mul x y = Err ArithmeticError).
Proof.
  intros x y a b Hx Hy Na Nb. eapply outcome_split; [|  |apply iv_mul_spec; assumption].
  - unfold LLONG_MIN, LLONG_MAX; lia.
  - unfold fits64; lia.
Qed.

Lemma C51_div_l : forall x y a b, is_int x a -> is_int y b ->
  ~ (a = LLONG_MIN /\ (b = 1 \/ b = -1)) ->
  (b <> 0 -> exists r, iv_div x y = Ok r /\ is_int r (Z.quot a b)) /\
  (b = 0 -> iv_div x y = Err ArithmeticError).
Proof.
  intros x y a b Hx Hy N. rewrite (iv_div_spec x y a b Hx Hy) by (intros ->; lia).
  unfold outcome. split; intros H; [|subst; reflexivity].
  replace (b =? 0) with false by lia. eexists; split; [reflexivity|].
  apply is_int_ofZ. apply is_int_iff in Hx, Hy. destruct Hx as [_ Hx], Hy as [_ Hy].
  assert (A : Z.abs (Z.quot a b) * Z.abs b <= Z.abs a).
  { pose proof (Z.mul_quot_le (Z.abs a) (Z.abs b) ltac:(lia) ltac:(lia)).
    rewrite <- Z.quot_abs by lia. lia. }
  unfold fits64, LLONG_MIN, LLONG_MAX in *.
  destruct (Z.eq_dec (Z.abs b) 1).
  - assert (Z.abs (a ÷ b) <= Z.abs a) by nia.
    assert (b = 1 \/ b = -1) as [->| ->] by lia; lia.
  - assert (Z.abs (a ÷ b) * 2 <= Z.abs a) by nia. lia.
Qed.

Lemma C51_div_never_wrong_l : forall x y a b r, is_int x a -> is_int y b ->
  iv_div x y = Ok r -> b <> 0 /\ is_int r (Z.quot a b).
Proof.
  intros x y a b r Hx Hy H.
  destruct (Z.eq_dec a LLONG_MIN) as [Ea|Ea].
  - destruct (Z.eq_dec b 1) as [E1|E1]; [|destruct (Z.eq_dec b (-1)) as [E2|E2]].
    + apply is_int_iff in Hx, Hy. destruct Hx as [-> Hx], Hy as [-> Hy]. subst.
      vm_compute in H. discriminate.
    + apply is_int_iff in Hx, Hy. destruct Hx as [-> Hx], Hy as [-> Hy]. subst.
      vm_compute in H. discriminate.
    + destruct (C51_div_l x y a b Hx Hy) as [P Q]; [lia|].
      destruct (Z.eq_dec b 0) as [E0|E0]; [rewrite (Q E0) in H; discriminate|].
      split; [assumption|]. destruct (P E0) as (r' & R1 & R2). rewrite R1 in H. inversion H; subst; assumption.
  - destruct (C51_div_l x y a b Hx Hy) as [P Q]; [tauto|].
    destruct (Z.eq_dec b 0) as [E0|E0]; [rewrite (Q E0) in H; discriminate|].
    split; [assumption|]. destruct (P E0) as (r' & R1 & R2). rewrite R1 in H. inversion H; subst; assumption.
Qed.

Lemma C51_mul_ub_l : forall x y a b, is_int x a -> is_int y b ->
  (iv_mul x y = UB <-> b <> 0 /\ (a = LLONG_MIN \/ b = LLONG_MIN)).
Proof.
  intros x y a b Hx Hy. apply is_int_iff in Hx, Hy. destruct Hx as [-> Hx], Hy as [-> Hy].
  unfold iv_mul. cbn [ofZ iv_v iv_inf isFinite negb].
  rewrite <- (safeMult_ub a b Hx Hy). destruct (safeMult a b); cbn; split; intros; try discriminate; reflexivity.
Qed.

Lemma C51_div_refuted_l : exists x y, is_int x LLONG_MIN /\ is_int y 1 /\ iv_div x y = UB.
Proof. exists (ofZ LLONG_MIN), (ofZ 1). vm_compute. repeat split. Qed.

Lemma C02_comparisons_l : forall x y a b,
  denote x = Some a -> denote y = Some b ->
  (iv_le x y = true <-> ext_le a b) /\
  (iv_lt x y = true <-> ext_lt a b) /\
  (iv_ge x y = true <-> ext_le b a) /\
  (iv_gt x y = true <-> ext_lt b a) /\
  (iv_eq x y = true <-> a = b) /\
  (iv_ne x y = true <-> a <> b).
Proof.
  assert (EQ : forall x y a b, denote x = Some a -> denote y = Some b -> (iv_eq x y = true <-> a = b)).
  { intros x y a b Hx Hy. rewrite iv_eq_iff. split; intros; subst.
    - congruence.
    - eapply denote_inj; eassumption. }
  assert (LT : forall x y a b, denote x = Some a -> denote y = Some b -> (iv_lt x y = true <-> ext_lt a b)).
  { intros x y a b Hx Hy. rewrite iv_lt_le; try (apply wf_wfv; eexists; eassumption).
    rewrite andb_true_iff, negb_true_iff. rewrite (iv_le_denote x y a b Hx Hy).
    unfold ext_lt. rewrite <- (EQ x y a b Hx Hy). destruct (iv_eq x y); intuition congruence. }
  intros x y a b Hx Hy.
  split; [apply iv_le_denote; assumption|].
  split; [apply LT; assumption|].
  split; [unfold iv_ge; apply iv_le_denote; assumption|].
  split; [unfold iv_gt; apply (LT y x b a Hy Hx)|].
  split; [apply EQ; assumption|].
  unfold iv_ne. rewrite negb_true_iff. rewrite <- (EQ x y a b Hx Hy).
  destruct (iv_eq x y); intuition congruence.
Qed.

Lemma C02_total_order_l : forall x y z, wf x -> wf y -> wf z ->
  iv_le x x = true /\
  (iv_le x y = true -> iv_le y x = true -> x = y) /\
  (iv_le x y = true -> iv_le y z = true -> iv_le x z = true) /\
  (iv_le x y = true \/ iv_le y x = true) /\
  iv_lt x y = negb (iv_le y x).
Proof.
  intros x y z Hx Hy Hz. apply wf_wfv in Hx, Hy, Hz.
  rewrite !(iv_le_key BIG), (iv_lt_key BIG) by (assumption || lia).
  repeat split; try lia. intros. apply (key_inj BIG); (assumption || lia).
Qed.

Lemma C02_min_max_l : forall x y, wf x -> wf y ->
  (iv_min x y = x \/ iv_min x y = y) /\ (iv_max x y = x \/ iv_max x y = y) /\
  iv_le (iv_min x y) x = true /\ iv_le (iv_min x y) y = true /\
  iv_le x (iv_max x y) = true /\ iv_le y (iv_max x y) = true.
Proof.
  intros x y Hx Hy. apply wf_wfv in Hx, Hy. unfold iv_min, iv_max.
  rewrite !(iv_lt_key BIG) by (assumption || lia).
  destruct (key BIG y <? key BIG x) eqn:E1; destruct (key BIG x <? key BIG y) eqn:E2;
  rewrite !(iv_le_key BIG) by (assumption || lia); repeat split; auto; lia.
Qed.

Lemma C03_pow_l : forall x e a b, is_int x a -> is_int e b ->
  a <> LLONG_MIN -> 0 <= b <= INT_MAX ->
  (Z.abs (a ^ b) <= LLONG_MAX -> exists r, iv_pow x e = Ok r /\ is_int r (a ^ b)) /\
  (LLONG_MAX < Z.abs (a ^ b) -> iv_pow x e = Err ArithmeticError).
Proof.
  intros x e a b Hx He Na Hb. rewrite (iv_pow_spec x e a b) by (assumption || lia).
  unfold outcome. split; intros H.
  - replace (_ <=? _) with true by lia. eexists; split; [reflexivity|]. apply is_int_ofZ.
    unfold fits64, LLONG_MIN, LLONG_MAX in *; lia.
  - replace (_ <=? _) with false by lia. reflexivity.
Qed.

Lemma C03_pow_large_l : forall x e a b, is_int x a -> is_int e b ->
  a <> LLONG_MIN -> 2 <= Z.abs a -> INT_MAX < b -> iv_pow x e = Err ArithmeticError.
Proof.
  intros x e a b Hx He Na Ha Hb. unfold INT_MAX in Hb.
  rewrite (iv_pow_spec x e a b) by (assumption || lia).
  pose proof (pow2_big a (Z.to_nat b) Ha ltac:(lia)) as P. rewrite Z2Nat.id in P by lia.
  unfold outcome. replace (_ <=? _) with false by lia. reflexivity.
Qed.

Lemma C03_pow_neg_l : forall x e a b, is_int x a -> is_int e b -> b < 0 ->
  (a = 0 -> iv_pow x e = Err ArithmeticError) /\
  (a <> 0 -> exists r, iv_pow x e = Ok r /\ is_int r (Z.quot 1 (a ^ (- b)))).
Proof.
  intros x e a b Hx He Hb. rewrite (iv_pow_neg x e a b Hx He Hb). split; intros H.
  - subst; reflexivity.
  - replace (a =? 0) with false by lia.
    destruct (a =? 1) eqn:E1.
    { assert (a = 1) by lia; subst. eexists; split; [reflexivity|]. rewrite Z.pow_1_l by lia. reflexivity. }
    destruct (a =? -1) eqn:E2.
    { assert (a = -1) by lia; subst. eexists; split; [reflexivity|].
      destruct (Z.even b) eqn:E.
      - rewrite <- Z.even_opp in E. rewrite (Z.pow_even_abs (-1) (- b)); [|apply Z.even_spec; assumption].
        cbn [Z.abs]. rewrite Z.pow_1_l by lia. reflexivity.
      - rewrite <- Z.even_opp in E. rewrite <- Z.negb_odd in E. apply negb_false_iff in E.
        change (-1) with (- (1)). rewrite Z.pow_opp_odd by (apply Z.odd_spec; assumption).
        rewrite Z.pow_1_l by lia. reflexivity. }
    eexists; split; [reflexivity|].
    assert (2 <= Z.abs (a ^ (- b))).
    { rewrite Z.abs_pow. apply Z.le_trans with (2 ^ 1); [lia|].
      apply Z.le_trans with (2 ^ (- b)); [apply Z.pow_le_mono_r; lia|apply Z.pow_le_mono_l; lia]. }
    assert (Q : Z.quot 1 (a ^ (- b)) = 0).
    { apply Z.abs_0_iff. rewrite <- Z.quot_abs by lia. apply Z.quot_small. lia. }
    rewrite Q. reflexivity.
Qed.

Lemma C03_pow_refuted_l : exists x e, is_int x 1 /\ is_int e (INT_MAX + 1) /\ iv_pow x e = UB.
Proof.
  exists (ofZ 1), (ofZ (INT_MAX + 1)). split; [reflexivity|]. split; [reflexivity|].
  unfold iv_pow. change (negb (isFinite (ofZ (INT_MAX + 1))) || negb (isFinite (ofZ 1))) with false.
  change (iv_eq (ofZ (INT_MAX + 1)) (ofZ 0)) with false.
  change (iv_eq (ofZ (INT_MAX + 1)) (ofZ 1)) with false.
  change (iv_v (ofZ (INT_MAX + 1)) <? 0) with false. cbv iota.
  apply pow_loop_ub; [auto|auto|unfold INT_MAX; lia|].
  rewrite Z2Nat.id; cbn; unfold INT_MAX; lia.
Qed.

Lemma finite2_wf : forall x y op r, (forall z, op (iv_v x) (iv_v y) = Ok z -> fits64 z) ->
  finite2 x y op = Ok r -> wf r.
Proof.
  intros x y op r H. unfold finite2. destruct (negb _); [discriminate|].
  intros E. apply bind_ok in E. destruct E as (z & E1 & E2). inversion E2; subst.
  apply wf_wfv. unfold wfv; cbn. auto.
Qed.

Lemma safePlus_fits : forall x y z, safePlus x y = Ok z -> fits64 z.
Proof.
  unfold safePlus; intros x y z H. destruct (x <? 0); apply bind_ok in H; destruct H as (d & _ & H);
  destruct (_ : bool); try discriminate; apply ll_inv in H; destruct H; subst; assumption.
Qed.
Lemma safeMinus_fits : forall x y z, safeMinus x y = Ok z -> fits64 z.
Proof.
  unfold safeMinus; intros x y z H. destruct (x <? 0); apply bind_ok in H; destruct H as (d & _ & H);
  destruct (_ : bool); try discriminate; apply ll_inv in H; destruct H; subst; assumption.
Qed.
Lemma safeMult_fits : forall x y z, safeMult x y = Ok z -> fits64 z.
Proof.
  unfold safeMult; intros x y z H. destruct (y =? 0); [inversion H; subst; unfold fits64, LLONG_MIN, LLONG_MAX; lia|].
  apply bind_ok in H; destruct H as (d & _ & H). apply bind_ok in H; destruct H as (d' & _ & H).
  destruct (_ : bool); try discriminate; apply ll_inv in H; destruct H; subst; assumption.
Qed.
Lemma safeDiv_fits : forall x y z, safeDiv x y = Ok z -> fits64 z.
Proof.
  unfold safeDiv; intros x y z H. destruct (y =? 0); [discriminate|].
  destruct (x =? 0); [inversion H; subst; unfold fits64, LLONG_MIN, LLONG_MAX; lia|].
  destruct (_ && _); [discriminate|]. apply ll_inv in H; destruct H; subst; assumption.
Qed.
Lemma safeMod_fits : forall x y z, safeMod x y = Ok z -> fits64 z.
Proof.
  unfold safeMod; intros x y z H. destruct (y =? 0); [discriminate|].
  destruct (y =? -1); [inversion H; subst; unfold fits64, LLONG_MIN, LLONG_MAX; lia|].
  unfold ll_rem in H. destruct ((x =? LLONG_MIN) && (y =? -1))%bool; [discriminate|].
  apply ll_inv in H; destruct H; subst; assumption.
Qed.

Lemma wf_ofZ : forall z, fits64 z -> wf (ofZ z).
Proof. intros; eexists; apply is_int_ofZ; assumption. Qed.

Lemma iv_neg_wf : forall x r, wf x -> iv_neg x = Ok r -> wf r.
Proof.
  intros [v i] r Hx H. apply wf_wfv in Hx. unfold iv_neg in H. apply bind_ok in H.
  destruct H as (z & E & H). inversion H; subst. apply wf_wfv. unfold wfv in *; cbn [iv_v iv_inf] in *.
  destruct i.
  - destruct Hx; subst; vm_compute in E; inversion E; subst; auto.
  - eapply safeMinus_fits; eassumption.
Qed.

Lemma pow_loop_wf : forall rem i r b z, wf r -> pow_loop rem i r b = Ok z -> wf z.
Proof.
  induction rem as [|rem IH]; intros i r b z Hr H; cbn in H.
  - inversion H; subst; assumption.
  - apply bind_ok in H. destruct H as (r' & E & H). destruct (i =? INT_MAX); [discriminate|].
    eapply IH; [|eassumption]. eapply finite2_wf; [|exact E]. intros; eapply safeMult_fits; eassumption.
Qed.

Lemma C04_wf_l : forall x y n r, wf x -> wf y -> fits64 n ->
  iv_add x y = Ok r \/ iv_sub x y = Ok r \/ iv_div x y = Ok r \/ iv_mod x y = Ok r \/
  iv_neg x = Ok r \/ iv_abs x = Ok r \/ iv_plus x n = Ok r \/ iv_minus x n = Ok r \/
  iv_incr x = Ok r \/ iv_decr x = Ok r \/ iv_pow x y = Ok r -> wf r.
Proof.
  intros x y n r Hx Hy Hn H.
  destruct H as [H|[H|[H|[H|[H|[H|[H|[H|[H|[H|H]]]]]]]]]].
  - eapply finite2_wf; [|exact H]; intros; eapply safePlus_fits; eassumption.
  - eapply finite2_wf; [|exact H]; intros; eapply safeMinus_fits; eassumption.
  - unfold iv_div in H. destruct (_ && _) eqn:E.
    + apply bind_ok in H. destruct H as (z & Z1 & Z2). inversion Z2; subst.
      apply wf_wfv. unfold wfv. destruct x as [v i]; cbn [iv_v iv_inf isFinite negb] in *. destruct i; cbn [negb isFinite iv_v iv_inf].
      * apply wf_wfv in Hx. unfold wfv in Hx; cbn in Hx. cbn. apply safeMult_ok_inv in Z1.
        apply andb_true_iff in E. destruct E as [_ E].
        assert (iv_v y = 1 \/ iv_v y = -1) as [Y|Y] by lia; rewrite Y in Z1; clear - Hx Z1; lia.
      * eapply safeMult_fits; eassumption.
    + eapply finite2_wf; [|exact H]; intros; eapply safeDiv_fits; eassumption.
  - eapply finite2_wf; [|exact H]; intros; eapply safeMod_fits; eassumption.
  - eapply iv_neg_wf; [|exact H]; assumption.
  - unfold iv_abs in H. destruct (negb (isFinite x)); [inversion H; subst; eexists; reflexivity|].
    destruct (iv_lt x (ofZ 0)); [eapply iv_neg_wf; [|exact H]; assumption|inversion H; subst; assumption].
  - unfold iv_plus in H. destruct (isFinite x); [|inversion H; subst; assumption].
    apply bind_ok in H. destruct H as (z & Z1 & Z2). inversion Z2; subst. apply wf_ofZ. eapply safePlus_fits; eassumption.
  - unfold iv_minus in H. destruct (isFinite x); [|inversion H; subst; assumption].
    apply bind_ok in H. destruct H as (z & Z1 & Z2). inversion Z2; subst. apply wf_ofZ. eapply safeMinus_fits; eassumption.
  - unfold iv_incr in H. destruct (negb _); [discriminate|].
    apply bind_ok in H. destruct H as (z & Z1 & Z2). inversion Z2; subst. apply wf_ofZ. eapply safePlus_fits; eassumption.
  - unfold iv_decr in H. destruct (negb _); [discriminate|].
    apply bind_ok in H. destruct H as (z & Z1 & Z2). inversion Z2; subst. apply wf_ofZ. eapply safeMinus_fits; eassumption.
  - unfold iv_pow in H. destruct (_ || _); [discriminate|].
    assert (W1 : wf (ofZ 1)) by (eexists; reflexivity).
    destruct (iv_eq y (ofZ 0)); [inversion H; subst; assumption|].
    destruct (iv_eq y (ofZ 1)); [inversion H; subst; assumption|].
    destruct (iv_v y <? 0).
    + destruct (iv_eq x (ofZ 0)); [discriminate|].
      destruct (iv_eq x (ofZ 1)); [inversion H; subst; assumption|].
      destruct (iv_eq x (ofZ (-1))); [|inversion H; subst; eexists; reflexivity].
      apply bind_ok in H. destruct H as (z & Z1 & Z2). inversion Z2; subst.
      destruct (iv_eq z (ofZ 0)); eexists; reflexivity.
    + eapply pow_loop_wf; [|exact H]. assumption.
Qed.

Lemma C04_neg_inf_l : iv_neg iv_infinity = Ok (mkIV (-1) true) /\
  denote (mkIV (-1) true) = Some MInf /\ denote iv_infinity = Some PInf /\
  iv_neg (mkIV (-1) true) = Ok iv_infinity.
Proof. vm_compute. repeat split. Qed.

Lemma denote_inf : forall x, denote x = Some PInf \/ denote x = Some MInf -> iv_inf x = true.
Proof.
  intros [v i] H; unfold denote in H; cbn in *. destruct i; [reflexivity|].
  destruct (_ && _); destruct H; discriminate.
Qed.

Lemma C04_plus_l : forall x n, denote x = Some PInf \/ denote x = Some MInf ->
  iv_plus x n = Ok x /\ iv_minus x n = Ok x.
Proof.
  intros x n H. apply denote_inf in H. unfold iv_plus, iv_minus, isFinite. rewrite H. split; reflexivity.
Qed.

Lemma C04_mul_left_l : forall x y a b r, denote x = Some a -> denote y = Some b ->
  (a = PInf \/ a = MInf) -> iv_mul x y = Ok r ->
  exists s, (s = 1 \/ s = -1) /\ b = Fin s /\
            denote r = Some (if s =? 1 then a else match a with PInf => MInf | _ => PInf end).
Proof.
  intros x y a b r Hx Hy Ha H.
  assert (I : iv_inf x = true) by (apply denote_inf; destruct Ha; subst; auto).
  unfold iv_mul, isFinite in H. rewrite I in H. cbn [negb] in H.
  destruct y as [w j]; cbn in H. destruct j; cbn in H; [discriminate|].
  destruct ((w =? 1) || (w =? -1)) eqn:E; [|discriminate].
  destruct x as [v i]; cbn in *; subst i.
  unfold denote in *; cbn in *.
  destruct (_ && _) eqn:Ew in Hy; [|discriminate]. inversion Hy; subst.
  exists w. split; [lia|]. split; [reflexivity|].
  apply bind_ok in H. destruct H as (z & Z1 & Z2). inversion Z2; subst. cbn.
  apply safeMult_ok_inv in Z1.
  assert (W : w = 1 \/ w = -1) by lia.
  assert (V : v = 1 \/ v = -1) by (destruct (v =? 1) eqn:V1; [lia|destruct (v =? -1) eqn:V2; [lia|discriminate]]).
  destruct V, W; subst; cbn in *; inversion Hx; subst; reflexivity.
Qed.

Lemma C04_mul_refuted_l : exists x y r, is_int x 5 /\ denote y = Some PInf /\
  iv_mul x y = Ok r /\ ~ wf r /\ isFinite r = false /\ isPlusInfinity r = false /\ isMinusInfinity r = false.
Proof.
  exists (ofZ 5), iv_infinity, (mkIV 5 true).
  split; [reflexivity|]. split; [reflexivity|]. split; [reflexivity|]. split.
  - intros [e H]. discriminate.
  - repeat split.
Qed.
