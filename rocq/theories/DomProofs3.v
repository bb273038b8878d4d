Require Import ZArith List Bool Lia ZifyBool.
From Verif Require Import Base IntValModel IntValSpec IntValProofs SetModel SetSpec SetProofs SetProofs2 SetProofs3 SetPropProofs
  BsetProofs BsetProofs2 DomModel DomSpec DomProofs DomProofs2.
Import ListNotations.
Open Scope Z_scope.

(** ** Powers of integers *)
Definition pw (x e : Z) : Z := if 0 <=? e then x ^ e else Z.quot 1 (x ^ (- e)).
Lemma pow_value_pw x e : 0 <= e \/ x <> 0 -> pow_value x e = Some (pw x e).
Proof.
  intros H. unfold pow_value, pw. destruct (0 <=? e) eqn:E; [reflexivity|]. replace (x =? 0) with false by lia. reflexivity.
Qed.
Lemma pw_0 x : pw x 0 = 1.
Proof. reflexivity. Qed.
Lemma pw_pos x e : 0 <= e -> pw x e = x ^ e.
Proof. intros H. unfold pw. now replace (0 <=? e) with true by lia. Qed.
Lemma pow_even x e : 0 <= e -> Z.even e = true -> x ^ e = Z.abs x ^ e.
Proof. intros H E. apply Z.pow_even_abs. now apply Z.even_spec. Qed.
Lemma pow_odd_neg x e : 0 <= e -> Z.even e = false -> x < 0 -> x ^ e = - (- x) ^ e.
Proof.
  intros H E Hx. replace x with (- (- x)) at 1 by lia. apply Z.pow_opp_odd. apply Z.odd_spec. now rewrite <- Z.negb_even, E.
Qed.
Lemma pow_1 e : 0 <= e -> 1 ^ e = 1.
Proof. apply Z.pow_1_l. Qed.
Lemma pow_big x e : 2 <= Z.abs x -> 0 < e -> Z.quot 1 (x ^ e) = 0.
Proof.
  intros Hx He. assert (A : 2 <= Z.abs (x ^ e)).
  { rewrite Z.abs_pow. apply Z.le_trans with (2 ^ 1); [lia|].
    apply Z.le_trans with (2 ^ e); [apply Z.pow_le_mono_r; lia|apply Z.pow_le_mono_l; lia]. }
  destruct (Z_le_gt_dec 0 (x ^ e)) as [P|P].
  - apply Z.quot_small. lia.
  - replace (x ^ e) with (- (- (x ^ e))) by lia. rewrite Z.quot_opp_r by lia. rewrite Z.quot_small by lia. reflexivity.
Qed.
Lemma pw_big_neg x e : 2 <= Z.abs x -> e < 0 -> pw x e = 0.
Proof. intros Hx He. unfold pw. replace (0 <=? e) with false by lia. apply pow_big; lia. Qed.
Lemma pw_one e : pw 1 e = 1.
Proof. unfold pw. destruct (0 <=? e) eqn:E; rewrite Z.pow_1_l by lia; reflexivity. Qed.
Lemma pw_minus_one e : pw (-1) e = if Z.even e then 1 else -1.
Proof.
  unfold pw. destruct (0 <=? e) eqn:E.
  - destruct (Z.even e) eqn:V; [rewrite pow_even by (auto; lia)|rewrite pow_odd_neg by (auto; lia)]; cbn [Z.abs Z.opp]; rewrite Z.pow_1_l by lia; reflexivity.
  - destruct (Z.even e) eqn:V; [rewrite pow_even|rewrite pow_odd_neg]; try lia; try (rewrite Z.even_opp; assumption);
      cbn [Z.abs Z.opp]; rewrite Z.pow_1_l by lia; reflexivity.
Qed.
Lemma pw_zero e : 0 < e -> pw 0 e = 0.
Proof. intros H. rewrite pw_pos by lia. now apply Z.pow_0_l. Qed.
Lemma even_pred e : Z.even (e - 1) = negb (Z.even e).
Proof. rewrite Z.even_sub. cbn. destruct (Z.even e); reflexivity. Qed.

(** powers of a negative base: one sign each for even and odd exponents *)
Lemma neg_even x e : x < 0 -> 0 <= e -> Z.even e = true -> 0 < pw x e.
Proof. intros Hx He E. rewrite pw_pos, pow_even by auto. apply Z.pow_pos_nonneg; lia. Qed.
Lemma neg_odd x e : x < 0 -> 0 <= e -> Z.even e = false -> pw x e < 0.
Proof. intros Hx He E. rewrite pw_pos, pow_odd_neg by auto. assert (0 < (- x) ^ e) by (apply Z.pow_pos_nonneg; lia). lia. Qed.
Lemma mono2 a b e f : 0 < a <= b -> 0 <= e <= f -> a ^ e <= b ^ f.
Proof.
  intros H1 H2. apply Z.le_trans with (b ^ e); [apply Z.pow_le_mono_l; lia|apply Z.pow_le_mono_r; lia].
Qed.
Lemma neg_even_mono l x e f : l <= x < 0 -> 0 <= e <= f -> Z.even e = true -> Z.even f = true -> pw x e <= pw l f.
Proof. intros Hx He E F. rewrite !pw_pos, (pow_even x), (pow_even l) by (auto; lia). apply mono2; lia. Qed.
Lemma neg_odd_mono l x e f : l <= x < 0 -> 0 <= e <= f -> Z.even e = false -> Z.even f = false -> pw l f <= pw x e.
Proof.
  intros Hx He E F. rewrite !pw_pos, (pow_odd_neg x), (pow_odd_neg l) by (auto; lia).
  assert ((- x) ^ e <= (- l) ^ f) by (apply mono2; lia). lia.
Qed.

(** the power function of the model *)
Lemma pow_loop_min rem : forall i r, pow_loop (S rem) i (ofZ 1) (ofZ LLONG_MIN) <> Ok r.
Proof. intros i r. cbn [pow_loop]. replace (mul_assign (ofZ 1) (ofZ LLONG_MIN)) with (@UB IntVal) by reflexivity. discriminate. Qed.
Lemma pow_ok a e r : fits64 a -> fits64 e -> iv_pow (ofZ a) (ofZ e) = Ok r ->
  r = ofZ (pw a e) /\ fits64 (pw a e) /\ (0 <= e \/ a <> 0).
Proof.
  intros Fa Fe E.
  destruct (Z_lt_ge_dec e 0) as [N|N].
  - rewrite (iv_pow_neg _ _ a e (is_int_ofZ a Fa) (is_int_ofZ e Fe) N) in E.
    destruct (a =? 0) eqn:A0; [discriminate|]. assert (R : 0 <= e \/ a <> 0) by lia.
    destruct (a =? 1) eqn:A1; [|destruct (a =? -1) eqn:A2]; inversion E.
    + assert (a = 1) by lia; subst a. rewrite pw_one. split; [reflexivity|]. split; [apply fits_small; lia|assumption].
    + assert (a = -1) by lia; subst a. rewrite pw_minus_one. split; [reflexivity|]. split; [apply fits_small; destruct (Z.even e); lia|assumption].
    + rewrite pw_big_neg by lia. split; [reflexivity|]. split; [apply fits_small; lia|assumption].
  - assert (R : 0 <= e \/ a <> 0) by lia. rewrite pw_pos by lia.
    destruct (Z.eq_dec e 0) as [->|E0]; [inversion E; rewrite Z.pow_0_r; split; [reflexivity|]; split; [apply fits_small; lia|assumption]|].
    destruct (Z.eq_dec e 1) as [->|E1]; [inversion E; rewrite Z.pow_1_r; split; [reflexivity|]; split; assumption|].
    destruct (Z.eq_dec a LLONG_MIN) as [->|A].
    { exfalso. unfold iv_pow, iv_eq in E. cbn -[pow_loop] in E. replace (e =? 0) with false in E by lia.
      replace (e =? 1) with false in E by lia. replace (e <? 0) with false in E by lia.
      destruct (Z.to_nat e) as [|k] eqn:Ek; [lia|]. exact (pow_loop_min k _ _ E). }
    destruct (Z_le_gt_dec 2 (Z.abs a)) as [B|B].
    + rewrite (iv_pow_spec _ _ a e (is_int_ofZ a Fa) (is_int_ofZ e Fe)) in E by (auto; lia). unfold outcome in E.
      destruct (Z.abs (a ^ e) <=? LLONG_MAX) eqn:Q; [|discriminate]. inversion E. split; [reflexivity|]. split; [|assumption].
      unfold fits64, LLONG_MIN, LLONG_MAX in *. lia.
    + assert (Hp : -1 <= a ^ e <= 1).
      { assert (a = 0 \/ a = 1 \/ a = -1) as [->|[->| ->]] by lia.
        - rewrite Z.pow_0_l by lia. lia.
        - rewrite Z.pow_1_l by lia. lia.
        - assert (Q := pw_minus_one e). rewrite pw_pos in Q by lia. rewrite Q. destruct (Z.even e); lia. }
      split; [|split; [apply fits_small; lia|assumption]].
      destruct (Z_le_gt_dec e INT_MAX) as [J|J].
      * rewrite (iv_pow_spec _ _ a e (is_int_ofZ a Fa) (is_int_ofZ e Fe)) in E by (auto; lia). unfold outcome in E.
        destruct (Z.abs (a ^ e) <=? LLONG_MAX) eqn:Q; [|discriminate]. inversion E. reflexivity.
      * (* the int counter of the loop overflows *)
        exfalso. unfold iv_pow, iv_eq in E. cbn -[pow_loop] in E. replace (e =? 0) with false in E by lia.
        replace (e =? 1) with false in E by lia. replace (e <? 0) with false in E by lia.
        assert (G : forall n i w, -1 <= w <= 1 -> 0 <= i <= INT_MAX -> INT_MAX < i + Z.of_nat n -> forall r, pow_loop n i (ofZ w) (ofZ a) <> Ok r).
        { induction n as [|n IH]; intros i w Hw Hi Hn q; [lia|]. cbn [pow_loop].
          rewrite (mul_assign_spec (ofZ w) (ofZ a) w a) by (try apply is_int_ofZ; auto; try (apply fits_small; lia); unfold LLONG_MIN; lia).
          assert (Q : -1 <= w * a <= 1) by nia.
          unfold outcome. replace (Z.abs (w * a) <=? LLONG_MAX) with true by (unfold LLONG_MAX; lia). cbn [bind].
          destruct (i =? INT_MAX) eqn:Ei; [discriminate|]. apply IH; lia. }
        apply (G (Z.to_nat e) 0 1) in E; [assumption|lia|unfold INT_MAX; lia|lia].
Qed.

Section Pow.
Variables (base exp : bounds) (bl bu el eu : Z).
Hypotheses (B1 : b_l base = ofZ bl) (B2 : b_u base = ofZ bu) (X1 : b_l exp = ofZ el) (X2 : b_u exp = ofZ eu).
Hypotheses (F1 : fits64 bl) (F2 : fits64 bu) (F3 : fits64 el) (F4 : fits64 eu).
Hypotheses (Hb : bl <= bu) (He : el <= eu).
Let P := box pow_value bl bu el eu.

Lemma P_pw x e : bl <= x <= bu -> el <= e <= eu -> 0 <= e \/ x <> 0 -> P (pw x e).
Proof. intros. exists x, e. split; [assumption|]. split; [assumption|]. now apply pow_value_pw. Qed.

Definition grown (s s' : IntVal * IntVal) : Prop :=
  st_ok P s' /\ (forall z, lo_w s z -> lo_w s' z) /\ (forall z, hi_w s z -> hi_w s' z).
Definition has (s : IntVal * IntVal) (v : Z) : Prop := lo_w s v /\ hi_w s v.
Lemma grown_refl s : st_ok P s -> grown s s.
Proof. repeat split; auto; apply H. Qed.
Lemma grown_trans a b c : grown a b -> grown b c -> grown a c.
Proof. intros (_ & L1 & U1) (I & L2 & U2). split; [assumption|]. split; auto. Qed.
Lemma has_grown a b v : grown a b -> has a v -> has b v.
Proof. intros (_ & L & U) [H1 H2]. split; auto. Qed.
Lemma grow s v : st_ok P s -> fits64 v -> P v -> grown s (update s (ofZ v)) /\ has (update s (ofZ v)) v.
Proof.
  intros I F Pv. destruct (update_ok P s v I F Pv) as (I' & L & U). split.
  - split; [assumption|]. split; intros z Hz; [apply L|apply U]; auto.
  - split; [apply L|apply U]; right; lia.
Qed.
Lemma le_k' a b : fits64 a -> fits64 b -> iv_le (ofZ a) (ofZ b) = (a <=? b).
Proof. intros. rewrite (le_k BIG BIG_ok) by now apply wfv_ofZ. reflexivity. Qed.
Lemma lt_k' a b : fits64 a -> fits64 b -> iv_lt (ofZ a) (ofZ b) = (a <? b).
Proof. intros. rewrite (lt_k BIG BIG_ok) by now apply wfv_ofZ. reflexivity. Qed.
Lemma eq_k' a b : iv_eq (ofZ a) (ofZ b) = (a =? b).
Proof. reflexivity. Qed.
Lemma sm z : -10 <= z <= 10 -> fits64 z.
Proof. apply fits_small. Qed.
Ltac k := unfold iv_ge, iv_gt, iv_ne in *; rewrite ?B1, ?B2, ?X1, ?X2 in *;
  rewrite ?le_k', ?lt_k', ?eq_k' in * by (assumption || (apply fits_small; lia)).

Lemma one_ok s : st_ok P s -> grown s (pow_one base exp s) /\
  (bl <= 1 <= bu \/ el <= 0 <= eu -> has (pow_one base exp s) 1).
Proof.
  intros I. unfold pow_one. k.
  destruct ((bl <=? 1) && (1 <=? bu) || (el <=? 0) && (0 <=? eu)) eqn:E.
  - assert (Pv : P 1).
    { destruct (Z_le_gt_dec el 0) as [Q|Q]; [destruct (Z_le_gt_dec 0 eu) as [Q'|Q']|].
      - rewrite <- (pw_0 bl). apply P_pw; lia.
      - rewrite <- (pw_one el). apply P_pw; lia.
      - rewrite <- (pw_one el). apply P_pw; lia. }
    destruct (grow s 1 I (sm 1 ltac:(lia)) Pv) as [G H]. split; auto.
  - split; [now apply grown_refl|]. lia.
Qed.
Lemma minus_one_ok s s' : st_ok P s -> pow_minus_one base exp s = Ok s' -> grown s s' /\
  (bl <= -1 <= bu -> el <> eu -> has s' (-1) /\ has s' 1) /\ (bl <= -1 <= bu -> el = eu -> has s' (pw (-1) el)).
Proof.
  intros I E. unfold pow_minus_one in E. k.
  destruct ((bl <=? -1) && (-1 <=? bu)) eqn:C.
  - destruct (el =? eu) eqn:D; cbn [negb] in E.
    + rewrite (iv_mod_spec (ofZ el) (ofZ 2) el 2) in E by (apply is_int_ofZ; auto; apply fits_small; lia).
      unfold outcome in E. cbn [Z.eqb negb bind] in E. rewrite eq_k' in E.
      assert (V : (Z.rem el 2 =? 0) = Z.even el).
      { assert (Q : Z.rem el 2 = 0 <-> Z.even el = true).
        { rewrite Z.even_spec. rewrite Z.rem_divide by lia. unfold Z.divide, Z.Even. split; intros [z Hz]; exists z; lia. }
        destruct (Z.rem el 2 =? 0) eqn:R; destruct (Z.even el); try reflexivity; exfalso; [assert (false = true) by (apply Q; lia); discriminate|].
        assert (Z.rem el 2 = 0) by (apply Q; reflexivity). lia. }
      rewrite V in E.
      assert (Pv : P (pw (-1) el)) by (apply P_pw; lia).
      assert (Fv : fits64 (pw (-1) el)) by (rewrite pw_minus_one; destruct (Z.even el); apply fits_small; lia).
      destruct (grow s _ I Fv Pv) as [G H].
      assert (Es : s' = update s (ofZ (pw (-1) el))) by (rewrite pw_minus_one; destruct (Z.even el); inversion E; reflexivity).
      subst s'. split; [assumption|]. split; [lia|auto].
    + inversion E; subst s'. 
      assert (P1 : P (-1)).
      { destruct (Z.even el) eqn:V.
        - assert (Q := pw_minus_one (el + 1)). rewrite Z.even_add, V in Q. cbn in Q. rewrite <- Q. apply P_pw; lia.
        - assert (Q := pw_minus_one el). rewrite V in Q. rewrite <- Q. apply P_pw; lia. }
      assert (P2 : P 1).
      { destruct (Z.even el) eqn:V.
        - assert (Q := pw_minus_one el). rewrite V in Q. rewrite <- Q. apply P_pw; lia.
        - assert (Q := pw_minus_one (el + 1)). rewrite Z.even_add, V in Q. cbn in Q. rewrite <- Q. apply P_pw; lia. }
      destruct (grow s (-1) I (sm (-1) ltac:(lia)) P1) as [G H].
      destruct (grow _ 1 (proj1 G) (sm 1 ltac:(lia)) P2) as [G' H'].
      split; [eapply grown_trans; eassumption|]. split; [|lia]. intros _ _. split; [eapply has_grown; eassumption|assumption].
  - inversion E; subst s'. split; [now apply grown_refl|]. split; lia.
Qed.
Lemma upper_ok s s' : st_ok P s -> pow_upper base exp s = Ok s' -> grown s s' /\ (bu <> 0 \/ 0 <= eu -> has s' (pw bu eu)).
Proof.
  intros I E. unfold pow_upper in E. k.
  destruct (negb (bu =? 0) || (0 <=? eu)) eqn:C.
  - destruct (iv_pow (ofZ bu) (ofZ eu)) as [p| |] eqn:Ep; cbn [bind] in E; try discriminate. inversion E; subst s'.
    destruct (pow_ok bu eu p F2 F4 Ep) as (-> & Fp & Hp).
    destruct (grow s _ I Fp (P_pw bu eu ltac:(lia) ltac:(lia) Hp)) as [G H]. split; auto.
  - inversion E; subst s'. split; [now apply grown_refl|]. lia.
Qed.
Lemma lower_ok s s' : st_ok P s -> pow_lower base exp s = Ok s' -> grown s s' /\
  (bl < 0 -> has s' (pw bl eu)) /\ (bl < 0 -> el <> eu -> has s' (pw bl (eu - 1))) /\
  (bl < 0 -> el = eu -> 0 <= bu -> 0 < el -> has s' 0) /\
  (bl = 0 -> 0 < eu -> has s' 0) /\ (0 <= bl -> 1 < bu -> el < 0 -> has s' 0) /\
  (0 < bl -> 0 <= el -> has s' (pw bl el)).
Proof.
  intros I E. unfold pow_lower in E. k. destruct (bl <? 0) eqn:C.
  - destruct (iv_pow (ofZ bl) (ofZ eu)) as [p| |] eqn:Ep; cbn [bind] in E; try discriminate.
    destruct (pow_ok bl eu p F1 F4 Ep) as (-> & Fp & Hp).
    destruct (grow s _ I Fp (P_pw bl eu ltac:(lia) ltac:(lia) Hp)) as [G H].
    destruct (el =? eu) eqn:D; cbn [negb] in E.
    + destruct ((0 <=? bu) && (0 <? el)) eqn:D2; inversion E; subst s'.
      * assert (P0 : P 0) by (rewrite <- (pw_zero el) by lia; apply P_pw; lia).
        destruct (grow _ 0 (proj1 G) (sm 0 ltac:(lia)) P0) as [G' H'].
        split; [eapply grown_trans; eassumption|]. split; [intros; eapply has_grown; eassumption|].
        split; [lia|]. split; [auto|]. split; lia.
      * split; [assumption|]. split; [auto|]. split; [lia|]. split; lia.
    + destruct (iv_sub (ofZ eu) (ofZ 1)) as [e| |] eqn:Es; cbn [bind] in E; try discriminate.
      apply sub_ok in Es; [|assumption|apply fits_small; lia]. destruct Es as [-> Fe].
      destruct (iv_pow (ofZ bl) (ofZ (eu - 1))) as [p| |] eqn:Ep2; cbn [bind] in E; try discriminate. inversion E; subst s'.
      destruct (pow_ok bl (eu - 1) p F1 Fe Ep2) as (-> & Fp2 & Hp2).
      destruct (grow _ _ (proj1 G) Fp2 (P_pw bl (eu - 1) ltac:(lia) ltac:(lia) Hp2)) as [G' H'].
      split; [eapply grown_trans; eassumption|]. split; [intros; eapply has_grown; eassumption|]. split; [auto|]. split; [lia|]. split; lia.
  - destruct ((bl =? 0) && (0 <? eu) || (1 <? bu) && (el <? 0)) eqn:D.
    + inversion E; subst s'.
      assert (P0 : P 0).
      { destruct ((bl =? 0) && (0 <? eu)) eqn:D1.
        - rewrite <- (pw_zero eu) by lia. apply P_pw; lia.
        - rewrite <- (pw_big_neg bu el) by lia. apply P_pw; lia. }
      destruct (grow s 0 I (sm 0 ltac:(lia)) P0) as [G H]. split; [assumption|]. split; [lia|]. split; [lia|]. split; [lia|].
      split; [auto|]. split; [auto|]. intros L1 L2. exfalso. lia.
    + destruct (0 <=? el) eqn:D2.
      * destruct (iv_pow (ofZ bl) (ofZ el)) as [p| |] eqn:Ep; cbn [bind] in E; try discriminate. inversion E; subst s'.
        destruct (pow_ok bl el p F1 F3 Ep) as (-> & Fp & Hp).
        destruct (grow s _ I Fp (P_pw bl el ltac:(lia) ltac:(lia) Hp)) as [G H].
        split; [assumption|]. split; [lia|]. split; [lia|]. split; [lia|]. split; [lia|]. split; [lia|auto].
      * inversion E; subst s'. split; [now apply grown_refl|]. split; [lia|]. split; [lia|]. split; [lia|]. split; [lia|]. split; lia.
Qed.

Lemma pow_bounds_ok s : b_finite base = true -> b_finite exp = true -> pow_bounds base exp = Ok s ->
  (forall z, P z -> elem z s) /\ (forall z, elem z s -> exists v v', P v /\ P v' /\ v <= z <= v').
Proof.
  intros V1 V2 E. unfold pow_bounds in E. rewrite V1, V2 in E. cbn [andb negb] in E. k.
  destruct ((bl =? 0) && (bu =? 0) && (eu <? 0)) eqn:C.
  { inversion E; subst s. split.
    - intros z (x & e & Hx & Hee & Ez). unfold pow_value in Ez. replace (0 <=? e) with false in Ez by lia.
      replace (x =? 0) with true in Ez by lia. discriminate.
    - intros z (a & b & [] & _). }
  assert (I0 : st_ok P (iv_infinity, mkIV (-1) true)).
  { split; cbn [fst snd]; try (unfold wfv; cbn; auto); left; unfold key, BIG, LLONG_MIN, LLONG_MAX; cbn; lia. }
  destruct (one_ok _ I0) as [G1 A1]. set (s1 := pow_one base exp _) in *.
  destruct (pow_minus_one base exp s1) as [s2| |] eqn:E2; cbn [bind] in E; try discriminate.
  destruct (minus_one_ok s1 s2 (proj1 G1) E2) as (G2 & A2 & A3).
  destruct (pow_upper base exp s2) as [s3| |] eqn:E3; cbn [bind] in E; try discriminate.
  destruct (upper_ok s2 s3 (proj1 G2) E3) as (G3 & A4).
  destruct (pow_lower base exp s3) as [s4| |] eqn:E4; cbn [bind] in E; try discriminate. inversion E; subst s.
  destruct (lower_ok s3 s4 (proj1 G3) E4) as (G4 & A5 & A6 & A7 & A8 & A9 & A10).
  assert (T1 : bl <= 1 <= bu \/ el <= 0 <= eu -> has s4 1).
  { intros Q. apply (has_grown s3); [assumption|]. apply (has_grown s2); [assumption|]. apply (has_grown s1); auto. }
  assert (T2 : bl <= -1 <= bu -> el <> eu -> has s4 (-1) /\ has s4 1).
  { intros Q1 Q2. destruct (A2 Q1 Q2). split; apply (has_grown s3); auto; apply (has_grown s2); auto. }
  assert (T3 : bl <= -1 <= bu -> el = eu -> has s4 (pw (-1) el)).
  { intros Q1 Q2. apply (has_grown s3); auto. apply (has_grown s2); auto. }
  assert (T4 : bu <> 0 \/ 0 <= eu -> has s4 (pw bu eu)) by (intros Q; apply (has_grown s3); auto).
  assert (LO : forall v z, has s4 v -> v <= z -> lo_w s4 z) by (intros v z [H _] Q; unfold lo_w in *; lia).
  assert (HI : forall v z, has s4 v -> z <= v -> hi_w s4 z) by (intros v z [_ H] Q; unfold hi_w in *; lia).
  assert (SG : bl < 0 -> el <> eu -> 0 < eu -> exists v w, has s4 v /\ has s4 w /\ v < 0 < w).
  { intros Q1 Q2 Q3. assert (Ev := even_pred eu). destruct (Z.even eu) eqn:V; cbn in Ev.
    - exists (pw bl (eu - 1)), (pw bl eu). split; [auto|]. split; [auto|]. split; [apply neg_odd|apply neg_even]; auto; lia.
    - exists (pw bl eu), (pw bl (eu - 1)). split; [auto|]. split; [auto|]. split; [apply neg_odd|apply neg_even]; auto; lia. }
  (* every value is between two of the noted values *)
  assert (Main : forall z, P z -> lo_w s4 z /\ hi_w s4 z).
  { intros z (x & e & Hx & Hee & Ez).
    assert (Df : 0 <= e \/ x <> 0) by (unfold pow_value in Ez; destruct (0 <=? e) eqn:?; [lia|]; destruct (x =? 0) eqn:?; [discriminate|lia]).
    rewrite pow_value_pw in Ez by assumption. inversion Ez; subst z. clear Ez.
    assert (BOTH : forall v, has s4 v -> pw x e = v -> lo_w s4 (pw x e) /\ hi_w s4 (pw x e)) by (intros v H ->; exact H).
    destruct (Z_lt_ge_dec e 0) as [Ne|Ne].
    - destruct (Z.eq_dec x 1) as [->|X1']; [apply (BOTH 1); [apply T1; lia|apply pw_one]|].
      destruct (Z.eq_dec x (-1)) as [->|X2'].
      { destruct (Z.eq_dec el eu) as [Q|Q].
        - apply (BOTH _ (T3 Hx Q)). f_equal; lia.
        - destruct (T2 Hx Q) as [H1 H2]. rewrite pw_minus_one. destruct (Z.even e); assumption. }
      rewrite pw_big_neg by lia.
      destruct (Z_le_gt_dec 2 x) as [Px|Px].
      + destruct (Z_lt_ge_dec bl 0) as [Nb|Nb].
        * destruct (Z.eq_dec el eu) as [Q|Q].
          -- assert (H := T4 ltac:(lia)). rewrite pw_big_neg in H by lia. exact H.
          -- destruct (T2 ltac:(lia) Q) as [H1 H2]. split; [apply (LO (-1))|apply (HI 1)]; auto; lia.
        * exact (A9 ltac:(lia) ltac:(lia) ltac:(lia)).
      + assert (Nb : bl <= -2) by lia. destruct (Z.eq_dec el eu) as [Q|Q].
        * assert (H := A5 ltac:(lia)). rewrite pw_big_neg in H by lia. exact H.
        * destruct (Z_lt_ge_dec 0 eu) as [Pe|Pe].
          -- destruct (SG ltac:(lia) Q Pe) as (v & w & Hv & Hw & L). split; [apply (LO v)|apply (HI w)]; auto; lia.
          -- assert (H := A6 ltac:(lia) Q). rewrite pw_big_neg in H by lia. exact H.
    - destruct (Z.eq_dec e 0) as [->|E0]; [apply (BOTH 1); [apply T1; lia|apply pw_0]|].
      assert (Pe : 0 < e) by lia.
      destruct (Z.eq_dec x 0) as [->|X0].
      { rewrite pw_zero by lia. destruct (Z_lt_ge_dec bl 0) as [Nb|Nb]; [|exact (A8 ltac:(lia) ltac:(lia))].
        destruct (Z.eq_dec el eu) as [Q|Q]; [exact (A7 Nb Q ltac:(lia) ltac:(lia))|].
        destruct (SG Nb Q ltac:(lia)) as (v & w & Hv & Hw & L). split; [apply (LO v)|apply (HI w)]; auto; lia. }
      destruct (Z_lt_ge_dec x 0) as [Nx|Nx].
      + assert (Nb : bl < 0) by lia. assert (Ev := even_pred eu).
        destruct (Z.even e) eqn:V.
        * assert (Pz := neg_even x e Nx ltac:(lia) V). split.
          -- destruct (Z.eq_dec el eu) as [Q|Q].
             ++ destruct (Z_lt_ge_dec bu 0) as [Nu|Nu]; [|apply (LO 0); [exact (A7 Nb Q ltac:(lia) ltac:(lia))|lia]].
                apply (LO (pw bu eu)); [apply T4; lia|]. replace eu with e by lia. apply neg_even_mono; auto; lia.
             ++ destruct (SG Nb Q ltac:(lia)) as (v & w & Hv & Hw & L). apply (LO v); auto; lia.
          -- destruct (Z.even eu) eqn:Ve.
             ++ apply (HI (pw bl eu)); [auto|]. apply neg_even_mono; auto; lia.
             ++ assert (e <> eu) by congruence. apply (HI (pw bl (eu - 1))); [apply A6; lia|]. apply neg_even_mono; auto; lia.
        * assert (Pz := neg_odd x e Nx ltac:(lia) V). split.
          -- destruct (Z.even eu) eqn:Ve.
             ++ assert (e <> eu) by congruence. apply (LO (pw bl (eu - 1))); [apply A6; lia|]. apply neg_odd_mono; auto; lia.
             ++ apply (LO (pw bl eu)); [auto|]. apply neg_odd_mono; auto; lia.
          -- destruct (Z.eq_dec el eu) as [Q|Q].
             ++ destruct (Z_lt_ge_dec bu 0) as [Nu|Nu]; [|apply (HI 0); [exact (A7 Nb Q ltac:(lia) ltac:(lia))|lia]].
                apply (HI (pw bu eu)); [apply T4; lia|]. replace eu with e by lia. apply neg_odd_mono; auto; lia.
             ++ destruct (SG Nb Q ltac:(lia)) as (v & w & Hv & Hw & L). apply (HI w); auto; lia.
      + assert (Pz : 0 < pw x e) by (rewrite pw_pos by lia; apply Z.pow_pos_nonneg; lia). split.
        * destruct (Z_lt_ge_dec bl 0) as [Nb|Nb].
          -- destruct (Z.eq_dec el eu) as [Q|Q]; [apply (LO 0); [exact (A7 Nb Q ltac:(lia) ltac:(lia))|lia]|].
             destruct (SG Nb Q ltac:(lia)) as (v & w & Hv & Hw & L). apply (LO v); auto; lia.
          -- destruct (Z.eq_dec bl 0) as [Q|Q]; [apply (LO 0); [exact (A8 Q ltac:(lia))|lia]|].
             destruct (Z_lt_ge_dec el 0) as [Ne'|Ne'].
             ++ destruct (Z_lt_ge_dec 1 bu) as [U|U]; [apply (LO 0); [apply A9; lia|lia]|].
                assert (x = 1) by lia. subst x. apply (LO 1); [apply T1; lia|]. rewrite pw_one. lia.
             ++ apply (LO (pw bl el)); [apply A10; lia|]. rewrite !pw_pos by lia. apply mono2; lia.
        * apply (HI (pw bu eu)); [apply T4; lia|]. rewrite !pw_pos by lia. apply mono2; lia. }
  (* some value was noted *)
  assert (W : exists w, fits64 w /\ P w /\ has s4 w).
  { destruct G4 as ([Wl Wu Pl Pu] & _). 
    assert (Ex : exists z, P z).
    { destruct (Z.eq_dec bu 0) as [Q|Q].
      - destruct (Z.eq_dec bl 0) as [Q'|Q']; [exists (pw bu eu); apply P_pw; lia|exists (pw bl eu); apply P_pw; lia].
      - exists (pw bu eu). apply P_pw; lia. }
    destruct Ex as (z & Pz). destruct (Main z Pz) as [Lz Hz]. unfold lo_w, hi_w in *.
    destruct Pl as [Pl|[Fl Pl]]; [|exists (K (fst s4)); split; [assumption|]; split; [assumption|]; split; unfold lo_w, hi_w; lia].
    destruct Pu as [Pu|[Fu Pu]]; [|exists (K (snd s4)); split; [assumption|]; split; [assumption|]; split; unfold lo_w, hi_w; lia].
    unfold LLONG_MIN, LLONG_MAX in *. lia. }
  destruct W as (w & Fw & Pw & Lw & Hw).
  destruct (final_ok P s4 w (proj1 G4) Fw Pw Lw Hw) as [Q1 Q2]. split; [|exact Q2].
  intros z Pz. destruct (Main z Pz). auto.
Qed.
End Pow.

Lemma pow_covers bx by_ s : pow_bounds bx by_ = Ok s -> covers pow_value bx by_ s.
Proof.
  intros E x y z Hx Hy Ez.
  destruct (b_finite bx && b_finite by_) eqn:F; [|unfold pow_bounds in E; rewrite F in E; inversion E; apply unbounded_elem].
  apply andb_true_iff in F. destruct F as [F1 F2].
  destruct (finite_holds bx x F1 Hx) as (a & b & A1 & A2 & A3 & A4 & A5).
  destruct (finite_holds by_ y F2 Hy) as (c & d & B1 & B2 & B3 & B4 & B5).
  apply (pow_bounds_ok bx by_ a b c d A1 A2 B1 B2 A3 A4 B3 B4 ltac:(lia) ltac:(lia) s F1 F2 E). exists x, y. auto.
Qed.
