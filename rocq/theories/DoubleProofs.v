(** Proofs about DoubleModel. *)
Require Import ZArith Reals Lia Lra Psatz Floats.SpecFloat.
From Flocq Require Import Core Relative BinarySingleNaN.
From Verif Require Import Base IntValModel IntValSpec DoubleModel.
Open Scope Z_scope.

Local Instance prec_gt_0_53 : Prec_gt_0 53. Proof. reflexivity. Qed.
Local Instance prec_lt_emax_53 : Prec_lt_emax 53 1024. Proof. reflexivity. Qed.
Notation rnd := (round radix2 (FLT_exp (-1074) 53) ZnearestE).
Notation norm := (BinarySingleNaN.binary_normalize 53 1024 prec_gt_0_53 prec_lt_emax_53 mode_NE).
Notation bdiv := (@BinarySingleNaN.Bdiv 53 1024 prec_gt_0_53 prec_lt_emax_53 mode_NE).

Lemma rne_equiv : forall s m l, SpecFloat.round_nearest_even m l = choice_mode mode_NE s m l.
Proof. intros s m [|[]]; try reflexivity. simpl; unfold Round.cond_incr; case Z.even; reflexivity. Qed.
Lemma round_aux_equiv : forall sx mx ex lx,
  SpecFloat.binary_round_aux 53 1024 sx mx ex lx = BinarySingleNaN.binary_round_aux 53 1024 mode_NE sx mx ex lx.
Proof.
  intros. unfold SpecFloat.binary_round_aux, BinarySingleNaN.binary_round_aux.
  destruct (shr_fexp _ _ _ _ _); simpl. rewrite (rne_equiv sx). reflexivity.
Qed.
Lemma round_equiv : forall s m e, SpecFloat.binary_round 53 1024 s m e = BinarySingleNaN.binary_round 53 1024 mode_NE s m e.
Proof.
  intros. unfold SpecFloat.binary_round, BinarySingleNaN.binary_round, shl_align_fexp.
  destruct (shl_align _ _ _). apply round_aux_equiv.
Qed.
Lemma dbl_sf : forall z, dbl z = B2SF (norm z 0 false).
Proof.
  intros z. unfold dbl. destruct z as [|p|p]; [reflexivity| |]; simpl; rewrite B2SF_SF2B; apply round_equiv.
Qed.
Lemma ddiv_sf : forall x y : BinarySingleNaN.binary_float 53 1024, ddiv (B2SF x) (B2SF y) = B2SF (bdiv x y).
Proof.
  intros x y. unfold ddiv. destruct x as [sx|sx| |sx mx ex Bx]; destruct y as [sy|sy| |sy my ey By]; try reflexivity.
  simpl. rewrite B2SF_SF2B. destruct (SFdiv_core_binary _ _ _ _ _ _) as [[mz ez] lz]. apply round_aux_equiv.
Qed.

Open Scope R_scope.
Lemma bpow_IZR : forall e, (0 <= e)%Z -> bpow radix2 e = IZR (2 ^ e).
Proof. intros e He. rewrite <- (IZR_Zpower radix2) by lia. reflexivity. Qed.
Lemma int_format : forall z, (Z.abs z <= 2 ^ 53)%Z -> generic_format radix2 (FLT_exp (-1074) 53) (IZR z).
Proof.
  intros z Hz. destruct (Z.eq_dec (Z.abs z) (2 ^ 53)) as [E|E].
  - assert (G : generic_format radix2 (FLT_exp (-1074) 53) (bpow radix2 53)).
    { apply generic_format_bpow. unfold FLT_exp. lia. }
    rewrite bpow_IZR in G by lia.
    destruct (Zabs_dec z) as [A|A].
    + rewrite A, E. exact G.
    + rewrite A, E, opp_IZR. apply generic_format_opp. exact G.
  - apply generic_format_FLT. apply (FLT_spec _ _ _ _ (Float radix2 z 0)).
    + unfold F2R; simpl. lra.
    + simpl. lia.
    + simpl. lia.
Qed.
Lemma rnd_lt_max : forall x, Rabs x <= IZR (2 ^ 53) -> Rabs (rnd x) < bpow radix2 1024.
Proof.
  intros x Hx. apply Rle_lt_trans with (IZR (2 ^ 53)).
  - apply abs_round_le_generic; auto with typeclass_instances. apply int_format. lia.
  - rewrite bpow_IZR by lia. apply IZR_lt. apply Z.pow_lt_mono_r; lia.
Qed.
Lemma dbl_ok : forall z, (Z.abs z <= 2 ^ 53)%Z ->
  B2R (norm z 0 false) = IZR z /\ is_finite (norm z 0 false) = true.
Proof.
  intros z Hz. pose proof (BinarySingleNaN.binary_normalize_correct 53 1024 _ _ mode_NE z 0 false) as C. cbn zeta in C.
  replace (F2R {| Fnum := z; Fexp := 0 |}) with (IZR z) in C by (unfold F2R; simpl; lra).
  simpl round_mode in C.
  change (SpecFloat.fexp 53 1024) with (FLT_exp (-1074) 53) in C; try change (3 - 1024 - 53)%Z with (-1074)%Z in C.
  rewrite round_generic in C; auto with typeclass_instances; [|apply int_format; auto].
  rewrite Rlt_bool_true in C; [tauto|].
  apply Rle_lt_trans with (IZR (2 ^ 53)); [|rewrite bpow_IZR by lia; apply IZR_lt; apply Z.pow_lt_mono_r; lia].
  rewrite <- abs_IZR. apply IZR_le. lia.
Qed.
Lemma floor_ok : forall x : BinarySingleNaN.binary_float 53 1024, is_finite x = true ->
  dfloor (B2SF x) = Some (Zfloor (B2R x)) /\ dceil (B2SF x) = Some (Zceil (B2R x)).
Proof.
  assert (F : forall n e, (if 0 <=? e then n * 2 ^ e else n / 2 ^ (- e))%Z = Zfloor (F2R (Float radix2 n e))).
  { intros n e. destruct (Z.leb_spec 0 e).
    - unfold F2R; simpl. rewrite bpow_IZR, <- mult_IZR, Zfloor_IZR by lia. reflexivity.
    - unfold F2R; simpl. rewrite <- Zfloor_div by (apply Z.pow_nonzero; lia).
      f_equal. replace e with (- (- e))%Z at 2 by lia. rewrite bpow_opp, bpow_IZR by lia. reflexivity. }
  intros x Hx. destruct x as [s|s| |s m e B]; try discriminate; cbn [B2SF dfloor dceil].
  - simpl. rewrite (Zfloor_IZR 0), (Zceil_IZR 0). auto.
  - cbn zeta. assert (E : B2R (B754_finite s m e B) = F2R (Float radix2 (if s then Z.neg m else Z.pos m) e))
      by (destruct s; reflexivity).
    rewrite E. split; [rewrite F; reflexivity|].
    f_equal. unfold Zceil. rewrite <- F2R_Zopp, <- F.
    destruct (Z.leb_spec 0 e); lia.
Qed.

(** rounding does not move the quotient across an integer *)
Lemma quot_ok : forall a b, (Z.abs a < 2 ^ 53)%Z -> (Z.abs b < 2 ^ 53)%Z -> (b <> 0)%Z ->
  Zfloor (rnd (IZR a / IZR b)) = Zfloor (IZR a / IZR b) /\
  Zceil (rnd (IZR a / IZR b)) = Zceil (IZR a / IZR b).
Proof.
  intros a b Ha Hb Hb0. set (q := IZR a / IZR b).
  assert (B0 : IZR b <> 0) by (apply IZR_neq; auto).
  assert (Bp : 0 < Rabs (IZR b)) by (apply Rabs_pos_lt; auto).
  assert (Bs : Rabs (IZR b) < IZR (2 ^ 53)) by (rewrite <- abs_IZR; apply IZR_lt; lia).
  destruct (Z.eq_dec (a mod b) 0) as [D|D].
  - assert (Q : q = IZR (a / b)).
    { unfold q. apply Rmult_eq_reg_r with (IZR b); auto. rewrite <- mult_IZR.
      replace (a / b * b)%Z with a by (pose proof (Z.div_mod a b Hb0); lia). field. auto. }
    rewrite Q. rewrite round_generic; auto with typeclass_instances. apply int_format.
    pose proof (Z.div_mod a b Hb0). nia.
  - assert (A0 : (a <> 0)%Z) by (intros ->; rewrite Z.mod_0_l in D; auto).
    assert (Aq : Rabs q = Rabs (IZR a) / Rabs (IZR b)) by (unfold q, Rdiv; rewrite Rabs_mult, Rabs_inv; auto).
    assert (As : Rabs (IZR a) < IZR (2 ^ 53)) by (rewrite <- abs_IZR; apply IZR_lt; lia).
    assert (A1 : 1 <= Rabs (IZR a)) by (rewrite <- abs_IZR; apply IZR_le; lia).
    assert (E : Rabs (rnd q - q) < / Rabs (IZR b)).
    { eapply Rle_lt_trans.
      - apply relative_error_N_FLT; [reflexivity|].
        rewrite Aq. apply Rle_trans with (bpow radix2 (Z.opp 53)).
        + apply bpow_le. lia.
        + rewrite bpow_opp, bpow_IZR by lia.
          apply Rmult_le_reg_r with (Rabs (IZR b)); auto. unfold Rdiv.
          rewrite Rmult_assoc, Rinv_l by lra. rewrite Rmult_1_r.
          apply Rle_trans with (/ IZR (2 ^ 53) * IZR (2 ^ 53)).
          * apply Rmult_le_compat_l; [|lra]. left. apply Rinv_0_lt_compat. apply IZR_lt. lia.
          * rewrite Rinv_l; [lra|]. apply IZR_neq. lia.
      - rewrite Aq. replace (/ 2 * bpow radix2 (- (53) + 1)) with (/ IZR (2 ^ 53)).
        + unfold Rdiv. rewrite <- Rmult_assoc. rewrite <- (Rmult_1_l (/ Rabs (IZR b))) at 2.
          apply Rmult_lt_compat_r; [apply Rinv_0_lt_compat; auto|].
          apply Rmult_lt_reg_l with (IZR (2 ^ 53)); [apply IZR_lt; lia|].
          rewrite <- Rmult_assoc, Rinv_r, Rmult_1_l, Rmult_1_r by (apply IZR_neq; lia). auto.
        + replace (- (53) + 1)%Z with (- (52))%Z by lia. rewrite bpow_opp, bpow_IZR by lia.
          rewrite <- Rinv_mult, <- mult_IZR. reflexivity. }
    assert (L : IZR (a / b) + / Rabs (IZR b) <= q <= IZR (a / b) + 1 - / Rabs (IZR b)).
    { assert (Hq : q = IZR (a / b) + IZR (a mod b) / IZR b).
      { unfold q. pose proof (Z.div_mod a b Hb0) as M. rewrite M at 1. rewrite plus_IZR, mult_IZR. field. auto. }
      rewrite Hq. 
      destruct (Z_lt_le_dec 0 b).
      - rewrite Rabs_right by (apply Rle_ge, IZR_le; lia).
        pose proof (Z.mod_pos_bound a b l). assert (0 < IZR b) by (apply IZR_lt; auto).
        split.
        + apply Rplus_le_compat_l. unfold Rdiv. rewrite <- (Rmult_1_l (/ IZR b)) at 1.
          apply Rmult_le_compat_r; [left; apply Rinv_0_lt_compat; auto|]. apply IZR_le. lia.
        + assert (IZR (a mod b) <= IZR b - 1) by (rewrite <- minus_IZR; apply IZR_le; lia).
          assert (IZR (a mod b) / IZR b <= (IZR b - 1) / IZR b).
          { unfold Rdiv. apply Rmult_le_compat_r; auto. left; apply Rinv_0_lt_compat; auto. }
          replace ((IZR b - 1) / IZR b) with (1 - / IZR b) in H2 by (field; lra). lra.
      - rewrite Rabs_left by (apply IZR_lt; lia).
        pose proof (Z.mod_neg_bound a b ltac:(lia)). assert (IZR b < 0) by (apply IZR_lt; lia).
        replace (IZR (a mod b) / IZR b) with (IZR (- (a mod b)) / IZR (- b)) by (rewrite !opp_IZR; field; lra).
        rewrite <- opp_IZR. assert (0 < IZR (- b)) by (apply IZR_lt; lia).
        split.
        + apply Rplus_le_compat_l. unfold Rdiv. rewrite <- (Rmult_1_l (/ IZR (- b))) at 1.
          apply Rmult_le_compat_r; [left; apply Rinv_0_lt_compat; auto|]. apply IZR_le. lia.
        + assert (IZR (- (a mod b)) <= IZR (- b) - 1) by (rewrite <- minus_IZR; apply IZR_le; lia).
          assert (IZR (- (a mod b)) / IZR (- b) <= (IZR (- b) - 1) / IZR (- b)).
          { unfold Rdiv. apply Rmult_le_compat_r; auto. left; apply Rinv_0_lt_compat; auto. }
          replace ((IZR (- b) - 1) / IZR (- b)) with (1 - / IZR (- b)) in H3 by (field; lra). lra. }
    assert (Ip : 0 < / Rabs (IZR b)) by (apply Rinv_0_lt_compat; auto).
    apply Rabs_def2 in E.
    split.
    + transitivity (a / b)%Z; [|symmetry]; apply Zfloor_imp; rewrite plus_IZR; lra.
    + transitivity (a / b + 1)%Z; [|symmetry]; apply Zceil_imp; rewrite minus_IZR, plus_IZR; lra.
Qed.
Close Scope R_scope.

Lemma double_div : forall a b, Z.abs a < 2 ^ 53 -> Z.abs b < 2 ^ 53 -> b <> 0 ->
  dfloor (ddiv (dbl a) (dbl b)) = Some (a / b) /\ dceil (ddiv (dbl a) (dbl b)) = Some (- ((- a) / b)).
Proof.
  intros a b Ha Hb Hb0. rewrite !dbl_sf, ddiv_sf.
  destruct (dbl_ok a ltac:(lia)) as [Ra Fa]. destruct (dbl_ok b ltac:(lia)) as [Rb Fb].
  assert (B0 : IZR b <> 0%R) by (apply IZR_neq; auto).
  pose proof (BinarySingleNaN.Bdiv_correct 53 1024 _ _ mode_NE (norm a 0 false) (norm b 0 false)) as C.
  rewrite Ra, Rb in C. specialize (C B0). simpl round_mode in C.
  change (SpecFloat.fexp 53 1024) with (FLT_exp (-1074) 53) in C.
  rewrite Rlt_bool_true in C.
  - destruct C as (C1 & C2 & _). rewrite Fa in C2. destruct (floor_ok _ C2) as [G1 G2]. rewrite G1, G2, C1.
    destruct (quot_ok a b Ha Hb Hb0) as [Q1 Q2].
    change (Some (Zfloor (rnd (IZR a / IZR b))) = Some (a / b) /\ Some (Zceil (rnd (IZR a / IZR b))) = Some (- (- a / b))).
    rewrite Q1, Q2.
    rewrite Zfloor_div by auto. split; auto. f_equal. unfold Zceil. rewrite <- Zfloor_div by auto.
    do 2 f_equal. rewrite opp_IZR. field. auto.
  - apply rnd_lt_max. unfold Rdiv. rewrite Rabs_mult, Rabs_inv by auto.
    rewrite <- !abs_IZR.
    assert (1 <= IZR (Z.abs b))%R by (apply IZR_le; lia).
    assert (/ IZR (Z.abs b) <= 1)%R.
    { rewrite <- Rinv_1. apply Rinv_le; lra. }
    assert (0 < / IZR (Z.abs b))%R by (apply Rinv_0_lt_compat; lra).
    assert (0 <= IZR (Z.abs a))%R by (apply IZR_le; lia).
    assert (IZR (Z.abs a) <= IZR (2 ^ 53))%R by (apply IZR_le; lia).
    nra.
Qed.

Lemma quot_fits : forall a b, Z.abs a < 2 ^ 53 -> b <> 0 -> fits64 (a / b) /\ fits64 (- ((- a) / b)).
Proof.
  assert (G : forall a b, Z.abs a < 2 ^ 53 -> b <> 0 -> - 2 ^ 53 <= a / b <= 2 ^ 53).
  { intros a b Ha Hb. destruct (Z_lt_le_dec 0 b).
    - split; [apply Z.div_le_lower_bound; nia|apply Z.div_le_upper_bound; nia].
    - rewrite <- Z.div_opp_opp by auto. split; [apply Z.div_le_lower_bound; nia|apply Z.div_le_upper_bound; nia]. }
  intros a b Ha Hb. pose proof (G a b Ha Hb). pose proof (G (- a) b ltac:(lia) Hb).
  unfold fits64, LLONG_MIN, LLONG_MAX. lia.
Qed.
Lemma floorDiv_exact : forall x y a b, is_int x a -> is_int y b -> b <> 0 ->
  Z.abs a < 2 ^ 53 -> Z.abs b < 2 ^ 53 ->
  floorDiv x y = Ok (ofZ (a / b)) /\ ceilDiv x y = Ok (ofZ (- ((- a) / b))).
Proof.
  intros x y a b Hx Hy Hb Ha Hb'.
  assert (T : forall v k, is_int v k -> toInt v = Ok k).
  { intros [k i] k' H. unfold is_int, denote in H. unfold toInt. cbn [iv_inf iv_v] in *.
    destruct i; [destruct (k =? 1); [|destruct (k =? -1)]; discriminate|].
    destruct (_ && _)%bool; inversion H; subst; reflexivity. }
  unfold floorDiv, ceilDiv. rewrite (T _ _ Hx), (T _ _ Hy). cbn [bind].
  destruct (double_div a b Ha Hb' Hb) as [E1 E2]. rewrite E1, E2.
  destruct (quot_fits a b Ha Hb) as [F1 F2].
  unfold cast_ll, ll. 
  split; match goal with |- context [fits64b ?q] => assert (E : fits64b q = true) by (unfold fits64b, fits64 in *; apply Bool.andb_true_iff; rewrite !Z.leb_le; auto); rewrite E end; reflexivity.
Qed.
From Verif Require Import DoubleSpec SetModel SetSpec LinModel LinSpec LinProofs3.

Lemma floor_spec : forall a b, b <> 0 -> is_floor a b (a / b) /\ is_ceiling a b (- ((- a) / b)).
Proof.
  intros a b Hb. unfold is_floor, is_ceiling.
  pose proof (Z.div_mod a b Hb). pose proof (Z.div_mod (- a) b Hb).
  destruct (Z_lt_le_dec 0 b).
  - pose proof (Z.mod_pos_bound a b l). pose proof (Z.mod_pos_bound (- a) b l). split; left; nia.
  - pose proof (Z.mod_neg_bound a b ltac:(lia)). pose proof (Z.mod_neg_bound (- a) b ltac:(lia)). split; right; nia.
Qed.
Lemma C15_small_l : forall x y a b, is_int x a -> is_int y b -> b <> 0 -> small a -> small b ->
  (exists r q, floorDiv x y = Ok r /\ is_int r q /\ is_floor a b q) /\
  (exists r q, ceilDiv x y = Ok r /\ is_int r q /\ is_ceiling a b q).
Proof.
  intros x y a b Hx Hy Hb Sa Sb. unfold small in *.
  destruct (floorDiv_exact x y a b Hx Hy Hb ltac:(lia) ltac:(lia)) as [E1 E2].
  destruct (floor_spec a b Hb) as [F1 F2]. destruct (quot_fits a b ltac:(lia) Hb) as [G1 G2].
  assert (O : forall z, fits64 z -> is_int (ofZ z) z).
  { intros z Hz. unfold is_int, denote, ofZ. cbn [iv_inf iv_v]. unfold fits64 in Hz.
    replace (_ && _)%bool with true by (symmetry; apply Bool.andb_true_iff; rewrite !Z.leb_le; auto). reflexivity. }
  split; eauto 10.
Qed.
Lemma small_rounds : rounds_down (when_small floorDiv) /\ rounds_up (when_small ceilDiv).
Proof.
  split; intros x y r Hx Hy Hb H; unfold when_small in H; destruct (smallb x && smallb y)%bool eqn:E; try discriminate;
    apply Bool.andb_true_iff in E; unfold smallb in E; rewrite !Z.ltb_lt in E;
    destruct (floorDiv_exact x y _ _ Hx Hy Hb ltac:(lia) ltac:(lia)) as [E1 E2];
    destruct (quot_fits (iv_v x) (iv_v y) ltac:(lia) Hb) as [G1 G2];
    (rewrite E1 in H || rewrite E2 in H); inversion H; subst; unfold is_int, denote, ofZ; cbn [iv_inf iv_v]; unfold fits64 in *;
    (replace (_ && _)%bool with true by (symmetry; apply Bool.andb_true_iff; rewrite !Z.leb_le; auto)); reflexivity.
Qed.
