Require Import ZArith List Bool Lia ZifyBool.
From Verif Require Import Base LitProofs IntValModel IntValSpec SetModel ArrModel ArrSpec ArrProofs AccessProofs BarrModel BarrSpec.
Import ListNotations.
Open Scope Z_scope.
Ltac Zify.zify_post_hook ::= idtac.

Lemma to_int_ok : forall z, INT_MIN <= z <= INT_MAX -> to_int z = z.
Proof. intros z H. unfold to_int. rewrite Z.mod_small; unfold INT_MIN, INT_MAX in *; lia. Qed.
Lemma is_int_v : forall x z, is_int x z -> isFinite x = true /\ iv_v x = z.
Proof. intros x z H. destruct (is_int_eq _ _ H) as [-> _]. auto. Qed.
Lemma u32_range : forall z, 0 <= u32 z < 2 ^ 32.
Proof. intros. apply Z.mod_pos_bound. lia. Qed.
Lemma u32_l : forall a b, u32 (u32 a * b) = u32 (a * b).
Proof. intros. unfold u32. apply Z.mul_mod_idemp_l. lia. Qed.
Lemma u32_r : forall a b, u32 (a * u32 b) = u32 (a * b).
Proof. intros. unfold u32. apply Z.mul_mod_idemp_r. lia. Qed.
Lemma u32_add : forall a b, u32 (u32 a + b) = u32 (a + b).
Proof. intros. unfold u32. apply Z.add_mod_idemp_l. lia. Qed.

(** ** The index sets of arrayXd *)
Lemma xd_app : forall s1 s2 i ds p inf,
  xd_dims i (s1 ++ s2) ds p inf = do '(ds, p, inf) <- xd_dims i s1 ds p inf; xd_dims (i + length s1) s2 ds p inf.
Proof.
  induction s1 as [|s s1 IH]; intros s2 i ds p inf; cbn [app length xd_dims bind].
  - rewrite Nat.add_0_r. reflexivity.
  - replace (i + S (length s1))%nat with (S i + length s1)%nat by lia.
    destruct s as [|[a b] [|]]; [apply IH | | reflexivity].
    destruct (isFinite a && isFinite b).
    + destruct (width (to_int (iv_v a)) (to_int (iv_v b))); cbn [bind]; auto.
    + destruct inf; [reflexivity|]. destruct (isFinite a); [apply IH | reflexivity].
Qed.
Lemma range_of_ok : forall s r, range_of s r -> range_ok r -> forall i rest ds p inf,
  xd_dims i (s :: rest) ds p inf = xd_dims (S i) rest (ds ++ [r]) (u32 (p * wid r)) inf.
Proof.
  intros s r H Hr i rest ds p inf. destruct H as [|x y l u Hx Hy Hlu]; cbn [xd_dims].
  - unfold wid. cbn [fst snd]. rewrite Z.mul_0_r. reflexivity.
  - destruct (is_int_v _ _ Hx) as [-> ->]. destruct (is_int_v _ _ Hy) as [-> ->]. cbn [andb].
    pose proof (width_ok (l, u) Hr) as HW. destruct Hr as (H1 & H2 & H3). unfold wid in *. cbn [fst snd] in *.
    rewrite !to_int_ok by lia. rewrite HW. cbn [bind]. rewrite u32_r. reflexivity.
Qed.
Lemma xd_ok : forall sets sh, Forall2 range_of sets sh -> Forall range_ok sh -> forall i ds p inf, 0 <= p < 2 ^ 32 ->
  xd_dims i sets ds p inf = Ok (ds ++ sh, u32 (p * card sh), inf).
Proof.
  induction 1 as [|s r sets sh Hs HF IH]; intros Hok i ds p inf Hp.
  - cbn [xd_dims card]. rewrite app_nil_r, Z.mul_1_r, u32_small by lia. reflexivity.
  - inversion_clear Hok. rewrite (range_of_ok s r Hs H). rewrite IH by (auto using u32_range).
    rewrite <- app_assoc. cbn [app card]. rewrite u32_l, Z.mul_assoc. reflexivity.
Qed.
Lemma from_ok : forall s l, from s l -> INT_MIN <= l <= INT_MAX -> forall i rest ds p,
  xd_dims i (s :: rest) ds p None = xd_dims (S i) rest (ds ++ [(l, l)]) p (Some i).
Proof.
  intros s l (x & y & -> & Hx & Hy) Hl i rest ds p. cbn [xd_dims]. destruct (is_int_v _ _ Hx) as [-> ->].
  assert (Hf : isFinite y = false).
  { unfold denote in Hy. unfold isFinite. destruct (iv_inf y); [reflexivity|]. destruct (_ && _); discriminate. }
  rewrite Hf. cbn [andb]. rewrite to_int_ok by lia. reflexivity.
Qed.
Lemma grow_ok : forall sh1 l h sh2 d, INT_MIN <= h + d <= INT_MAX -> grow (sh1 ++ (l, h) :: sh2) (length sh1) d = Ok (sh1 ++ (l, h + d) :: sh2).
Proof.
  induction sh1 as [|r sh1 IH]; intros l h sh2 d Hd; cbn [app length grow].
  - rewrite i32_ok by lia. reflexivity.
  - rewrite IH by lia. destruct r. reflexivity.
Qed.
Lemma Forall2_range_len : forall sets sh, Forall2 range_of sets sh -> length sets = length sh.
Proof. induction 1; cbn; congruence. Qed.

Section P.
Variable E : Type.
Variable eqb : E -> E -> bool.
Variable same : E -> E -> Prop.
Hypothesis same_refl : forall e, same e e.
Hypothesis same_sym : forall a b, same a b -> same b a.
Hypothesis same_trans : forall a b c, same a b -> same b c -> same a c.
Hypothesis eqb_same : forall a b, eqb a b = true -> same a b.
Notation rep := (rep E eqb same).
Notation brep := (built_rep E eqb same same_refl same_sym same_trans eqb_same).

Lemma view_built : forall a sh el sh', built eqb a sh el -> shape_ok sh' -> card sh' = card sh ->
  exists a', view a sh' = Ok a' /\ built eqb a' sh' el.
Proof using All.
  intros a sh el sh' HB Hok Hc. destruct (C30_defined_l E eqb same same_refl same_sym same_trans eqb_same a sh el sh' HB Hok Hc) as [[a' Ha] _].
  exists a'. split; [exact Ha|]. eapply b_view; eauto.
Qed.
Lemma built_facts : forall a sh el, built eqb a sh el -> asize a = Ok (card sh) /\ dims a = len sh /\ card sh = len el /\ shape_ok sh /\
  forall k r, nth_error sh k = Some r -> amin a (Z.of_nat k) = Ok (fst r) /\ amax a (Z.of_nat k) = Ok (snd r).
Proof using All.
  intros a sh el HB. destruct (C29_l E eqb same same_refl same_sym same_trans eqb_same a sh el HB) as (H1 & H2 & H3 & H4 & _).
  split; [exact H2|]. split; [exact H3|]. split; [congruence|]. split.
  - pose proof (brep a sh el HB) as R. apply rep_shape in R. tauto.
  - intros k [lo hi] Hk. apply H4; [lia|]. rewrite Nat2Z.id. exact Hk.
Qed.

(** ** arrayXd *)
Lemma arrayXd_finite : forall a sh el sets sh', built eqb a sh el -> sh' <> [] -> Forall2 range_of sets sh' -> Forall range_ok sh' ->
  card sh' < 2 ^ 32 ->
  if card sh' =? len el then exists a', arrayXd sets a = Ok a' /\ built eqb a' sh' el else arrayXd sets a = Err EvalError.
Proof using All.
  intros a sh el sets sh' HB Hne HF Hok Hc. destruct (built_facts a sh el HB) as (HS & _ & HL & Hsh & _).
  pose proof (card_nonneg sh' Hok) as Hc0.
  assert (HE : arrayXd sets a = if card sh' =? card sh then view a sh' else Err EvalError).
  { unfold arrayXd. rewrite (xd_ok sets sh' HF Hok) by lia. cbn [bind app]. rewrite HS. cbn [bind].
    rewrite Z.mul_1_l, u32_small by lia. reflexivity. }
  rewrite HE, <- HL. destruct (Z.eqb_spec (card sh') (card sh)) as [Eq|]; [|reflexivity].
  apply view_built with (sh := sh); auto. destruct Hsh as (_ & _ & Hm). split; [exact Hne|]. split; [exact Hok | lia].
Qed.
Lemma arrayXd_infinite : forall a sh el sets1 s sets2 sh1 l sh2, built eqb a sh el ->
  Forall2 range_of sets1 sh1 -> from s l -> Forall2 range_of sets2 sh2 -> Forall range_ok (sh1 ++ sh2) ->
  let p := card sh1 * card sh2 in 0 < p < 2 ^ 32 -> INT_MIN < l -> l + len el / p - 1 <= INT_MAX -> l <= INT_MAX ->
  if len el mod p =? 0 then exists a', arrayXd (sets1 ++ s :: sets2) a = Ok a' /\ built eqb a' (sh1 ++ (l, l + len el / p - 1) :: sh2) el
  else arrayXd (sets1 ++ s :: sets2) a = Err EvalError.
Proof using All.
  intros a sh el sets1 s sets2 sh1 l sh2 HB HF1 Hs HF2 Hok p Hp Hl1 Hl2 Hl3. destruct (built_facts a sh el HB) as (HS & _ & HL & Hsh & _).
  apply Forall_app in Hok. destruct Hok as [Hok1 Hok2].
  pose proof (card_nonneg sh1 Hok1). pose proof (card_nonneg sh2 Hok2).
  destruct Hsh as (_ & Hsok & Hm). pose proof (card_nonneg sh Hsok) as Hc0. rewrite HL in *.
  assert (Hq : 0 <= len el / p) by (apply Z.div_pos; lia).
  assert (Hq2 : len el / p <= len el) by (apply Z.div_le_upper_bound; nia).
  assert (HE : arrayXd (sets1 ++ s :: sets2) a =
    if len el mod p =? 0 then view a (sh1 ++ (l, l + len el / p - 1) :: sh2) else Err EvalError).
  { unfold arrayXd. rewrite xd_app, (xd_ok sets1 sh1 HF1 Hok1) by lia. cbn [bind app]. rewrite (from_ok s l Hs) by (unfold INT_MIN, INT_MAX in *; lia).
    rewrite (xd_ok sets2 sh2 HF2 Hok2) by (apply u32_range). cbn [bind]. rewrite HS. cbn [bind].
    rewrite Z.mul_1_l, u32_l. fold p. rewrite (u32_small p) by lia. replace (p =? 0) with false by lia.
    destruct (Z.eqb_spec (len el mod p) 0) as [Em|]; [|reflexivity]. cbn [negb].
    assert (Hti : to_int (u32 (len el / p - 1)) = len el / p - 1).
    { unfold to_int, u32. rewrite Z.add_mod_idemp_l by lia. unfold INT_MAX in *. rewrite Z.mod_small by lia. lia. }
    rewrite Hti. rewrite <- app_assoc. cbn [app]. rewrite Nat.add_0_l, (Forall2_range_len _ _ HF1), grow_ok by (unfold INT_MIN, INT_MAX in *; lia).
    cbn [bind]. assert (Hd : p * (len el / p) = len el) by (pose proof (Z.div_mod (len el) p ltac:(lia)); lia).
    rewrite Hd, u32_small by (unfold INT_MAX in *; lia). rewrite Z.eqb_refl. do 4 f_equal. lia. }
  rewrite HE. destruct (Z.eqb_spec (len el mod p) 0) as [Em|]; [|reflexivity].
  assert (Hd : p * (len el / p) = len el) by (pose proof (Z.div_mod (len el) p ltac:(lia)); lia).
  assert (Hcd : card (sh1 ++ (l, l + len el / p - 1) :: sh2) = card sh).
  { rewrite HL, card_app. cbn [card]. unfold wid. cbn [fst snd]. unfold p in *. nia. }
  apply view_built with (sh := sh); auto. split; [|split].
  - destruct sh1; discriminate.
  - apply Forall_app. split; [exact Hok1|]. constructor; [|exact Hok2]. unfold range_ok, wid, INT_MIN, INT_MAX in *. cbn [fst snd]. lia.
  - lia.
Qed.
Lemma arrayXd_bad : forall (a : arr E) sets1 s rest sh1, Forall2 range_of sets1 sh1 -> Forall range_ok sh1 ->
  (2 <= len s \/ exists x y, s = [(x, y)] /\ denote x = Some MInf) -> arrayXd (sets1 ++ s :: rest) a = Err EvalError.
Proof using All.
  intros a sets1 s rest sh1 HF Hok Hs. unfold arrayXd. rewrite xd_app, (xd_ok sets1 sh1 HF Hok) by lia. cbn [bind app].
  assert (HX : forall i ds p, xd_dims i (s :: rest) ds p None = Err EvalError).
  { intros. destruct Hs as [Hs | (x & y & -> & Hx)].
    - destruct s as [|r [|r' s]]; unfold len in Hs; cbn [length] in Hs; try lia. destruct r; reflexivity.
    - cbn [xd_dims]. assert (Hf : isFinite x = false).
      { unfold denote in Hx. unfold isFinite. destruct (iv_inf x); [reflexivity|]. destruct (_ && _); discriminate. }
      rewrite Hf. reflexivity. }
  rewrite HX. reflexivity.
Qed.
Lemma arrayXd_two_infinite : forall (a : arr E) sets1 s1 sets2 s2 rest sh1 l1 sh2 l2, Forall2 range_of sets1 sh1 -> from s1 l1 ->
  Forall2 range_of sets2 sh2 -> from s2 l2 -> Forall range_ok (sh1 ++ sh2) -> INT_MIN <= l1 <= INT_MAX ->
  arrayXd (sets1 ++ s1 :: sets2 ++ s2 :: rest) a = Err EvalError.
Proof using All.
  intros a sets1 s1 sets2 s2 rest sh1 l1 sh2 l2 HF1 Hs1 HF2 Hs2 Hok Hl. apply Forall_app in Hok. destruct Hok as [Hok1 Hok2].
  unfold arrayXd. rewrite xd_app, (xd_ok sets1 sh1 HF1 Hok1) by lia. cbn [bind app]. rewrite (from_ok s1 l1 Hs1) by lia.
  rewrite xd_app, (xd_ok sets2 sh2 HF2 Hok2) by (apply u32_range). cbn [bind]. destruct Hs2 as (x & y & -> & Hx & Hy). cbn [xd_dims].
  assert (Hf : isFinite y = false).
  { unfold denote in Hy. unfold isFinite. destruct (iv_inf y); [reflexivity|]. destruct (_ && _); discriminate. }
  rewrite Hf, andb_false_r. reflexivity.
Qed.

(** ** array1d of one argument and arrayXd of two arrays *)
Lemma array1d_list_ok : forall a sh el, built eqb a sh el -> exists a', array1d_list a = Ok a' /\ built eqb a' [(1, len el)] el.
Proof using All.
  intros a sh el HB. destruct (built_facts a sh el HB) as (HS & HD & HL & (Hne & Hok & Hc) & HM).
  assert (HV : exists a', view1 a = Ok a' /\ built eqb a' [(1, len el)] el).
  { destruct (C30_defined_l E eqb same same_refl same_sym same_trans eqb_same a sh el sh HB (conj Hne (conj Hok Hc)) eq_refl) as [_ [a' Ha]].
    exists a'. split; [exact Ha|]. rewrite <- HL. eapply b_view1; eauto. }
  unfold array1d_list. rewrite HD. destruct sh as [|r [|r' sh]]; [congruence| |].
  - replace (len [r] =? 1) with true by reflexivity. destruct (HM 0%nat r eq_refl) as [HM0 _]; change (Z.of_nat 0) with 0 in HM0; rewrite HM0. cbn [bind].
    destruct (Z.eqb_spec (fst r) 1) as [E1|]; [|exact HV]. exists a. split; [reflexivity|].
    assert (r = (1, len el)) as <-; [|exact HB]. destruct r as [lo hi]. cbn [card fst] in *. unfold wid in *. cbn [fst snd] in *. f_equal; lia.
  - assert (Hb : len (r :: r' :: sh) =? 1 = false) by (unfold len; cbn [length]; lia). rewrite Hb. exact HV.
Qed.
Lemma same_dims_ok : forall a0 sh0 el0 a1 sh1 el1 n, built eqb a0 sh0 el0 -> built eqb a1 sh1 el1 -> length sh0 = length sh1 -> (n <= length sh0)%nat ->
  exists b, same_dims n a0 a1 = Ok b /\ (b = true <-> firstn n sh0 = firstn n sh1).
Proof using All.
  intros a0 sh0 el0 a1 sh1 el1 n HB0 HB1 HLs. destruct (built_facts a0 sh0 el0 HB0) as (_ & _ & _ & _ & M0). destruct (built_facts a1 sh1 el1 HB1) as (_ & _ & _ & _ & M1).
  induction n as [|n IH]; intros Hn; cbn [same_dims].
  - exists true. split; [reflexivity|]. cbn. tauto.
  - destruct (nth_error sh0 n) as [[l0 h0]|] eqn:E0; [|apply nth_error_None in E0; lia].
    destruct (nth_error sh1 n) as [[l1 h1]|] eqn:E1; [|apply nth_error_None in E1; lia].
    destruct (M0 n _ E0) as [-> ->]. destruct (M1 n _ E1) as [-> ->]. cbn [bind fst snd].
    rewrite (firstn_snoc _ _ _ _ E0), (firstn_snoc _ _ _ _ E1).
    destruct (Z.eqb_spec l0 l1) as [->|Hl]; cbn [negb].
    + destruct (Z.eqb_spec h0 h1) as [->|Hh]; cbn [negb].
      * destruct IH as (b & Hb & Hiff); [lia|]. exists b. split; [exact Hb|]. rewrite Hiff. split; [congruence|].
        intros H. apply app_inj_tail in H. tauto.
      * exists false. split; [reflexivity|]. split; [discriminate|]. intros H. apply app_inj_tail in H. destruct H as [_ H]. congruence.
    + exists false. split; [reflexivity|]. split; [discriminate|]. intros H. apply app_inj_tail in H. destruct H as [_ H]. congruence.
Qed.
Lemma skipn_nth : forall (A : Type) (l : list A) n x, nth_error l n = Some x -> skipn n l = x :: skipn (S n) l.
Proof using Type. induction l as [|y l IH]; intros [|n] x H; try discriminate; cbn in *; [congruence|]. apply IH. exact H. Qed.
Lemma all_dims_ok : forall a sh el n i, built eqb a sh el -> (n + i = length sh)%nat -> all_dims n (Z.of_nat i) a = Ok (skipn i sh).
Proof using All.
  intros a sh el n i HB. destruct (built_facts a sh el HB) as (_ & _ & _ & _ & M). revert i. induction n as [|n IH]; intros i Hi; cbn [all_dims].
  - rewrite skipn_all2 by lia. reflexivity.
  - destruct (nth_error sh i) as [[l h]|] eqn:E0; [|apply nth_error_None in E0; lia].
    destruct (M i _ E0) as [-> ->]. cbn [bind fst snd]. replace (Z.of_nat i + 1) with (Z.of_nat (S i)) by lia. rewrite IH by lia. cbn [bind].
    rewrite (skipn_nth _ _ _ _ E0). reflexivity.
Qed.
Lemma arrayXd2_ok : forall a0 sh0 el0 a1 sh1 el1, built eqb a0 sh0 el0 -> built eqb a1 sh1 el1 -> len el0 = len el1 ->
  exists a', arrayXd2 a0 a1 = Ok a' /\ built eqb a' sh0 el1.
Proof using All.
  intros a0 sh0 el0 a1 sh1 el1 HB0 HB1 HL.
  destruct (built_facts a0 sh0 el0 HB0) as (_ & D0 & L0 & O0 & _). destruct (built_facts a1 sh1 el1 HB1) as (_ & D1 & L1 & _ & _).
  assert (HV : exists a', (do ds <- all_dims (Z.to_nat (len sh0)) 0 a0; view a1 ds) = Ok a' /\ built eqb a' sh0 el1).
  { pose proof (all_dims_ok a0 sh0 el0 (length sh0) 0 HB0 ltac:(lia)) as HA. cbn [Z.of_nat skipn] in HA.
    unfold len at 1. rewrite Nat2Z.id, HA. cbn [bind]. apply view_built with (sh := sh1); auto. congruence. }
  unfold arrayXd2. rewrite D0, D1. destruct (Z.eqb_spec (len sh0) (len sh1)) as [Eq|]; [|exact HV].
  unfold len in Eq. destruct (same_dims_ok a0 sh0 el0 a1 sh1 el1 (length sh0) HB0 HB1 ltac:(lia) (le_n _)) as (b & Hb & Hiff).
  unfold len at 1. rewrite Nat2Z.id, Hb. cbn [bind]. destruct b; [|exact HV].
  exists a1. split; [reflexivity|]. assert (Hs : firstn (length sh0) sh0 = firstn (length sh0) sh1) by (apply Hiff; reflexivity).
  rewrite firstn_all in Hs. replace (length sh0) with (length sh1) in Hs by lia. rewrite firstn_all in Hs. rewrite Hs. exact HB1.
Qed.
End P.
