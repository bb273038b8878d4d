Require Import ZArith List Bool Lia Btauto ZifyBool.
From Verif Require Import Base IntValModel IntValSpec IntValProofs LitModel LitSpec.
Import ListNotations.
Open Scope Z_scope.

(** ** Bits *)
Lemma land_shl_0 : forall a j k, 0 <= k -> 0 <= a < 2 ^ k -> Z.land a (Z.shiftl j k) = 0.
Proof.
  intros a j k Hk Ha. apply Z.bits_inj'. intros n Hn. rewrite Z.land_spec, Z.bits_0.
  destruct (Z.ltb_spec n k).
  - rewrite Z.shiftl_spec_low by lia. apply andb_false_r.
  - replace a with (a mod 2 ^ k) by (apply Z.mod_small; lia).
    rewrite Z.mod_pow2_bits_high by lia. reflexivity.
Qed.
Lemma lor_shl : forall a j k, 0 <= k -> 0 <= a < 2 ^ k -> Z.lor a (Z.shiftl j k) = a + j * 2 ^ k.
Proof.
  intros a j k Hk Ha. rewrite <- Z.shiftl_mul_pow2 by lia.
  pose proof (land_shl_0 a j k Hk Ha) as H.
  rewrite Z.add_nocarry_lxor by exact H. symmetry. apply Z.lxor_lor. exact H.
Qed.
Lemma lor_low : forall q a k, 0 <= k -> 0 <= a < 2 ^ k -> Z.lor (q * 2 ^ k) a = q * 2 ^ k + a.
Proof. intros q a k Hk Ha. rewrite Z.lor_comm, <- Z.shiftl_mul_pow2, lor_shl by lia. rewrite Z.shiftl_mul_pow2; lia. Qed.
Lemma land_mask : forall b k j, 0 <= k -> Z.land b (Z.shiftl j k) = Z.land (b / 2 ^ k) j * 2 ^ k.
Proof.
  intros b k j Hk. rewrite <- Z.shiftl_mul_pow2, <- Z.shiftr_div_pow2 by lia.
  apply Z.bits_inj'. intros n Hn. rewrite Z.land_spec.
  destruct (Z.ltb_spec n k).
  - rewrite !Z.shiftl_spec_low by lia. apply andb_false_r.
  - rewrite !Z.shiftl_spec by lia. rewrite Z.land_spec, Z.shiftr_spec by lia. do 2 f_equal. lia.
Qed.
Lemma ldiff_sub : forall b m, Z.ldiff b m = b - Z.land b m.
Proof.
  intros b m. rewrite Z.sub_nocarry_ldiff.
  - apply Z.bits_inj'. intros n Hn. rewrite !Z.ldiff_spec, Z.land_spec. btauto.
  - apply Z.bits_inj'. intros n Hn. rewrite !Z.ldiff_spec, Z.land_spec, Z.bits_0. btauto.
Qed.
Lemma land_ones' : forall b k, 0 <= k -> Z.land b (2 ^ k - 1) = b mod 2 ^ k.
Proof. intros b k Hk. rewrite <- Z.land_ones by lia. rewrite Z.ones_equiv. f_equal. Qed.

Lemma land3 : forall p, Z.land p 3 = p mod 4.
Proof. intros. apply (land_ones' p 2). lia. Qed.
Lemma land7 : forall p, Z.land p 7 = p mod 8.
Proof. intros. apply (land_ones' p 3). lia. Qed.
Lemma land1 : forall p, Z.land p 1 = p mod 2.
Proof. intros. apply (land_ones' p 1). lia. Qed.
Lemma land4 : forall p, Z.land p 4 = (p / 4) mod 2 * 4.
Proof. intros. change 4 with (Z.shiftl 1 2) at 1. rewrite land_mask by lia. rewrite land1. reflexivity. Qed.
Lemma bits_m0 : forall p, (if Z.land p 4 =? 0 then true else false) = (p mod 8 <? 4).
Proof.
  intros p. rewrite land4. assert ((p / 4) mod 2 * 4 = p mod 8 - p mod 4).
  { change 8 with (4 * 2). rewrite Z.rem_mul_r by lia. lia. }
  pose proof (Z.mod_pos_bound p 4 ltac:(lia)). pose proof (Z.mod_pos_bound p 8 ltac:(lia)).
  pose proof (Z.mod_pos_bound (p / 4) 2 ltac:(lia)).
  destruct (Z.eqb_spec ((p / 4) mod 2 * 4) 0); lia.
Qed.

(** ** Unboxed integers *)
Lemma unbox_int_char : forall i, - (2 ^ 61 - 1) <= i <= 2 ^ 61 - 1 ->
  intToUnboxedInt i = Some (8 * Z.abs i + (if i <? 0 then 6 else 2)).
Proof.
  intros i Hi. unfold intToUnboxedInt. change maxUnboxedVal with (2 ^ 61 - 1).
  replace ((i <? - (2 ^ 61 - 1)) || (i >? 2 ^ 61 - 1)) with false by lia. f_equal.
  replace (if i <? 0 then - i else i) with (Z.abs i) by (destruct (Z.ltb_spec i 0); lia).
  unfold u64. rewrite Z.shiftl_mul_pow2 by lia.
  rewrite Z.mod_small by (change (2^64) with (2^61 * 2^3); lia).
  rewrite lor_low by lia. change (2 ^ 3) with 8.
  destruct (Z.ltb_spec i 0); [|lia].
  replace (Z.abs i * 8 + 2) with (Z.lor (Z.abs i * 2 ^ 3) 2) by (rewrite lor_low by lia; reflexivity).
  rewrite <- Z.lor_assoc. change (Z.lor 2 4) with 6. rewrite lor_low by lia. lia.
Qed.
Lemma unbox_int_none : forall i, intToUnboxedInt i = None <-> (i < - (2 ^ 61 - 1) \/ i > 2 ^ 61 - 1).
Proof.
  intros i. unfold intToUnboxedInt. change maxUnboxedVal with (2 ^ 61 - 1).
  destruct ((i <? - (2 ^ 61 - 1)) || (i >? 2 ^ 61 - 1)) eqn:E; split; intros; try lia; try congruence; reflexivity.
Qed.
Lemma unboxed_int_decode : forall q s, 0 <= q -> s = 2 \/ s = 6 ->
  unboxedIntToIntVal (8 * q + s) = ofZ (if s =? 2 then q else - q).
Proof.
  intros q s Hq Hs. unfold unboxedIntToIntVal. rewrite ldiff_sub, land7.
  pose proof (bits_m0 (8 * q + s)) as Hb.
  assert (Hm : (8 * q + s) mod 8 = s) by (symmetry; apply (Z.mod_unique _ _ q); lia).
  rewrite Hm in *. rewrite Z.shiftr_div_pow2 by lia.
  replace ((8 * q + s - s) / 2 ^ 3) with q by (apply (Z.div_unique _ _ q 0); lia).
  destruct (Z.land (8 * q + s) 4 =? 0); destruct Hs; subst s; cbn in *; congruence.
Qed.
Lemma Some_inj : forall (A : Type) (a b : A), Some a = Some b -> a = b.
Proof. congruence. Qed.
Lemma intToUnboxed_ok : forall i p, intToUnboxedInt i = Some p ->
  0 < p < 2 ^ 64 /\ isUnboxedInt p = true /\ isUnboxedVal p = true /\ isUnboxedFloatVal p = false /\ isTagged p = false /\
  unboxedIntToIntVal p = ofZ i.
Proof.
  intros i p H.
  assert (Hi : - (2 ^ 61 - 1) <= i <= 2 ^ 61 - 1).
  { destruct (Z_le_gt_dec i (2 ^ 61 - 1)); destruct (Z_le_gt_dec (- (2 ^ 61 - 1)) i); try lia;
      assert (intToUnboxedInt i = None) by (apply unbox_int_none; lia); congruence. }
  rewrite unbox_int_char in H by lia. apply Some_inj in H. subst p.
  set (s := if i <? 0 then 6 else 2). assert (Hs : s = 2 \/ s = 6) by (unfold s; destruct (i <? 0); lia).
  assert (Hm : (8 * Z.abs i + s) mod 4 = 2).
  { symmetry. destruct Hs as [-> | ->]; [apply (Z.mod_unique _ _ (2 * Z.abs i)) | apply (Z.mod_unique _ _ (2 * Z.abs i + 1))]; lia. }
  assert (Hm2 : (8 * Z.abs i + s) mod 2 = 0).
  { symmetry. destruct Hs as [-> | ->]; [apply (Z.mod_unique _ _ (4 * Z.abs i + 1)) | apply (Z.mod_unique _ _ (4 * Z.abs i + 3))]; lia. }
  unfold isUnboxedInt, isUnboxedVal, isUnboxedFloatVal, isTagged. unfold isUnboxedVal. rewrite land3, land1, Hm, Hm2. cbn [Z.eqb negb Pos.eqb].
  repeat split; try lia.
  - rewrite unboxed_int_decode by (auto; lia). f_equal. unfold s. destruct (Z.ltb_spec i 0); cbn; lia.
Qed.

(** ** Unboxed doubles *)
Lemma double_split : forall b, 0 <= b < 2 ^ 64 ->
  exists s e m, b = s * 2 ^ 63 + e * 2 ^ 52 + m /\ 0 <= s < 2 /\ 0 <= e < 2 ^ 11 /\ 0 <= m < 2 ^ 52.
Proof.
  intros b Hb. exists (b / 2 ^ 63), ((b / 2 ^ 52) mod 2 ^ 11), (b mod 2 ^ 52).
  pose proof (Z.div_mod b (2 ^ 52) ltac:(lia)) as H1.
  pose proof (Z.div_mod (b / 2 ^ 52) (2 ^ 11) ltac:(lia)) as H2.
  rewrite Z.div_div in H2 by lia. change (2 ^ 52 * 2 ^ 11) with (2 ^ 63) in H2.
  pose proof (Z.mod_pos_bound b (2 ^ 52) ltac:(lia)). pose proof (Z.mod_pos_bound (b / 2 ^ 52) (2 ^ 11) ltac:(lia)).
  repeat split; lia.
Qed.
Lemma div_char : forall a q r d, a = d * q + r -> 0 <= r < d -> a / d = q.
Proof. intros. symmetry. apply (Z.div_unique _ _ q r); lia. Qed.
Lemma mod_char : forall a q r d, a = d * q + r -> 0 <= r < d -> a mod d = r.
Proof. intros. symmetry. apply (Z.mod_unique _ _ q r); lia. Qed.

Lemma unbox_double_char : forall s e m, 0 <= s < 2 -> 0 <= e < 2 ^ 11 -> 0 <= m < 2 ^ 52 ->
  doubleToUnboxedFloatVal (s * 2 ^ 63 + e * 2 ^ 52 + m) =
  if (e =? 0) || ((513 <=? e) && (e <=? 1534))
  then Some (s * 2 ^ 63 + (if e =? 0 then 0 else e - 512) * 2 ^ 53 + (2 * m + 1)) else None.
Proof.
  intros s e m Hs He Hm. set (b := s * 2 ^ 63 + e * 2 ^ 52 + m). unfold doubleToUnboxedFloatVal.
  assert (Hd : b / 2 ^ 52 = s * 2 ^ 11 + e) by (unfold b; apply (div_char _ _ m); lia).
  assert (Hl : Z.land b (Z.shiftl 2047 52) = e * 2 ^ 52).
  { rewrite land_mask by lia. rewrite Hd. change 2047 with (2 ^ 11 - 1). rewrite land_ones' by lia.
    rewrite (mod_char _ s e) by lia. reflexivity. }
  assert (Hx : Z.shiftr (Z.land b (Z.shiftl 2047 52)) 52 = e).
  { rewrite Hl, Z.shiftr_div_pow2 by lia. apply Z.div_mul. lia. }
  rewrite Hx.
  assert (Hsg : (Z.land b (Z.shiftl 1 63) =? 0) = (s =? 0)).
  { rewrite land_mask by lia. rewrite (div_char b s (e * 2 ^ 52 + m)) by (unfold b; lia). rewrite land1.
    rewrite Z.mod_small by lia. destruct (Z.eqb_spec s 0); lia. }
  assert (Hgo : forall e', 0 <= e' < 2 ^ 10 ->
     (let sign := negb (Z.land b (Z.shiftl 1 63) =? 0) in
      let b1 := Z.ldiff b (Z.shiftl 2047 52) in
      let b2 := Z.lor (u64 (Z.shiftl b1 1)) 1 in
      Some (Z.lor (Z.lor b2 (Z.shiftl (if sign then 1 else 0) 63)) (u64 (Z.shiftl e' 53)))) =
     Some (s * 2 ^ 63 + e' * 2 ^ 53 + (2 * m + 1))).
  { intros e' He'. cbv zeta. rewrite Hsg, ldiff_sub, Hl. f_equal.
    replace (b - e * 2 ^ 52) with (s * 2 ^ 63 + m) by (unfold b; lia).
    replace (u64 (Z.shiftl (s * 2 ^ 63 + m) 1)) with (m * 2 ^ 1)
      by (unfold u64; rewrite Z.shiftl_mul_pow2 by lia; symmetry; apply (mod_char _ s); lia).
    rewrite lor_low by lia.
    replace (if negb (s =? 0) then 1 else 0) with s by (destruct (Z.eqb_spec s 0); cbn [negb]; lia).
    unfold u64. rewrite (Z.mod_small (Z.shiftl e' 53)) by (rewrite Z.shiftl_mul_pow2; lia).
    rewrite <- Z.lor_assoc, (Z.lor_comm (Z.shiftl s 63)), Z.lor_assoc.
    rewrite (lor_shl (m * 2 ^ 1 + 1)) by lia. rewrite lor_shl by lia. lia. }
  destruct (Z.eqb_spec e 0) as [-> | Hne]; cbn [negb orb].
  - apply Hgo. lia.
  - destruct ((e <? 513) || (e >? 1534)) eqn:E.
    + replace ((513 <=? e) && (e <=? 1534)) with false by lia. reflexivity.
    + replace ((513 <=? e) && (e <=? 1534)) with true by lia. apply Hgo. lia.
Qed.
Lemma unboxed_double_decode : forall s f m, 0 <= s < 2 -> 0 <= f < 2 ^ 10 -> 0 <= m < 2 ^ 52 ->
  unboxedFloatToFloatVal (s * 2 ^ 63 + f * 2 ^ 53 + (2 * m + 1)) =
  s * 2 ^ 63 + (if f =? 0 then 0 else f + 512) * 2 ^ 52 + m.
Proof.
  intros s f m Hs Hf Hm. unfold unboxedFloatToFloatVal.
  rewrite (Z.shiftr_div_pow2 _ 1) by lia.
  rewrite (div_char _ (s * 2 ^ 62 + f * 2 ^ 52 + m) 1) by lia.
  set (b := s * 2 ^ 62 + f * 2 ^ 52 + m). cbv zeta.
  assert (Hd : b / 2 ^ 52 = s * 2 ^ 10 + f) by (unfold b; apply (div_char _ _ m); lia).
  assert (Hx : Z.shiftr (Z.land b (Z.shiftl 1023 52)) 52 = f).
  { rewrite land_mask by lia. rewrite Hd. change 1023 with (2 ^ 10 - 1). rewrite land_ones' by lia.
    rewrite (mod_char _ s f) by lia. rewrite Z.shiftr_div_pow2 by lia. apply Z.div_mul. lia. }
  rewrite Hx.
  assert (Hsg : (Z.land b (Z.shiftl 1 62) =? 0) = (s =? 0)).
  { rewrite land_mask by lia. rewrite (div_char b s (f * 2 ^ 52 + m)) by (unfold b; lia). rewrite land1.
    rewrite Z.mod_small by lia. destruct (Z.eqb_spec s 0); lia. }
  rewrite Hsg.
  replace (if negb (s =? 0) then 1 else 0) with s by (destruct (Z.eqb_spec s 0); cbn [negb]; lia).
  change 4503599627370495 with (2 ^ 52 - 1). rewrite land_ones' by lia.
  rewrite (mod_char b (s * 2 ^ 10 + f) m) by (unfold b; lia).
  replace (if negb (f =? 0) then f + 512 else f) with (if f =? 0 then 0 else f + 512)
    by (destruct (Z.eqb_spec f 0); cbn [negb]; lia).
  set (e := if f =? 0 then 0 else f + 512). assert (He : 0 <= e < 2 ^ 11) by (unfold e; destruct (f =? 0); lia).
  rewrite (Z.lor_comm (Z.shiftl s 63)), <- Z.lor_assoc, (Z.lor_comm _ m), Z.lor_assoc, (Z.lor_comm (Z.shiftl e 52) m).
  rewrite (lor_shl m) by lia. rewrite lor_shl by lia. lia.
Qed.
Lemma doubleToUnboxed_ok : forall b p, 0 <= b < 2 ^ 64 -> doubleToUnboxedFloatVal b = Some p ->
  0 < p < 2 ^ 64 /\ isUnboxedFloatVal p = true /\ isUnboxedVal p = true /\ isUnboxedInt p = false /\ isTagged p = false /\
  unboxedFloatToFloatVal p = b.
Proof.
  intros b p Hb H. destruct (double_split b Hb) as (s & e & m & -> & Hs & He & Hm).
  rewrite unbox_double_char in H by lia.
  destruct ((e =? 0) || ((513 <=? e) && (e <=? 1534))) eqn:E; [|discriminate]. apply Some_inj in H. subst p.
  set (f := if e =? 0 then 0 else e - 512). assert (Hf : 0 <= f < 2 ^ 10) by (unfold f; destruct (Z.eqb_spec e 0); lia).
  set (p := s * 2 ^ 63 + f * 2 ^ 53 + (2 * m + 1)).
  assert (Hp2 : p mod 2 = 1) by (apply (mod_char _ (s * 2 ^ 62 + f * 2 ^ 52 + m)); unfold p; lia).
  assert (Hp4 : p mod 4 = 1 \/ p mod 4 = 3).
  { pose proof (Z.mod_pos_bound p 4 ltac:(lia)).
    pose proof (Z.div_mod p 4 ltac:(lia)). pose proof (Z.div_mod p 2 ltac:(lia)). lia. }
  unfold isUnboxedInt, isUnboxedVal, isUnboxedFloatVal, isTagged. unfold isUnboxedVal. rewrite land3, land1, Hp2.
  split; [unfold p; lia|]. split; [reflexivity|]. split; [destruct Hp4 as [-> | ->]; reflexivity|].
  split; [destruct Hp4 as [-> | ->]; reflexivity|]. split; [destruct Hp4 as [-> | ->]; reflexivity|].
  unfold p. rewrite unboxed_double_decode by lia. unfold f. f_equal. f_equal. f_equal.
  destruct (Z.eqb_spec e 0); cbn [negb]; [subst; reflexivity|].
  destruct (Z.eqb_spec (e - 512) 0); lia.
Qed.

(** ** Node pointers and tags *)
Lemma node_class : forall a, node_address a ->
  isUnboxedVal a = false /\ isUnboxedInt a = false /\ isUnboxedFloatVal a = false /\ isTagged a = false.
Proof.
  intros a [Ha Hm]. pose proof (Z.div_mod a 8 ltac:(lia)) as Hd. rewrite Hm in Hd.
  assert (H4 : a mod 4 = 0) by (apply (mod_char _ (2 * (a / 8))); lia).
  assert (H2 : a mod 2 = 0) by (apply (mod_char _ (4 * (a / 8))); lia).
  unfold isUnboxedInt, isUnboxedVal, isUnboxedFloatVal, isTagged. unfold isUnboxedVal. rewrite land3, land1, land7, H4, H2, Hm. auto.
Qed.
Lemma tag_ok : forall a, node_address a ->
  tag a = a + 4 /\ isTagged (tag a) = true /\ isUnboxedVal (tag a) = false /\ untag (tag a) = a /\ untag a = a.
Proof.
  intros a Hn. pose proof (node_class a Hn) as (Hu & _). destruct Hn as [Ha Hm]. pose proof (Z.div_mod a 8 ltac:(lia)) as Hd. rewrite Hm in Hd.
  assert (Ht : tag a = a + 4).
  { unfold tag. replace a with ((a / 8) * 2 ^ 3) at 1 by lia. rewrite lor_low by lia. lia. }
  assert (H4 : (a + 4) mod 4 = 0) by (apply (mod_char _ (2 * (a / 8) + 1)); lia).
  assert (H8 : (a + 4) mod 8 = 4) by (apply (mod_char _ (a / 8)); lia).
  assert (Hu' : isUnboxedVal (a + 4) = false) by (unfold isUnboxedVal; rewrite land3, H4; reflexivity).
  split; [exact Ht|]. rewrite Ht. unfold isTagged, untag. rewrite Hu, Hu', land7, H8. repeat split.
  - rewrite ldiff_sub, land4. rewrite (div_char (a + 4) (2 * (a / 8) + 1) 0) by lia.
    rewrite (mod_char _ (a / 8) 1) by lia. lia.
  - rewrite ldiff_sub, land4. rewrite (div_char a (2 * (a / 8)) 0) by lia.
    rewrite (mod_char _ (a / 8) 0) by lia. lia.
Qed.

(** ** Histories *)
Definition lit_inv (st : lit_state) : Prop :=
  (forall a b, ls_heap st a = Some b -> node_address a) /\
  (forall v a, ls_imap st v = Some a -> ls_heap st a = Some (BInt v)) /\
  (forall b a, ls_fmap st b = Some a -> ls_heap st a = Some (BFloat b)).
Lemma lit_inv_init : lit_inv ls_init.
Proof. repeat split; cbn; intros; discriminate. Qed.
Lemma put_same : forall h a b, put h a b a = Some b.
Proof. intros. unfold put. rewrite Z.eqb_refl. reflexivity. Qed.
Lemma put_other : forall h a b x, x <> a -> put h a b x = h x.
Proof. intros. unfold put. destruct (Z.eqb_spec x a); congruence. Qed.
Lemma put_keep : forall h a b x c, h a = None -> h x = Some c -> put h a b x = Some c.
Proof. intros. rewrite put_other; [auto|]. intros ->. congruence. Qed.
Lemma lit_inv_after : forall st e, lit_inv st -> possible st e -> lit_inv (after st e).
Proof.
  intros st e (Hh & Hi & Hf) Hp. destruct e as [v addr | b addr | dead]; cbn [after possible] in *.
  - destruct Hp as [Hw [Hn Hfree]]. unfold intlit_a.
    destruct (if isFinite v then intToUnboxedInt (iv_v v) else None); [repeat split; auto; apply (Hh _ _ H) |].
    destruct (ls_imap st v) eqn:E; cbn [fst]; [repeat split; auto; apply (Hh _ _ H) |].
    split; [|split]; cbn [ls_heap ls_imap ls_fmap].
    + intros a b H. unfold put in H. destruct (Z.eqb_spec a addr); [subst; auto | eauto].
    + intros w a H. destruct (iv_eq w v) eqn:Ew.
      * injection H as <-. apply iv_eq_iff in Ew. subst. apply put_same.
      * apply put_keep; auto.
    + intros b a H. apply put_keep; auto.
  - destruct Hp as [Hw [Hn Hfree]]. unfold floatlit_a.
    destruct (doubleToUnboxedFloatVal b); [repeat split; auto; apply (Hh _ _ H) |].
    destruct (ls_fmap st b) eqn:E; cbn [fst]; [repeat split; auto; apply (Hh _ _ H) |].
    split; [|split]; cbn [ls_heap ls_imap ls_fmap].
    + intros a c H. unfold put in H. destruct (Z.eqb_spec a addr); [subst; auto | eauto].
    + intros w a H. apply put_keep; auto.
    + intros c a H. destruct (Z.eqb_spec c b).
      * injection H as <-. subst. apply put_same.
      * apply put_keep; auto.
  - unfold collect. split; [|split]; cbn [ls_heap ls_imap ls_fmap].
    + intros a b H. destruct (dead a); [discriminate | eauto].
    + intros v a H. destruct (ls_imap st v) as [a'|] eqn:E; [|discriminate].
      destruct (dead a') eqn:D; [discriminate|]. injection H as <-. rewrite D. auto.
    + intros b a H. destruct (ls_fmap st b) as [a'|] eqn:E; [|discriminate].
      destruct (dead a') eqn:D; [discriminate|]. injection H as <-. rewrite D. auto.
Qed.
Lemma history_inv : forall st es st', history st es st' -> lit_inv st -> lit_inv st'.
Proof. induction 1; auto using lit_inv_after. Qed.
Lemma reachable_inv : forall st, reachable st -> lit_inv st.
Proof. intros st [es H]. eapply history_inv; eauto using lit_inv_init. Qed.

Lemma heap_after : forall st e p b, ls_heap st p = Some b -> possible st e ->
  (forall dead, e = Collect dead -> dead p = false) -> ls_heap (after st e) p = Some b.
Proof.
  intros st e p b Hb Hp Hk. destruct e as [v addr | c addr | dead]; cbn [after possible] in *.
  - destruct Hp as [_ [_ Hfree]]. unfold intlit_a.
    destruct (if isFinite v then intToUnboxedInt (iv_v v) else None); [auto|]. destruct (ls_imap st v); cbn; [auto|].
    apply put_keep; auto.
  - destruct Hp as [_ [_ Hfree]]. unfold floatlit_a.
    destruct (doubleToUnboxedFloatVal c); [auto|]. destruct (ls_fmap st c); cbn; [auto|]. apply put_keep; auto.
  - unfold collect; cbn. rewrite (Hk dead eq_refl). exact Hb.
Qed.
Lemma heap_history : forall st es st' p b, history st es st' -> ls_heap st p = Some b -> kept p es -> ls_heap st' p = Some b.
Proof.
  induction 1; intros; auto. apply IHhistory.
  - apply heap_after; auto. intros dead ->. apply H2. left; reflexivity.
  - intros dead Hin. apply H2. right; exact Hin.
Qed.

(** ** C26 *)
Lemma C26_round_trip_l : forall st v addr st' p, reachable st -> wf v -> free_address st addr ->
  intlit_a st v addr = (st', p) ->
  reachable st' /\ eid p <> KFloatLit /\ intlit_v st' p = Some v /\
  forall es st'', history st' es st'' -> kept p es -> intlit_v st'' p = Some v.
Proof.
  intros st v addr st' p Hr Hw Hfree H. pose proof (reachable_inv st Hr) as (Hh & Hi & Hf).
  assert (Hr' : reachable st').
  { destruct Hr as [es Hes]. exists (es ++ [MakeInt v addr]).
    assert (Happ : forall s0 l s1, history s0 l s1 -> history s1 [MakeInt v addr] st' -> history s0 (l ++ [MakeInt v addr]) st').
    { clear. induction 1; intros; cbn; auto. constructor; auto. }
    apply (Happ _ _ st); auto. constructor; [split; auto|]. cbn [after]. rewrite H. constructor. }
  split; [exact Hr'|]. unfold intlit_a in H.
  destruct (if isFinite v then intToUnboxedInt (iv_v v) else None) as [p0|] eqn:E.
  - injection H as <- <-. destruct (isFinite v) eqn:Ef; [|discriminate].
    apply intToUnboxed_ok in E as (_ & H1 & _ & H2 & _ & H3).
    assert (Hv : ofZ (iv_v v) = v).
    { destruct v as [z i]. unfold isFinite in Ef. cbn in *. destruct i; [discriminate|]. reflexivity. }
    rewrite Hv in H3. unfold eid, intlit_v. rewrite H1, H3. split; [discriminate|]. split; [reflexivity|].
    intros. reflexivity.
  - assert (Hp : ls_heap st' p = Some (BInt v)).
    { destruct (ls_imap st v) eqn:Em; injection H as <- <-; [auto | apply put_same]. }
    pose proof (reachable_inv st' Hr') as (Hh' & _). pose proof (node_class p (Hh' _ _ Hp)) as (_ & H1 & H2 & _).
    unfold eid, intlit_v. rewrite H1, H2, Hp. split; [discriminate|]. split; [reflexivity|].
    intros. rewrite (heap_history _ _ _ _ _ H0 Hp H3). reflexivity.
Qed.
Lemma C26_sharing_l : forall st v addr st' p addr', intlit_a st v addr = (st', p) -> intlit_a st' v addr' = (st', p).
Proof.
  intros st v addr st' p addr' H. unfold intlit_a in *.
  destruct (if isFinite v then intToUnboxedInt (iv_v v) else None) as [p0|]; [injection H as <- <-; reflexivity|].
  destruct (ls_imap st v) eqn:E.
  - injection H as <- <-. rewrite E. reflexivity.
  - injection H as <- <-. cbn [ls_imap]. replace (iv_eq v v) with true; [reflexivity|]. symmetry. apply iv_eq_iff. reflexivity.
Qed.
Lemma C26_packed_l : forall i,
  (forall p, intToUnboxedInt i = Some p ->
     - (2 ^ 61 - 1) <= i <= 2 ^ 61 - 1 /\ 0 < p < 2 ^ 64 /\ eid p = KIntLit /\ isTagged p = false /\ ~ node_address p /\
     unboxedIntToIntVal p = ofZ i) /\
  (intToUnboxedInt i = None -> ~ (- (2 ^ 61 - 1) <= i <= 2 ^ 61 - 1)).
Proof.
  intros i. split.
  - intros p H. pose proof (intToUnboxed_ok i p H) as (H0 & H1 & H2 & H3 & H4 & H5).
    unfold eid. rewrite H1. split; [|split; [auto|split; [auto|split; [auto|split; [|auto]]]]].
    + destruct (Z_le_gt_dec i (2 ^ 61 - 1)); destruct (Z_le_gt_dec (- (2 ^ 61 - 1)) i); try lia;
        assert (intToUnboxedInt i = None) by (apply unbox_int_none; lia); congruence.
    + intros Hn. apply node_class in Hn. destruct Hn as (Hn & _). congruence.
  - intros H. apply unbox_int_none in H. lia.
Qed.
Lemma C26_distinct_l : forall i j p, intToUnboxedInt i = Some p -> intToUnboxedInt j = Some p -> i = j.
Proof.
  intros i j p Hi Hj. apply intToUnboxed_ok in Hi, Hj. destruct Hi as (_ & _ & _ & _ & _ & Hi), Hj as (_ & _ & _ & _ & _ & Hj).
  rewrite Hi in Hj. injection Hj. auto.
Qed.
Lemma C26_node_l : forall a, node_address a -> eid a = KNode /\ isTagged a = false /\
  isTagged (tag a) = true /\ eid (tag a) = KNode /\ ~ node_address (tag a) /\ untag (tag a) = a /\ untag a = a.
Proof.
  intros a Ha. pose proof (node_class a Ha) as (H1 & H2 & H3 & H4). pose proof (tag_ok a Ha) as (T0 & T1 & T2 & T3 & T4).
  assert (Ht : isUnboxedInt (tag a) = false /\ isUnboxedFloatVal (tag a) = false).
  { rewrite T0. destruct Ha as [Ha Hm]. pose proof (Z.div_mod a 8 ltac:(lia)).
    unfold isUnboxedInt, isUnboxedFloatVal. rewrite land3, land1.
    rewrite (mod_char (a + 4) (2 * (a / 8) + 1) 0 4), (mod_char (a + 4) (4 * (a / 8) + 2) 0 2) by lia. auto. }
  destruct Ht as [Ht1 Ht2]. unfold eid. rewrite H2, H3, Ht1, Ht2. repeat split; auto.
  intros Hn. apply node_class in Hn. destruct Hn as (_ & _ & _ & Hn). congruence.
Qed.

(** ** C27 *)
Lemma C27_round_trip_l : forall st b addr st' p, reachable st -> finite_double b -> free_address st addr ->
  floatlit_a st b addr = (st', p) ->
  reachable st' /\ eid p <> KIntLit /\ floatlit_v st' p = Some b /\
  forall es st'', history st' es st'' -> kept p es -> floatlit_v st'' p = Some b.
Proof.
  intros st v addr st' p Hr Hw Hfree H. pose proof (reachable_inv st Hr) as (Hh & Hi & Hf).
  assert (Hr' : reachable st').
  { destruct Hr as [es Hes]. exists (es ++ [MakeFloat v addr]).
    assert (Happ : forall s0 l s1, history s0 l s1 -> history s1 [MakeFloat v addr] st' -> history s0 (l ++ [MakeFloat v addr]) st').
    { clear. induction 1; intros; cbn; auto. constructor; auto. }
    apply (Happ _ _ st); auto. constructor; [split; auto|]. cbn [after]. rewrite H. constructor. }
  split; [exact Hr'|]. unfold floatlit_a in H.
  destruct (doubleToUnboxedFloatVal v) as [p0|] eqn:E.
  - injection H as <- <-. destruct Hw as [Hw _].
    apply (doubleToUnboxed_ok _ _ Hw) in E as (_ & H1 & _ & H2 & _ & H3).
    unfold eid, floatlit_v. rewrite H1, H2, H3. split; [discriminate|]. split; [reflexivity|].
    intros. reflexivity.
  - assert (Hp : ls_heap st' p = Some (BFloat v)).
    { destruct (ls_fmap st v) eqn:Em; injection H as <- <-; [auto | apply put_same]. }
    pose proof (reachable_inv st' Hr') as (Hh' & _). pose proof (node_class p (Hh' _ _ Hp)) as (_ & H1 & H2 & _).
    unfold eid, floatlit_v. rewrite H1, H2, Hp. split; [discriminate|]. split; [reflexivity|].
    intros. rewrite (heap_history _ _ _ _ _ H0 Hp H3). reflexivity.
Qed.
Lemma C27_packed_l : forall b, 0 <= b < 2 ^ 64 ->
  forall p, doubleToUnboxedFloatVal b = Some p ->
     0 < p < 2 ^ 64 /\ eid p = KFloatLit /\ isTagged p = false /\ ~ node_address p /\ unboxedFloatToFloatVal p = b.
Proof.
  intros b Hb p H. pose proof (doubleToUnboxed_ok b p Hb H) as (H0 & H1 & H2 & H3 & H4 & H5).
  unfold eid. rewrite H1, H3. repeat split; auto; try lia.
  intros Hn. apply node_class in Hn. destruct Hn as (Hn & _). congruence.
Qed.
(* infinities and NaNs are never packed *)
Lemma C27_not_packed_l : forall b, 0 <= b < 2 ^ 64 -> (b / 2 ^ 52) mod 2 ^ 11 = 2047 -> doubleToUnboxedFloatVal b = None.
Proof.
  intros b Hb He. destruct (double_split b Hb) as (s & e & m & -> & Hs & He' & Hm).
  rewrite (div_char _ (s * 2 ^ 11 + e) m) in He by lia. rewrite (mod_char _ s e) in He by lia. subst e.
  rewrite unbox_double_char by lia. reflexivity.
Qed.

(** ** C28 *)
Lemma C28_l : forall file fl fc ll_ lc, u32_range fl -> u32_range fc -> u32_range ll_ -> u32_range lc ->
  let l := locvec_a file fl fc ll_ lc in
  loc_file l = file /\ loc_first_line l = fl /\ loc_last_line l = ll_ /\
  loc_first_column l = fc /\ loc_last_column l = lc /\
  Forall (fun v => exists z p, v = ofZ z /\ intToUnboxedInt z = Some p) (loc_ints l).
Proof.
  unfold u32_range. intros file fl fc ll_ lc Hfl Hfc Hll Hlc. cbv zeta. unfold locvec_a.
  assert (Hub : forall z, 0 <= z < 2 ^ 60 -> exists z' p, ofZ z = ofZ z' /\ intToUnboxedInt z' = Some p).
  { intros z Hz. exists z. eexists. split; [reflexivity|]. apply unbox_int_char. lia. }
  assert (Hu : (u32 (ll_ - fl) = ll_ - fl /\ fl <= ll_) \/ (u32 (ll_ - fl) = 2 ^ 32 + ll_ - fl /\ ll_ < fl)).
  { unfold u32. destruct (Z_le_gt_dec fl ll_).
    - left. rewrite Z.mod_small; lia.
    - right. split; [|lia]. apply (mod_char _ (-1)); lia. }
  destruct ((fl <? 2 ^ 20) && (u32 (ll_ - fl) <? 2 ^ 20) && (fc <? 2 ^ 10) && (lc <? 2 ^ 10)) eqn:E.
  - assert (fl <= ll_) by lia. assert (Hu' : u32 (ll_ - fl) = ll_ - fl) by lia. rewrite Hu' in *.
    rewrite (lor_shl fl) by lia. rewrite (lor_shl (fl + _)) by lia. rewrite lor_shl by lia.
    cbn [loc_file loc_first_line loc_last_line loc_first_column loc_last_column loc_ints iv_v ofZ].
    change 1048575 with (2 ^ 20 - 1). change 1023 with (2 ^ 10 - 1).
    rewrite !land_ones' by lia. rewrite !Z.shiftr_div_pow2 by lia.
    change (20 + 20 + 10) with 50. change (20 + 20) with 40.
    set (c := fl + (ll_ - fl) * 2 ^ 20 + fc * 2 ^ 40 + lc * 2 ^ 50).
    rewrite (mod_char c ((ll_ - fl) + fc * 2 ^ 20 + lc * 2 ^ 30) fl) by (unfold c; lia).
    rewrite (div_char c ((ll_ - fl) + fc * 2 ^ 20 + lc * 2 ^ 30) fl) by (unfold c; lia).
    rewrite (mod_char _ (fc + lc * 2 ^ 10) (ll_ - fl)) by lia.
    rewrite (div_char c (fc + lc * 2 ^ 10) (fl + (ll_ - fl) * 2 ^ 20)) by (unfold c; lia).
    rewrite (mod_char _ lc fc) by lia.
    rewrite (div_char c lc (fl + (ll_ - fl) * 2 ^ 20 + fc * 2 ^ 40)) by (unfold c; lia).
    unfold u32. rewrite !Z.mod_small by lia. repeat split; try lia.
    constructor; [|constructor]. apply Hub. unfold c. lia.
  - cbn [loc_file loc_first_line loc_last_line loc_first_column loc_last_column loc_ints iv_v ofZ].
    unfold u32. rewrite !Z.mod_small by lia. repeat split; auto.
    repeat constructor; apply Hub; lia.
Qed.
Lemma C28_introduced_l : forall a, node_address a ->
  loc_lv a = a /\ loc_isIntroduced a = false /\
  loc_lv (loc_introduce a) = a /\ loc_isIntroduced (loc_introduce a) = true /\
  loc_introduce (loc_introduce a) = loc_introduce a.
Proof.
  intros a [Ha Hm]. pose proof (Z.div_mod a 8 ltac:(lia)) as Hd. rewrite Hm in Hd.
  assert (H2 : a mod 2 = 0) by (apply (mod_char _ (4 * (a / 8))); lia).
  assert (Hi : loc_introduce a = a + 1).
  { unfold loc_introduce. replace (a =? 0) with false by lia. replace a with ((a / 8) * 2 ^ 3) at 1 by lia. rewrite lor_low by lia. lia. }
  assert (H2' : (a + 1) mod 2 = 1) by (apply (mod_char _ (4 * (a / 8))); lia).
  assert (Hi' : loc_introduce (a + 1) = a + 1).
  { unfold loc_introduce. replace (a + 1 =? 0) with false by lia. replace (a + 1) with (Z.lor a 1) by (unfold loc_introduce in Hi; destruct (Z.eqb_spec a 0); lia).
    rewrite <- Z.lor_assoc. reflexivity. }
  rewrite Hi, Hi'. unfold loc_lv, loc_isIntroduced. rewrite !ldiff_sub, !land1, H2, H2'. repeat split; lia.
Qed.
