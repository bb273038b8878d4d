Require Import ZArith List Bool Lia ZifyBool.
From Verif Require Import Base LitProofs IntValModel IntValSpec IntValProofs SetModel SetSpec SetProofs SetProofs3 SetPropProofs IntValPropProofs.
From Verif Require Import ArrModel ArrSpec ArrProofs AccessProofs BarrModel BarrSpec BarrProofs BarrProofs2 BarrProofs3.
Import ListNotations.
Open Scope Z_scope.
Ltac Zify.zify_post_hook ::= idtac.
Notation card := ArrSpec.card.

Section P.
Variable E : Type.
Variable eqb : E -> E -> bool.
Variable same : E -> E -> Prop.
Hypothesis same_refl : forall e, same e e.
Hypothesis same_sym : forall a b, same a b -> same b a.
Hypothesis same_trans : forall a b c, same a b -> same b c -> same a c.
Hypothesis eqb_same : forall a b, eqb a b = true -> same a b.
Notation facts := (built_facts E eqb same same_refl same_sym same_trans eqb_same).
Notation okat := (okat E same).
Notation copy_ok := (copy_ok E eqb same same_refl same_sym same_trans eqb_same).

Section Sel.
Variables (al : arr E) (sh : shape) (el : list E).
Hypothesis HB : built eqb al sh el.
Variables lo hi q P : Z.
Hypothesis Hlo : INT_MIN <= lo.
Hypothesis Hhi : hi <= INT_MAX.
Hypothesis Hq : 0 <= q.
Hypothesis HP : 0 <= P.
Hypothesis Hc : card sh = P * ((hi - lo + 1) * q).
Hypothesis Hci : card sh <= INT_MAX.

Lemma select_values_ok : forall l oa oo t0 out, (forall v, In v l -> lo <= v <= hi) -> 0 <= oa -> oa + (hi - lo + 1) * q <= card sh ->
  0 <= oo -> 0 <= t0 -> oo + (t0 + len l) * q <= len out -> len out <= INT_MAX ->
  exists out', select_values (map ofZ l) al lo q oa oo (t0 * q) out = Ok out' /\ len out' = len out /\
    (forall t v i, nth_error l t = Some v -> 0 <= i < q -> okat out' (oo + (t0 + Z.of_nat t) * q + i) el (oa + (v - lo) * q + i)) /\
    (forall j, 0 <= j -> j < oo + t0 * q \/ oo + (t0 + len l) * q <= j -> at_ out' j = at_ out j).
Proof using All.
  induction l as [|v l IH]; intros oa oo t0 out Hv Hoa Hoa2 Hoo Ht0 Hout Hmax; cbn [map select_values].
  - exists out. repeat split; auto. intros t v i H. destruct t; discriminate.
  - assert (Hvv : lo <= v <= hi) by (apply Hv; left; reflexivity).
    assert (HL : len (v :: l) = 1 + len l) by (unfold len; cbn [length]; lia). rewrite HL in *. assert (0 <= len l) by (unfold len; lia).
    rewrite sub_in by (unfold fits64, LLONG_MIN, LLONG_MAX, INT_MIN, INT_MAX in *; lia). cbn [bind toInt ofZ iv_inf iv_v].
    assert (Hvq : (v - lo) * q <= (hi - lo) * q) by nia. assert (0 <= (v - lo) * q) by nia.
    assert (Hs : oa + (v - lo) * q + q <= card sh) by nia.
    assert (Hd1 : (t0 + 1) * q <= (t0 + (1 + len l)) * q) by nia. assert (0 <= t0 * q) by nia.
    assert (Hsrc : u32 (oa + u32 (u32 (v - lo) * q)) = oa + (v - lo) * q).
    { rewrite u32_l, (u32_small ((v - lo) * q)) by (unfold INT_MAX in *; lia). apply u32_small. unfold INT_MAX in *; lia. }
    rewrite Hsrc. rewrite (u32_small (oo + t0 * q)) by (unfold INT_MAX in *; lia). rewrite (u32_small (t0 * q + q)) by (unfold INT_MAX in *; lia).
    destruct (copy_ok al sh el (Z.to_nat q) 0 (oa + (v - lo) * q) (oo + t0 * q) out HB) as (o1 & C1 & L1 & O1 & K1); [unfold INT_MAX in *; lia..|].
    rewrite C1. cbn [bind]. replace (t0 * q + q) with ((t0 + 1) * q) by ring.
    destruct (IH oa oo (t0 + 1) o1) as (o2 & S2 & L2 & O2 & K2); try lia; [intros; apply Hv; right; assumption|].
    exists o2. split; [exact S2|]. split; [lia|]. split.
    + intros t w i Ht Hi. destruct t as [|t]; cbn [nth_error] in Ht.
      * injection Ht as ->. apply okat_keep with (out := o1).
        { apply K2; [nia|]. left. change (Z.of_nat 0) with 0. nia. }
        replace (oo + (t0 + Z.of_nat 0) * q + i) with (oo + t0 * q + i) by (change (Z.of_nat 0) with 0; ring). apply O1. lia.
      * replace (t0 + Z.of_nat (S t)) with (t0 + 1 + Z.of_nat t) by lia. apply O2; assumption.
    + intros j Hj Ho. rewrite K2; [apply K1; [exact Hj | nia] | exact Hj | ].
      replace (t0 + 1 + len l) with (t0 + (1 + len l)) by lia. nia.
Qed.

Variables (s : iset) (l : list Z).
Hypothesis Hts : to_values s = Ok (map ofZ l).
Hypothesis Hl : forall v, In v l -> lo <= v <= hi.
Hypothesis Hsz : P * (len l * q) <= INT_MAX.
Definition sel_ok (p : Z) (out : list (option E)) : Prop :=
  forall k t v i, 0 <= k < p -> nth_error l t = Some v -> 0 <= i < q ->
  okat out (k * (len l * q) + Z.of_nat t * q + i) el (k * ((hi - lo + 1) * q) + (v - lo) * q + i).
Lemma select_blocks_ok : forall fuel p out, 0 <= p <= P -> P - p <= Z.of_nat fuel -> 0 < len l * q -> len out = P * (len l * q) -> sel_ok p out ->
  exists out', select_blocks fuel s al lo q ((hi - lo + 1) * q) (len l * q) (P * (len l * q)) (p * ((hi - lo + 1) * q)) (p * (len l * q)) out = Ok out' /\
    len out' = P * (len l * q) /\ sel_ok P out'.
Proof using All.
  assert (Hw : l <> [] -> 0 <= hi - lo + 1) by (intros Hne; destruct l as [|v l']; [congruence|]; pose proof (Hl v (or_introl eq_refl)); lia).
  induction fuel as [|fuel IH]; intros p out Hp Hf Hpos Hlen Hok; cbn [select_blocks].
  - assert (p = P) as -> by lia. rewrite Z.ltb_irrefl. eauto.
  - assert (Hl0 : l <> []) by (intros ->; cbn in Hpos; lia). specialize (Hw Hl0).
    destruct (Z.ltb_spec (p * (len l * q)) (P * (len l * q))) as [Hlt|Hge].
    2:{ assert (p = P) as -> by nia. eauto. }
    assert (Hpl : p < P) by nia. set (B := len l * q) in *. set (A := (hi - lo + 1) * q) in *.
    assert (HA : 0 <= A) by (unfold A; nia).
    assert (Hs1 : (p + 1) * B <= P * B) by nia. assert (Hs2 : (p + 1) * A <= P * A) by nia. assert (0 <= p * A) by nia. assert (0 <= p * B) by nia.
    rewrite Hts. cbn [bind].
    destruct (select_values_ok l (p * A) (p * B) 0 out Hl) as (o1 & S1 & L1 & O1 & K1); [fold A; try fold B; lia..|].
    rewrite Z.mul_0_l in S1. rewrite S1. cbn [bind]. rewrite !u32_small by (unfold INT_MAX in *; lia).
    replace (p * A + A) with ((p + 1) * A) by ring. replace (p * B + B) with ((p + 1) * B) by ring.
    apply IH; try lia. intros k t v i Hk Ht Hi.
    assert (Htl : Z.of_nat t < len l) by (assert (t < length l)%nat by (apply nth_error_Some; congruence); unfold len; lia).
    assert (HtB : Z.of_nat t * q + i < B) by (unfold B; nia).
    destruct (Z.eq_dec k p) as [->|Hkp].
    + specialize (O1 t v i Ht Hi). rewrite Z.add_0_l in O1. exact O1.
    + apply okat_keep with (out := out); [|apply Hok; auto; lia]. apply K1; [nia|]. left. assert ((k + 1) * B <= p * B) by nia. lia.
Qed.
End Sel.

Lemma out_dims_ok : forall al pre r post el s c n i, built eqb al (pre ++ r :: post) el -> SetModel.card s = Ok (ofZ c) -> 0 <= c <= INT_MAX ->
  (n + i = length (pre ++ r :: post))%nat -> select_out_dims n (Z.of_nat i) (len pre + 1) al s = Ok (skipn i (pre ++ (1, c) :: post)).
Proof using All.
  intros al pre r post el s c n i HB Hcs Hcr. destruct (facts _ _ _ HB) as (_ & _ & _ & _ & M).
  revert i. induction n as [|n IH]; intros i Hi; cbn [select_out_dims].
  - rewrite skipn_all2; [reflexivity|]. rewrite app_length in *. cbn [length] in *. lia.
  - destruct (nth_error (pre ++ r :: post) i) as [[lo hi]|] eqn:E0; [|apply nth_error_None in E0; lia].
    replace (Z.of_nat i + 1) with (Z.of_nat (S i)) by lia. rewrite IH by lia. clear IH.
    destruct (nth_mid _ _ _ _ _ _ E0) as [[-> <-]|[Hne Hr]].
    + replace (Z.of_nat (S (length pre)) =? len pre + 1) with true by (unfold len; lia). cbn [negb]. rewrite Hcs. cbn [bind toInt ofZ iv_inf iv_v].
      rewrite to_int_ok by (unfold INT_MIN, INT_MAX in *; lia). rewrite (skipn_nth _ _ _ _ (mid_nth _ pre post (1, c))). reflexivity.
    + replace (Z.of_nat (S i) =? len pre + 1) with false by (unfold len; lia). cbn [negb].
      destruct (M i _ E0) as [-> ->]. cbn [bind fst snd]. rewrite (skipn_nth _ _ _ _ (Hr (1, c))). reflexivity.
Qed.

Lemma select_general_err : forall al pre r post el s, built eqb al (pre ++ r :: post) el -> nf s -> 2 <= len s ->
  (exists z, elem z s /\ ~ fst r <= z <= snd r) -> select_from_index eqb (len pre + 1) al s = Err EvalError.
Proof using All.
  intros al pre r post el s HB Hn H2 (z & Hz & Hout). destruct (facts _ _ _ HB) as (_ & HD & _ & (_ & Hok & _) & M).
  assert (Rr : range_ok r) by (rewrite Forall_forall in Hok; apply Hok; apply in_or_app; right; left; reflexivity).
  unfold select_from_index. rewrite HD. assert (Hlt : len (pre ++ r :: post) <? len pre + 1 = false) by (unfold len; rewrite app_length; cbn [length]; lia).
  rewrite Hlt. replace (len pre + 1 - 1) with (Z.of_nat (length pre)) by (unfold len; lia). destruct (M _ _ (mid_nth _ pre post r)) as [-> ->]. cbn [bind].
  destruct s as [|[a b0] [|r2 s]]; [unfold len in H2; cbn [length] in H2; lia.. |].
  destruct Rr as (R1 & R2 & R3).
  pose proof (range_within (a, b0) (r2 :: s) (a, b0) (fst r) (snd r) Hn) as HW. cbn [fst] in HW.
  destruct (iv_lt a (ofZ (fst r)) || iv_gt (snd (last ((a, b0) :: r2 :: s) (a, b0))) (ofZ (snd r))) eqn:Eb; [reflexivity|].
  exfalso. apply Hout. apply HW; auto; unfold fits64, LLONG_MIN, LLONG_MAX, INT_MIN, INT_MAX, wid in *; lia.
Qed.

Lemma select_general : forall al pre r post el s l, built eqb al (pre ++ r :: post) el -> nf s -> 2 <= len s -> enumerates l s ->
  (forall z, elem z s -> fst r <= z <= snd r) ->
  exists a el', select_from_index eqb (len pre + 1) al s = Ok a /\ built eqb a (pre ++ (1, len l) :: post) el' /\ selected same pre r post l el el'.
Proof using All.
  intros al pre r post el s l HB Hn H2 Hen Hin. destruct (facts _ _ _ HB) as (_ & HD & HL & (_ & Hok & Hci) & M).
  assert (Rr : range_ok r) by (rewrite Forall_forall in Hok; apply Hok; apply in_or_app; right; left; reflexivity).
  pose proof Rr as (R1 & R2 & R3). pose proof Hen as [Hinc Hel].
  assert (Hl : forall v, In v l -> fst r <= v <= snd r) by (intros v Hv; apply Hin, Hel, Hv).
  assert (Hll : len l <= wid r) by (unfold wid in *; apply incr_len; auto; lia).
  assert (Hl1 : 1 <= len l).
  { destruct s as [|r1 s']; [unfold len in H2; cbn in H2; lia|]. destruct (nf_head _ _ Hn) as (z & Hz).
    assert (Hzl : In z l) by (apply Hel; apply elem_cons; auto). destruct l; [destruct Hzl|]. unfold len; cbn [length]; lia. }
  assert (Hcard : SetModel.card s = Ok (ofZ (len l))).
  { rewrite (C08_card_l s l Hn Hen), (C08_finite_l s l Hn Hen). fold (len l). replace (len l <=? LLONG_MAX) with true; [reflexivity|].
    unfold LLONG_MAX, INT_MAX in *; lia. }
  assert (Hts : to_values s = Ok (map ofZ l)).
  { apply C08_values_l; auto. intros Hm. apply Hl in Hm. unfold LLONG_MAX, INT_MAX in *; lia. }
  pose proof Hok as Hk. apply Forall_app in Hk. destruct Hk as [OkP Hk]. inversion_clear Hk as [|? ? _ OkQ].
  pose proof (card_nonneg _ OkP) as HP. pose proof (card_nonneg _ OkQ) as HQ.
  set (sh := pre ++ (1, len l) :: post).
  assert (HW : wid (1, len l) = len l) by (unfold wid; cbn [fst snd]; lia).
  assert (HCs : card sh = card pre * (len l * card post)) by (unfold sh; rewrite card_app; cbn [card]; rewrite HW; ring).
  assert (HC : card (pre ++ r :: post) = card pre * (wid r * card post)) by (rewrite card_app; cbn [card]; ring).
  assert (Hokm : range_ok (1, len l)) by (unfold range_ok; rewrite HW; cbn [fst snd]; unfold INT_MIN, INT_MAX in *; lia).
  assert (Hoks : Forall range_ok sh) by (apply Forall_app; split; [exact OkP | constructor; [exact Hokm | exact OkQ]]).
  assert (Hsz : card sh <= INT_MAX).
  { rewrite HCs. assert (len l * card post <= wid r * card post) by nia. assert (0 <= len l * card post) by nia. nia. }
  assert (Hs0 : 0 <= card sh) by (apply card_nonneg; exact Hoks).
  assert (Hds : select_out_dims (Z.to_nat (len (pre ++ r :: post))) 0 (len pre + 1) al s = Ok sh).
  { assert (Hln : Z.to_nat (len (pre ++ r :: post)) = length (pre ++ r :: post)) by apply Nat2Z.id. rewrite Hln.
    pose proof (out_dims_ok al pre r post el s (len l) (length (pre ++ r :: post)) 0 HB Hcard ltac:(lia) ltac:(lia)) as H. exact H. }
  assert (Hblocks : exists out inner, (if len sh <=? len pre + 1 then Ok 1 else dim_product (skipn (Z.to_nat (len pre + 1)) sh) 1) = Ok inner /\
    select_blocks (Z.to_nat (card sh)) s al (fst r) inner (u32 (u32 (wid r) * inner)) (u32 (u32 (len l) * inner)) (card sh) 0 0 (repeat None (Z.to_nat (card sh))) = Ok out /\
    len out = card sh /\ sel_ok el (fst r) (snd r) (card post) l (card pre) out).
  { assert (Hlr : len (repeat (@None E) (Z.to_nat (card sh))) = card sh) by (unfold len; rewrite repeat_length; lia).
    assert (HI : exists inner, (if len sh <=? len pre + 1 then Ok 1 else dim_product (skipn (Z.to_nat (len pre + 1)) sh) 1) = Ok inner /\ inner = u32 (card post)).
    { unfold sh at 1, len. rewrite app_length. cbn [length]. destruct (Z.leb_spec (Z.of_nat (length pre + S (length post))) (Z.of_nat (length pre) + 1)).
      - destruct post; [exists 1; split; reflexivity | cbn [length] in *; lia].
      - replace (Z.to_nat (Z.of_nat (length pre) + 1)) with (S (length pre)) by lia. unfold sh. rewrite skipn_app_len.
        rewrite (dim_product_ok post 1 OkQ) by lia. rewrite Z.mul_1_l. eauto. }
    destruct HI as (inner & HI & Hinner). destruct (Z.eq_dec (card sh) 0) as [Ez|Ez].
    - exists (repeat None (Z.to_nat (card sh))), inner. split; [exact HI|]. rewrite Ez in *. cbn [Z.to_nat repeat select_blocks]. rewrite Z.ltb_irrefl. split; [reflexivity|].
      split; [reflexivity|]. intros k t v i Hk Ht Hi. exfalso. assert (0 < len l * card post) by nia. nia.
    - assert (Hcp : 1 <= card pre) by (destruct (Z.eq_dec (card pre) 0) as [e|]; [rewrite e in HCs; lia | lia]).
      assert (Hbp : 1 <= len l * card post) by (assert (0 <= len l * card post) by nia; destruct (Z.eq_dec (len l * card post) 0) as [e|]; [rewrite e in HCs; lia | lia]).
      assert (Hbs : len l * card post <= card sh) by (clear - HCs Hcp Hbp; nia).
      assert (Hps : card pre <= card sh) by (clear - HCs Hcp Hbp; nia).
      assert (HQs : card post <= len l * card post) by (clear - Hl1 HQ; nia).
      assert (Hin2 : inner = card post) by (rewrite Hinner; apply u32_small; unfold INT_MAX in *; lia). rewrite Hin2 in HI.
      assert (Hws : wid r * card post <= card (pre ++ r :: post)) by (rewrite HC; assert (0 <= wid r * card post) by (clear - R3 HQ; nia); clear - Hcp H; nia).
      destruct (select_blocks_ok al (pre ++ r :: post) el HB (fst r) (snd r) (card post) (card pre)) with (s := s) (l := l) (fuel := Z.to_nat (card sh)) (p := 0) (out := repeat (@None E) (Z.to_nat (card sh)))
        as (out & H3 & H4 & H5); auto; try lia; [intros k t v i Hk; lia|].
      exists out, (card post). split; [exact HI|]. rewrite !(u32_small (wid r)), !(u32_small (len l)) by (unfold INT_MAX in *; lia).
      assert (0 <= wid r * card post) by (clear - R3 HQ; nia).
      rewrite !u32_small by (unfold INT_MAX in *; lia). rewrite HCs in *. rewrite !Z.mul_0_l in H3. unfold wid in *. split; [exact H3|]. split; [exact H4 | exact H5]. }
  destruct Hblocks as (out & inner & HI & Hsel & Hlo & Hblk).
  destruct (filled_ok E out) as (el' & Hf & Hl' & Hat).
  { intros j Hj. rewrite Hlo, HCs in Hj. set (B := len l * card post) in *. assert (Hbo : 0 < B) by (assert (0 <= B) by (unfold B; nia); nia).
    assert (HQ1 : 0 < card post) by (unfold B in Hbo; nia).
    pose proof (Z.div_mod j B ltac:(lia)) as Hdm. pose proof (Z.mod_pos_bound j B Hbo) as Hmb.
    assert (Hqd : 0 <= j / B < card pre) by (split; [apply Z.div_pos; lia | apply Z.div_lt_upper_bound; nia]).
    pose proof (Z.div_mod (j mod B) (card post) ltac:(lia)) as Hdm2. pose proof (Z.mod_pos_bound (j mod B) (card post) HQ1) as Hmb2.
    assert (Htd : 0 <= j mod B / card post < len l) by (split; [apply Z.div_pos; lia | apply Z.div_lt_upper_bound; [lia | unfold B in *; lia]]).
    destruct (nth_error l (Z.to_nat (j mod B / card post))) as [v|] eqn:Ev; [|apply nth_error_None in Ev; unfold len in Htd; lia].
    destruct (Hblk (j / B) _ v (j mod B mod card post) Hqd Ev Hmb2) as (e & _ & He & _). exists e. rewrite <- He. f_equal. fold B. rewrite Z2Nat.id by lia. lia. }
  exists (mk eqb el' sh), el'. split; [|split].
  - unfold select_from_index. rewrite HD. assert (Hlt : len (pre ++ r :: post) <? len pre + 1 = false) by (unfold len; rewrite app_length; cbn [length]; lia).
    rewrite Hlt. replace (len pre + 1 - 1) with (Z.of_nat (length pre)) by (unfold len; lia). destruct (M _ _ (mid_nth _ pre post r)) as [-> ->]. cbn [bind].
    pose proof (fun r1 s1 => range_within r1 s1 r1 (fst r) (snd r)) as HWi.
    destruct s as [|[a b0] [|r2 s]]; [unfold len in H2; cbn [length] in H2; lia.. |].
    assert (HF : iv_lt a (ofZ (fst r)) || iv_gt (snd (last ((a, b0) :: r2 :: s) (a, b0))) (ofZ (snd r)) = false).
    { apply (HWi (a, b0) (r2 :: s)); auto; unfold fits64, LLONG_MIN, LLONG_MAX, INT_MIN, INT_MAX, wid in *; lia. }
    rewrite HF.
    rewrite Hds. cbn [bind]. rewrite (dim_product_ok sh 1 Hoks) by lia. rewrite Z.mul_1_l, u32_small by (unfold INT_MAX in *; lia). cbn [bind].
    rewrite HI. cbn [bind]. rewrite (width_ok r Rr). cbn [bind]. rewrite Hcard. cbn [bind toInt ofZ iv_inf iv_v]. rewrite Hsel. cbn [bind]. rewrite Hf. reflexivity.
  - apply b_mk; [split; [unfold sh; destruct pre; discriminate|]; split; [exact Hoks | exact Hsz] | lia].
  - intros ip iq Hip Hiq t v Ht. assert (Hlip : length ip = length pre) by (eapply Forall2_length; exact Hip).
    pose proof (position_range _ _ Hip) as PP. pose proof (position_range _ _ Hiq) as PQ.
    destruct (Hblk (position pre ip) t v (position post iq) ltac:(lia) Ht ltac:(lia)) as (e & e0 & H3 & H4 & H5).
    exists e, e0. rewrite !position_split by exact Hlip. rewrite HW. cbn [fst].
    assert (Hvr : fst r <= v <= snd r) by (apply Hl; eapply nth_error_In; eauto).
    split; [|split; [|exact H5]].
    + apply Hat; [nia|]. rewrite <- H3. f_equal. ring.
    + rewrite <- H4. f_equal. unfold wid. ring.
Qed.
End P.
