Require Import ZArith List Bool Lia ZifyBool.
From Verif Require Import Base LitProofs IntValModel IntValSpec SetModel ArrModel ArrSpec ArrProofs AccessProofs BarrModel BarrSpec BarrProofs.
Import ListNotations.
Open Scope Z_scope.
Ltac Zify.zify_post_hook ::= idtac.

Lemma dim_product_ok : forall ds p, Forall range_ok ds -> 0 <= p < 2 ^ 32 -> dim_product ds p = Ok (u32 (p * card ds)).
Proof.
  induction ds as [|[lo hi] ds IH]; intros p Hok Hp; cbn [dim_product card].
  - rewrite Z.mul_1_r, u32_small by lia. reflexivity.
  - inversion_clear Hok. unfold range_ok, wid in H. cbn [fst snd] in H. rewrite i32_ok by (unfold INT_MIN, INT_MAX in *; lia). cbn [bind].
    rewrite u32_add, u32_r. rewrite IH by (auto using u32_range). rewrite u32_l. unfold wid. cbn [fst snd]. do 2 f_equal. ring.
Qed.
Lemma position_split : forall pre r post ip i iq, length ip = length pre ->
  position (pre ++ r :: post) (ip ++ i :: iq) = (position pre ip * wid r + (i - fst r)) * card post + position post iq.
Proof.
  induction pre as [|q pre IH]; intros r post [|j ip] i iq H; cbn [length app position] in *; try discriminate; [lia|].
  rewrite IH by lia. rewrite card_app. cbn [card]. ring.
Qed.
Lemma skipn_app_len : forall (A : Type) (a b : list A) r, skipn (S (length a)) (a ++ r :: b) = b.
Proof. induction a as [|x a IH]; intros b r; [reflexivity | exact (IH b r)]. Qed.

Section P.
Variable E : Type.
Variable eqb : E -> E -> bool.
Variable same : E -> E -> Prop.
Hypothesis same_refl : forall e, same e e.
Hypothesis same_sym : forall a b, same a b -> same b a.
Hypothesis same_trans : forall a b c, same a b -> same b c -> same a c.
Hypothesis eqb_same : forall a b, eqb a b = true -> same a b.
Notation facts := (built_facts E eqb same same_refl same_sym same_trans eqb_same).
Notation brep := (built_rep E eqb same same_refl same_sym same_trans eqb_same).

(** ** Vectors under construction *)
Definition okat (out : list (option E)) (j : Z) (el : list E) (k : Z) : Prop :=
  exists e e0, at_ out j = Ok (Some e) /\ elem_at el k = Some e0 /\ same e e0.
Lemma upd_ok : forall (A : Type) (l : list A) i x, 0 <= i < len l ->
  exists l', upd l i x = Ok l' /\ len l' = len l /\ forall j, 0 <= j -> at_ l' j = if j =? i then Ok x else at_ l j.
Proof using Type.
  intros A l i x Hi. destruct (at_ok _ l i Hi) as (y & Hy & _).
  assert (Hu : exists l', upd l i x = Ok l') by (unfold upd; rewrite Hy; cbn [bind]; eauto).
  destruct Hu as [l' Hu]. exists l'. split; [exact Hu|]. destruct (upd_spec A l i x l' Hu) as (H1 & _ & H3). auto.
Qed.
Lemma copy_ok : forall al sh el n i src dst out, built eqb al sh el -> 0 <= i -> 0 <= src -> 0 <= dst ->
  src + i + Z.of_nat n <= card sh -> dst + i + Z.of_nat n <= len out -> len out < 2 ^ 32 ->
  exists out', copy n i al src dst out = Ok out' /\ len out' = len out /\
    (forall j, i <= j < i + Z.of_nat n -> okat out' (dst + j) el (src + j)) /\
    (forall j, 0 <= j -> j < dst + i \/ dst + i + Z.of_nat n <= j -> at_ out' j = at_ out j).
Proof using All.
  intros al sh el n i src dst out HB. destruct (facts al sh el HB) as (_ & _ & _ & (_ & _ & Hc) & _).
  revert i out. induction n as [|n IH]; intros i out Hi Hs Hd Hsrc Hdst Hlen; cbn [copy].
  - exists out. repeat split; auto. intros; lia.
  - rewrite !u32_small by (unfold INT_MAX in *; lia).
    destruct (rep_get E eqb same same_refl same_sym same_trans eqb_same al sh el (src + i) (brep _ _ _ HB) ltac:(lia)) as (e & e0 & He0 & Hg & Hsm).
    rewrite Hg. cbn [bind]. destruct (upd_ok _ out (dst + i) (Some e) ltac:(lia)) as (out1 & Hu & L1 & A1). rewrite Hu. cbn [bind].
    destruct (IH (i + 1) out1) as (out2 & Hc2 & L2 & O2 & K2); [lia..|]. exists out2. split; [exact Hc2|]. split; [congruence|]. split.
    + intros j Hj. destruct (Z.eq_dec j i) as [->|].
      * exists e, e0. split; [|auto]. rewrite K2 by lia. rewrite A1 by lia. rewrite Z.eqb_refl. reflexivity.
      * apply O2. lia.
    + intros j Hj Ho. rewrite K2 by lia. rewrite A1 by lia. replace (j =? dst + i) with false by lia. reflexivity.
Qed.
Lemma okat_keep : forall out out' j el k, at_ out' j = at_ out j -> okat out j el k -> okat out' j el k.
Proof using Type. intros out out' j el k H (e & e0 & H1 & H2). exists e, e0. rewrite H. auto. Qed.
Lemma filled_ok : forall out : list (option E), (forall j, 0 <= j < len out -> exists e, at_ out j = Ok (Some e)) ->
  exists el, filled out = Ok el /\ len el = len out /\ forall j e, 0 <= j -> at_ out j = Ok (Some e) -> elem_at el j = Some e.
Proof using Type.
  induction out as [|x out IH]; intros H; cbn [filled].
  - exists []. repeat split. intros j e Hj Hx. unfold at_ in Hx. destruct (j <? 0); [discriminate|]. destruct (Z.to_nat j); discriminate.
  - destruct (H 0) as (e & He); [unfold len; cbn [length]; lia|]. cbn in He. injection He as ->.
    destruct IH as (el & Hf & Hl & Ha).
    { intros j Hj. destruct (H (j + 1)) as (e' & He'); [unfold len in *; cbn [length]; lia|]. exists e'. unfold at_ in *.
      replace (j + 1 <? 0) with false in He' by lia. replace (j <? 0) with false by lia. replace (Z.to_nat (j + 1)) with (S (Z.to_nat j)) in He' by lia. exact He'. }
    rewrite Hf. cbn [bind]. exists (e :: el). split; [reflexivity|]. split; [unfold len in *; cbn [length]; lia|].
    intros j e' Hj Hx. unfold elem_at. destruct (Z.eq_dec j 0) as [->|].
    + cbn in *. congruence.
    + replace (Z.to_nat j) with (S (Z.to_nat (j - 1))) by lia. cbn [nth_error]. apply (Ha (j - 1) e'); [lia|]. unfold at_ in *.
      replace (j <? 0) with false in Hx by lia. replace (j - 1 <? 0) with false by lia. replace (Z.to_nat j) with (S (Z.to_nat (j - 1))) in Hx by lia. exact Hx.
Qed.

(** ** concat_index *)
Section Concat.
Variables (a0 a1 : arr E) (sh0 sh1 : shape) (el0 el1 : list E).
Hypothesis HB0 : built eqb a0 sh0 el0.
Hypothesis HB1 : built eqb a1 sh1 el1.
Variables P b0 b1 : Z.
Hypothesis Hb0 : 0 <= b0.
Hypothesis Hb1 : 0 <= b1.
Hypothesis HP : 0 <= P.
Hypothesis Hc0 : card sh0 = P * b0.
Hypothesis Hc1 : card sh1 = P * b1.
Hypothesis Hsz : P * (b0 + b1) <= INT_MAX.
Definition blocks_ok (p : Z) (out : list (option E)) : Prop :=
  forall q, 0 <= q < p -> (forall i, 0 <= i < b0 -> okat out (q * (b0 + b1) + i) el0 (q * b0 + i)) /\
    (forall i, 0 <= i < b1 -> okat out (q * (b0 + b1) + b0 + i) el1 (q * b1 + i)).
Lemma blocks_loop : forall fuel p out, 0 <= p <= P -> P - p <= Z.of_nat fuel -> 0 < b0 + b1 -> len out = P * (b0 + b1) -> blocks_ok p out ->
  exists out', concat_blocks fuel a0 a1 b0 b1 (b0 + b1) (P * (b0 + b1)) (p * (b0 + b1)) (p * b0) (p * b1) out = Ok out' /\
    len out' = P * (b0 + b1) /\ blocks_ok P out'.
Proof using All.
  induction fuel as [|fuel IH]; intros p out Hp Hf Hbo Hlen Hok; cbn [concat_blocks].
  - assert (p = P) as -> by lia. rewrite Z.ltb_irrefl. eauto.
  - destruct (Z.ltb_spec (p * (b0 + b1)) (P * (b0 + b1))) as [Hlt|Hge].
    2:{ assert (p = P) as -> by nia. eauto. }
    assert (Hpl : p < P) by nia. assert (Hs1 : (p + 1) * (b0 + b1) <= P * (b0 + b1)) by nia.
    destruct (copy_ok a0 sh0 el0 (Z.to_nat b0) 0 (p * b0) (p * (b0 + b1)) out HB0) as (o1 & C1 & L1 & O1 & K1); [unfold INT_MAX in *; nia..|].
    rewrite C1. cbn [bind]. rewrite (u32_small (p * (b0 + b1) + b0)) by (unfold INT_MAX in *; nia).
    destruct (copy_ok a1 sh1 el1 (Z.to_nat b1) 0 (p * b1) (p * (b0 + b1) + b0) o1 HB1) as (o2 & C2 & L2 & O2 & K2); [unfold INT_MAX in *; nia..|].
    rewrite C2. cbn [bind].
    rewrite !u32_small by (unfold INT_MAX in *; nia).
    replace (p * (b0 + b1) + (b0 + b1)) with ((p + 1) * (b0 + b1)) by ring. replace (p * b0 + b0) with ((p + 1) * b0) by ring. replace (p * b1 + b1) with ((p + 1) * b1) by ring.
    apply IH; try lia. intros q Hq. split; intros i Hi.
    + apply okat_keep with (out := o1); [apply K2; [nia|]|].
      { left. assert (q * (b0 + b1) <= p * (b0 + b1)) by nia. lia. }
      destruct (Z.eq_dec q p) as [->|Hqp]; [apply O1; lia|].
      apply okat_keep with (out := out); [apply K1; [nia|]; left; assert ((q + 1) * (b0 + b1) <= p * (b0 + b1)) by nia; lia|]. apply Hok; lia.
    + destruct (Z.eq_dec q p) as [->|Hqp]; [apply O2; lia|].
      assert ((q + 1) * (b0 + b1) <= p * (b0 + b1)) by nia.
      apply okat_keep with (out := out); [|apply Hok; lia]. rewrite K2 by nia. apply K1; nia.
Qed.
End Concat.

Lemma concat_dims_ok : forall a0 sh0 el0 a1 sh1 el1 out idx n i, built eqb a0 sh0 el0 -> built eqb a1 sh1 el1 -> length sh1 = length sh0 ->
  length out = length sh0 ->
  (forall k r0 r1, nth_error sh0 k = Some r0 -> nth_error sh1 k = Some r1 ->
     if Z.of_nat k + 1 =? idx then INT_MIN <= wid r0 + snd r1 <= INT_MAX /\ wid r0 + wid r1 <= INT_MAX /\ nth_error out k = Some (1, wid r0 + wid r1)
     else r0 = r1 /\ nth_error out k = Some r0) ->
  (n + i = length sh0)%nat -> concat_dims n (Z.of_nat i) idx a0 a1 = Ok (skipn i out).
Proof using All.
  intros a0 sh0 el0 a1 sh1 el1 out idx n i HB0 HB1 HL1 HLo Hk. destruct (facts _ _ _ HB0) as (_ & _ & _ & (_ & Ok0 & _) & M0).
  destruct (facts _ _ _ HB1) as (_ & _ & _ & (_ & Ok1 & _) & M1). rewrite Forall_forall in Ok0, Ok1.
  revert i. induction n as [|n IH]; intros i Hi; cbn [concat_dims].
  - rewrite skipn_all2 by lia. reflexivity.
  - destruct (nth_error sh0 i) as [[l0 h0]|] eqn:E0; [|apply nth_error_None in E0; lia].
    destruct (nth_error sh1 i) as [[l1 h1]|] eqn:E1; [|apply nth_error_None in E1; lia].
    destruct (M0 i _ E0) as [-> ->]. destruct (M1 i _ E1) as [-> ->]. cbn [bind fst snd].
    pose proof (Hk i _ _ E0 E1) as Hr. pose proof (Ok0 _ (nth_error_In _ _ E0)) as R0. pose proof (Ok1 _ (nth_error_In _ _ E1)) as R1.
    replace (Z.of_nat i + 1) with (Z.of_nat (S i)) in * by lia. rewrite IH by lia. clear IH.
    destruct (Z.of_nat (S i) =? idx) eqn:Ei; cbn [negb].
    + destruct Hr as (H1 & H2 & H3). rewrite (skipn_nth _ _ _ _ H3). pose proof (width_ok _ R0) as W0. cbn [fst snd] in W0. rewrite W0. cbn [bind].
      unfold range_ok, wid in *. cbn [fst snd] in *. rewrite i32_ok by (unfold INT_MIN, INT_MAX in *; lia). cbn [bind].
      rewrite i32_ok by (unfold INT_MIN, INT_MAX in *; lia). cbn [bind]. rewrite i32_ok by (unfold INT_MIN, INT_MAX in *; lia). cbn [bind].
      match goal with |- Ok ((1, ?x) :: _) = Ok ((1, ?y) :: _) => replace x with y by lia end. reflexivity.
    + destruct Hr as [Hr Ho]. injection Hr as <- <-. rewrite !Z.eqb_refl. cbn [negb orb bind]. rewrite (skipn_nth _ _ _ _ Ho). reflexivity.
Qed.
Lemma nth_mid : forall (A : Type) (pre post : list A) r k x, nth_error (pre ++ r :: post) k = Some x ->
  (k = length pre /\ x = r) \/ (k <> length pre /\ forall r', nth_error (pre ++ r' :: post) k = Some x).
Proof using Type.
  induction pre as [|y pre IH]; intros post r [|k] x H; cbn [app length nth_error] in *.
  - left. split; congruence.
  - right. split; [lia | auto].
  - right. split; [lia | auto].
  - destruct (IH post r k x H) as [[-> ->]|[Hk Hr]]; [auto|]. right. split; [lia | exact Hr].
Qed.
Lemma mid_nth : forall (A : Type) (pre post : list A) r, nth_error (pre ++ r :: post) (length pre) = Some r.
Proof using Type. intros. rewrite nth_error_app2 by lia. rewrite Nat.sub_diag. reflexivity. Qed.

Lemma concat_ok : forall a0 a1 pre r0 r1 post el0 el1, built eqb a0 (pre ++ r0 :: post) el0 -> built eqb a1 (pre ++ r1 :: post) el1 ->
  INT_MIN <= wid r0 + snd r1 <= INT_MAX -> shape_ok (pre ++ (1, wid r0 + wid r1) :: post) ->
  exists a el, concat_index eqb (len pre + 1) a0 a1 = Ok a /\ built eqb a (pre ++ (1, wid r0 + wid r1) :: post) el /\
    joined same pre r0 r1 post el0 el1 el.
Proof using All.
  intros a0 a1 pre r0 r1 post el0 el1 HB0 HB1 Hov Hso. set (sh := pre ++ (1, wid r0 + wid r1) :: post) in *.
  destruct (facts _ _ _ HB0) as (_ & D0 & L0 & (_ & Ok0 & C0) & M0). destruct (facts _ _ _ HB1) as (_ & D1 & L1 & (_ & Ok1 & C1) & M1).
  destruct Hso as (Hne & Hok & Hmax). apply Forall_app in Ok0. destruct Ok0 as [OkP Ok0]. inversion_clear Ok0 as [|? ? R0 OkQ].
  apply Forall_app in Ok1. destruct Ok1 as [_ Ok1]. inversion_clear Ok1 as [|? ? R1 _].
  assert (Rm : range_ok (1, wid r0 + wid r1)) by (rewrite Forall_forall in Hok; apply Hok; unfold sh; apply in_or_app; right; left; reflexivity).
  pose proof (card_nonneg pre OkP) as HP. pose proof (card_nonneg post OkQ) as HQ.
  assert (HW : wid (1, wid r0 + wid r1) = wid r0 + wid r1) by (unfold wid; cbn [fst snd]; lia).
  assert (HCs : card sh = card pre * (wid r0 * card post + wid r1 * card post)) by (unfold sh; rewrite card_app; cbn [card]; rewrite HW; ring).
  assert (HC0 : card (pre ++ r0 :: post) = card pre * (wid r0 * card post)) by (rewrite card_app; cbn [card]; ring).
  assert (HC1 : card (pre ++ r1 :: post) = card pre * (wid r1 * card post)) by (rewrite card_app; cbn [card]; ring).
  assert (W0 : 0 <= wid r0 <= INT_MAX) by (destruct R0 as (_ & _ & ?); lia). assert (W1 : 0 <= wid r1 <= INT_MAX) by (destruct R1 as (_ & _ & ?); lia).
  assert (Wm : wid r0 + wid r1 <= INT_MAX) by (destruct Rm as (_ & _ & Rm); rewrite HW in Rm; lia).
  set (b0 := wid r0 * card post) in *. set (b1 := wid r1 * card post) in *.
  assert (Hb0 : 0 <= b0) by (unfold b0; nia). assert (Hb1 : 0 <= b1) by (unfold b1; nia).
  assert (Hn0 : len (pre ++ r0 :: post) = len sh) by (unfold sh, len; rewrite !app_length; reflexivity).
  assert (Hn1 : len (pre ++ r1 :: post) = len sh) by (unfold sh, len; rewrite !app_length; reflexivity).
  assert (HD : concat_dims (Z.to_nat (len sh)) 0 (len pre + 1) a0 a1 = Ok sh).
  { pose proof (concat_dims_ok a0 _ el0 a1 _ el1 sh (len pre + 1) (length sh) 0 HB0 HB1) as HH. cbn [Z.of_nat skipn] in HH.
    unfold len at 1. rewrite Nat2Z.id. apply HH; try (unfold len in *; lia).
    intros k s0 s1 E0 E1. unfold len. destruct (Z.eqb_spec (Z.of_nat k + 1) (Z.of_nat (length pre) + 1)) as [Ek|Ek].
    - assert (k = length pre) as -> by lia. rewrite mid_nth in *. injection E0 as <-. injection E1 as <-. unfold sh. rewrite mid_nth. auto.
    - destruct (nth_mid _ _ _ _ _ _ E0) as [[-> _]|[_ Hr]]; [lia|]. split; [|apply Hr]. rewrite (Hr r1) in E1. congruence. }
  assert (Hsize : 0 <= card sh) by (apply card_nonneg; exact Hok).
  unfold concat_index. rewrite D0, D1, Hn0, Hn1, Z.eqb_refl. cbn [negb]. rewrite HD. cbn [bind].
  rewrite (dim_product_ok sh 1 Hok) by lia. rewrite Z.mul_1_l, u32_small by (unfold INT_MAX in *; lia). cbn [bind].
  assert (Hout : exists out, (if negb (card sh =? 0)
     then do inner <- (if len sh <=? len pre + 1 then Ok 1 else dim_product (skipn (Z.to_nat (len pre + 1)) sh) 1);
         do l0 <- amin a0 (len pre + 1 - 1); do h0 <- amax a0 (len pre + 1 - 1);
         do l1 <- amin a1 (len pre + 1 - 1); do h1 <- amax a1 (len pre + 1 - 1);
         do w0 <- width l0 h0; do w1 <- width l1 h1;
         do x <- i32 (w0 + h1); do x <- i32 (x - l1); do x <- i32 (x + 1);
         concat_blocks (Z.to_nat (card sh)) a0 a1 (u32 (u32 w0 * inner)) (u32 (u32 w1 * inner)) (u32 (u32 x * inner)) (card sh) 0 0 0 (repeat None (Z.to_nat (card sh)))
     else Ok (repeat None (Z.to_nat (card sh)))) = Ok out /\ len out = card sh /\ blocks_ok el0 el1 b0 b1 (card pre) out).
  { assert (Hlr : len (repeat (@None E) (Z.to_nat (card sh))) = card sh) by (unfold len; rewrite repeat_length; lia).
    destruct (Z.eqb_spec (card sh) 0) as [Ez|Ez]; cbn [negb].
    - eexists. split; [reflexivity|]. split; [exact Hlr|]. intros q Hq. split; intros i Hi; nia.
    - assert (HI : (if len sh <=? len pre + 1 then Ok 1 else dim_product (skipn (Z.to_nat (len pre + 1)) sh) 1) = Ok (card post)).
      { unfold sh at 1, len. rewrite app_length. cbn [length]. destruct (Z.leb_spec (Z.of_nat (length pre + S (length post))) (Z.of_nat (length pre) + 1)).
        - destruct post; [reflexivity | cbn [length] in *; lia].
        - replace (Z.to_nat (Z.of_nat (length pre) + 1)) with (S (length pre)) by lia. unfold sh. rewrite skipn_app_len.
          rewrite (dim_product_ok post 1 OkQ) by lia. rewrite Z.mul_1_l, u32_small; [reflexivity|]. split; [lia|].
          assert (HPW : card sh = card pre * (wid r0 + wid r1) * card post) by (rewrite HCs; unfold b0, b1; ring).
          assert (1 <= card pre * (wid r0 + wid r1)) by nia.
          assert (card post <= card sh) by nia. unfold INT_MAX in *; lia. }
      rewrite HI. cbn [bind]. replace (len pre + 1 - 1) with (Z.of_nat (length pre)) by (unfold len; lia).
      destruct (M0 (length pre) r0 (mid_nth _ _ _ _)) as [-> ->]. destruct (M1 (length pre) r1 (mid_nth _ _ _ _)) as [-> ->]. cbn [bind].
      rewrite (width_ok r0 R0), (width_ok r1 R1). cbn [bind].
      assert (HI32 : i32 (wid r0 + snd r1) = Ok (wid r0 + snd r1) /\ i32 (wid r0 + snd r1 - fst r1) = Ok (wid r0 + snd r1 - fst r1) /\ i32 (wid r0 + snd r1 - fst r1 + 1) = Ok (wid r0 + wid r1)).
      { assert (Er : wid r1 = snd r1 - fst r1 + 1) by reflexivity. rewrite !i32_ok by (unfold INT_MIN, INT_MAX in *; lia). repeat split. f_equal. lia. }
      destruct HI32 as (-> & H2 & H3). cbn [bind]. rewrite H2. cbn [bind]. rewrite H3. cbn [bind].
      assert (Hcp : 1 <= card pre) by (destruct (Z.eq_dec (card pre) 0) as [e|]; [rewrite e in HCs; lia | lia]).
      assert (Hbp : 1 <= b0 + b1) by (destruct (Z.eq_dec (b0 + b1) 0) as [e|]; [rewrite e in HCs; lia | lia]).
      assert (Hbs : b0 + b1 <= card sh) by (clear - HCs Hcp Hbp; nia).
      assert (Hps : card pre <= card sh) by (clear - HCs Hcp Hbp; nia).
      rewrite !(u32_small (wid _)) by (unfold INT_MAX in *; lia). rewrite (u32_small (wid r0 + wid r1)) by (unfold INT_MAX in *; lia).
      fold b0 b1. replace ((wid r0 + wid r1) * card post) with (b0 + b1) by (unfold b0, b1; ring).
      rewrite !u32_small by (unfold INT_MAX in *; lia).
      destruct (blocks_loop a0 a1 _ _ el0 el1 HB0 HB1 (card pre) b0 b1 Hb0 Hb1 HP HC0 HC1 ltac:(lia) (Z.to_nat (card sh)) 0 (repeat None (Z.to_nat (card sh)))) as (out & H1 & H4 & H5);
        [lia | lia | lia | lia | intros q Hq; lia |]. rewrite <- HCs in H1. exists out. split; [exact H1|]. split; [lia | exact H5]. }
  destruct Hout as (out & -> & Hlo & Hblk). cbn [bind].
  destruct (filled_ok out) as (el & Hf & Hl & Hat).
  { intros j Hj. rewrite Hlo, HCs in Hj. assert (Hbo : 0 < b0 + b1) by nia.
    pose proof (Z.div_mod j (b0 + b1) ltac:(lia)) as Hdm. pose proof (Z.mod_pos_bound j (b0 + b1) Hbo) as Hmb.
    assert (Hq : 0 <= j / (b0 + b1) < card pre) by (split; [apply Z.div_pos; lia | apply Z.div_lt_upper_bound; nia]).
    destruct (Hblk _ Hq) as [B0 B1]. destruct (Z_lt_le_dec (j mod (b0 + b1)) b0).
    - destruct (B0 (j mod (b0 + b1)) ltac:(lia)) as (e & _ & He & _). exists e. rewrite <- He. f_equal. lia.
    - destruct (B1 (j mod (b0 + b1) - b0) ltac:(lia)) as (e & _ & He & _). exists e. rewrite <- He. f_equal. lia. }
  rewrite Hf. cbn [bind]. exists (mk eqb el sh), el. split; [reflexivity|].
  split; [apply b_mk; [split; [exact Hne|]; split; [exact Hok | exact Hmax] | lia]|].
  assert (Hsame : forall j k els, 0 <= j -> okat out j els k -> same_at same el j els k).
  { intros j k els Hj (e & e0 & H1 & H2 & H3). exists e, e0. split; [|auto]. apply Hat; [exact Hj | exact H1]. }
  intros ip iq Hip Hiq out'. unfold out'. clear out'. assert (Hlip : length ip = length pre) by (eapply Forall2_length; exact Hip).
  pose proof (position_range _ _ Hip) as PP. pose proof (position_range _ _ Hiq) as PQ.
  destruct (Hblk (position pre ip) ltac:(lia)) as [B0 B1]. split; intros i Hi.
  - rewrite !position_split by exact Hlip. rewrite HW. cbn [fst].
    assert (HO : 0 <= (i - fst r0) * card post + position post iq < b0) by (unfold b0, wid in *; nia).
    specialize (B0 _ HO). apply Hsame; [nia|].
    replace ((position pre ip * (wid r0 + wid r1) + (i - fst r0 + 1 - 1)) * card post + position post iq) with (position pre ip * (b0 + b1) + ((i - fst r0) * card post + position post iq)) by (unfold b0, b1; ring).
    replace ((position pre ip * wid r0 + (i - fst r0)) * card post + position post iq) with (position pre ip * b0 + ((i - fst r0) * card post + position post iq)) by (unfold b0; ring). exact B0.
  - rewrite !position_split by exact Hlip. rewrite HW. cbn [fst].
    assert (HO : 0 <= (i - fst r1) * card post + position post iq < b1) by (unfold b1, wid in *; nia).
    specialize (B1 _ HO). apply Hsame; [unfold wid in *; nia|].
    replace ((position pre ip * (wid r0 + wid r1) + (wid r0 + (i - fst r1) + 1 - 1)) * card post + position post iq) with (position pre ip * (b0 + b1) + b0 + ((i - fst r1) * card post + position post iq)) by (unfold b0, b1; ring).
    replace ((position pre ip * wid r1 + (i - fst r1)) * card post + position post iq) with (position pre ip * b1 + ((i - fst r1) * card post + position post iq)) by (unfold b1; ring). exact B1.
Qed.
End P.
