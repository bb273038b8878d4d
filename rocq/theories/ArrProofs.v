Require Import ZArith List Bool Lia ZifyBool.
From Verif Require Import Base LitProofs ArrModel ArrSpec.
Import ListNotations.
Open Scope Z_scope.
Ltac Zify.zify_post_hook ::= idtac.

Lemma Forall2_length : forall (A B : Type) (R : A -> B -> Prop) l1 l2, Forall2 R l1 l2 -> length l1 = length l2.
Proof. induction 1; cbn; congruence. Qed.
Arguments Forall2_length {A B R l1 l2}.
Lemma i32_ok : forall z, INT_MIN <= z <= INT_MAX -> i32 z = Ok z.
Proof. intros z H. unfold i32. replace ((INT_MIN <=? z) && (z <=? INT_MAX)) with true by lia. reflexivity. Qed.
Lemma u32_small : forall z, 0 <= z < 2 ^ 32 -> u32 z = z.
Proof. intros. unfold u32. apply Z.mod_small. lia. Qed.

Section P.
Variable E : Type.
Variable eqb : E -> E -> bool.
Variable same : E -> E -> Prop.
Hypothesis same_refl : forall e, same e e.
Hypothesis same_sym : forall a b, same a b -> same b a.
Hypothesis same_trans : forall a b c, same a b -> same b c -> same a c.
Hypothesis eqb_same : forall a b, eqb a b = true -> same a b.

(** lists *)
Lemma at_ok : forall (A : Type) (l : list A) i, 0 <= i < len l -> exists x, at_ l i = Ok x /\ nth_error l (Z.to_nat i) = Some x.
Proof using Type.
  intros A l i Hi. unfold at_, len in *. replace (i <? 0) with false by lia.
  destruct (nth_error l (Z.to_nat i)) eqn:En; [eauto|]. apply nth_error_None in En. lia.
Qed.
Lemma at_nth : forall (A : Type) (l : list A) i x, 0 <= i -> nth_error l (Z.to_nat i) = Some x -> at_ l i = Ok x.
Proof using Type. intros A l i x Hi H. unfold at_. replace (i <? 0) with false by lia. rewrite H. reflexivity. Qed.
Lemma flat_len : forall d, len (flat d) = 2 * len d.
Proof using Type. unfold len. induction d as [|[l u] d IH]; cbn [flat length]; lia. Qed.
Lemma flat_nth : forall d k r t, nth_error d k = Some r ->
  nth_error (flat d ++ t) (2 * k) = Some (fst r) /\ nth_error (flat d ++ t) (2 * k + 1) = Some (snd r).
Proof using Type.
  induction d as [|[l u] d IH]; intros k r t H; [destruct k; discriminate|]. destruct k as [|k].
  - injection H as <-. cbn. auto.
  - cbn [nth_error] in H. destruct (IH k r t H) as [H1 H2]. cbn [flat app].
    replace (2 * S k)%nat with (S (S (2 * k))) by lia. cbn [nth_error plus]. auto.
Qed.
Lemma flat_at : forall d k r t, 0 <= k -> nth_error d (Z.to_nat k) = Some r ->
  at_ (flat d ++ t) (2 * k) = Ok (fst r) /\ at_ (flat d ++ t) (2 * k + 1) = Ok (snd r).
Proof using Type.
  intros d k r t Hk H. destruct (flat_nth d (Z.to_nat k) r t H) as [H1 H2]. split; apply at_nth; try lia.
  - replace (Z.to_nat (2 * k)) with (2 * Z.to_nat k)%nat by lia. exact H1.
  - replace (Z.to_nat (2 * k + 1)) with (2 * Z.to_nat k + 1)%nat by lia. exact H2.
Qed.
Lemma flat_at2 : forall d0 d k r, 0 <= k -> nth_error d (Z.to_nat k) = Some r ->
  at_ (flat d0 ++ flat d) (2 * len d0 + k * 2) = Ok (fst r) /\ at_ (flat d0 ++ flat d) (2 * len d0 + k * 2 + 1) = Ok (snd r).
Proof using Type.
  intros d0 d k r Hk H. destruct (flat_nth d (Z.to_nat k) r [] H) as [H1 H2]. rewrite app_nil_r in *.
  pose proof (flat_len d0) as HL. unfold len in *. split; apply at_nth; try lia.
  - rewrite nth_error_app2 by lia. replace (Z.to_nat (2 * Z.of_nat (length d0) + k * 2) - length (flat d0))%nat with (2 * Z.to_nat k)%nat by lia. exact H1.
  - rewrite nth_error_app2 by lia. replace (Z.to_nat (2 * Z.of_nat (length d0) + k * 2 + 1) - length (flat d0))%nat with (2 * Z.to_nat k + 1)%nat by lia. exact H2.
Qed.
Lemma flat_nonempty : forall d, d <> [] -> flat d <> [].
Proof using Type. intros [|[l u] d] H; [congruence | discriminate]. Qed.

(** shapes *)
Lemma card_nonneg : forall sh, Forall range_ok sh -> 0 <= card sh.
Proof using Type. induction 1; cbn [card]; [lia|]. destruct H as (_ & _ & H & _). nia. Qed.
Lemma card_app : forall a b, card (a ++ b) = card a * card b.
Proof using Type. induction a as [|r a IH]; intros b; cbn [app card]; [lia|]. rewrite IH. lia. Qed.
Lemma width_ok : forall r, range_ok r -> width (fst r) (snd r) = Ok (wid r).
Proof using Type.
  intros r (H1 & H2 & H3 & H4). unfold width, wid in *. rewrite i32_ok; [cbn [bind]; apply i32_ok|]; unfold INT_MIN, INT_MAX in *; lia.
Qed.
Lemma position_snoc : forall sh idx r i, length sh = length idx ->
  position (sh ++ [r]) (idx ++ [i]) = position sh idx * wid r + (i - fst r).
Proof using Type.
  induction sh as [|q sh IH]; intros [|j idx] r i H; cbn [length app position card] in *; try discriminate; [lia|].
  rewrite IH by lia. rewrite card_app. cbn [card]. lia.
Qed.
Lemma position_range : forall sh idx, in_shape idx sh -> 0 <= position sh idx < card sh.
Proof using Type.
  intros sh idx H. induction H as [|i r idx sh Hi HF IH]; cbn [position card]; [lia|]. unfold wid in *. nia.
Qed.
(* every position is that of an index tuple *)
Lemma position_onto : forall sh p, Forall range_ok sh -> 0 <= p < card sh -> exists idx, in_shape idx sh /\ position sh idx = p.
Proof using Type.
  induction sh as [|r sh IH]; intros p Hok Hp; cbn [card] in Hp.
  - exists []. split; [constructor|]. cbn. lia.
  - inversion_clear Hok. pose proof (card_nonneg sh H0). destruct H as (_ & _ & Hw & _).
    assert (Hc : 0 < card sh) by nia.
    destruct (IH (p mod card sh) H0) as (idx & Hin & Hpos); [apply Z.mod_pos_bound; lia|].
    pose proof (Z.div_mod p (card sh) ltac:(lia)). pose proof (Z.mod_pos_bound p (card sh) Hc).
    assert (0 <= p / card sh < wid r) by (split; [apply Z.div_pos; lia | apply Z.div_lt_upper_bound; lia]).
    exists (fst r + p / card sh :: idx). split.
    + constructor; [unfold wid in *; lia | exact Hin].
    + cbn [position]. rewrite Hpos. lia.
Qed.

(** ** Representation *)
Fixpoint rep (a : arr E) (sh : shape) (el : list E) : Prop :=
  shape_ok sh /\ card sh = len el /\
  match a with
  | Vec false v d => el = v /\ (d = flat sh \/ d = [] /\ sh = [(1, len v)])
  | Vec true v d => d = flat sh /\ exists v0 r pre, v = v0 :: r /\ el = pre ++ r /\ pre <> [] /\ Forall (fun e => same v0 e) pre
  | Slice al d => exists sha ela sl, rep al sha ela /\ d = flat sh ++ flat sl /\ Forall2 sub_range sl sha /\
      card sh = card sl /\ slice_of sha ela sl el
  end.
Lemma rep_shape : forall a sh el, rep a sh el -> shape_ok sh /\ card sh = len el.
Proof using Type. intros [? ? ?|? ?] sh el H; cbn in H; tauto. Qed.
Lemma Forall2_len : forall (A B : Type) (R : A -> B -> Prop) l1 l2, Forall2 R l1 l2 -> len l1 = len l2.
Proof using Type. intros. unfold len. pose proof (Forall2_length H). lia. Qed.
Lemma sh_len : forall (sh : shape), sh <> [] -> 1 <= len sh.
Proof using Type. unfold len. intros [|r sh] H; [congruence|]. cbn [length]. lia. Qed.

Lemma rep_dims : forall a sh el, rep a sh el -> dims a = len sh.
Proof using Type.
  induction a as [fl v d|al IH d]; intros sh el H.
  - cbn [dims]. pose proof (rep_shape _ _ _ H) as [[Hne _] _]. pose proof (flat_nonempty sh Hne) as Hf.
    assert (Hd : d = flat sh \/ d = [] /\ len sh = 1).
    { cbn [rep] in H. destruct fl; destruct H as (_ & _ & H); [tauto|]. destruct H as (_ & [H|[H1 H2]]); [auto|]. right. subst. auto. }
    destruct Hd as [-> | [-> Hl]]; [|lia]. destruct (flat sh) eqn:F; [congruence|]. rewrite <- F, flat_len. rewrite Z.mul_comm. apply Z.div_mul. lia.
  - cbn [rep dims] in *. destruct H as (_ & _ & sha & ela & sl & Hal & -> & Hs & _ & _).
    rewrite (IH sha ela Hal). unfold len in *. rewrite app_length. pose proof (flat_len sh). pose proof (flat_len sl). pose proof (Forall2_len _ _ _ _ _ Hs). unfold len in *.
    replace (Z.of_nat (length (flat sh) + length (flat sl)) - 2 * Z.of_nat (length sha)) with (Z.of_nat (length sh) * 2) by lia.
    apply Z.div_mul. lia.
Qed.
Lemma rep_minmax : forall a sh el k r, rep a sh el -> 0 <= k -> nth_error sh (Z.to_nat k) = Some r ->
  amin a k = Ok (fst r) /\ amax a k = Ok (snd r).
Proof using Type.
  intros a sh el k r H Hk Hr. pose proof (rep_shape _ _ _ H) as [[Hne [Hok Hc]] Hl]. pose proof (flat_nonempty sh Hne) as Hf.
  assert (Hd : (exists t, dims_of a = flat sh ++ t) \/ (exists v, a = Vec false v [] /\ sh = [(1, len v)])).
  { destruct a as [fl v d|al d]; cbn [rep dims_of] in *.
    - destruct fl; destruct H as (_ & _ & H).
      + destruct H as [-> _]. left. exists []. rewrite app_nil_r. auto.
      + destruct H as (_ & [->|[-> H2]]); [left; exists []; rewrite app_nil_r; auto | right; eauto].
    - destruct H as (_ & _ & sha & ela & sl & _ & -> & _). left. eauto. }
  destruct Hd as [[t Ht] | (v & -> & ->)].
  - unfold amin, amax. rewrite Ht. destruct (flat_at sh k r t Hk Hr) as [H1 H2].
    destruct (flat sh ++ t) eqn:F; [exfalso; destruct (flat sh); [congruence | discriminate]|]. auto.
  - unfold amin, amax. cbn [dims_of]. assert (k = 0).
    { destruct (Z.to_nat k) as [|n] eqn:Ek; [lia|]. cbn in Hr. destruct n; discriminate. }
    subst k. cbn in Hr. injection Hr as <-. cbn [fst snd]. split; [reflexivity|].
    inversion_clear Hok. destruct H0 as (_ & Hi & _). cbn [snd] in Hi. apply i32_ok. unfold INT_MIN, INT_MAX, len in *. lia.
Qed.
Lemma rep_awidth : forall a sh el k r, rep a sh el -> 0 <= k -> nth_error sh (Z.to_nat k) = Some r -> awidth a k = Ok (wid r).
Proof using Type.
  intros a sh el k r H Hk Hr. destruct (rep_minmax a sh el k r H Hk Hr) as [H1 H2]. unfold awidth. rewrite H1, H2. cbn [bind].
  apply width_ok. destruct (rep_shape _ _ _ H) as [[_ [Hok _]] _]. rewrite Forall_forall in Hok. apply Hok. eapply nth_error_In; eauto.
Qed.
Lemma u32_mul : forall a b, u32 (u32 a * u32 b) = u32 (a * b).
Proof using Type. intros. unfold u32. rewrite <- Zmult_mod. reflexivity. Qed.
Lemma length_loop_ok : forall a sh el n i l, rep a sh el -> Z.of_nat n + i = len sh -> 0 <= i ->
  length_loop a n i (u32 l) = Ok (u32 (l * card (skipn (Z.to_nat i) sh))).
Proof using Type.
  intros a sh el n. induction n as [|n IH]; intros i l H Hi Hpos; cbn [length_loop].
  - rewrite skipn_all2 by (unfold len in *; lia). cbn [card]. rewrite Z.mul_1_r. reflexivity.
  - destruct (nth_error sh (Z.to_nat i)) as [r|] eqn:Er.
    2: { apply nth_error_None in Er. unfold len in *. lia. }
    rewrite (rep_awidth a sh el i r H Hpos Er). cbn [bind]. rewrite u32_mul. rewrite IH by (auto; lia).
    f_equal. f_equal.
    assert (Hs : skipn (Z.to_nat i) sh = r :: skipn (Z.to_nat (i + 1)) sh).
    { replace (Z.to_nat (i + 1)) with (S (Z.to_nat i)) by lia. clear - Er. revert Er. generalize (Z.to_nat i). induction sh as [|q sh IH]; intros [|m] Er; cbn in *; try discriminate.
      - injection Er as ->. reflexivity.
      - apply IH. exact Er. }
    rewrite Hs. cbn [card]. lia.
Qed.
Lemma rep_alength : forall a sh el, rep a sh el -> alength a = Ok (card sh).
Proof using Type.
  intros a sh el H. pose proof (rep_shape _ _ _ H) as [[Hne [Hok Hc]] Hl]. unfold alength. rewrite (rep_dims a sh el H).
  pose proof (sh_len sh Hne). replace (len sh =? 0) with false by lia.
  destruct sh as [|r sh]; [congruence|]. rewrite (rep_awidth a _ el 0 r H) by (auto; lia). cbn [bind].
  rewrite (length_loop_ok a (r :: sh) el _ 1 (wid r) H) by (unfold len in *; lia).
  f_equal. change (skipn (Z.to_nat 1) (r :: sh)) with sh. apply u32_small. pose proof (card_nonneg _ Hok). cbn [card] in *. unfold INT_MAX in *. lia.
Qed.
Lemma rep_asize : forall a sh el, rep a sh el -> asize a = Ok (card sh).
Proof using Type.
  intros a sh el H. unfold asize. destruct a as [[|] v d|al d]; try apply (rep_alength _ _ _ H).
  pose proof (rep_shape _ _ _ H) as [_ Hl]. cbn [rep] in H. destruct H as (_ & _ & -> & _). congruence.
Qed.

(** ** Element access *)
Lemma firstn_snoc : forall (A : Type) (l : list A) n x, nth_error l n = Some x -> firstn (S n) l = firstn n l ++ [x].
Proof using Type.
  induction l as [|y l IH]; intros [|n] x H; cbn in *; try discriminate; [congruence|]. f_equal. apply IH. exact H.
Qed.
Lemma in_shape_nth : forall idx sh k i r, in_shape idx sh -> nth_error idx k = Some i -> nth_error sh k = Some r -> fst r <= i <= snd r.
Proof using Type.
  intros idx sh k i r H. revert k. induction H; intros [|k] Hi Hr; cbn in *; try discriminate; [congruence | eauto].
Qed.
Lemma in_shape_firstn : forall idx sh n, in_shape idx sh -> in_shape (firstn n idx) (firstn n sh).
Proof using Type. unfold in_shape. intros idx sh n H. revert n. induction H; intros [|n]; cbn; constructor; auto. Qed.
Lemma card_firstn_pos : forall sh idx, in_shape idx sh -> 0 < card sh.
Proof using Type. intros sh idx H. pose proof (position_range sh idx H). lia. Qed.
Lemma firstn_app_card : forall sh n, card sh = card (firstn n sh) * card (skipn n sh).
Proof using Type. intros. rewrite <- card_app, firstn_skipn. reflexivity. Qed.

Lemma origIdx_loop_ok : forall al sha ela sh sl idx, rep al sha ela -> Forall2 sub_range sl sha -> in_shape idx sl -> in_shape idx sha ->
  forall n mult o, (n <= length sl)%nat ->
  0 <= o -> 1 <= mult -> mult * card (firstn n sha) <= INT_MAX ->
  o + mult * position (firstn n sha) (firstn n idx) <= INT_MAX ->
  origIdx_loop al (flat sh ++ flat sl) (2 * len sh) n (position (firstn n sl) (firstn n idx)) mult o
  = Ok (o + mult * position (firstn n sha) (firstn n idx)).
Proof using Type.
  intros al sha ela sh sl idx Hal Hsub Hin Hina.
  pose proof (Forall2_length Hsub) as HL1. pose proof (Forall2_length Hin) as HL2.
  induction n as [|n IH]; intros mult o Hn Ho Hm Hc Hp; cbn [origIdx_loop].
  - cbn [firstn position]. f_equal. lia.
  - destruct (nth_error sl n) as [s|] eqn:Es. 2:{ apply nth_error_None in Es. lia. }
    destruct (nth_error sha n) as [r|] eqn:Er. 2:{ apply nth_error_None in Er. lia. }
    destruct (nth_error idx n) as [i|] eqn:Ei. 2:{ apply nth_error_None in Ei. lia. }
    destruct (flat_at2 sh sl (Z.of_nat n) s) as [A1 A2]; [lia | rewrite Nat2Z.id; exact Es |]. rewrite A1, A2. cbn [bind].
    pose proof (in_shape_nth _ _ _ _ _ Hin Ei Es) as Hs. pose proof (in_shape_nth _ _ _ _ _ Hina Ei Er) as Hr.
    assert (Hsr : sub_range s r).
    { clear - Hsub Es Er. revert n Es Er. induction Hsub; intros [|n] Es Er; cbn in *; try discriminate; [congruence | eauto]. }
    destruct Hsr as [Hsok Hin']. rewrite (width_ok s Hsok). cbn [bind].
    assert (Hw : 1 <= wid s) by (unfold wid; lia). destruct Hin' as [Hin'|[Hi1 Hi2]]; [lia|].
    pose proof Hsok as (Hb1 & Hb2 & _ & Hb3).
    rewrite (u32_small (wid s)) by (unfold INT_MAX in *; lia). replace (wid s =? 0) with false by lia.
    destruct (rep_minmax al sha ela (Z.of_nat n) r Hal) as [M1 M2]; [lia | rewrite Nat2Z.id; exact Er |]. rewrite M1. cbn [bind].
    pose proof (rep_shape _ _ _ Hal) as [[_ [Hok _]] _].
    assert (Hrok : range_ok r) by (rewrite Forall_forall in Hok; apply Hok; eapply nth_error_In; eauto).
    pose proof Hrok as (R1 & R2 & R3 & R4). unfold wid in R3, R4.
    rewrite i32_ok by (unfold INT_MIN, INT_MAX in *; lia). cbn [bind].
    rewrite (rep_awidth al sha ela (Z.of_nat n) r Hal) by (rewrite ?Nat2Z.id; auto; lia). cbn [bind].
    rewrite (firstn_snoc _ sl n s Es), (firstn_snoc _ idx n i Ei), (firstn_snoc _ sha n r Er) in *.
    rewrite position_snoc by (rewrite !firstn_length; lia). rewrite position_snoc in * by (rewrite !firstn_length; lia).
    rewrite card_app in Hc. cbn [card] in Hc. rewrite Z.mul_1_r in Hc.
    pose proof (position_range _ _ (in_shape_firstn _ _ n Hin)) as P1. pose proof (position_range _ _ (in_shape_firstn _ _ n Hina)) as P2.
    set (ps := position (firstn n sl) (firstn n idx)) in *. set (pa := position (firstn n sha) (firstn n idx)) in *.
    assert (Hmod : (ps * wid s + (i - fst s)) mod wid s = i - fst s) by (apply (mod_char _ ps); [lia | unfold wid; lia]).
    assert (Hdiv : (ps * wid s + (i - fst s)) / wid s = ps) by (apply (div_char _ _ (i - fst s)); [lia | unfold wid; lia]).
    rewrite Hmod, Hdiv.
    assert (Hwr : 1 <= wid r) by (unfold wid; lia).
    assert (HB : mult * wid r <= INT_MAX) by nia.
    rewrite (u32_small (fst s - fst r)) by (unfold INT_MAX in *; lia).
    rewrite (u32_small (i - fst s + (fst s - fst r))) by (unfold INT_MAX in *; lia).
    rewrite (u32_small mult) by (unfold INT_MAX in *; nia).
    replace (i - fst s + (fst s - fst r)) with (i - fst r) by lia.
    assert (HX : 0 <= mult * (i - fst r)) by nia. assert (HY : 0 <= mult * (pa * wid r)) by nia.
    rewrite (u32_small (mult * (i - fst r))) by (unfold INT_MAX in *; lia).
    rewrite (u32_small (o + mult * (i - fst r))) by (unfold INT_MAX in *; lia).
    rewrite i32_ok by (unfold INT_MIN, INT_MAX in *; lia). cbn [bind].
    rewrite IH; [f_equal; lia | lia | lia | nia | lia | lia].
Qed.

Lemma sub_in_shape : forall sl sha idx, Forall2 sub_range sl sha -> in_shape idx sl -> in_shape idx sha.
Proof using Type.
  intros sl sha idx Hs. revert idx. induction Hs; intros idx Hi; inversion Hi; subst; constructor; auto.
  - destruct H as [_ [H|[H1 H2]]]; [unfold wid in H|]; lia.
  - apply IHHs. assumption.
Qed.
Lemma firstn_length_all : forall (A : Type) (l : list A) n, n = length l -> firstn n l = l.
Proof using Type. intros. subst. apply firstn_all. Qed.

Lemma origIdx_ok : forall al sha ela sh sl idx, rep al sha ela -> Forall2 sub_range sl sha -> in_shape idx sl ->
  origIdx al (flat sh ++ flat sl) (position sl idx) = Ok (position sha idx).
Proof using Type.
  intros al sha ela sh sl idx Hal Hsub Hin. pose proof (sub_in_shape _ _ _ Hsub Hin) as Hina.
  pose proof (Forall2_length Hsub) as HL1. pose proof (Forall2_length Hin) as HL2.
  unfold origIdx. cbn [dims]. rewrite (rep_dims al sha ela Hal).
  replace ((len (flat sh ++ flat sl) - 2 * len sha) / 2 * 2) with (2 * len sh).
  2:{ unfold len in *. rewrite app_length. pose proof (flat_len sh). pose proof (flat_len sl). unfold len in *.
      replace (Z.of_nat (length (flat sh) + length (flat sl)) - 2 * Z.of_nat (length sha)) with (Z.of_nat (length sh) * 2) by lia.
      rewrite Z.div_mul; lia. }
  replace (Z.to_nat (len sha)) with (length sl) by (unfold len; lia).
  pose proof (rep_shape _ _ _ Hal) as [[_ [Hok Hc]] _]. pose proof (position_range _ _ Hina).
  pose proof (origIdx_loop_ok al sha ela sh sl idx Hal Hsub Hin Hina (length sl) 1 0 (le_n _) ltac:(lia) ltac:(lia)) as HO.
  rewrite (firstn_length_all _ sl), (firstn_length_all _ idx), (firstn_length_all _ sha) in HO by lia.
  rewrite HO by lia. f_equal. lia.
Qed.

Lemma rep_get : forall a sh el i, rep a sh el -> 0 <= i < card sh ->
  exists e e', elem_at el i = Some e' /\ get a i = Ok e /\ same e e'.
Proof using All.
  induction a as [fl v d|al IH d]; intros sh el i H Hi; pose proof (rep_shape _ _ _ H) as [[Hne [Hok Hc]] Hl].
  - destruct fl; cbn [get].
    + pose proof (rep_alength _ _ _ H) as HA. unfold coff. rewrite HA. cbn [bind].
      cbn [rep] in H. destruct H as (_ & _ & -> & v0 & r & pre & -> & -> & Hp & Hpre).
      unfold len in Hl. rewrite app_length in Hl. assert (1 <= Z.of_nat (length pre)) by (destruct pre; [congruence | cbn [length]; lia]).
      assert (HL : len (v0 :: r) = 1 + Z.of_nat (length r)) by (unfold len; cbn [length]; lia).
      rewrite i32_ok by (unfold INT_MIN, INT_MAX in *; lia). cbn [bind]. rewrite HL.
      rewrite i32_ok by (unfold INT_MIN, INT_MAX in *; lia). cbn [bind].
      rewrite i32_ok by (unfold INT_MIN, INT_MAX in *; lia). cbn [bind].
      rewrite i32_ok by (unfold INT_MIN, INT_MAX in *; lia). cbn [bind].
      unfold elem_at. destruct (i <=? card sh - (1 + Z.of_nat (length r))) eqn:C.
      * destruct (nth_error pre (Z.to_nat i)) as [e'|] eqn:En. 2:{ apply nth_error_None in En. lia. }
        exists v0, e'. rewrite nth_error_app1 by lia. repeat split; auto.
        rewrite Forall_forall in Hpre. apply Hpre. eapply nth_error_In; eauto.
      * destruct (nth_error r (Z.to_nat i - length pre)) as [e'|] eqn:En. 2:{ apply nth_error_None in En. lia. }
        exists e', e'. rewrite nth_error_app2 by lia. split; [exact En|]. split; [|apply same_refl]. apply at_nth; [lia|].
        replace (Z.to_nat (i - (card sh - (1 + Z.of_nat (length r))))) with (S (Z.to_nat i - length pre)) by lia. exact En.
    + cbn [rep] in H. destruct H as (_ & _ & -> & _). destruct (at_ok _ v i) as (x & H1 & H2); [lia|].
      exists x, x. auto.
  - cbn [rep] in H. destruct H as (_ & _ & sha & ela & sl & Hal & -> & Hsub & Hcs & [Hlen Hsl]).
    assert (Hslok : Forall range_ok sl) by (clear - Hsub; induction Hsub; constructor; auto; destruct H; auto).
    destruct (position_onto sl i Hslok ltac:(lia)) as (idx & Hin & <-).
    cbn [get]. rewrite (origIdx_ok al sha ela sh sl idx Hal Hsub Hin). cbn [bind].
    rewrite (Hsl idx Hin). apply (IH sha ela); [exact Hal|]. apply position_range. eapply sub_in_shape; eauto.
Qed.

(** ** Construction *)
Lemma run_split : forall e0 l, exists pre, l = pre ++ run eqb e0 l /\ Forall (fun e => same e0 e) pre.
Proof using All.
  intros e0 l. induction l as [|e l IH]; cbn [run]; [exists []; auto|].
  destruct (eqb e e0) eqn:Ee; [|exists []; auto]. destruct IH as (pre & H1 & H2). exists (e :: pre). split; [cbn; congruence|].
  constructor; [|exact H2]. apply same_sym, eqb_same. exact Ee.
Qed.
Lemma plain_rep : forall v sh, shape_ok sh -> card sh = len v ->
  rep (Vec false v (match flat sh with [l; _] => if l =? 1 then [] else flat sh | _ => flat sh end)) sh v.
Proof using Type.
  intros v sh Hok Hc. cbn [rep]. split; [exact Hok|]. split; [exact Hc|]. split; [reflexivity|].
  destruct sh as [|[l u] [|[l2 u2] sh]]; cbn [flat]; auto. destruct (Z.eqb_spec l 1); [|auto]. right. split; [reflexivity|]. subst l.
  cbn [card] in Hc. unfold wid in Hc. cbn [fst snd] in Hc. f_equal. f_equal. lia.
Qed.
Lemma compress_rep : forall v sh, shape_ok sh -> card sh = len v -> rep (compress eqb v (flat sh)) sh v.
Proof using All.
  intros v sh Hok Hc. unfold compress. pose proof (plain_rep v sh Hok Hc) as HP.
  destruct v as [|v0 [|v1 [|v2 [|v3 rest]]]]; try exact HP.
  destruct (eqb v0 v1 && eqb v1 v2 && eqb v2 v3) eqn:Eq; [|exact HP].
  apply andb_prop in Eq. destruct Eq as [Eq E23]. apply andb_prop in Eq. destruct Eq as [E01 E12].
  apply eqb_same in E01, E12, E23. destruct (run_split v0 rest) as (pre & H1 & H2).
  cbn [rep]. split; [exact Hok|]. split; [exact Hc|]. split; [reflexivity|].
  exists v0, (run eqb v0 rest), (v0 :: v1 :: v2 :: v3 :: pre). split; [reflexivity|]. split; [cbn; congruence|]. split; [discriminate|].
  repeat constructor; eauto.
Qed.
Lemma copy_dims_ok : forall l2 l1, copy_dims (l1 ++ l2) (len l1) (length l2) = Ok l2.
Proof using Type.
  induction l2 as [|x l2 IH]; intros l1; cbn [copy_dims length]; [reflexivity|].
  rewrite (at_nth _ _ _ x) by (unfold len; first [lia | rewrite Nat2Z.id, nth_error_app2, Nat.sub_diag by lia; reflexivity]). cbn [bind].
  specialize (IH (l1 ++ [x])). rewrite <- app_assoc in IH. cbn [app] in IH.
  replace (len l1 + 1) with (len (l1 ++ [x])) by (unfold len; rewrite app_length; cbn [length]; lia).
  rewrite IH. reflexivity.
Qed.
Lemma view_rep : forall a sh el sh', rep a sh el -> shape_ok sh' -> card sh' = card sh -> exists a', view a sh' = Ok a' /\ rep a' sh' el.
Proof using Type.
  intros a sh el sh' H Hok Hc. pose proof (rep_dims _ _ _ H) as HD. pose proof (rep_shape _ _ _ H) as [_ Hl]. destruct a as [fl v d|al d]; unfold view.
  - eexists. split; [reflexivity|]. cbn [rep] in H. destruct H as (_ & _ & H). destruct fl.
    + destruct H as [-> H]. cbn [rep]. split; [exact Hok|]. split; [congruence|]. split; [reflexivity | exact H].
    + destruct H as [-> _]. apply plain_rep; [exact Hok | congruence].
  - rewrite HD. cbn [rep] in H. destruct H as (_ & _ & sha & ela & sl & Hal & -> & Hsub & Hcs & Hsl).
    rewrite (rep_dims al sha ela Hal). pose proof (Forall2_len _ _ _ _ _ Hsub) as HL. rewrite <- HL.
    pose proof (copy_dims_ok (flat sl) (flat sh)) as CD. rewrite flat_len in CD. rewrite (Z.mul_comm (len sh) 2).
    pose proof (flat_len sl) as FL.
    replace (Z.to_nat (len sl * 2)) with (length (flat sl)) by (unfold len in *; lia). rewrite CD. cbn [bind].
    eexists. split; [reflexivity|]. cbn [rep]. split; [exact Hok|]. split; [congruence|].
    exists sha, ela, sl. repeat (split; auto); try congruence; try apply Hsl.
Qed.
Lemma shape1_ok : forall n, 0 <= n <= INT_MAX -> shape_ok [(1, n)] /\ card [(1, n)] = n.
Proof using Type.
  intros n Hn. assert (C : card [(1, n)] = n) by (cbn [card]; unfold wid; cbn [fst snd]; lia).
  split; [|exact C]. split; [discriminate|]. split; [|lia]. constructor; [|constructor].
  unfold range_ok, wid. cbn [fst snd]. unfold INT_MIN, INT_MAX in *. lia.
Qed.
Lemma view1_rep : forall a sh el, rep a sh el -> exists a', view1 a = Ok a' /\ rep a' [(1, card sh)] el.
Proof using Type.
  intros a sh el H. pose proof (rep_shape _ _ _ H) as [[Hne [Hok Hc]] Hl]. pose proof (card_nonneg _ Hok) as Hnn.
  destruct (shape1_ok (card sh) ltac:(lia)) as [S1 C1]. pose proof (rep_dims _ _ _ H) as HD.
  pose proof (rep_asize _ _ _ H) as HA. pose proof (rep_alength _ _ _ H) as HB.
  destruct a as [fl v d|al d]; unfold view1.
  - cbn [rep] in H. destruct H as (_ & _ & H). destruct fl.
    + rewrite HB. cbn [bind]. rewrite i32_ok by (unfold INT_MIN, INT_MAX in *; lia). cbn [bind]. eexists. split; [reflexivity|].
      cbn [rep]. split; [exact S1|]. split; [congruence|]. destruct H as [_ H]. split; [reflexivity | exact H].
    + eexists. split; [reflexivity|]. cbn [rep]. split; [exact S1|]. split; [congruence|]. destruct H as [-> _]. split; [reflexivity|].
      right. split; [reflexivity|]. congruence.
  - rewrite HA, HD. cbn [bind]. rewrite i32_ok by (unfold INT_MIN, INT_MAX in *; lia). cbn [bind].
    cbn [rep] in H. destruct H as (_ & _ & sha & ela & sl & Hal & -> & Hsub & Hcs & Hsl).
    rewrite (rep_dims al sha ela Hal). pose proof (Forall2_len _ _ _ _ _ Hsub) as HL. rewrite <- HL.
    pose proof (copy_dims_ok (flat sl) (flat sh)) as CD. rewrite flat_len in CD. rewrite (Z.mul_comm (len sh) 2).
    pose proof (flat_len sl) as FL.
    replace (Z.to_nat (len sl * 2)) with (length (flat sl)) by (unfold len in *; lia). rewrite CD. cbn [bind].
    eexists. split; [reflexivity|]. cbn [rep]. split; [exact S1|]. split; [congruence|].
    exists sha, ela, sl. repeat (split; auto); try congruence; try apply Hsl.
Qed.
Lemma make1d_rep : forall fl v d sh el, rep (Vec fl v d) sh el -> exists a', make1d (Vec fl v d) = Ok a' /\ rep a' [(1, card sh)] el.
Proof using Type.
  intros fl v d sh el H. pose proof (rep_shape _ _ _ H) as [[Hne [Hok Hc]] Hl]. pose proof (card_nonneg _ Hok) as Hnn.
  destruct (shape1_ok (card sh) ltac:(lia)) as [S1 C1]. pose proof (rep_alength _ _ _ H) as HB.
  unfold make1d. cbn [dims_of]. destruct d as [|d0 d].
  - eexists. split; [reflexivity|]. pose proof H as HR. cbn [rep] in H. destruct H as (_ & _ & H).
    assert (Hsh : fl = false /\ sh = [(1, len v)]).
    { pose proof (flat_nonempty sh Hne). destruct fl; [destruct H as [H _]; congruence|]. split; [reflexivity|]. destruct H as (_ & [H|[_ H]]); [congruence | exact H]. }
    destruct Hsh as [-> Hsh]. rewrite Hsh in *. replace (card [(1, len v)]) with (len v) by (cbn [card]; unfold wid; cbn [fst snd]; lia). exact HR.
  - rewrite HB. cbn [bind]. rewrite i32_ok by (unfold INT_MIN, INT_MAX in *; lia). cbn [bind]. eexists. split; [reflexivity|].
    cbn [rep] in *. destruct H as (_ & _ & H). destruct fl.
    + split; [exact S1|]. split; [congruence|]. destruct H as [_ H]. split; [reflexivity | exact H].
    + split; [exact S1|]. split; [congruence|]. destruct H as [H _]. split; [exact H|]. left. reflexivity.
Qed.
Lemma concat_len : forall (vv : list (list E)) m, Forall (fun r => len r = m) vv -> len (concat vv) = len vv * m.
Proof using Type.
  unfold len. induction 1; cbn [concat length]; [lia|]. rewrite app_length. lia.
Qed.
Lemma built_rep : forall a sh el, built eqb a sh el -> rep a sh el.
Proof using All.
  induction 1.
  - apply compress_rep; auto.
  - unfold mk1 in H. destruct (i32 (len v)) as [n| |] eqn:En; try discriminate. cbn [bind] in H. injection H as <-.
    unfold i32 in En. destruct ((INT_MIN <=? len v) && (len v <=? INT_MAX)) eqn:Ei; [|discriminate]. injection En as <-.
    destruct (shape1_ok (len v)) as [S1 C1]; [unfold len in *; lia|]. exact (compress_rep v [(1, len v)] S1 C1).
  - unfold mk2 in H2. destruct (i32 (len vv)) as [n| |] eqn:En; try discriminate. cbn [bind] in H2.
    unfold i32 in En. destruct ((INT_MIN <=? len vv) && (len vv <=? INT_MAX)) eqn:Ei; [|discriminate]. injection En as <-.
    assert (Hm : match vv with [] => Ok 0 | r :: _ => i32 (len r) end = Ok m \/ match vv with [] => Ok 0 | r :: _ => i32 (len r) end = UB).
    { destruct vv as [|r vv]; [left; f_equal; symmetry; auto|]. inversion_clear H. rewrite H3. unfold i32. destruct ((INT_MIN <=? m) && (m <=? INT_MAX)); auto. }
    destruct Hm as [Hm | Hm]; rewrite Hm in H2; [|discriminate]. cbn [bind] in H2. injection H2 as <-.
    apply (compress_rep (concat vv) [(1, len vv); (1, m)] H1). rewrite (concat_len vv m H). cbn [card]. unfold wid. cbn [fst snd]. lia.
  - destruct (view_rep a sh el sh' IHbuilt H0 H1) as (a2 & E2 & R2). congruence.
  - destruct (view1_rep a sh el IHbuilt) as (a2 & E2 & R2). congruence.
  - cbn [rep slice]. split; [exact H1|]. destruct H3 as [H3 H4]. split; [congruence|].
    exists sh, el, sl. split; [exact IHbuilt|]. split; [reflexivity|]. split; [exact H0|]. split; [exact H2|]. split; [exact H3 | exact H4].
  - destruct (make1d_rep fl v d sh el IHbuilt) as (a2 & E2 & R2). congruence.
Qed.

(** ** Statements *)
Lemma C29_l : forall a sh el, built eqb a sh el ->
  len el = card sh /\ asize a = Ok (card sh) /\ dims a = len sh /\
  (forall k lo hi, 0 <= k -> nth_error sh (Z.to_nat k) = Some (lo, hi) -> amin a k = Ok lo /\ amax a k = Ok hi) /\
  (forall i, 0 <= i < card sh -> exists e e', elem_at el i = Some e' /\ get a i = Ok e /\ same e e').
Proof using All.
  intros a sh el HB. pose proof (built_rep _ _ _ HB) as H. pose proof (rep_shape _ _ _ H) as [_ Hl].
  split; [congruence|]. split; [eapply rep_asize; eauto|]. split; [eapply rep_dims; eauto|]. split.
  - intros k lo hi Hk Hn. apply (rep_minmax a sh el k (lo, hi) H Hk Hn).
  - intros i Hi. eapply rep_get; eauto.
Qed.
Lemma C30_defined_l : forall a sh el sh', built eqb a sh el -> shape_ok sh' -> card sh' = card sh ->
  (exists a', view a sh' = Ok a') /\ (exists a', view1 a = Ok a').
Proof using All.
  intros a sh el sh' HB Hok Hc. pose proof (built_rep _ _ _ HB) as H.
  destruct (view_rep a sh el sh' H Hok Hc) as (a2 & E2 & _). destruct (view1_rep a sh el H) as (a3 & E3 & _). eauto.
Qed.
Lemma C30_slice_l : forall a sh el sh' sl, built eqb a sh el -> Forall2 sub_range sl sh -> shape_ok sh' -> card sh' = card sl ->
  asize (slice a sh' sl) = Ok (card sl) /\
  forall idx, in_shape idx sl -> get (slice a sh' sl) (position sl idx) = get a (position sh idx).
Proof using All.
  intros a sh el sh' sl HB Hsub Hok Hc. pose proof (built_rep _ _ _ HB) as H. split.
  - assert (Hslok : Forall range_ok sl) by (clear - Hsub; induction Hsub; constructor; auto; destruct H; auto).
    assert (R : exists el', slice_of sh el sl el').
    { assert (Hd : forall n : nat, (Z.of_nat n <= card sl) -> exists el', len el' = Z.of_nat n /\
        forall idx, in_shape idx sl -> position sl idx < Z.of_nat n -> elem_at el' (position sl idx) = elem_at el (position sh idx)).
      { assert (Hinj : forall i1 i2, in_shape i1 sl -> in_shape i2 sl -> position sl i1 = position sl i2 -> i1 = i2).
        { clear. intros i1 i2 H1. revert i2. induction H1; intros i2 H2 Hp; inversion H2; subst; [reflexivity|]. cbn [position] in Hp.
          pose proof (position_range _ _ H1). pose proof (position_range _ _ H6). unfold in_shape in *.
          assert (x = x0) by nia. subst. f_equal. apply IHForall2; auto. lia. }
        induction n as [|n IHn]; intros Hn.
        - exists []. split; [reflexivity|]. intros idx Hi Hp. pose proof (position_range _ _ Hi). lia.
        - destruct IHn as (el' & L1 & P1); [lia|]. destruct (position_onto sl (Z.of_nat n) Hslok ltac:(lia)) as (ix & Hix & Px).
          pose proof (sub_in_shape _ _ _ Hsub Hix) as Hix'. pose proof (position_range _ _ Hix') as PR.
          pose proof (rep_shape _ _ _ H) as [_ Hl]. destruct (at_ok _ el (position sh ix)) as (x & _ & Nx); [lia|].
          exists (el' ++ [x]). unfold len in *. rewrite app_length. cbn [length]. split; [lia|].
          intros idx Hi Hp. pose proof (position_range _ _ Hi). unfold elem_at in *.
          destruct (Z.eq_dec (position sl idx) (Z.of_nat n)) as [Eq|Ne].
          + assert (idx = ix) by (apply Hinj; auto; congruence). subst idx. rewrite Eq. rewrite nth_error_app2 by lia.
            replace (Z.to_nat (Z.of_nat n) - length el')%nat with 0%nat by lia. cbn. congruence.
          + rewrite nth_error_app1 by lia. apply P1; auto. lia. }
      pose proof (card_nonneg _ Hslok). destruct (Hd (Z.to_nat (card sl)) ltac:(lia)) as (el' & L1 & P1). exists el'. split; [lia|].
      intros idx Hi. apply P1; [exact Hi|]. pose proof (position_range _ _ Hi). lia. }
    destruct R as [el' R]. rewrite <- Hc. apply (rep_asize _ sh' el'). apply built_rep. eapply b_slice; eauto.
  - intros idx Hi. cbn [slice get]. rewrite (origIdx_ok a sh el sh' sl idx H Hsub Hi). reflexivity.
Qed.

(** ** Assignment *)
Lemma upd_spec : forall l i (e : E) l', upd l i e = Ok l' -> len l' = len l /\ 0 <= i < len l /\ forall j, 0 <= j -> at_ l' j = if j =? i then Ok e else at_ l j.
Proof using Type.
  intros l i e l' H. unfold upd in H. destruct (at_ l i) as [x| |] eqn:Ea; try discriminate. cbn [bind] in H. assert (H' : l' = firstn (Z.to_nat i) l ++ e :: skipn (S (Z.to_nat i)) l) by congruence. clear H. subst l'.
  unfold at_ in Ea. destruct (i <? 0) eqn:C; [discriminate|]. destruct (nth_error l (Z.to_nat i)) eqn:En; [|discriminate].
  assert (HL : (Z.to_nat i < length l)%nat) by (apply nth_error_Some; congruence).
  unfold len. rewrite app_length, firstn_length. match goal with |- context [length (e :: ?x)] => change (length (e :: x)) with (S (length x)) end. rewrite skipn_length. split; [lia|]. split; [lia|].
  intros j Hj. unfold at_. replace (j <? 0) with false by lia. destruct (Z.eqb_spec j i) as [->|Hne].
  - rewrite nth_error_app2 by (rewrite firstn_length; lia). rewrite firstn_length. replace (Z.to_nat i - Nat.min (Z.to_nat i) (length l))%nat with 0%nat by lia. reflexivity.
  - destruct (Z_lt_le_dec j i).
    + rewrite nth_error_app1 by (rewrite firstn_length; lia). 
      assert (Hf : nth_error (firstn (Z.to_nat i) l) (Z.to_nat j) = nth_error l (Z.to_nat j)).
      { assert (HH : (Z.to_nat j < Z.to_nat i)%nat) by lia. revert HH. clear. revert l. generalize (Z.to_nat i). generalize (Z.to_nat j).
        intros n m l. revert n m. induction l as [|y l IH]; intros [|n] [|m] H; cbn; auto; try lia. apply IH. lia. }
      rewrite Hf. reflexivity.
    + rewrite nth_error_app2 by (rewrite firstn_length; lia). rewrite firstn_length.
      replace (Z.to_nat j - Nat.min (Z.to_nat i) (length l))%nat with (S (Z.to_nat j - S (Z.to_nat i)))%nat by lia. cbn [nth_error].
      assert (Hf : nth_error (skipn (S (Z.to_nat i)) l) (Z.to_nat j - S (Z.to_nat i)) = nth_error l (Z.to_nat j)).
      { assert (HH : (S (Z.to_nat i) <= Z.to_nat j)%nat) by lia. revert HH. clear. revert l. generalize (Z.to_nat j). generalize (S (Z.to_nat i)).
        intros n m l. revert m l. induction n as [|n IH]; intros m l H; cbn [skipn]; [f_equal; lia|]. destruct l as [|y l]; destruct m as [|m]; cbn [nth_error Nat.sub]; try lia.
        - destruct (m - n)%nat; reflexivity.
        - apply IH. lia. }
      rewrite Hf. reflexivity.
Qed.
Lemma set_geometry : forall (a : arr E) i e a', set a i e = Ok a' -> dims a' = dims a /\ (forall k, amin a' k = amin a k) /\ (forall k, amax a' k = amax a k) /\ compressed a' = compressed a.
Proof using Type.
  induction a as [fl v d|al IH d]; intros i e a' H; cbn [set] in H.
  - assert (Hv : exists v' j, upd v j e = Ok v' /\ a' = Vec fl v' d).
    { destruct fl.
      - destruct (coff (Vec true v d) v) as [o| |]; try discriminate. cbn [bind] in H. destruct (i32 i) as [j| |]; try discriminate. cbn [bind] in H.
        destruct (j <=? o).
        + destruct (upd v 0 e) as [v'| |] eqn:Eu; try discriminate. cbn [bind] in H. injection H as <-. eauto.
        + destruct (upd v (i - o) e) as [v'| |] eqn:Eu; try discriminate. cbn [bind] in H. injection H as <-. eauto.
      - destruct (upd v i e) as [v'| |] eqn:Eu; try discriminate. cbn [bind] in H. injection H as <-. eauto. }
    destruct Hv as (v' & j & Hu & ->). destruct (upd_spec _ _ _ _ Hu) as [HL _]. cbn [dims]. repeat split; auto.
    intros k. unfold amax. cbn [dims_of]. rewrite HL. reflexivity.
  - destruct (origIdx al d i) as [o| |]; try discriminate. cbn [bind] in H. destruct (set al o e) as [al'| |] eqn:Es; try discriminate. cbn [bind] in H.
    injection H as <-. destruct (IH _ _ _ Es) as (H1 & _ & _ & H4). cbn [dims compressed]. rewrite H1. repeat split; auto.
Qed.
Lemma origIdx_geometry : forall (al al' : arr E) d i, dims al' = dims al -> (forall k, amin al' k = amin al k) -> (forall k, amax al' k = amax al k) ->
  origIdx al' d i = origIdx al d i.
Proof using Type.
  intros al al' d i Hd Hmi Hma. unfold origIdx. cbn [dims]. rewrite Hd. 
  assert (HL : forall n so i m o, origIdx_loop al' d so n i m o = origIdx_loop al d so n i m o); [|apply HL].
  induction n as [|n IH]; intros so i0 m o; cbn [origIdx_loop]; [reflexivity|].
  destruct (at_ d (so + Z.of_nat n * 2)); cbn [bind]; [|reflexivity..]. destruct (at_ d (so + Z.of_nat n * 2 + 1)); cbn [bind]; [|reflexivity..].
  destruct (width a a0); cbn [bind]; [|reflexivity..]. destruct (u32 a1 =? 0); [reflexivity|]. unfold awidth. rewrite Hmi, Hma.
  destruct (amin al (Z.of_nat n)); cbn [bind]; [|reflexivity..]. destruct (i32 (a - a2)); cbn [bind]; [|reflexivity..].
  destruct (amax al (Z.of_nat n)); cbn [bind]; [|reflexivity..]. destruct (width a2 a4); cbn [bind]; [|reflexivity..].
  destruct (i32 (m * a5)); cbn [bind]; [|reflexivity..]. apply IH.
Qed.
Lemma position_inj : forall sl i1 i2, in_shape i1 sl -> in_shape i2 sl -> position sl i1 = position sl i2 -> i1 = i2.
Proof using Type.
  intros sl i1 i2 H1. revert i2. induction H1; intros i2 H2 Hp; inversion H2; subst; [reflexivity|]. cbn [position] in Hp.
  pose proof (position_range _ _ H1). pose proof (position_range _ _ H6). unfold in_shape in *.
  assert (x = x0) by nia. subst. f_equal. apply IHForall2; auto. lia.
Qed.
Lemma set_ok : forall a sh el i e, rep a sh el -> compressed a = false -> 0 <= i < card sh ->
  exists a', set a i e = Ok a' /\ forall j, 0 <= j < card sh -> get a' j = if j =? i then Ok e else get a j.
Proof using Type.
  induction a as [fl v d|al IH d]; intros sh el i e H Hc Hi; pose proof (rep_shape _ _ _ H) as [[_ [Hok _]] Hl].
  - cbn [compressed] in Hc. subst fl. cbn [rep] in H. destruct H as (_ & _ & -> & _). cbn [set].
    destruct (at_ok _ v i) as (x & Hx & _); [lia|]. assert (Hu : exists v', upd v i e = Ok v') by (unfold upd; rewrite Hx; cbn [bind]; eauto).
    destruct Hu as [v' Hu]. rewrite Hu. cbn [bind]. eexists. split; [reflexivity|]. intros j Hj. cbn [get]. destruct (upd_spec _ _ _ _ Hu) as (_ & _ & HU). apply HU. lia.
  - cbn [rep compressed] in *. destruct H as (_ & _ & sha & ela & sl & Hal & -> & Hsub & Hcs & [Hlen Hsl]).
    assert (Hslok : Forall range_ok sl) by (clear - Hsub; induction Hsub; constructor; auto; destruct H; auto).
    destruct (position_onto sl i Hslok ltac:(lia)) as (idx & Hin & <-). pose proof (sub_in_shape _ _ _ Hsub Hin) as Hina.
    destruct (IH sha ela (position sha idx) e Hal Hc (position_range _ _ Hina)) as (al' & Hs & Hg).
    cbn [set]. rewrite (origIdx_ok al sha ela sh sl idx Hal Hsub Hin). cbn [bind]. rewrite Hs. cbn [bind]. eexists. split; [reflexivity|].
    destruct (set_geometry _ _ _ _ Hs) as (G1 & G2 & G3 & _).
    intros j Hj. destruct (position_onto sl j Hslok ltac:(lia)) as (jdx & Hjn & <-). pose proof (sub_in_shape _ _ _ Hsub Hjn) as Hjna.
    cbn [get]. rewrite (origIdx_geometry al al' _ _ G1 G2 G3). rewrite (origIdx_ok al sha ela sh sl jdx Hal Hsub Hjn). cbn [bind].
    rewrite (Hg _ (position_range _ _ Hjna)).
    destruct (Z.eqb_spec (position sha jdx) (position sha idx)) as [E1|E1]; destruct (Z.eqb_spec (position sl jdx) (position sl idx)) as [E2|E2]; try reflexivity.
    + exfalso. apply E2. rewrite (position_inj sha jdx idx Hjna Hina E1). reflexivity.
    + exfalso. apply E1. rewrite (position_inj sl jdx idx Hjn Hin E2). reflexivity.
Qed.
Lemma C30_set_l : forall a sh el i e, built eqb a sh el -> compressed a = false -> 0 <= i < card sh ->
  exists a', set a i e = Ok a' /\ dims a' = dims a /\ (forall k, amin a' k = amin a k /\ amax a' k = amax a k) /\
    forall j, 0 <= j < card sh -> get a' j = if j =? i then Ok e else get a j.
Proof using All.
  intros a sh el i e HB Hc Hi. pose proof (built_rep _ _ _ HB) as H. destruct (set_ok a sh el i e H Hc Hi) as (a' & Hs & Hg).
  destruct (set_geometry _ _ _ _ Hs) as (G1 & G2 & G3 & _). exists a'. repeat (split; auto).
Qed.
End P.
