Require Import ZArith List Bool Lia ZifyBool.
From Verif Require Import Base LitProofs IntValModel IntValSpec IntValProofs SetModel SetSpec SetProofs SetProofs3 SetPropProofs IntValPropProofs.
From Verif Require Import ArrModel ArrSpec ArrProofs AccessProofs BarrModel BarrSpec BarrProofs BarrProofs2.
Import ListNotations.
Open Scope Z_scope.
Ltac Zify.zify_post_hook ::= idtac.
Notation card := ArrSpec.card.

(** ** The ends of a set *)
Ltac ext_cases := repeat match goal with x : ext |- _ => destruct x end; unfold ext_lt, ext_le in *; cbn in *; intuition (try congruence; try lia; eauto).
Lemma nf_tail : forall r s, nf (r :: s) -> nf s.
Proof. intros r s H. inversion H; subst; auto. constructor. Qed.
Lemma nf_head : forall r s, nf (r :: s) -> good_range r.
Proof. intros r s H. inversion H; subst; auto. Qed.
Lemma elem_cons : forall z r s, elem z (r :: s) <-> between z (fst r) (snd r) \/ elem z s.
Proof.
  intros z [a b] s. unfold elem. split.
  - intros (x & y & [H|H] & Hb); [injection H as <- <-; auto | right; eauto].
  - intros [H|(x & y & Hi & Hb)]; [exists a, b; cbn; auto | exists x, y; cbn; auto].
Qed.
Lemma first_least : forall s r z, nf (r :: s) -> elem z (r :: s) -> exists x, denote (fst r) = Some x /\ ext_le x (Fin z).
Proof.
  induction s as [|r2 s IH]; intros r z N He; apply elem_cons in He.
  - destruct He as [(x & y & H1 & H2 & H3 & H4)|(x & y & [] & _)]. eauto.
  - destruct He as [(x & y & H1 & H2 & H3 & H4)|He]; [eauto|].
    destruct (IH r2 z (nf_tail _ _ N) He) as (x2 & D2 & L2). inversion N as [| |? ? ? G0 GG G3]; subst.
    destruct G0 as (z1 & a & b & Da & Db & La & Lb). destruct GG as (w & xb & xa & Db' & Da' & G1 & G2).
    exists a. split; [exact Da|]. rewrite D2 in Da'. injection Da' as <-. rewrite Db in Db'. injection Db' as <-.
    destruct a as [|a|], b as [|b|], x2 as [|x2|]; unfold ext_lt, ext_le in *; intuition lia.
Qed.
Lemma last_greatest : forall s r z, nf (r :: s) -> elem z (r :: s) -> exists y, denote (snd (last (r :: s) r)) = Some y /\ ext_le (Fin z) y.
Proof.
  induction s as [|r2 s IH]; intros r z N He; apply elem_cons in He.
  - destruct He as [(x & y & H1 & H2 & H3 & H4)|(x & y & [] & _)]. cbn. eauto.
  - assert (HL : last (r :: r2 :: s) r = last (r2 :: s) r2).
    { change (last (r :: r2 :: s) r) with (last (r2 :: s) r). clear. revert r r2. induction s as [|x s IH]; intros r r2; [reflexivity|].
      change (last (x :: s) r = last (x :: s) r2). rewrite (IH r x), (IH r2 x). reflexivity. }
    rewrite HL. destruct He as [(x & y & H1 & H2 & H3 & H4)|He]; [|apply IH; auto; eapply nf_tail; eauto].
    inversion N as [| |? ? ? G0 GG H7]; subst. destruct (nf_head _ _ H7) as (z2 & Hz2).
    destruct (IH r2 z2 H7) as (y2 & D2 & L2); [apply elem_cons; auto|]. exists y2. split; [exact D2|].
    destruct Hz2 as (a2 & b2 & Da & Db & La & Lb). destruct GG as (w & xb & xa & Db' & Da' & G1 & G2).
    rewrite H2 in Db'. injection Db' as <-. rewrite Da in Da'. injection Da' as <-.
    destruct y as [|y|], a2 as [|a2|], y2 as [|y2|]; unfold ext_lt, ext_le in *; intuition lia.
Qed.
Lemma last_in_list : forall (A : Type) s (r d : A), In (last (r :: s) d) (r :: s).
Proof. induction s as [|x s IH]; intros r d; [left; reflexivity|]. right. apply (IH x d). Qed.
Lemma nf_all_good : forall s r, nf s -> In r s -> good_range r.
Proof.
  intros s r N. induction N as [|r0 G|r1 r2 s G0 GG N IH]; intros Hi; [destruct Hi | destruct Hi as [<-|[]]; exact G|].
  destruct Hi as [<-|Hi]; [exact G0 | apply IH; exact Hi].
Qed.
Lemma range_within : forall r s d lo hi, nf (r :: s) -> fits64 lo -> fits64 hi -> d = r ->
  iv_lt (fst r) (ofZ lo) || iv_gt (snd (last (r :: s) d)) (ofZ hi) = false <-> forall z, elem z (r :: s) -> lo <= z <= hi.
Proof.
  intros r s d lo hi N Hlo Hhi ->.
  destruct (nf_head _ _ N) as (z0 & x0 & y0 & Dx & Dy & Lx & Ly).
  pose proof (nf_all_good _ _ N (last_in_list _ s r r)) as (z1 & x1 & y1 & Dx1 & Dy1 & Lx1 & Ly1).
  assert (Dlo : denote (ofZ lo) = Some (Fin lo)) by (apply int_of_Z; exact Hlo).
  assert (Dhi : denote (ofZ hi) = Some (Fin hi)) by (apply int_of_Z; exact Hhi).
  destruct (C02_comparisons_l _ _ _ _ Dx Dlo) as (_ & B1 & _).
  destruct (C02_comparisons_l _ _ _ _ Dy1 Dhi) as (_ & _ & _ & B2 & _).
  split.
  - intros H. apply orb_false_iff in H. destruct H as [H1 H2]. intros z He.
    assert (N1 : ~ ext_lt x0 (Fin lo)) by (intros C; apply B1 in C; congruence).
    assert (N2 : ~ ext_lt (Fin hi) y1) by (intros C; apply B2 in C; congruence).
    destruct (first_least _ _ _ N He) as (x & Dx' & Lx'). rewrite Dx in Dx'. injection Dx' as <-.
    destruct (last_greatest _ _ _ N He) as (y & Dy' & Ly'). rewrite Dy1 in Dy'. injection Dy' as <-.
    split.
    + destruct x0 as [|x|]; cbn in Lx'; [exfalso; apply N1; split; [exact I | discriminate] | | contradiction].
      destruct (Z_lt_le_dec x lo); [exfalso; apply N1; split; [cbn; lia | injection; lia] | lia].
    + destruct y1 as [|y|]; cbn in Ly'; [contradiction | | exfalso; apply N2; split; [exact I | discriminate]].
      destruct (Z_lt_le_dec hi y); [exfalso; apply N2; split; [cbn; lia | injection; lia] | lia].
  - intros H. apply orb_false_iff. split.
    + destruct (iv_lt (fst r) (ofZ lo)) eqn:Eb; [|reflexivity]. exfalso. pose proof (proj1 B1 eq_refl) as Eb'. destruct Eb' as [L Ne].
      assert (Hx : elem (match x0 with Fin x => x | _ => Z.min z0 (lo - 1) end) (r :: s)).
      { apply elem_cons. left. exists x0, y0. destruct x0, y0; cbn in *; intuition lia. }
      apply H in Hx. destruct x0 as [|x|]; cbn in L; [lia | | contradiction]. assert (x <> lo) by congruence. lia.
    + destruct (iv_gt (snd (last (r :: s) r)) (ofZ hi)) eqn:Eb; [|reflexivity]. exfalso. pose proof (proj1 B2 eq_refl) as Eb'. destruct Eb' as [L Ne].
      assert (Hx : elem (match y1 with Fin y => y | _ => Z.max z1 (hi + 1) end) (r :: s)).
      { exists (fst (last (r :: s) r)), (snd (last (r :: s) r)). split; [rewrite <- surjective_pairing; apply last_in_list|].
        exists x1, y1. destruct x1, y1; cbn in *; intuition lia. }
      apply H in Hx. destruct y1 as [|y|]; cbn in L; [contradiction | | lia]. assert (y <> hi) by congruence. lia.
Qed.
Lemma incr_len : forall l lo hi, increasing l -> (forall z, In z l -> lo <= z <= hi) -> lo <= hi + 1 -> len l <= hi - lo + 1.
Proof.
  induction l as [|x l IH]; intros lo hi Hi Hb Hle; [unfold len; cbn [length]; lia|].
  assert (Hx : lo <= x <= hi) by (apply Hb; left; reflexivity).
  assert (len l <= hi - (x + 1) + 1).
  { apply IH; [destruct l; [exact I | apply Hi] | | lia]. intros z Hz. split; [|apply Hb; right; exact Hz].
    clear - Hi Hz. revert x Hi. induction l as [|y l IH]; intros x Hi; [destruct Hz|]. destruct Hi as [H1 H2].
    destruct Hz as [->|Hz]; [lia|]. specialize (IH Hz y H2). lia. }
  unfold len in *. cbn [length]. lia.
Qed.

Section P.
Variable E : Type.
Variable eqb : E -> E -> bool.
Variable same : E -> E -> Prop.
Hypothesis same_refl : forall e, same e e.
Hypothesis same_sym : forall a b, same a b -> same b a.
Hypothesis same_trans : forall a b c, same a b -> same b c -> same a c.
Hypothesis eqb_same : forall a b, eqb a b = true -> same a b.
Notation facts := (built_facts E eqb same same_refl same_sym same_trans eqb_same).
Notation brep := (built_rep E eqb same same_refl same_sym same_trans eqb_same).
Notation okat := (okat E same).

(** ** Errors of concat_index *)
Lemma concat_dims_err : forall a0 sh0 el0 a1 sh1 el1 idx n i, built eqb a0 sh0 el0 -> built eqb a1 sh1 el1 -> length sh1 = length sh0 ->
  (forall k r0 r1, nth_error sh0 k = Some r0 -> nth_error sh1 k = Some r1 -> Z.of_nat k + 1 = idx ->
     INT_MIN <= wid r0 + snd r1 <= INT_MAX /\ wid r0 + wid r1 <= INT_MAX) ->
  (n + i = length sh0)%nat -> (exists k, (i <= k < length sh0)%nat /\ Z.of_nat k + 1 <> idx /\ nth_error sh0 k <> nth_error sh1 k) ->
  concat_dims n (Z.of_nat i) idx a0 a1 = Err EvalError.
Proof using All.
  intros a0 sh0 el0 a1 sh1 el1 idx n i HB0 HB1 HL1 Hk. destruct (facts _ _ _ HB0) as (_ & _ & _ & (_ & Ok0 & _) & M0).
  destruct (facts _ _ _ HB1) as (_ & _ & _ & (_ & Ok1 & _) & M1). rewrite Forall_forall in Ok0, Ok1.
  revert i. induction n as [|n IH]; intros i Hi (k & Hk1 & Hk2 & Hk3); [lia|]. cbn [concat_dims].
  destruct (nth_error sh0 i) as [[l0 h0]|] eqn:E0; [|apply nth_error_None in E0; lia].
  destruct (nth_error sh1 i) as [[l1 h1]|] eqn:E1; [|apply nth_error_None in E1; lia].
  destruct (M0 i _ E0) as [-> ->]. destruct (M1 i _ E1) as [-> ->]. cbn [bind fst snd].
  pose proof (Hk i _ _ E0 E1) as Hr. pose proof (Ok0 _ (nth_error_In _ _ E0)) as R0. pose proof (Ok1 _ (nth_error_In _ _ E1)) as R1.
  assert (IH' : k <> i -> concat_dims n (Z.of_nat (S i)) idx a0 a1 = Err EvalError).
  { intros Hne. apply IH; [lia|]. exists k. repeat split; auto; lia. }
  replace (Z.of_nat i + 1) with (Z.of_nat (S i)) in * by lia.
  destruct (Z.eqb_spec (Z.of_nat (S i)) idx) as [Ei|Ei]; cbn [negb].
  - destruct (Hr Ei) as (H1 & H2). pose proof (width_ok _ R0) as W0. cbn [fst snd] in W0. rewrite W0. cbn [bind].
    unfold range_ok, wid in *. cbn [fst snd] in *. rewrite i32_ok by (unfold INT_MIN, INT_MAX in *; lia). cbn [bind].
    rewrite i32_ok by (unfold INT_MIN, INT_MAX in *; lia). cbn [bind]. rewrite i32_ok by (unfold INT_MIN, INT_MAX in *; lia). cbn [bind].
    rewrite IH' by lia. reflexivity.
  - destruct (Z.eqb_spec l0 l1) as [->|]; [|reflexivity]. destruct (Z.eqb_spec h0 h1) as [->|]; [|reflexivity]. cbn [negb orb bind].
    rewrite IH'; [reflexivity|]. intros ->. congruence.
Qed.
Lemma concat_dims_differ : forall idx a0 a1 sh0 sh1 el0 el1, built eqb a0 sh0 el0 -> built eqb a1 sh1 el1 -> length sh0 <> length sh1 ->
  concat_index eqb idx a0 a1 = Err EvalError.
Proof using All.
  intros idx a0 a1 sh0 sh1 el0 el1 HB0 HB1 Hne. destruct (facts _ _ _ HB0) as (_ & D0 & _). destruct (facts _ _ _ HB1) as (_ & D1 & _).
  unfold concat_index. rewrite D0, D1. unfold len. replace (Z.of_nat (length sh0) =? Z.of_nat (length sh1)) with false by lia. reflexivity.
Qed.
Lemma concat_mismatch : forall a0 a1 sh0 sh1 el0 el1 k r0 r1, built eqb a0 sh0 el0 -> built eqb a1 sh1 el1 -> length sh0 = length sh1 ->
  nth_error sh0 k = Some r0 -> nth_error sh1 k = Some r1 -> INT_MIN <= wid r0 + snd r1 <= INT_MAX -> wid r0 + wid r1 <= INT_MAX ->
  (exists j, j <> k /\ nth_error sh0 j <> nth_error sh1 j) -> concat_index eqb (Z.of_nat k + 1) a0 a1 = Err EvalError.
Proof using All.
  intros a0 a1 sh0 sh1 el0 el1 k r0 r1 HB0 HB1 Hl E0 E1 Hov Hw (j & Hj & Hd). destruct (facts _ _ _ HB0) as (_ & D0 & _). destruct (facts _ _ _ HB1) as (_ & D1 & _).
  unfold concat_index. rewrite D0, D1. replace (len sh0 =? len sh1) with true by (unfold len; lia). cbn [negb].
  pose proof (concat_dims_err a0 sh0 el0 a1 sh1 el1 (Z.of_nat k + 1) (length sh0) 0 HB0 HB1 (eq_sym Hl)) as HC. change (Z.of_nat 0) with 0 in HC.
  unfold len. rewrite Nat2Z.id, HC; [reflexivity | | lia |].
  - intros k' s0 s1 H0 H1 Hk. assert (k' = k) as -> by lia. rewrite E0 in H0. rewrite E1 in H1. injection H0 as <-. injection H1 as <-. auto.
  - exists j. split; [|split; [lia | exact Hd]]. split; [lia|]. destruct (nth_error sh0 j) eqn:Ej; [apply nth_error_Some; congruence|].
    exfalso. apply Hd. symmetry. apply nth_error_None in Ej. apply nth_error_None. lia.
Qed.

(** ** Slices *)
Lemma slice_exists : forall sh (el : list E) sl, Forall range_ok sl -> Forall2 sub_range sl sh -> len el = card sh -> exists el', slice_of sh el sl el'.
Proof using Type.
  intros sh el sl Hslok Hsub Hl.
  assert (Hd : forall n : nat, (Z.of_nat n <= card sl) -> exists el', len el' = Z.of_nat n /\
    forall idx, in_shape idx sl -> position sl idx < Z.of_nat n -> elem_at el' (position sl idx) = elem_at el (position sh idx)).
  { induction n as [|n IHn]; intros Hn.
    - exists []. split; [reflexivity|]. intros idx Hi Hp. pose proof (position_range _ _ Hi). lia.
    - destruct IHn as (el' & L1 & P1); [lia|]. destruct (position_onto sl (Z.of_nat n) Hslok ltac:(lia)) as (ix & Hix & Px).
      pose proof (sub_in_shape _ _ _ Hsub Hix) as Hix'. pose proof (position_range _ _ Hix') as PR.
      destruct (at_ok _ el (position sh ix)) as (x & _ & Nx); [lia|].
      exists (el' ++ [x]). unfold len in *. rewrite app_length. cbn [length]. split; [lia|].
      intros idx Hi Hp. pose proof (position_range _ _ Hi). unfold elem_at in *.
      destruct (Z.eq_dec (position sl idx) (Z.of_nat n)) as [Eq|Ne].
      + assert (idx = ix) by (apply (position_inj sl); auto; congruence). subst idx. rewrite Eq. rewrite nth_error_app2 by lia.
        replace (Z.to_nat (Z.of_nat n) - length el')%nat with 0%nat by lia. cbn. congruence.
      + rewrite nth_error_app1 by lia. apply P1; auto. lia. }
  pose proof (card_nonneg _ Hslok). destruct (Hd (Z.to_nat (card sl)) ltac:(lia)) as (el' & L1 & P1). exists el'. split; [lia|].
  intros idx Hi. apply P1; [exact Hi|]. pose proof (position_range _ _ Hi). lia.
Qed.
Lemma mid_shape : forall ip pre i r iq post, in_shape ip pre -> fst r <= i <= snd r -> in_shape iq post -> in_shape (ip ++ i :: iq) (pre ++ r :: post).
Proof using Type. intros. apply Forall2_app; [assumption|]. constructor; assumption. Qed.
Lemma elem_some : forall (el : list E) p, 0 <= p < len el -> exists e, elem_at el p = Some e.
Proof using Type. intros el p Hp. destruct (at_ok _ el p Hp) as (x & _ & H). eauto. Qed.

Definition step (s : iset) (lo hi : Z) : res (Z * Z) :=
  match s with
  | [] => Ok (1, 0)
  | (a, b) :: _ =>
      if ((if isFinite a then to_int (iv_v a) else lo) <? lo) || (hi <? (if isFinite b then to_int (iv_v b) else hi))
      then Err EvalError else Ok (if isFinite a then to_int (iv_v a) else lo, if isFinite b then to_int (iv_v b) else hi)
  end.
Lemma select_dims_ok : forall al pre r post el s n i, built eqb al (pre ++ r :: post) el -> (n + i = length (pre ++ r :: post))%nat ->
  select_dims n (Z.of_nat i) (len pre + 1) al s =
    if (length pre <? i)%nat then Ok (skipn i (pre ++ r :: post))
    else do r' <- step s (fst r) (snd r); Ok (skipn i (pre ++ r' :: post)).
Proof using All.
  intros al pre r post el s n i HB. destruct (facts _ _ _ HB) as (_ & _ & _ & _ & M).
  revert i. induction n as [|n IH]; intros i Hi; cbn [select_dims].
  - rewrite app_length in Hi. cbn [length] in Hi. replace (length pre <? i)%nat with true by lia.
    rewrite skipn_all2 by (rewrite app_length; cbn [length]; lia). reflexivity.
  - destruct (nth_error (pre ++ r :: post) i) as [[lo hi]|] eqn:E0; [|apply nth_error_None in E0; lia].
    destruct (M i _ E0) as [-> ->]. cbn [bind fst snd]. replace (Z.of_nat i + 1) with (Z.of_nat (S i)) by lia. rewrite (IH (S i)) by lia. clear IH.
    fold (step s lo hi).
    destruct (nth_mid _ _ _ _ _ _ E0) as [[-> <-]|[Hne Hr]].
    + replace (Z.of_nat (length pre) =? len pre + 1 - 1) with true by (unfold len; lia).
      replace (length pre <? S (length pre))%nat with true by lia. replace (length pre <? length pre)%nat with false by lia.
      cbn [fst snd]. destruct (step s lo hi) as [r'| |]; [|reflexivity..]. cbn [bind].
      rewrite (skipn_nth _ (pre ++ r' :: post) (length pre) r' (mid_nth _ _ _ _)). rewrite !skipn_app_len. reflexivity.
    + replace (Z.of_nat i =? len pre + 1 - 1) with false by (unfold len; lia). cbn [bind].
      destruct (Nat.ltb_spec (length pre) (S i)) as [H1|H1]; destruct (Nat.ltb_spec (length pre) i) as [H2|H2]; try lia.
      * cbn [bind]. rewrite (skipn_nth _ _ _ _ E0). reflexivity.
      * destruct (step s (fst r) (snd r)) as [r'| |]; [|reflexivity..]. cbn [bind]. rewrite (skipn_nth _ _ _ _ (Hr r')). reflexivity.
Qed.
Lemma sub_mid : forall pre r r' post, Forall range_ok (pre ++ r :: post) -> sub_range r' r -> Forall2 sub_range (pre ++ r' :: post) (pre ++ r :: post).
Proof using Type.
  intros pre r r' post Hok Hr. assert (Hself : forall sh, Forall range_ok sh -> Forall2 sub_range sh sh).
  { induction sh as [|x sh IHs]; intros H; constructor; inversion_clear H; [split; [assumption | right; lia] | auto]. }
  apply Forall_app in Hok. destruct Hok as [H1 H2]. inversion_clear H2. apply Forall2_app; [auto|]. constructor; auto.
Qed.
Lemma slice_restricted : forall al pre r post el r', built eqb al (pre ++ r :: post) el -> range_ok r' -> wid r' = 0 \/ fst r <= fst r' /\ snd r' <= snd r ->
  let sh' := pre ++ r' :: post in exists el', built eqb (slice al sh' sh') sh' el' /\ restricted same pre r post r' el el'.
Proof using All.
  intros al pre r post el r' HB Rr' Hr' sh'. destruct (facts _ _ _ HB) as (_ & _ & HL & (_ & Hok & Hc) & _).
  pose proof (sub_mid pre r r' post Hok (conj Rr' Hr')) as Hsub. fold sh' in Hsub.
  assert (Hok' : Forall range_ok sh').
  { pose proof Hok as Hk. apply Forall_app in Hk. destruct Hk as [H1 H2]. inversion_clear H2. apply Forall_app. split; [assumption|]. constructor; assumption. }
  destruct (slice_exists (pre ++ r :: post) el sh' Hok' Hsub (eq_sym HL)) as (el' & Hsl). exists el'.
  assert (Hcs : card sh' <= INT_MAX).
  { unfold sh' in *. rewrite card_app in *. cbn [card] in *. apply Forall_app in Hok. destruct Hok as [H1 H2]. inversion_clear H2 as [|? ? Rr Q].
    pose proof (card_nonneg _ H1). pose proof (card_nonneg _ Q). destruct Rr as (_ & _ & Rr). destruct Rr' as (_ & _ & Rw').
    assert (wid r' <= wid r) by (unfold wid in *; lia).
    assert (wid r' * card post <= wid r * card post) by nia. assert (0 <= wid r' * card post) by nia. nia. }
  split.
  - apply (b_slice _ _ al (pre ++ r :: post) el sh' sh' el'); auto. split; [unfold sh'; destruct pre; discriminate|]. auto.
  - intros ip iq i Hip Hiq Hi. destruct Hsl as [Hl Hs].
    pose proof (mid_shape ip pre i r' iq post Hip Hi Hiq) as Hin. pose proof (position_range _ _ Hin) as Hp. fold sh' in Hin, Hp |- *.
    destruct (elem_some el' (position sh' (ip ++ i :: iq)) ltac:(lia)) as (e & He). exists e, e. split; [exact He|]. split; [|apply same_refl]. rewrite <- (Hs _ Hin). exact He.
Qed.
Lemma select_empty : forall al pre r post el, built eqb al (pre ++ r :: post) el ->
  exists a el', select_from_index eqb (len pre + 1) al [] = Ok a /\ built eqb a (pre ++ (1, 0) :: post) el'.
Proof using All.
  intros al pre r post el HB. destruct (facts _ _ _ HB) as (_ & HD & HL & (_ & Hok & Hc) & M).
  destruct (slice_restricted al pre r post el (1, 0) HB) as (el' & Hb & _); [unfold range_ok, wid, INT_MIN, INT_MAX; cbn [fst snd]; lia | left; reflexivity|].
  exists (slice al (pre ++ (1, 0) :: post) (pre ++ (1, 0) :: post)), el'. split; [|exact Hb].
  unfold select_from_index. rewrite HD. assert (Hlt : len (pre ++ r :: post) <? len pre + 1 = false) by (unfold len; rewrite app_length; cbn [length]; lia).
  rewrite Hlt. replace (len pre + 1 - 1) with (Z.of_nat (length pre)) by (unfold len; lia). destruct (M _ _ (mid_nth _ pre post r)) as [-> ->]. cbn [bind].
  pose proof (select_dims_ok al pre r post el [] (length (pre ++ r :: post)) 0 HB ltac:(lia)) as HS. change (Z.of_nat 0) with 0 in HS.
  unfold len at 1. rewrite Nat2Z.id, HS. replace (length pre <? 0)%nat with false by lia. reflexivity.
Qed.
Lemma inf_not_finite : forall x, denote x = Some MInf \/ denote x = Some PInf -> isFinite x = false.
Proof using Type. intros x H. unfold denote in H. unfold isFinite. destruct (iv_inf x); [reflexivity|]. destruct (_ && _); destruct H; discriminate. Qed.
Lemma select_range : forall al pre r post el x y r', built eqb al (pre ++ r :: post) el -> ends x y r r' -> 0 <= wid r' ->
  if (fst r <=? fst r') && (snd r' <=? snd r)
  then exists a el', select_from_index eqb (len pre + 1) al [(x, y)] = Ok a /\ built eqb a (pre ++ r' :: post) el' /\ restricted same pre r post r' el el'
  else select_from_index eqb (len pre + 1) al [(x, y)] = Err EvalError.
Proof using All.
  intros al pre r post el x y r' HB He Hw. destruct (facts _ _ _ HB) as (_ & HD & HL & (_ & Hok & Hc) & M).
  assert (Rr : range_ok r) by (rewrite Forall_forall in Hok; apply Hok; apply in_or_app; right; left; reflexivity).
  assert (Hst : step [(x, y)] (fst r) (snd r) = if (fst r <=? fst r') && (snd r' <=? snd r) then Ok r' else Err EvalError).
  { cbn [step]. destruct He as [Hx Hy].
    assert (Hx' : (if isFinite x then to_int (iv_v x) else fst r) = fst r').
    { destruct Hx as [[Hx Hb]|[Hx Hb]]; [destruct (is_int_v _ _ Hx) as [-> ->]; apply to_int_ok; lia | rewrite inf_not_finite by auto; congruence]. }
    assert (Hy' : (if isFinite y then to_int (iv_v y) else snd r) = snd r').
    { destruct Hy as [[Hy Hb]|[Hy Hb]]; [destruct (is_int_v _ _ Hy) as [-> ->]; apply to_int_ok; lia | rewrite inf_not_finite by auto; congruence]. }
    rewrite Hx', Hy'. destruct (Z.leb_spec (fst r) (fst r')); destruct (Z.leb_spec (snd r') (snd r));
      destruct (Z.ltb_spec (fst r') (fst r)); destruct (Z.ltb_spec (snd r) (snd r')); cbn [andb orb]; try lia; try reflexivity. rewrite <- surjective_pairing. reflexivity. }
  unfold select_from_index. rewrite HD. assert (Hlt : len (pre ++ r :: post) <? len pre + 1 = false) by (unfold len; rewrite app_length; cbn [length]; lia).
  rewrite Hlt. replace (len pre + 1 - 1) with (Z.of_nat (length pre)) by (unfold len; lia). destruct (M _ _ (mid_nth _ pre post r)) as [-> ->]. cbn [bind].
  destruct (iv_eq x (ofZ (fst r)) && iv_eq y (ofZ (snd r))) eqn:Eq.
  - apply andb_true_iff in Eq. destruct Eq as [E1 E2]. apply iv_eq_iff in E1, E2.
    assert (r' = r) as ->.
    { destruct He as [[[H1 _]|[H1 H1']] [[H2 _]|[H2 H2']]]; destruct r as [a b], r' as [a' b']; cbn [fst snd] in *; f_equal; auto; subst;
        try (apply is_int_v in H1; cbn in H1; symmetry; apply H1); try (apply is_int_v in H2; cbn in H2; symmetry; apply H2). }
    rewrite !Z.leb_refl. cbn [andb]. exists al, el. split; [reflexivity|]. split; [exact HB|].
    intros ip iq i Hip Hiq Hi. pose proof (position_range _ _ (mid_shape ip pre i r iq post Hip Hi Hiq)) as Hp.
    destruct (elem_some el _ ltac:(rewrite <- HL; exact Hp)) as (e & Hee). exists e, e. auto.
  - pose proof (select_dims_ok al pre r post el [(x, y)] (length (pre ++ r :: post)) 0 HB ltac:(lia)) as HS. change (Z.of_nat 0) with 0 in HS.
    assert (Hln : Z.to_nat (len (pre ++ r :: post)) = length (pre ++ r :: post)) by apply Nat2Z.id.
    rewrite Hln, HS. replace (length pre <? 0)%nat with false by lia. rewrite Hst.
    destruct ((fst r <=? fst r') && (snd r' <=? snd r)) eqn:Ei; [|reflexivity]. cbn [bind skipn].
    destruct (slice_restricted al pre r post el r' HB) as (el' & Hb & Hre); [|lia|].
    { destruct Rr as (R1 & R2 & R3). unfold range_ok, wid in *. lia. }
    exists (slice al (pre ++ r' :: post) (pre ++ r' :: post)), el'. auto.
Qed.
End P.
