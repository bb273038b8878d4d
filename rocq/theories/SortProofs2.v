(** Proofs of C79 (inverse) and C80. *)
Require Import ZArith List Bool Lia ZifyBool Permutation Sorted.
From Verif Require Import Base LitProofs IntValModel IntValSpec IntValProofs IntValPropProofs SetModel SetSpec SetPropProofs ArrModel ArrSpec ArrProofs AccessProofs BarrModel BarrSpec BarrProofs BarrProofs2 RedModel RedSpec RedProofs RedProofs2 SortModel SortSpec SortProofs.
Import ListNotations.
Open Scope Z_scope.
Ltac Zify.zify_post_hook ::= idtac.
Notation card := ArrSpec.card.

Lemma at_repeat : forall A (x : A) n j, 0 <= j < Z.of_nat n -> at_ (repeat x n) j = Ok x.
Proof.
  intros A x n j H. unfold at_. destruct (Z.ltb_spec j 0); [lia|].
  rewrite (nth_error_nth' _ x) by (rewrite repeat_length; lia). rewrite nth_repeat. reflexivity.
Qed.
Lemma len_repeat : forall A (x : A) n, len (repeat x n) = Z.of_nat n.
Proof. intros. unfold len. rewrite repeat_length. reflexivity. Qed.
Lemma forallb_at : forall l : list bool, (forall j, 0 <= j < len l -> at_ l j = Ok true) -> forallb (fun b => b) l = true.
Proof.
  intros l H. apply forallb_forall. intros b Hb. apply In_nth_error in Hb as [i Hi].
  assert (i < length l)%nat by (apply nth_error_Some; congruence). specialize (H (Z.of_nat i)). unfold at_ in H. unfold len in H.
  destruct (Z.ltb_spec (Z.of_nat i) 0); [lia|]. rewrite Nat2Z.id, Hi in H. specialize (H ltac:(lia)). congruence.
Qed.
Lemma at_forallb : forall (l : list bool) j b, forallb (fun b => b) l = true -> at_ l j = Ok b -> b = true.
Proof.
  intros l j b H Ha. unfold at_ in Ha. destruct (j <? 0); [discriminate|]. destruct (nth_error l (Z.to_nat j)) eqn:E; [|discriminate]. injection Ha as <-.
  rewrite forallb_forall in H. apply (H b0). eapply nth_error_In; exact E.
Qed.
Lemma nth_inj : forall (l : list Z), NoDup l -> forall i j z, nth_error l i = Some z -> nth_error l j = Some z -> i = j.
Proof. intros l H i j z Hi Hj. apply (proj1 (NoDup_nth_error l) H); [apply nth_error_Some; congruence|congruence]. Qed.
(** the integers lo..hi *)
Definition interval (m : Z) (n : nat) : list Z := map (fun k => m + Z.of_nat k) (seq 0 n).
Lemma in_interval : forall m n z, In z (interval m n) <-> m <= z < m + Z.of_nat n.
Proof.
  intros. unfold interval. rewrite in_map_iff. split.
  - intros (k & <- & H). apply in_seq in H. lia.
  - intros H. exists (Z.to_nat (z - m)). split; [lia|]. apply in_seq. lia.
Qed.
Lemma interval_nodup : forall m n, NoDup (interval m n).
Proof. intros. unfold interval. apply FinFun.Injective_map_NoDup; [intros x y H; lia|apply seq_NoDup]. Qed.

Section R.
Variable E : Type.
Variable eqb : E -> E -> bool.
Variable same : E -> E -> Prop.
Hypothesis same_refl : forall e, same e e.
Hypothesis same_sym : forall a b, same a b -> same b a.
Hypothesis same_trans : forall a b c, same a b -> same b c -> same a c.
Hypothesis eqb_same : forall a b, eqb a b = true -> same a b.
Variable int_lit : IntVal -> E.
Notation SZ := (size_len E eqb same same_refl same_sym same_trans eqb_same).
Notation RD := (int_read E eqb same same_refl same_sym same_trans eqb_same).
Notation LOW := (low_end E eqb same same_refl same_sym same_trans eqb_same).
Section Int.
Variable ev_int : E -> res IntVal.
Hypothesis ev_same : respects same ev_int.

Lemma ints_at : forall el zs i z, ints ev_int el (map Fin zs) -> nth_error zs i = Some z -> exists e, nth_error el i = Some e /\ ev_int e = Ok (ofZ z) /\ fits64 z.
Proof using Type.
  intros el zs i z HI Hz. assert (Hm : nth_error (map Fin zs) i = Some (Fin z)) by (apply map_nth_error, Hz).
  destruct (ints_nth E ev_int el _ i _ HI Hm) as (e & v & He & Hv & Hd). exists e. destruct (is_int_eq v z Hd) as [-> Hf]. auto.
Qed.
Definition minz (a b : Z) := if b <? a then b else a.
Definition maxz (a b : Z) := if a <? b then b else a.
Lemma iv_lt_ofZ : forall x y, fits64 x -> fits64 y -> iv_lt (ofZ x) (ofZ y) = (x <? y).
Proof using Type.
  intros x y Hx Hy. destruct (C02_comparisons_l _ _ _ _ (int_of_Z x Hx) (int_of_Z y Hy)) as (_ & H & _). apply Bool.eq_iff_eq_true. rewrite H, Z.ltb_lt. unfold ext_lt. cbn [ext_le].
  split; [intros [H1 H2]; assert (x <> y) by congruence; lia|intros H1; split; [lia|intros H2; injection H2; lia]].
Qed.
Lemma iv_ne_ofZ : forall x y, fits64 x -> fits64 y -> iv_ne (ofZ x) (ofZ y) = negb (x =? y).
Proof using Type.
  intros x y Hx Hy. destruct (C02_comparisons_l _ _ _ _ (int_of_Z x Hx) (int_of_Z y Hy)) as (_ & _ & _ & _ & _ & H). apply Bool.eq_iff_eq_true. rewrite H, negb_true_iff, Z.eqb_neq. split; congruence.
Qed.
Lemma inv_read_ok : forall a sh el zs, built eqb a sh el -> ints ev_int el (map Fin zs) -> forall n i mn mx, (i + n = length el)%nat -> fits64 mn -> fits64 mx ->
  inv_read ev_int a n (Z.of_nat i) (map ofZ (firstn i zs)) (ofZ mn) (ofZ mx) =
  Ok (map ofZ zs, ofZ (fold_left minz (skipn i zs) mn), ofZ (fold_left maxz (skipn i zs) mx)).
Proof using All.
  intros a sh el zs HB HI. assert (HL : length el = length zs) by (rewrite <- (map_length Fin zs); eapply Forall2_length; exact HI).
  induction n as [|n IH]; intros i mn mx Hi Fn Fx; cbn [inv_read].
  - rewrite skipn_all2, firstn_all2 by lia. reflexivity.
  - destruct (nth_error zs i) as [z|] eqn:Hz; [|apply nth_error_None in Hz; lia].
    destruct (ints_at el zs i z HI Hz) as (e & He & Hv & Fz). rewrite (RD ev_int ev_same a sh el HB i e He), Hv. cbn [bind].
    unfold iv_min, iv_max. rewrite !iv_lt_ofZ by assumption. replace (Z.of_nat i + 1) with (Z.of_nat (S i)) by lia.
    replace (map ofZ (firstn i zs) ++ [ofZ z]) with (map ofZ (firstn (S i) zs)) by (rewrite (firstn_S _ _ _ _ Hz), map_app; reflexivity).
    replace (if z <? mn then ofZ z else ofZ mn) with (ofZ (minz mn z)) by (unfold minz; destruct (z <? mn); reflexivity).
    replace (if mx <? z then ofZ z else ofZ mx) with (ofZ (maxz mx z)) by (unfold maxz; destruct (mx <? z); reflexivity).
    rewrite IH; [|lia|unfold minz; destruct (z <? mn); assumption|unfold maxz; destruct (mx <? z); assumption].
    rewrite (skipn_S _ _ _ _ Hz). reflexivity.
Qed.
Lemma fold_minz : forall l m, (In (fold_left minz l m) (m :: l)) /\ fold_left minz l m <= m /\ forall z, In z l -> fold_left minz l m <= z.
Proof using Type.
  induction l as [|x l IH]; intros m; cbn [fold_left]; [repeat split; [left; reflexivity|lia|intros ? []]|].
  destruct (IH (minz m x)) as (H1 & H2 & H3). assert (Hm : minz m x <= m /\ minz m x <= x /\ (minz m x = m \/ minz m x = x)) by (unfold minz; destruct (Z.ltb_spec x m); lia).
  split; [|split; [lia|]].
  - destruct H1 as [H1|H1]; [|right; right; exact H1]. destruct Hm as (_ & _ & [Hm|Hm]); [left; congruence|right; left; congruence].
  - intros z [<-|Hz]; [lia|auto].
Qed.
Lemma fold_maxz : forall l m, (In (fold_left maxz l m) (m :: l)) /\ m <= fold_left maxz l m /\ forall z, In z l -> z <= fold_left maxz l m.
Proof using Type.
  induction l as [|x l IH]; intros m; cbn [fold_left]; [repeat split; [left; reflexivity|lia|intros ? []]|].
  destruct (IH (maxz m x)) as (H1 & H2 & H3). assert (Hm : m <= maxz m x /\ x <= maxz m x /\ (maxz m x = m \/ maxz m x = x)) by (unfold maxz; destruct (Z.ltb_spec m x); lia).
  split; [|split; [lia|]].
  - destruct H1 as [H1|H1]; [|right; right; exact H1]. destruct Hm as (_ & _ & [Hm|Hm]); [left; congruence|right; left; congruence].
  - intros z [<-|Hz]; [lia|auto].
Qed.
Lemma toInt_ofZ : forall z, toInt (ofZ z) = Ok z.
Proof using Type. intros. unfold toInt, ofZ. cbn. reflexivity. Qed.
Lemma sub_ofZ : forall x y, fits64 x -> fits64 y -> iv_sub (ofZ x) (ofZ y) = if fits64b (x - y) then Ok (ofZ (x - y)) else Err ArithmeticError.
Proof using Type. intros x y Hx Hy. rewrite (iv_sub_spec _ _ _ _ (int_of_Z x Hx) (int_of_Z y Hy)). unfold outcome. destruct (fits64b _); reflexivity. Qed.
Lemma add_ofZ : forall x y, fits64 x -> fits64 y -> iv_add (ofZ x) (ofZ y) = if fits64b (x + y) then Ok (ofZ (x + y)) else Err ArithmeticError.
Proof using Type. intros x y Hx Hy. rewrite (iv_add_spec _ _ _ _ (int_of_Z x Hx) (int_of_Z y Hy)). unfold outcome. destruct (fits64b _); reflexivity. Qed.
Lemma inv_fill_ok : forall n m base zs i used inv, fits64 m -> (forall z, In z zs -> fits64 z /\ m <= z < m + n) -> fits64 n -> len used = n -> len inv = n ->
  exists used' inv', inv_fill int_lit (map ofZ zs) i (ofZ m) base used inv = Ok (used', inv') /\ len used' = n /\ len inv' = n /\
  (forall j, 0 <= j -> at_ used' j = if existsb (Z.eqb (m + j)) zs then Ok true else at_ used j) /\
  (forall j, 0 <= j -> existsb (Z.eqb (m + j)) zs = false -> at_ inv' j = at_ inv j) /\
  (forall j, 0 <= j -> existsb (Z.eqb (m + j)) zs = true -> exists e, at_ inv' j = Ok (Some e)) /\
  (NoDup zs -> forall k z, nth_error zs k = Some z -> at_ inv' (z - m) = Ok (Some (int_lit (ofZ (u32 (i + Z.of_nat k + base)))))).
Proof using Type.
  intros n m base zs. induction zs as [|z zs IH]; intros i used inv Fm Hz Fn Lu Li; cbn [map inv_fill].
  - exists used, inv. split; [reflexivity|]. split; [assumption|]. split; [assumption|]. split; [intros; reflexivity|]. split; [intros; reflexivity|]. split; [cbn; intros; discriminate|]. intros _ [|k] z0; discriminate.
  - destruct (Hz z (or_introl eq_refl)) as [Fz Rz]. rewrite sub_ofZ by assumption.
    replace (fits64b (z - m)) with true by (unfold fits64b, fits64, LLONG_MIN, LLONG_MAX in *; lia). cbn [bind]. rewrite toInt_ofZ. cbn [bind].
    destruct (upd_ok _ used (z - m) true) as (u1 & -> & Lu1 & Au1); [lia|]. cbn [bind].
    destruct (upd_ok _ inv (z - m) (Some (int_lit (ofZ (u32 (i + base)))))) as (v1 & -> & Lv1 & Av1); [lia|]. cbn [bind].
    destruct (IH (i + 1) u1 v1 Fm (fun z H => Hz z (or_intror H)) Fn ltac:(lia) ltac:(lia)) as (u2 & v2 & -> & Lu2 & Lv2 & Au2 & K1 & K2 & K3).
    exists u2, v2. split; [reflexivity|]. split; [assumption|]. split; [assumption|]. split; [|split; [|split]].
    + intros j Hj. rewrite Au2 by assumption. cbn [existsb]. destruct (existsb (Z.eqb (m + j)) zs); [rewrite orb_true_r; reflexivity|]. rewrite orb_false_r, Au1 by assumption.
      destruct (Z.eqb_spec j (z - m)), (Z.eqb_spec (m + j) z); try lia; reflexivity.
    + intros j Hj Hx. cbn [existsb] in Hx. apply orb_false_iff in Hx as [H1 H2]. rewrite K1 by assumption. rewrite Av1 by assumption. destruct (Z.eqb_spec j (z - m)); [lia|reflexivity].
    + intros j Hj Hx. destruct (existsb (Z.eqb (m + j)) zs) eqn:Hc; [apply K2; assumption|]. cbn [existsb] in Hx. rewrite Hc, orb_false_r in Hx. rewrite K1 by assumption. rewrite Av1 by assumption.
      destruct (Z.eqb_spec j (z - m)); [eauto|lia].
    + intros HN [|k] z0 Hk; cbn in Hk.
      * injection Hk as <-. inversion HN; subst. rewrite K1; [|lia|].
        -- rewrite Av1 by lia. rewrite Z.eqb_refl. do 5 f_equal. lia.
        -- apply not_true_iff_false. intros Hc. apply existsb_exists in Hc as (y & Hy & Hyz). assert (y = z) by lia. subst y. contradiction.
      * inversion HN; subst. rewrite (K3 ltac:(assumption) k z0 Hk). do 5 f_equal. lia.
Qed.

Lemma inverse_empty : forall a sh, built eqb a sh [] -> inverse eqb ev_int int_lit a = Ok a.
Proof using same_refl same_sym same_trans eqb_same. intros a sh HB. unfold inverse. rewrite (SZ a sh [] HB). reflexivity. Qed.
Lemma inverse_gen : forall a r el zs, built eqb a [r] el -> ints ev_int el (map Fin zs) -> el <> [] ->
  (forall m, one_to_one zs m -> 0 <= fst r -> INT_MIN <= m -> m + len el - 1 <= INT_MAX ->
    exists a' el', inverse eqb ev_int int_lit a = Ok a' /\ built eqb a' [(m, m + len el - 1)] el' /\
    forall k z, nth_error zs k = Some z -> elem_at el' (z - m) = Some (int_lit (ofZ (fst r + Z.of_nat k)))) /\
  ((forall m, ~ one_to_one zs m) -> inverse eqb ev_int int_lit a = Err EvalError \/ inverse eqb ev_int int_lit a = Err ArithmeticError).
Proof using All.
  intros a r el zs HB HI Hne. assert (HL : length el = length zs) by (rewrite <- (map_length Fin zs); eapply Forall2_length; exact HI).
  destruct (LOW a r el HB) as (Hmin & Hr & Hw). pose proof (len_max E eqb same same_refl same_sym same_trans eqb_same a [r] el HB) as Hmax.
  assert (Hpos : 0 < len el) by (destruct el; [contradiction|unfold len; cbn [length]; lia]).
  unfold inverse. rewrite (SZ a [r] el HB). cbn [bind]. destruct (Z.eqb_spec (len el) 0); [lia|]. rewrite Hmin. cbn [bind].
  destruct zs as [|z0 zs']; [unfold len in Hpos; cbn in HL; lia|]. set (zs := z0 :: zs') in *.
  destruct (ints_at el zs O z0 HI eq_refl) as (e0 & He0 & Hv0 & F0).
  replace (int_at ev_int a 0) with (Ok (ofZ z0)) by (rewrite <- Hv0; symmetry; exact (RD ev_int ev_same a [r] el HB O e0 He0)). cbn [bind].
  change [ofZ z0] with (map ofZ (firstn 1 zs)). change (inv_read ev_int a (Z.to_nat (len el - 1)) 1) with (inv_read ev_int a (Z.to_nat (len el - 1)) (Z.of_nat 1)).
  rewrite (inv_read_ok a [r] el zs HB HI) by (try assumption; unfold len in *; lia). cbn [bind skipn zs].
  destruct (fold_minz zs' z0) as (N1 & N2 & N3). destruct (fold_maxz zs' z0) as (X1 & X2 & X3).
  set (mn := fold_left minz zs' z0) in *. set (mx := fold_left maxz zs' z0) in *.
  assert (Hfit : forall z, In z zs -> fits64 z). { intros z Hz. apply In_nth_error in Hz as [i Hi]. destruct (ints_at el zs i z HI Hi) as (_ & _ & _ & F). exact F. }
  assert (Hall : forall z, In z zs -> mn <= z <= mx) by (intros z [<-|Hz]; [lia|split; auto]).
  pose proof (Hfit mn N1) as Fmn. pose proof (Hfit mx X1) as Fmx. rewrite sub_ofZ by assumption.
  assert (H1to1 : forall m, one_to_one zs m -> mn = m /\ mx = m + len zs - 1).
  { intros m [_ Ho]. assert (len zs = len el) by (unfold len; lia). pose proof (proj1 (Ho mn) N1). pose proof (proj1 (Ho mx) X1). assert (In m zs) as I1 by (apply Ho; lia). assert (In (m + len zs - 1) zs) as I2 by (apply Ho; lia).
    apply Hall in I1, I2. lia. }
  assert (HLz : len zs = len el) by (unfold len; lia).
  change (map ofZ (z0 :: zs')) with (map ofZ zs) in *.
  destruct (fits64b (mx - mn)) eqn:Fd; cbn [bind].
  2:{ split; [|auto]. intros m Hm Hr0 Hm1 Hm2. exfalso. destruct (H1to1 m Hm). unfold fits64b, LLONG_MIN, LLONG_MAX, INT_MAX in *. lia. }
  rewrite add_ofZ; [|apply fits64b_iff; assumption|unfold fits64, LLONG_MIN, LLONG_MAX; lia].
  destruct (fits64b (mx - mn + 1)) eqn:Fd1; cbn [bind].
  2:{ split; [|auto]. intros m Hm Hr0 Hm1 Hm2. exfalso. destruct (H1to1 m Hm). unfold fits64b, LLONG_MIN, LLONG_MAX, INT_MAX in *. lia. }
  assert (Fn : fits64 (len el)) by (unfold fits64, LLONG_MIN, LLONG_MAX, INT_MAX in *; lia).
  rewrite iv_ne_ofZ; [|apply fits64b_iff; assumption|assumption].
  destruct (Z.eqb_spec (mx - mn + 1) (len el)) as [Hd|Hd]; cbn [negb].
  2:{ split; [|auto]. intros m Hm Hr0 Hm1 Hm2. exfalso. destruct (H1to1 m Hm). lia. }
  destruct (inv_fill_ok (len el) mn (fst r) zs 0 (repeat false (Z.to_nat (len el))) (repeat None (Z.to_nat (len el))) Fmn) as (u & v & -> & Lu & Lv & Au & K1 & K2 & K3);
    [intros z Hz; split; [apply Hfit, Hz|apply Hall in Hz; lia]|assumption|rewrite len_repeat; lia|rewrite len_repeat; lia|]. cbn [bind].
  assert (Hex : forall j, existsb (Z.eqb (mn + j)) zs = true <-> In (mn + j) zs).
  { intros j. rewrite existsb_exists. split; [intros (y & Hy & He); apply Z.eqb_eq in He; congruence|intros H; exists (mn + j); split; [assumption|apply Z.eqb_refl]]. }
  split.
  - intros m Hm Hr0 Hm1 Hm2. destruct (H1to1 m Hm) as [-> Hmx]. destruct Hm as [HN Ho].
    rewrite forallb_at; [|intros j Hj; rewrite Au by lia; replace (existsb _ zs) with true by (symmetry; apply Hex, Ho; lia); reflexivity]. cbn [negb].
    destruct (filled_ok E v) as (el' & -> & Lel & Hel); [intros j Hj; apply K2; [lia|]; apply Hex, Ho; lia|]. cbn [bind]. rewrite !toInt_ofZ. cbn [bind].
    assert (INT_MIN <= m <= INT_MAX) by lia. rewrite !to_int_ok by lia. exists (mk eqb el' [(m, mx)]), el'. split; [reflexivity|]. split.
    + replace (m + len el - 1) with mx by lia. apply b_mk; [|cbn [ArrSpec.card]; unfold wid; cbn [fst snd]; lia]. repeat split; [discriminate| |cbn [ArrSpec.card]; unfold wid; cbn [fst snd]; lia].
      constructor; [|constructor]. unfold range_ok, wid. cbn [fst snd]. lia.
    + intros k z Hk. assert (Hz : In z zs) by (eapply nth_error_In; exact Hk). pose proof (Hall z Hz). apply Hel; [lia|]. rewrite (K3 HN k z Hk). do 4 f_equal.
      assert (Hkl : (k < length zs)%nat) by (apply nth_error_Some; congruence). unfold len in HLz, Hmax. rewrite u32_small by (unfold INT_MAX, len, wid in *; lia). lia.
  - intros Hno. left. destruct (forallb (fun b => b) u) eqn:Hu; [|reflexivity]. exfalso.
    assert (Hcov : incl (interval mn (length zs)) zs).
    { intros z Hz. apply in_interval in Hz. replace z with (mn + (z - mn)) by lia. apply Hex. specialize (Au (z - mn) ltac:(lia)).
      destruct (existsb (Z.eqb (mn + (z - mn))) zs); [reflexivity|]. unfold len in HLz. rewrite at_repeat in Au by (unfold len; lia). pose proof (at_forallb u _ _ Hu Au). discriminate. }
    apply (Hno mn). split.
    + apply (@NoDup_incl_NoDup Z (interval mn (length zs)) zs); [apply interval_nodup|unfold interval; rewrite map_length, seq_length; lia|exact Hcov].
    + intros z. split; [intros Hz; apply Hall in Hz; lia|intros Hz; apply Hcov, in_interval; unfold len in *; lia].
Qed.
End Int.

(** ** Sets as arrays *)
Lemma set2array_ok : forall s l, nf s -> enumerates l s -> ~ In LLONG_MAX l -> len l <= INT_MAX ->
  exists a, set2array eqb int_lit s = Ok a /\ built eqb a [(1, len l)] (map (fun z => int_lit (ofZ z)) l).
Proof using Type.
  intros s l N HE HM HL. unfold set2array. rewrite (C08_values_l s l N HE HM). cbn [bind]. rewrite map_map.
  destruct (mk1_ok E eqb (map (fun z => int_lit (ofZ z)) l)) as (a & Ha & Hb); [unfold len in *; rewrite map_length; exact HL|]. exists a. split; [exact Ha|].
  replace (len l) with (len (map (fun z => int_lit (ofZ z)) l)) by (unfold len; rewrite map_length; reflexivity). exact Hb.
Qed.

(** the ends of a normal set *)
Lemma good_finite : forall r, good_range r -> iv_inf (fst r) = false -> iv_inf (snd r) = false ->
  exists x y, fst r = ofZ x /\ snd r = ofZ y /\ fits64 x /\ fits64 y /\ x <= y.
Proof using Type.
  intros r (z & x & y & Hx & Hy & H1 & H2) F1 F2.
  assert (G : forall v w, denote v = Some w -> iv_inf v = false -> exists k, w = Fin k /\ v = ofZ k /\ fits64 k).
  { intros v w Hd Hi. destruct w as [|k|]; [exfalso|exists k; destruct (is_int_eq v k Hd); auto|exfalso];
      unfold denote in Hd; rewrite Hi in Hd; destruct (_ && _) in Hd; discriminate. }
  destruct (G _ _ Hx F1) as (a & -> & -> & Fa). destruct (G _ _ Hy F2) as (b & -> & -> & Fb). exists a, b. cbn [ext_le] in *. repeat split; auto; try apply Fa; try apply Fb. lia.
Qed.
Lemma nf_good : forall s r, nf s -> In r s -> good_range r.
Proof using Type. intros s r N. induction N as [|r0 H|r1 r2 s H1 H2 N IH]; intros Hi; [destruct Hi|destruct Hi as [<-|[]]; exact H|]. destruct Hi as [<-|Hi]; auto. Qed.
Lemma nf_low : forall s r x z, nf (r :: s) -> denote (fst r) = Some x -> elem z (r :: s) -> ext_le x (Fin z).
Proof using Type.
  induction s as [|r2 s IH]; intros r x z N Hx (a & b & Hin & c & d & Hc & Hd & H1 & H2).
  - destruct Hin as [Heq|[]]. subst r. cbn [fst] in Hx. congruence.
  - destruct Hin as [Heq|Hin]; [subst r; cbn [fst] in Hx; congruence|]. inversion N as [|?|? ? ? (w & p & q & Hp & Hq & Hw1 & Hw2) (g & x' & y & Hx' & Hy & Hg1 & Hg2) N']; subst.
    assert (Hyz : ext_le y (Fin z)) by (apply (IH r2 y z N' Hy); exists a, b; split; [exact Hin|exists c, d; auto]).
    assert (p = x) by congruence. assert (q = x') by congruence. subst p q.
    eapply ext_trans; [exact Hw1|]. eapply ext_trans; [exact Hw2|]. eapply ext_trans; [exact (proj1 Hg1)|]. eapply ext_trans; [exact (proj1 Hg2)|]. exact Hyz.
Qed.
Lemma nf_high : forall s r y z dflt, nf (r :: s) -> denote (snd (last (r :: s) dflt)) = Some y -> elem z (r :: s) -> ext_le (Fin z) y.
Proof using Type.
  induction s as [|r2 s IH]; intros r y z dflt N Hy (a & b & Hin & c & d & Hc & Hd & H1 & H2).
  - destruct Hin as [Heq|[]]. subst r. cbn [snd last] in Hy. congruence.
  - inversion N as [|?|? ? ? Hg1 (g & x' & y' & Hx' & Hy' & Hg2 & Hg3) N']; subst. change (last (r :: r2 :: s) dflt) with (last (r2 :: s) dflt) in Hy.
    destruct Hin as [Heq|Hin]; [|apply (IH r2 y z dflt N' Hy); exists a, b; split; [exact Hin|exists c, d; auto]].
    subst r. cbn [snd] in Hx'. assert (d = x') by congruence. subst d.
    destruct (nf_good _ r2 N' (or_introl eq_refl)) as (w & p & q & Hp & Hq & Hw1 & Hw2). assert (p = y') by congruence. subst p.
    assert (Hwy : ext_le (Fin w) y) by (apply (IH r2 y w dflt N' Hy); exists (fst r2), (snd r2); split; [left; destruct r2; reflexivity|exists y', q; auto]).
    eapply ext_trans; [exact H2|]. eapply ext_trans; [exact (proj1 Hg2)|]. eapply ext_trans; [exact (proj1 Hg3)|]. eapply ext_trans; [exact Hw1|exact Hwy].
Qed.
Lemma set_ends : forall lo hi0 s l m M, nf ((lo, hi0) :: s) -> enumerates l ((lo, hi0) :: s) -> In m l -> In M l -> (forall z, In z l -> m <= z <= M) ->
  lo = ofZ m /\ snd (last ((lo, hi0) :: s) (ofZ 0, ofZ 0)) = ofZ M /\ fits64 m /\ fits64 M.
Proof using Type.
  intros lo hi0 s l m M N HE Im IM HB. pose proof (finite_of_enum _ _ N HE) as F. destruct HE as [_ HE]. set (S0 := (lo, hi0) :: s) in *.
  assert (Hl : In (last S0 (ofZ 0, ofZ 0)) S0).
  { assert (G : forall A (d x : A) t, In (last (x :: t) d) (x :: t)) by (intros A d x t; revert x; induction t as [|y t IHt]; intros x; [left; reflexivity|right; apply (IHt y)]). apply G. }
  destruct (nf_okr _ N F (lo, hi0) (or_introl eq_refl)) as (_ & F1 & F2). destruct (nf_okr _ N F _ Hl) as (_ & F3 & F4).
  destruct (good_finite _ (nf_good _ _ N (or_introl eq_refl)) F1 F2) as (x & y & Hx & Hy & Fx & Fy & Hxy).
  destruct (good_finite _ (nf_good _ _ N Hl) F3 F4) as (x1 & y1 & Hx1 & Hy1 & Fx1 & Fy1 & Hxy1).
  cbn [fst snd] in Hx, Hy. assert (Ex : elem x S0).
  { exists lo, hi0. split; [left; reflexivity|]. exists (Fin x), (Fin y). rewrite Hx, Hy. repeat split; [apply int_of_Z, Fx|apply int_of_Z, Fy|cbn; lia|cbn; lia]. }
  assert (Ey : elem y1 S0).
  { exists (ofZ x1), (ofZ y1). split; [rewrite <- Hx1, <- Hy1, <- surjective_pairing; exact Hl|]. exists (Fin x1), (Fin y1). repeat split; [apply int_of_Z, Fx1|apply int_of_Z, Fy1|cbn; lia|cbn; lia]. }
  pose proof (HB x (proj2 (HE x) Ex)). pose proof (HB y1 (proj2 (HE y1) Ey)).
  assert (x <= m). { assert (HH : ext_le (Fin x) (Fin m)) by (apply (nf_low s (lo, hi0) (Fin x) m N); [cbn [fst]; rewrite Hx; apply int_of_Z, Fx|apply HE, Im]). cbn in HH. lia. }
  assert (M <= y1). { assert (HH : ext_le (Fin M) (Fin y1)) by (apply (nf_high s (lo, hi0) (Fin y1) M (ofZ 0, ofZ 0) N); [change ((lo, hi0) :: s) with S0; rewrite Hy1; apply int_of_Z, Fy1|apply HE, IM]). cbn in HH. lia. }
  assert (x = m) by lia. assert (y1 = M) by lia. subst x y1. auto.
Qed.
Lemma sparse_fill_ok : forall n m l i out, (forall z, In z l -> m <= z < m + n) -> len out = n -> NoDup l ->
  exists out', sparse_fill int_lit (map ofZ l) m i out = Ok out' /\ len out' = n /\
  (forall k z, nth_error l k = Some z -> at_ out' (z - m) = Ok (int_lit (ofZ (i + Z.of_nat k)))) /\
  (forall j, 0 <= j -> ~ In (m + j) l -> at_ out' j = at_ out j).
Proof using Type.
  intros n m l. induction l as [|z l IH]; intros i out Hz Lo HN; cbn [map sparse_fill].
  - exists out. split; [reflexivity|]. split; [assumption|]. split; [intros [|k]; discriminate|auto].
  - rewrite toInt_ofZ. cbn [bind]. pose proof (Hz z (or_introl eq_refl)). inversion HN; subst.
    destruct (upd_ok _ out (z - m) (int_lit (ofZ i))) as (o1 & -> & L1 & A1); [lia|]. cbn [bind].
    destruct (IH (i + 1) o1 (fun z H => Hz z (or_intror H)) ltac:(lia) ltac:(assumption)) as (o2 & -> & L2 & K1 & K2). exists o2. split; [reflexivity|]. split; [assumption|]. split.
    + intros [|k] y Hk; cbn in Hk.
      * injection Hk as <-. rewrite K2; [|lia|replace (m + (z - m)) with z by lia; assumption]. rewrite A1, Z.eqb_refl by lia. do 3 f_equal. lia.
      * rewrite (K1 k y Hk). do 3 f_equal. lia.
    + intros j Hj Hn. rewrite K2 by (auto; intros Hc; apply Hn; right; exact Hc). rewrite A1 by assumption. destruct (Z.eqb_spec j (z - m)); [|reflexivity]. exfalso. apply Hn. left. lia.
Qed.
Lemma increasing_nodup : forall l, increasing l -> NoDup l.
Proof using Type.
  assert (G : forall l x, increasing (x :: l) -> forall y, In y l -> x < y).
  { induction l as [|z l IH]; intros x H y Hy; [destruct Hy|]. destruct H as [H1 H2]. destruct Hy as [<-|Hy]; [exact H1|]. pose proof (IH z H2 y Hy). lia. }
  induction l as [|x l IH]; intros H; constructor.
  - intros Hi. pose proof (G l x H x Hi). lia.
  - apply IH. destruct l; [exact I|apply H].
Qed.
Lemma sparse_ok : forall s l m M, nf s -> enumerates l s -> In m l -> In M l -> (forall z, In z l -> m <= z <= M) ->
  INT_MIN <= m -> M < INT_MAX -> M - m < INT_MAX ->
  exists a el, set_sparse_inverse eqb int_lit s = Ok a /\ built eqb a [(m, M)] el /\
  (forall k z, nth_error l k = Some z -> elem_at el (z - m) = Some (int_lit (ofZ (Z.of_nat k + 1)))) /\
  (forall z, m <= z <= M -> ~ In z l -> elem_at el (z - m) = Some (int_lit (ofZ 1))).
Proof using Type.
  intros s l m M N HE Im IM HB H1 H2 H3. destruct s as [|[lo hi0] s].
  - exfalso. destruct HE as [_ HE]. apply HE in Im. destruct Im as (? & ? & [] & _).
  - destruct (set_ends lo hi0 s l m M N HE Im IM HB) as (-> & Hhi & Fm & FM). pose proof (HB m Im). cbn [set_sparse_inverse]. rewrite Hhi, toInt_ofZ. cbn [bind].
    rewrite sub_ofZ by assumption. replace (fits64b (M - m)) with true by (unfold fits64b, fits64, LLONG_MIN, LLONG_MAX, INT_MAX, INT_MIN in *; lia). cbn [bind].
    rewrite add_ofZ by (unfold fits64, LLONG_MIN, LLONG_MAX, INT_MAX, INT_MIN in *; lia). replace (fits64b (M - m + 1)) with true by (unfold fits64b, fits64, LLONG_MIN, LLONG_MAX, INT_MAX, INT_MIN in *; lia). cbn [bind]. rewrite toInt_ofZ. cbn [bind].
    rewrite (C08_values_l _ l N HE); [|intros Hc; apply HB in Hc; unfold LLONG_MAX, INT_MAX in *; lia]. cbn [bind].
    destruct (sparse_fill_ok (M - m + 1) m l 1 (repeat (int_lit (ofZ 1)) (Z.to_nat (M - m + 1)))) as (el & -> & Le & K1 & K2);
      [intros z Hz; apply HB in Hz; lia|rewrite len_repeat; lia|apply increasing_nodup, HE|]. cbn [bind]. rewrite toInt_ofZ. cbn [bind].
    rewrite !to_int_ok by lia. exists (mk eqb el [(m, M)]), el. split; [reflexivity|].
    assert (AE : forall j e, 0 <= j -> at_ el j = Ok e -> elem_at el j = Some e).
    { intros j e Hj Ha. unfold at_ in Ha. unfold elem_at. destruct (j <? 0); [discriminate|]. destruct (nth_error el (Z.to_nat j)); congruence. }
    split; [|split].
    + apply b_mk; [|cbn [ArrSpec.card]; unfold wid; cbn [fst snd]; lia]. repeat split; [discriminate| |cbn [ArrSpec.card]; unfold wid; cbn [fst snd]; lia].
      constructor; [|constructor]. unfold range_ok, wid. cbn [fst snd]. lia.
    + intros k z Hk. pose proof (HB z (nth_error_In _ _ Hk)). apply AE; [lia|]. rewrite (K1 k z Hk). do 3 f_equal. lia.
    + intros z Hz Hn. apply AE; [lia|]. rewrite K2; [|lia|replace (m + (z - m)) with z by lia; exact Hn]. apply at_repeat. lia.
Qed.
Lemma ranges_ok : forall s, nf s -> 2 * len s <= INT_MAX -> exists a vs xs, set_to_ranges eqb int_lit s = Ok a /\ built eqb a [(1, 2 * len s)] (map int_lit vs) /\
  Forall2 (fun v x => denote v = Some x) vs xs /\ apart xs /\ forall z, in_ranges z xs <-> elem z s.
Proof using Type.
  intros s N HL. set (vs := flat_map (fun r : range => [fst r; snd r]) s).
  assert (Hr : range_ends int_lit s = map int_lit vs) by (subst vs; clear; induction s as [|[lo hi] s IH]; cbn [range_ends flat_map map app fst snd]; [reflexivity|rewrite IH; reflexivity]).
  assert (Hlen : len (map int_lit vs) = 2 * len s) by (subst vs; clear; unfold len; rewrite map_length; induction s as [|r s IH]; [reflexivity|cbn [flat_map app length]; lia]).
  destruct (mk1_ok E eqb (map int_lit vs)) as (a & Ha & Hb); [rewrite Hlen; exact HL|].
  assert (HX : exists xs, Forall2 (fun v x => denote v = Some x) vs xs /\ apart xs /\ (match s with [] => xs = [] | r :: _ => exists x t, denote (fst r) = Some x /\ xs = x :: t end) /\ forall z, in_ranges z xs <-> elem z s).
  { subst vs. clear Hr Hlen Ha Hb HL. induction N as [|r Hg|r1 r2 s Hg (g & x' & y' & Hx' & Hy' & Hg2 & Hg3) N IH].
    - exists []. repeat split; [constructor|intros []|intros (? & ? & [] & _)].
    - pose proof Hg as (w & p & q & Hp & Hq & Hw1 & Hw2). exists [p; q]. cbn [flat_map app]. split; [repeat constructor; assumption|]. split; [cbn [apart]; repeat split; eauto|]. split; [exists p, [q]; auto|].
      intros z. cbn [in_ranges]. split.
      + intros [[H1 H2]|[]]. exists (fst r), (snd r). split; [left; destruct r; reflexivity|]. exists p, q. auto.
      + intros (c & d & [Heq|[]] & x & y & Hx & Hy & H1 & H2). subst r. cbn [fst snd] in *. left. assert (x = p) by congruence. assert (y = q) by congruence. subst. auto.
    - destruct IH as (xs & IF & IA & (x0 & t & Hx0 & ->) & IR). destruct Hg as (w & p & q & Hp & Hq & Hw1 & Hw2). exists (p :: q :: x0 :: t). assert (q = x') by congruence. assert (x0 = y') by congruence. subst.
      split; [change (flat_map (fun r : range => [fst r; snd r]) (r1 :: r2 :: s)) with (fst r1 :: snd r1 :: flat_map (fun r : range => [fst r; snd r]) (r2 :: s)); constructor; [exact Hp|constructor; [exact Hq|exact IF]]|].
      split; [cbn [apart]; split; [eauto|split; [eauto|exact IA]]|]. split; [eauto|].
      intros z. change (in_ranges z (p :: x' :: y' :: t)) with ((ext_le p (Fin z) /\ ext_le (Fin z) x') \/ in_ranges z (y' :: t)). rewrite IR. split.
      + intros [[H1 H2]|(c & d & Hin & H)]; [|exists c, d; split; [right; exact Hin|exact H]]. exists (fst r1), (snd r1). split; [left; destruct r1; reflexivity|]. exists p, x'. auto.
      + intros (c & d & [Heq|Hin] & H); [|right; exists c, d; auto]. left. subst r1. destruct H as (x & y & Hx & Hy & H1 & H2). cbn [fst snd] in *. assert (x = p) by congruence. assert (y = x') by congruence. subst. auto. }
  destruct HX as (xs & HF & HA & _ & HR). exists a, vs, xs. unfold set_to_ranges. rewrite Hr, <- Hlen. auto 6.
Qed.
End R.
(** ** Enumerated types *)
Lemma to_enum_ok : forall s v k, nf s -> is_int v k -> (elem k s -> to_enum s v = Ok v) /\ (~ elem k s -> to_enum s v = Err EvalError).
Proof.
  intros s v k N Hv. pose proof (C07_contains_l s v k N Hv) as HC. unfold to_enum. destruct (set_contains s v); split; intros H; try reflexivity; exfalso; [apply H, HC; reflexivity|apply HC in H; discriminate].
Qed.
Lemma enum_step : forall s (f : IntVal -> IntVal -> res IntVal) v k', nf s -> (forall r, f v (ofZ 1) = Ok r -> is_int r k') -> (exists r : IntVal, f v (ofZ 1) = Ok r) ->
  (elem k' s -> exists r, (do n <- f v (ofZ 1); if set_contains s n then Ok n else Err EvalError) = Ok r /\ is_int r k') /\
  (~ elem k' s -> (do n <- f v (ofZ 1); if set_contains s n then Ok n else Err EvalError) = Err EvalError).
Proof.
  intros s f v k' N H1 [r Hr]. rewrite Hr. cbn [bind]. pose proof (C07_contains_l s r k' N (H1 r Hr)) as HC. destruct (set_contains s r); split; intros H; try reflexivity; [exists r; auto|exfalso; apply H, HC; reflexivity|exfalso; apply HC in H; discriminate].
Qed.
Lemma one_fits : is_int (ofZ 1) 1. Proof. reflexivity. Qed.
Lemma enum_next_ok : forall s v k, nf s -> is_int v k -> k < LLONG_MAX ->
  (elem (k + 1) s -> exists r, enum_next s v = Ok r /\ is_int r (k + 1)) /\ (~ elem (k + 1) s -> enum_next s v = Err EvalError).
Proof.
  intros s v k N Hv Hk. destruct (C01_add_l v (ofZ 1) k 1 Hv one_fits) as [A1 _]. destruct (is_int_eq v k Hv) as [_ F].
  destruct A1 as (r & Hr & Hi); [unfold fits64 in *; lia|]. apply (enum_step s iv_add v (k + 1) N); [intros r' Hr'; rewrite Hr in Hr'; injection Hr' as <-; exact Hi|eauto].
Qed.
Lemma enum_prev_ok : forall s v k, nf s -> is_int v k -> LLONG_MIN < k ->
  (elem (k - 1) s -> exists r, enum_prev s v = Ok r /\ is_int r (k - 1)) /\ (~ elem (k - 1) s -> enum_prev s v = Err EvalError).
Proof.
  intros s v k N Hv Hk. destruct (C01_sub_l v (ofZ 1) k 1 Hv one_fits) as [A1 _]. destruct (is_int_eq v k Hv) as [_ F].
  destruct A1 as (r & Hr & Hi); [unfold fits64 in *; lia|]. apply (enum_step s iv_sub v (k - 1) N); [intros r' Hr'; rewrite Hr in Hr'; injection Hr' as <-; exact Hi|eauto].
Qed.
