(** Proofs about indexed comprehensions. *)
Require Import ZArith List Bool Lia ZifyBool.
From Verif Require Import Base IntValModel IntValSpec IntValProofs ArrModel ArrSpec ArrProofs LinProofs AccessModel AccessSpec AccessProofs.
Import ListNotations.
Open Scope Z_scope.

Definition isint (z : Z) : Prop := INT_MIN <= z <= INT_MAX.
Lemma to_int32_id : forall z, isint z -> to_int32 z = z.
Proof. intros z H. unfold to_int32, isint, INT_MIN, INT_MAX in *. rewrite Z.mod_small; lia. Qed.
Lemma lt_ofZ : forall a b, iv_lt (ofZ a) (ofZ b) = (a <? b).
Proof. reflexivity. Qed.
Lemma min_ofZ : forall a b, std_min (ofZ a) (ofZ b) = ofZ (Z.min a b).
Proof. intros a b. unfold std_min. rewrite lt_ofZ. destruct (Z.ltb_spec b a); f_equal; lia. Qed.
Lemma max_ofZ : forall a b, std_max (ofZ a) (ofZ b) = ofZ (Z.max a b).
Proof. intros a b. unfold std_max. rewrite lt_ofZ. destruct (Z.ltb_spec a b); f_equal; lia. Qed.
Lemma min_inf : forall a, std_min iv_infinity (ofZ a) = ofZ a.
Proof. intros a. unfold std_min. replace (iv_lt (ofZ a) iv_infinity) with true; [reflexivity|]. reflexivity. Qed.
Lemma max_inf : forall a, std_max iv_minus_infinity (ofZ a) = ofZ a.
Proof. intros a. unfold std_max. replace (iv_lt iv_minus_infinity (ofZ a)) with true; [reflexivity|]. reflexivity. Qed.

Definition lows (sh : shape) : list IntVal := map (fun r => ofZ (fst r)) sh.
Definition highs (sh : shape) : list IntVal := map (fun r => ofZ (snd r)) sh.
Fixpoint widen (sh : shape) (t : list Z) : shape :=
  match sh, t with
  | r :: sh, x :: t => (Z.min (fst r) x, Z.max (snd r) x) :: widen sh t
  | _, _ => []
  end.
Lemma widen_length : forall sh t, length t = length sh -> length (widen sh t) = length sh.
Proof. induction sh; intros [|x t] H; try discriminate; cbn in *; auto. Qed.
Lemma widen_nth : forall sh t k lo hi, length t = length sh -> nth_error (widen sh t) k = Some (lo, hi) ->
  exists r x, nth_error sh k = Some r /\ nth_error t k = Some x /\ lo = Z.min (fst r) x /\ hi = Z.max (snd r) x.
Proof.
  induction sh as [|r sh IH]; intros [|x t] k lo hi Hlen H; try discriminate; cbn [widen] in H; [destruct k; discriminate|].
  destruct k; cbn in H |- *.
  - injection H as <- <-. exists r, x. auto.
  - apply IH; auto.
Qed.
Lemma put_first : forall t, Forall isint t ->
  put_index (repeat iv_infinity (length t)) (repeat iv_minus_infinity (length t)) (map ofZ t) =
  Ok (t, lows (map (fun x => (x, x)) t), highs (map (fun x => (x, x)) t)).
Proof.
  induction 1 as [|x t Hx Ht IH]; [reflexivity|]. cbn [length repeat map put_index].
  change (toInt (ofZ x)) with (@Ok Z x). cbn [bind]. rewrite IH. cbn [bind]. rewrite to_int32_id, min_inf, max_inf by exact Hx. reflexivity.
Qed.
Lemma put_next : forall t sh, Forall isint t -> length t = length sh ->
  put_index (lows sh) (highs sh) (map ofZ t) = Ok (t, lows (widen sh t), highs (widen sh t)).
Proof.
  induction t as [|x t IH]; intros [|r sh] Ht Hlen; try discriminate; [reflexivity|].
  assert (isint x /\ Forall isint t) as [Hx Ht'] by (inversion Ht; auto).
  cbn [lows highs map put_index]. change (toInt (ofZ x)) with (@Ok Z x). cbn [bind].
  fold (lows sh) (highs sh). rewrite IH by (auto; cbn in Hlen; lia). cbn [bind]. rewrite to_int32_id, min_ofZ, max_ofZ by exact Hx. reflexivity.
Qed.

Lemma spanned_first : forall t, spanned [t] (map (fun x => (x, x)) t).
Proof.
  intros t k lo hi H. rewrite nth_error_map in H. destruct (nth_error t k) as [x|] eqn:E; [|discriminate].
  cbn in H. injection H as <- <-. repeat split; try (exists t; split; [left; reflexivity|exact E]); destruct H as [<-|[]]; rewrite E in H0; injection H0 as <-; lia.
Qed.
Lemma spanned_next : forall l sh t, spanned l sh -> length t = length sh -> spanned (l ++ [t]) (widen sh t).
Proof.
  intros l sh t Hs Hlen k lo hi H. destruct (widen_nth _ _ _ _ _ Hlen H) as ([a b] & x & E1 & E2 & -> & ->). cbn [fst snd].
  destruct (Hs k a b E1) as ((t1 & I1 & N1) & (t2 & I2 & N2) & Hall).
  assert (In t (l ++ [t])) as It by (apply in_or_app; right; left; reflexivity).
  split; [|split].
  - destruct (Z.min_spec a x) as [[_ ->]|[_ ->]]; [exists t1|exists t]; split; auto. apply in_or_app; auto.
  - destruct (Z.max_spec b x) as [[_ ->]|[_ ->]]; [exists t|exists t2]; split; auto. apply in_or_app; auto.
  - intros t' i Hin Hn. apply in_app_or in Hin. destruct Hin as [Hin|[<-|[]]].
    + specialize (Hall t' i Hin Hn). lia.
    + rewrite E2 in Hn. injection Hn as <-. lia.
Qed.
Lemma nth_error_ext : forall A (l l' : list A), (forall k, nth_error l k = nth_error l' k) -> l = l'.
Proof.
  induction l as [|x l IH]; intros [|y l'] H; [reflexivity|specialize (H O); discriminate|specialize (H O); discriminate|].
  f_equal; [specialize (H O); cbn in H; congruence|]. apply IH. intros k. exact (H (S k)).
Qed.
Lemma spanned_unique : forall l sh sh', spanned l sh -> spanned l sh' -> length sh = length sh' -> sh = sh'.
Proof.
  intros l sh sh' H H' Hlen. apply nth_error_ext. intros k.
  destruct (nth_error sh k) as [[a b]|] eqn:E, (nth_error sh' k) as [[a' b']|] eqn:E'.
  - destruct (H k a b E) as ((t1 & I1 & N1) & (t2 & I2 & N2) & HA).
    destruct (H' k a' b' E') as ((t1' & I1' & N1') & (t2' & I2' & N2') & HA').
    pose proof (HA' t1 a I1 N1). pose proof (HA' t2 b I2 N2). pose proof (HA t1' a' I1' N1'). pose proof (HA t2' b' I2' N2').
    do 2 f_equal; lia.
  - apply nth_error_None in E'. assert (nth_error sh k <> None) by congruence. apply nth_error_Some in H0. lia.
  - apply nth_error_None in E. assert (nth_error sh' k <> None) by congruence. apply nth_error_Some in H0. lia.
  - reflexivity.
Qed.

Section P.
Variable T : Type.
Definition given (l : list (list Z * T)) : list (list IntVal * T) := map (fun p => (map ofZ (fst p), snd p)) l.
Lemma put_all_next : forall l done sh dim, Forall (fun p => Forall isint (fst p) /\ length (fst p) = dim) l -> length sh = dim ->
  spanned (map fst done) sh ->
  exists sh', length sh' = dim /\ spanned (map fst (done ++ l)) sh' /\
  put_all (mkT (map snd done) (map fst done) (lows sh) (highs sh)) (given l) =
  Ok (mkT (map snd (done ++ l)) (map fst (done ++ l)) (lows sh') (highs sh')).
Proof.
  induction l as [|[t v] l IH]; intros done sh dim Hl Hsh Hs.
  - exists sh. rewrite app_nil_r. auto.
  - apply Forall_inv in Hl as Ht. apply Forall_inv_tail in Hl. cbn [fst] in Ht. destruct Ht as [Ht Htl].
    cbn [given map fst snd put_all]. unfold put_element. cbn [t_a t_indexes t_min t_max].
    rewrite put_next by (auto; lia). cbn [bind].
    destruct (IH (done ++ [(t, v)]) (widen sh t) dim Hl) as (sh' & L & S & P).
    + rewrite widen_length; lia.
    + rewrite map_app. cbn [map fst]. apply spanned_next; [exact Hs|lia].
    + exists sh'. rewrite <- app_assoc in S. cbn [app] in S. split; [exact L|]. split; [exact S|].
      rewrite !map_app in P. cbn [map fst snd] in P. fold (given l). rewrite P. rewrite !map_app. cbn [map fst snd]. rewrite <- !app_assoc. reflexivity.
Qed.
Lemma put_all_ok : forall l dim, Forall (fun p => Forall isint (fst p) /\ length (fst p) = dim) l -> l <> [] ->
  exists sh, length sh = dim /\ spanned (map fst l) sh /\
  put_all (tmp_init dim) (given l) = Ok (mkT (map snd l) (map fst l) (lows sh) (highs sh)).
Proof.
  intros [|[t v] l] dim Hl Hne; [congruence|]. apply Forall_inv in Hl as Ht. apply Forall_inv_tail in Hl. cbn [fst] in Ht. destruct Ht as [Ht Htl].
  cbn [given map fst snd put_all]. unfold put_element, tmp_init. cbn [t_a t_indexes t_min t_max]. subst dim.
  rewrite put_first by exact Ht. cbn [bind app].
  destruct (put_all_next l [(t, v)] (map (fun x => (x, x)) t) (length t) Hl) as (sh & L & S & P).
  - apply map_length.
  - apply spanned_first.
  - exists sh. auto.
Qed.
End P.

(** sizes *)
Fixpoint strides (sh : shape) : list Z := match sh with [] => [] | _ :: sh => card sh :: strides sh end.
Definition full (r : Z * Z) : Prop := isint (fst r) /\ isint (snd r) /\ fst r <= snd r.
Lemma card_full : forall sh, Forall full sh -> 1 <= card sh.
Proof. induction 1 as [|r sh (H1 & H2 & H3) _ IH]; cbn [card]; [lia|]. unfold wid. nia. Qed.
Lemma sizes_ok : forall sh, Forall full sh ->
  sizes (lows sh) (highs sh) = if card sh <=? LLONG_MAX then Ok (ofZ (card sh), strides sh, sh, false) else Err ArithmeticError.
Proof.
  induction 1 as [|r sh (H1 & H2 & H3) Hf IH]; [reflexivity|]. cbn [lows highs map sizes strides card]. fold (lows sh) (highs sh). rewrite IH.
  pose proof (card_full _ Hf) as Hc. unfold isint, INT_MIN, INT_MAX in *.
  destruct (Z.leb_spec (card sh) LLONG_MAX) as [Hle|Hgt]; cbn [bind].
  - change (iv_eq (ofZ (fst r)) iv_infinity && iv_eq (ofZ (snd r)) iv_minus_infinity) with false.
    change (negb (isFinite (ofZ (fst r))) || negb (isFinite (ofZ (snd r)))) with false.
    replace (iv_gt (ofZ (fst r)) (ofZ (snd r))) with false by (unfold iv_gt; rewrite lt_ofZ; lia).
    rewrite sub_in by (unfold fits64, LLONG_MIN, LLONG_MAX; lia). cbn [bind].
    rewrite add_in by (unfold fits64, LLONG_MIN, LLONG_MAX; lia). cbn [bind].
    change (toInt (ofZ (card sh))) with (@Ok Z (card sh)). cbn [bind].
    rewrite (mul_assign_spec _ _ (card sh) (snd r - fst r + 1));
      [|apply int_of_Z; unfold fits64, LLONG_MIN, LLONG_MAX in *; lia|apply int_of_Z; unfold fits64, LLONG_MIN, LLONG_MAX; lia|unfold LLONG_MIN; lia|unfold LLONG_MIN; lia].
    replace (Z.abs (card sh * (snd r - fst r + 1))) with (wid r * card sh) by (unfold wid; nia).
    destruct (Z.leb_spec (wid r * card sh) LLONG_MAX); cbn [outcome bind]; [|reflexivity].
    change (toInt (ofZ (fst r))) with (@Ok Z (fst r)). change (toInt (ofZ (snd r))) with (@Ok Z (snd r)). cbn [bind].
    rewrite !to_int32_id by (unfold isint, INT_MIN, INT_MAX; lia). replace (card sh * (snd r - fst r + 1)) with (wid r * card sh) by (unfold wid; lia).
    destruct r; reflexivity.
  - destruct (Z.leb_spec (wid r * card sh) LLONG_MAX); [unfold wid in *; nia|reflexivity].
Qed.

Lemma place_index_ok : forall sh t idx, Forall full sh -> card sh <= INT_MAX -> in_shape t sh -> 0 <= idx -> idx + card sh <= INT_MAX + 1 ->
  place_index t (lows sh) (strides sh) idx = Ok (idx + position sh t).
Proof.
  induction sh as [|r sh IH]; intros t idx Hf Hc Ht H0 H1; inversion Ht as [|x ? t' ? Hx Ht']; subst; cbn [lows map place_index strides position].
  - rewrite Z.add_0_r. reflexivity.
  - apply Forall_inv in Hf as Hr. apply Forall_inv_tail in Hf. destruct Hr as (R1 & R2 & R3). pose proof (card_full _ Hf) as Hc1.
    cbn [card] in Hc, H1. unfold isint, INT_MIN, INT_MAX in *.
    assert (card sh <= wid r * card sh) by (unfold wid in *; nia).
    assert ((x - fst r) * card sh + card sh <= wid r * card sh) by (unfold wid in *; nia).
    assert (0 <= (x - fst r) * card sh) by nia.
    rewrite sub_in by (unfold fits64, LLONG_MIN, LLONG_MAX; lia). cbn [bind].
    rewrite mul_assign_in by (unfold LLONG_MAX; nia). cbn [bind]. fold (lows sh).
    change (toInt (ofZ ((x - fst r) * card sh))) with (@Ok Z ((x - fst r) * card sh)). cbn [bind].
    rewrite to_int32_id by (unfold isint, INT_MIN, INT_MAX; lia). rewrite i32_in by (unfold INT_MIN, INT_MAX; lia). cbn [bind].
    rewrite IH; [f_equal; lia|exact Hf|lia|exact Ht'|lia|lia].
Qed.

Lemma set_nth_ok : forall A (l : list A) i x, 0 <= i < len l -> exists l', set_nth l i x = Ok l' /\ length l' = length l /\
  nth_error l' (Z.to_nat i) = Some x /\ forall j, j <> Z.to_nat i -> nth_error l' j = nth_error l j.
Proof.
  intros A l i x H. unfold set_nth. destruct (at_ok _ l i H) as (y & -> & Hy). cbn [bind]. eexists. split; [reflexivity|].
  assert (Z.to_nat i < length l)%nat as Hl by (unfold len in H; lia).
  assert (length (firstn (Z.to_nat i) l) = Z.to_nat i) as Hf by (rewrite firstn_length; lia).
  split; [|split].
  - rewrite app_length, Hf. cbn [length]. rewrite skipn_length. lia.
  - rewrite nth_error_app2 by lia. rewrite Hf, Nat.sub_diag. reflexivity.
  - intros j Hj. destruct (Nat.lt_ge_cases j (Z.to_nat i)) as [Hlt|Hge].
    + rewrite nth_error_app1 by lia. clear - Hlt. revert l j Hlt. induction (Z.to_nat i) as [|n IH]; intros l j Hlt; [lia|].
      destruct l; [destruct j; reflexivity|]. destruct j; [reflexivity|]. cbn. apply IH. lia.
    + rewrite nth_error_app2 by lia. rewrite Hf. destruct (j - Z.to_nat i)%nat as [|k] eqn:E; [lia|]. cbn [nth_error].
      replace j with (S (Z.to_nat i) + k)%nat by lia. clear. revert l. induction (S (Z.to_nat i)) as [|n IH]; intros l; [reflexivity|].
      destruct l; [destruct k; reflexivity|]. cbn. apply IH.
Qed.

Section Q.
Variable T : Type.
Lemma place_ok : forall sh n, Forall full sh -> card sh = Z.of_nat n -> card sh <= INT_MAX ->
  forall (l : list (list Z * T)) seen a, Forall (fun p => in_shape (fst p) sh) l -> length seen = n -> length a = n ->
  let pos := map (fun p => Z.to_nat (position sh (fst p))) l in
  let free := forall p, In p pos -> nth_error seen p = Some false in
  (exists a', place (lows sh) (strides sh) (map fst l) (map snd l) seen a = Ok a' /\ NoDup pos /\ free /\ length a' = n /\
     (forall t v, In (t, v) l -> nth_error a' (Z.to_nat (position sh t)) = Some (Some v)) /\
     (forall p, ~ In p pos -> nth_error a' p = nth_error a p)) \/
  (place (lows sh) (strides sh) (map fst l) (map snd l) seen a = Err EvalError /\ ~ (NoDup pos /\ free)).
Proof.
  intros sh n Hf Hn Hc. induction l as [|[t v] l IH]; intros seen a Hl Hls Hla; cbn [map fst snd place].
  - left. exists a. split; [reflexivity|]. split; [constructor|]. split; [intros p []|]. split; [exact Hla|]. split; [intros ? ? []|reflexivity].
  - apply Forall_inv in Hl as Ht. apply Forall_inv_tail in Hl. cbn [fst] in Ht.
    pose proof (position_range _ _ Ht) as Hp. set (p := position sh t) in *.
    rewrite place_index_ok by (auto; lia). cbn [bind]. rewrite Z.add_0_l. fold p.
    assert (0 <= p < len seen) as Hps by (unfold len; lia). assert (0 <= p < len a) as Hpa by (unfold len; lia).
    destruct (at_ok _ seen p Hps) as (b & Eb & Nb). rewrite Eb. cbn [bind]. destruct b.
    + right. split; [reflexivity|]. intros [_ Hfree]. specialize (Hfree (Z.to_nat p) (or_introl eq_refl)). congruence.
    + destruct (set_nth_ok _ seen p true Hps) as (seen' & -> & Ls & Ns & Os). cbn [bind].
      destruct (set_nth_ok _ a p (Some v) Hpa) as (a1 & -> & La & Na & Oa). cbn [bind].
      destruct (IH seen' a1 Hl ltac:(lia) ltac:(lia)) as [(a' & P1 & P2 & P3 & P4 & P5 & P6)|[P1 P2]].
      * left. exists a'. split; [exact P1|].
        assert (~ In (Z.to_nat p) (map (fun p => Z.to_nat (position sh (fst p))) l)) as Hni.
        { intros Hin. specialize (P3 _ Hin). congruence. }
        split; [constructor; assumption|]. split; [|split; [exact P4|split]].
        -- intros q [<-|Hq]; [exact Nb|]. rewrite <- Os; [apply P3, Hq|]. intros ->. contradiction.
        -- intros t' v' [H|H]; [|apply P5, H]. injection H as <- <-. fold p. rewrite P6; assumption.
        -- intros q Hq. rewrite P6; [apply Oa; intros ->; apply Hq; left; reflexivity|intros Hi; apply Hq; right; exact Hi].
      * right. split; [exact P1|]. intros [Q1 Q2]. apply P2. inversion Q1 as [|? ? N1 N2]; subst. split; [exact N2|].
        intros q Hq. rewrite Os; [apply Q2; right; exact Hq|]. intros ->. contradiction.
Qed.

Lemma position_onto_full : forall sh p, Forall full sh -> 0 <= p < card sh -> exists t, in_shape t sh /\ position sh t = p.
Proof.
  induction sh as [|r sh IH]; intros p Hf Hp.
  - exists []. split; [constructor|]. cbn in *. lia.
  - apply Forall_inv in Hf as Hr. apply Forall_inv_tail in Hf. destruct Hr as (R1 & R2 & R3). pose proof (card_full _ Hf) as Hc. cbn [card] in Hp.
    destruct (IH (p mod card sh) Hf) as (t & Ht & Hpt); [apply Z.mod_pos_bound; lia|].
    exists (fst r + p / card sh :: t). pose proof (Z.div_pos p (card sh) ltac:(lia) ltac:(lia)).
    assert (p / card sh < wid r) by (apply Z.div_lt_upper_bound; lia). split.
    + constructor; [unfold wid in *; lia|exact Ht].
    + cbn [position]. rewrite Hpt. pose proof (Z.div_mod p (card sh) ltac:(lia)). nia.
Qed.
Lemma cover_count : forall sh (l : list (list Z)), Forall full sh -> Forall (fun t => in_shape t sh) l ->
  let pos := map (fun t => Z.to_nat (position sh t)) l in
  (exact_cover l sh <-> card sh = len l /\ NoDup pos).
Proof.
  intros sh l Hf Hl pos. pose proof (card_full _ Hf) as Hc.
  assert (NoDup l -> NoDup pos) as Hinj.
  { unfold pos. clear Hc. induction l as [|t l IH]; intros H; [constructor|]. inversion H; subst. inversion Hl; subst. cbn [map].
    constructor; [|auto]. intros Hin. apply in_map_iff in Hin. destruct Hin as (t' & E & Hi). apply H2.
    assert (in_shape t' sh) as Ht' by (eapply Forall_forall in H5; [exact H5|exact Hi]).
    pose proof (position_range _ _ H4). pose proof (position_range _ _ Ht').
    replace t with t'; [exact Hi|]. apply (position_inj sh); auto. lia. }
  assert (forall p, In p pos -> In p (seq 0 (Z.to_nat (card sh)))) as Hincl.
  { intros p Hp. apply in_map_iff in Hp. destruct Hp as (t & <- & Ht). eapply Forall_forall in Hl; [|exact Ht].
    pose proof (position_range _ _ Hl). apply in_seq. lia. }
  split.
  - intros [Hnd Hcov]. split; [|auto].
    assert (incl (seq 0 (Z.to_nat (card sh))) pos) as Hrev.
    { intros p Hp. apply in_seq in Hp. destruct (position_onto_full sh (Z.of_nat p) Hf ltac:(lia)) as (t & Ht & Hpt).
      apply in_map_iff. exists t. split; [lia|]. apply Hcov, Ht. }
    pose proof (NoDup_incl_length (Hinj Hnd) Hincl) as L1. pose proof (NoDup_incl_length (seq_NoDup _ _) Hrev) as L2.
    unfold pos in *. rewrite map_length, seq_length in *. unfold len. lia.
  - intros [Hcard Hnd]. split.
    + apply NoDup_map_inv in Hnd. exact Hnd.
    + intros t Ht. pose proof (position_range _ _ Ht) as Hr.
      assert (incl (seq 0 (Z.to_nat (card sh))) pos) as Hrev.
      { apply NoDup_length_incl; [exact Hnd| |exact Hincl]. unfold pos. rewrite map_length, seq_length. unfold len in Hcard. lia. }
      assert (In (Z.to_nat (position sh t)) pos) as Hin by (apply Hrev, in_seq; lia).
      apply in_map_iff in Hin. destruct Hin as (t' & E & Hi). eapply Forall_forall in Hl; [|exact Hi]. pose proof (position_range _ _ Hl).
      replace t with t'; [exact Hi|]. apply (position_inj sh); auto. lia.
Qed.

Lemma all_found : forall (a : list (option T)), (forall p, (p < length a)%nat -> exists v, nth_error a p = Some (Some v)) -> exists vals, a = map Some vals.
Proof.
  induction a as [|o a IH]; intros H; [exists []; reflexivity|].
  destruct (H O ltac:(cbn; lia)) as (v & Hv). cbn in Hv. injection Hv as ->.
  destruct IH as (vals & ->). { intros p Hp. apply (H (S p)). cbn. lia. }
  exists (v :: vals). reflexivity.
Qed.

Lemma spanned_in : forall (l : list (list Z)) sh t, spanned l sh -> In t l -> length t = length sh -> in_shape t sh.
Proof.
  intros l sh t Hs Hin. assert (forall k lo hi, nth_error sh k = Some (lo, hi) -> forall i, nth_error t k = Some i -> lo <= i <= hi) as H.
  { intros k lo hi Hn i Hi. destruct (Hs k lo hi Hn) as (_ & _ & Ha). eapply Ha; eassumption. }
  clear Hs Hin. revert t H. induction sh as [|[a b] sh IH]; intros [|x t] H Hlen; try discriminate; constructor.
  - apply (H O a b eq_refl x eq_refl).
  - apply IH; [|cbn in Hlen; lia]. intros k lo hi Hn i Hi. apply (H (S k) lo hi Hn i Hi).
Qed.
Lemma spanned_full : forall (l : list (list Z)) sh, spanned l sh -> Forall (fun t => Forall isint t) l -> Forall full sh.
Proof.
  intros l sh Hs Hl. apply Forall_forall. intros [lo hi] Hin. apply In_nth_error in Hin. destruct Hin as (k & Hk).
  destruct (Hs k lo hi Hk) as ((t1 & I1 & N1) & (t2 & I2 & N2) & Ha).
  assert (forall t i, In t l -> nth_error t k = Some i -> isint i) as Hi.
  { intros t i Ht Hn. eapply Forall_forall in Hl; [|exact Ht]. eapply Forall_forall in Hl; [exact Hl|]. eapply nth_error_In, Hn. }
  split; [exact (Hi t1 lo I1 N1)|]. split; [exact (Hi t2 hi I2 N2)|]. cbn [fst snd]. specialize (Ha t2 hi I2 N2). lia.
Qed.

Lemma C32_l : forall dim (l : list (list Z * T)) sh, l <> [] -> len l <= INT_MAX ->
  Forall (fun p => Forall isint (fst p) /\ length (fst p) = dim) l -> length sh = dim -> spanned (map fst l) sh ->
  (exact_cover (map fst l) sh -> exists vals, indexed_comp dim (given T l) = Ok (map Some vals, sh) /\ len vals = card sh /\
     forall t v, In (t, v) l -> elem_at vals (position sh t) = Some v) /\
  (~ exact_cover (map fst l) sh -> exists e, indexed_comp dim (given T l) = Err e).
Proof.
  intros dim l sh Hne Hlen Hl Hsh Hs. unfold indexed_comp.
  destruct (put_all_ok T l dim Hl Hne) as (sh' & L & S & P). rewrite P. cbn [bind].
  assert (sh' = sh) as -> by (eapply spanned_unique; [exact S|exact Hs|lia]).
  assert (Forall full sh) as Hf.
  { apply (spanned_full (map fst l)); [exact Hs|]. rewrite Forall_map. eapply Forall_impl; [|exact Hl]. intros p [H _]. exact H. }
  assert (Forall (fun p => in_shape (fst p) sh) l) as Hin.
  { apply Forall_forall. intros p Hp. apply (spanned_in (map fst l)); [exact Hs|apply in_map, Hp|].
    eapply Forall_forall in Hl; [|exact Hp]. destruct Hl. lia. }
  assert (Forall (fun t => in_shape t sh) (map fst l)) as Hin' by (rewrite Forall_map; exact Hin).
  pose proof (cover_count sh (map fst l) Hf Hin') as Hcc. cbn zeta in Hcc. rewrite map_map in Hcc.
  replace (len (map fst l)) with (len l) in Hcc by (unfold len; rewrite map_length; reflexivity).
  pose proof (card_full _ Hf) as Hc1.
  unfold arrange. cbn [t_min t_max t_a t_indexes]. rewrite sizes_ok by exact Hf.
  destruct (Z.leb_spec (card sh) LLONG_MAX) as [Hle|Hgt]; cbn [bind].
  2:{ split; [|intros _; eexists; reflexivity]. intros Hx. apply Hcc in Hx. unfold LLONG_MAX, INT_MAX in *. lia. }
  replace (len (map snd l)) with (len l) by (unfold len; rewrite map_length; reflexivity).
  change (iv_ne (ofZ (card sh)) (ofZ (len l))) with (negb (iv_eq (ofZ (card sh)) (ofZ (len l)))).
  change (iv_eq (ofZ (card sh)) (ofZ (len l))) with (true && (card sh =? len l)). cbn [andb].
  destruct (Z.eqb_spec (card sh) (len l)) as [Heq|Hneq]; cbn [negb].
  2:{ split; [|intros _; eexists; reflexivity]. intros Hx. apply Hcc in Hx. destruct Hx. congruence. }
  change (iv_eq (ofZ (card sh)) (ofZ 0)) with (true && (card sh =? 0)). cbn [andb]. replace (card sh =? 0) with false by lia.
  rewrite !map_map.
  destruct (place_ok sh (length l) Hf Heq ltac:(lia) l (map (fun _ => false) l) (map (fun _ => None) l) Hin (map_length _ _) (map_length _ _))
    as [(a' & P1 & P2 & P3 & P4 & P5 & P6)|[P1 P2]].
  - rewrite P1. cbn [bind]. split; [intros _|intros Hx; exfalso; apply Hx, Hcc; split; assumption].
    assert (exact_cover (map fst l) sh) as [_ Hcov] by (apply Hcc; split; assumption).
    destruct (all_found a') as (vals & ->).
    { intros p Hp. rewrite P4 in Hp. destruct (position_onto_full sh (Z.of_nat p) Hf) as (t & Ht & Hpt).
      - rewrite Heq. unfold len. lia.
      - specialize (Hcov t Ht). apply in_map_iff in Hcov. destruct Hcov as ([t' v] & <- & Hi). cbn [fst] in *.
        exists v. rewrite <- (P5 t' v Hi), Hpt, Nat2Z.id. reflexivity. }
    exists vals. split; [reflexivity|]. split; [rewrite Heq; unfold len; rewrite map_length in P4; lia|].
    intros t v Hi. specialize (P5 t v Hi). rewrite nth_error_map in P5. unfold elem_at. destruct (nth_error vals _); [|discriminate].
    cbn in P5. congruence.
  - rewrite P1. cbn [bind]. split; [|intros _; eexists; reflexivity]. intros Hx. apply Hcc in Hx. destruct Hx as [_ Hnd]. exfalso. apply P2.
    split; [exact Hnd|]. intros p Hp. apply in_map_iff in Hp. destruct Hp as ([t v] & <- & Hi). rewrite nth_error_map. cbn [fst].
    eapply Forall_forall in Hin; [|exact Hi]. cbn [fst] in Hin. pose proof (position_range _ _ Hin).
    destruct (nth_error l (Z.to_nat (position sh t))) eqn:E; [reflexivity|]. apply nth_error_None in E. unfold len in Heq. lia.
Qed.
Lemma C32_empty_l : forall dim, (0 < dim)%nat -> indexed_comp dim (@nil (list IntVal * T)) = Ok ([], repeat (1, 0) dim).
Proof.
  intros dim Hd. unfold indexed_comp. cbn [put_all bind]. unfold arrange, tmp_init. cbn [t_min t_max t_a t_indexes].
  assert (forall n, (0 < n)%nat -> exists ds dims b, sizes (repeat iv_infinity n) (repeat iv_minus_infinity n) = Ok (ofZ 0, ds, dims, b) /\ b = true /\ length dims = n) as H.
  { induction n as [|n IH]; intros Hn; [lia|]. cbn [repeat sizes]. destruct n as [|n].
    - cbn [repeat sizes bind]. change (iv_eq iv_infinity iv_infinity && iv_eq iv_minus_infinity iv_minus_infinity) with true. cbn.
      do 3 eexists. split; [reflexivity|]. auto.
    - destruct (IH ltac:(lia)) as (ds & dims & b & -> & -> & Hlen). cbn [bind]. do 3 eexists. split; [reflexivity|]. cbn. auto. }
  destruct (H dim Hd) as (ds & dims & b & -> & _ & Hlen). cbn [bind]. change (iv_ne (ofZ 0) (ofZ (len []))) with false. cbn.
  f_equal. f_equal. rewrite <- Hlen. clear. induction dims; cbn; [reflexivity|]. f_equal. assumption.
Qed.
End Q.
