(** Proofs of C79: sort, sort_by, inverse. *)
Require Import ZArith List Bool Lia ZifyBool Permutation Sorted.
From Verif Require Import Base LitProofs IntValModel IntValSpec IntValProofs IntValPropProofs SetModel SetSpec ArrModel ArrSpec ArrProofs AccessProofs BarrModel BarrSpec BarrProofs BarrProofs2 RedModel RedSpec RedProofs RedProofs2 SortModel SortSpec.
Import ListNotations.
Open Scope Z_scope.
Ltac Zify.zify_post_hook ::= idtac.
Notation card := ArrSpec.card.

(** ** Stable sorting *)
Lemma st_insert_perm : forall A less (x : A) l, Permutation (x :: l) (st_insert less x l).
Proof.
  induction l as [|y l IH]; cbn [st_insert]; [auto|]. destruct (less y x); [|auto]. eapply perm_trans; [apply perm_swap|]. constructor. exact IH.
Qed.
Lemma stable_perm : forall A less (l : list A), Permutation l (stable_sort less l).
Proof. induction l as [|x l IH]; cbn [stable_sort]; [auto|]. eapply perm_trans; [|apply st_insert_perm]. constructor. exact IH. Qed.
Section Stable.
Variable less : nat -> nat -> bool.
Variable R : nat -> nat -> Prop.
Variable dom : nat -> Prop.
Hypothesis R_trans : forall a b c, dom a -> dom b -> dom c -> R a b -> R b c -> R a c.
Hypothesis R_less : forall a b, dom a -> dom b -> less a b = true -> R a b.
Hypothesis R_geq : forall a b, dom a -> dom b -> less b a = false -> (a < b)%nat -> R a b.
Lemma st_insert_sorted : forall x l, dom x -> (forall y, In y l -> dom y /\ (x < y)%nat) -> StronglySorted R l -> StronglySorted R (st_insert less x l).
Proof using All.
  induction l as [|y l IH]; intros Hx Hl HS; cbn [st_insert]; [repeat constructor|].
  inversion HS as [|? ? HS' HF]; subst. destruct (Hl y (or_introl eq_refl)) as [Dy Ly]. destruct (less y x) eqn:L.
  - constructor; [apply IH; auto; intros; apply Hl; right; assumption|]. apply Forall_forall. intros z Hz.
    apply (Permutation_in z (Permutation_sym (st_insert_perm _ less x l))) in Hz. destruct Hz as [<-|Hz]; [apply R_less; assumption|].
    rewrite Forall_forall in HF. apply HF, Hz.
  - assert (R x y) by (apply R_geq; auto). constructor; [assumption|]. constructor; [assumption|]. apply Forall_forall. intros z Hz.
    rewrite Forall_forall in HF. eapply R_trans with (b := y); auto. apply Hl. right; exact Hz.
Qed.
Lemma stable_sorted : forall n k, (forall i, (k <= i < k + n)%nat -> dom i) -> StronglySorted R (stable_sort less (seq k n)).
Proof using All.
  induction n as [|n IH]; intros k Hd; cbn [seq stable_sort]; [constructor|].
  apply st_insert_sorted; [apply Hd; lia| |apply IH; intros; apply Hd; lia].
  intros y Hy. apply (Permutation_in y (Permutation_sym (stable_perm _ less (seq (S k) n)))) in Hy. apply in_seq in Hy. split; [apply Hd|]; lia.
Qed.
End Stable.
Lemma sorted_nth : forall A (R : A -> A -> Prop) l, StronglySorted R l -> forall i j a b, (i < j)%nat -> nth_error l i = Some a -> nth_error l j = Some b -> R a b.
Proof.
  induction 1 as [|x l HS IH HF]; intros i j a b Hij Ha Hb; [destruct i; discriminate|].
  destruct j as [|j]; [lia|]. cbn in Hb. destruct i as [|i]; cbn in Ha.
  - injection Ha as <-. rewrite Forall_forall in HF. apply HF. eapply nth_error_In; exact Hb.
  - apply (IH i j); auto. lia.
Qed.

Section R.
Variable E : Type.
Variable eqb : E -> E -> bool.
Variable same : E -> E -> Prop.
Hypothesis same_refl : forall e, same e e.
Hypothesis same_sym : forall a b, same a b -> same b a.
Hypothesis same_trans : forall a b c, same a b -> same b c -> same a c.
Hypothesis eqb_same : forall a b, eqb a b = true -> same a b.
Notation SZ := (size_len E eqb same same_refl same_sym same_trans eqb_same).
Notation RD := (int_read E eqb same same_refl same_sym same_trans eqb_same).
Notation reads := (reads E eqb same same_refl same_sym same_trans eqb_same).
Notation facts := (built_facts E eqb same same_refl same_sym same_trans eqb_same).

Lemma read_at_ok : forall a sh el p, built eqb a sh el -> (forall k, In k p -> (k < length el)%nat) ->
  exists l, read_at a p = Ok l /\ taken same el p l.
Proof using All.
  intros a sh el p HB. induction p as [|k p IH]; intros Hp; cbn [read_at].
  - exists []. split; [reflexivity|constructor].
  - destruct (nth_error el k) as [e|] eqn:He; [|apply nth_error_None in He; specialize (Hp k (or_introl eq_refl)); lia].
    destruct (reads a sh el k e HB He) as (e' & -> & Hs). cbn [bind]. destruct IH as (l & -> & Hl); [intros; apply Hp; right; assumption|]. cbn [bind].
    exists (e' :: l). split; [reflexivity|]. constructor; eauto.
Qed.
Lemma mk1_ok : forall l : list E, len l <= INT_MAX -> exists a, mk1 eqb l = Ok a /\ built eqb a [(1, len l)] l.
Proof using Type.
  intros l Hl. unfold mk1. rewrite i32_ok by (unfold len, INT_MIN, INT_MAX in *; lia). cbn [bind]. eexists. split; [reflexivity|].
  apply b_mk1. unfold mk1. rewrite i32_ok by (unfold len, INT_MIN, INT_MAX in *; lia). reflexivity.
Qed.
Lemma len_max : forall a sh (el : list E), built eqb a sh el -> len el <= INT_MAX.
Proof using All. intros a sh el HB. destruct (facts a sh el HB) as (_ & _ & Hc & (_ & _ & Hm) & _). lia. Qed.

Section Int.
Variable ev_int : E -> res IntVal.
Hypothesis ev_same : respects same ev_int.
Lemma ints_nth : forall el xs i x, ints ev_int el xs -> nth_error xs i = Some x -> exists e v, nth_error el i = Some e /\ ev_int e = Ok v /\ denote v = Some x.
Proof using Type.
  intros el xs i x H. revert i. induction H as [|e y l ys (v & Hv & Hd) HF IH]; intros [|i] Hi; cbn in *; try discriminate; [injection Hi as ->; eauto|apply IH, Hi].
Qed.
Lemma read_keys_ok : forall a sh el xs, built eqb a sh el -> ints ev_int el xs -> forall n i, (i + n = length el)%nat ->
  exists ks, read_keys ev_int a n (Z.of_nat i) = Ok ks /\ Forall2 (fun k x => denote k = Some x) ks (skipn i xs).
Proof using All.
  intros a sh el xs HB HI. assert (HL : length el = length xs) by (eapply Forall2_length; exact HI). induction n as [|n IH]; intros i Hi; cbn [read_keys].
  - exists []. split; [reflexivity|]. rewrite skipn_all2 by lia. constructor.
  - destruct (nth_error xs i) as [x|] eqn:Hx; [|apply nth_error_None in Hx; lia].
    destruct (ints_nth el xs i x HI Hx) as (e & v & He & Hv & Hd). rewrite (RD ev_int ev_same a sh el HB i e He), Hv. cbn [bind].
    replace (Z.of_nat i + 1) with (Z.of_nat (S i)) by lia. destruct (IH (S i) ltac:(lia)) as (ks & -> & Hk). cbn [bind].
    exists (v :: ks). split; [reflexivity|]. rewrite (skipn_S _ _ _ _ Hx). constructor; assumption.
Qed.
Lemma sort_by_ok : forall a sh el o sh' keys xs, built eqb a sh el -> built eqb o sh' keys -> ints ev_int keys xs -> length keys = length el ->
  exists a' el' p, sort_by_int eqb ev_int a o = Ok a' /\ built eqb a' [(1, len el)] el' /\ ordered xs p /\ taken same el p el'.
Proof using All.
  intros a sh el o sh' keys xs HB HO HI HL. assert (HX : length keys = length xs) by (eapply Forall2_length; exact HI).
  unfold sort_by_int. rewrite (SZ o sh' keys HO). cbn [bind]. unfold len. rewrite Nat2Z.id.
  destruct (read_keys_ok o sh' keys xs HO HI (length keys) 0 ltac:(lia)) as (ks & Hk & HF). change (Z.of_nat 0) with 0 in Hk. rewrite Hk. cbn [bind skipn] in *.
  set (p := stable_sort (ord ks) (seq 0 (length keys))).
  assert (HP : Permutation p (seq 0 (length keys))) by (apply Permutation_sym, stable_perm).
  destruct (read_at_ok a sh el p HB) as (l & Hl & HT).
  { intros k Hk'. apply (Permutation_in k HP) in Hk'. apply in_seq in Hk'. lia. }
  rewrite Hl. cbn [bind]. assert (HLL : len l = len el).
  { unfold len. rewrite <- (Forall2_length HT), (Permutation_length HP), seq_length. lia. }
  destruct (mk1_ok l) as (a' & Ha' & Hb'); [rewrite HLL; eapply len_max; exact HB|]. exists a', l, p. split; [exact Ha'|]. split; [change (Z.of_nat (length el)) with (len el); rewrite <- HLL; exact Hb'|]. split; [|exact HT].
  split; [rewrite <- HX; exact HP|].
  assert (Hkey : forall i x, nth_error xs i = Some x -> denote (nth i ks (ofZ 0)) = Some x).
  { clear - HF. intros i x. revert i. induction HF as [|k y ks ys H HF IH]; intros [|i] Hx; cbn in *; try discriminate; [injection Hx as <-; exact H|apply IH, Hx]. }
  set (Rl := fun i j : nat => exists x y, nth_error xs i = Some x /\ nth_error xs j = Some y /\ (ext_lt x y \/ x = y /\ (i < j)%nat)).
  assert (HS : StronglySorted Rl p).
  { apply (stable_sorted (ord ks) Rl (fun i => (i < length xs)%nat)).
    - intros i j k Di Dj Dk (x & y & Hx & Hy & Hxy) (y' & z & Hy' & Hz & Hyz). rewrite Hy in Hy'. injection Hy' as <-. exists x, z. repeat split; auto.
      destruct Hxy as [[H1 H2]|[-> H2]], Hyz as [[H3 H4]|[<- H4]].
      + left. split; [eapply ext_trans; eassumption|]. intros ->. apply H2. apply ext_antisym; assumption.
      + left. split; assumption.
      + left. split; assumption.
      + right. split; [reflexivity|lia].
    - intros i j Di Dj HL'. destruct (nth_error xs i) as [x|] eqn:Hx; [|apply nth_error_None in Hx; lia]. destruct (nth_error xs j) as [y|] eqn:Hy; [|apply nth_error_None in Hy; lia].
      exists x, y. repeat split; auto. left. unfold ord in HL'. destruct (C02_comparisons_l _ _ _ _ (Hkey i x Hx) (Hkey j y Hy)) as (_ & HC & _). apply HC, HL'.
    - intros i j Di Dj HL' Hij. destruct (nth_error xs i) as [x|] eqn:Hx; [|apply nth_error_None in Hx; lia]. destruct (nth_error xs j) as [y|] eqn:Hy; [|apply nth_error_None in Hy; lia].
      exists x, y. repeat split; auto. unfold ord in HL'. destruct (lt_cases _ _ _ _ (Hkey j y Hy) (Hkey i x Hx)) as [(Hc & _)|(_ & Hle)]; [congruence|].
      assert (x = y \/ x <> y) as [->|Hne] by (destruct x, y; try (right; discriminate); try (left; reflexivity); destruct (Z.eq_dec z z0); [left; congruence | right; congruence]).
      + right. auto.
      + left. split; assumption.
    - intros i Hi. lia. }
  intros i j u w x y Hij Hu Hw Hx Hy. destruct (sorted_nth _ _ _ HS i j u w Hij Hu Hw) as (x' & y' & Hx' & Hy' & H). congruence.
Qed.

(** ** sort *)
Variable std_sort : (E -> E -> bool) -> list E -> list E.
Hypothesis std_sorts : sorts std_sort.
Lemma taken_all : forall el l, taken same el (seq 0 (length el)) l -> Forall2 same l el.
Proof using Type.
  assert (G : forall k el0 el l, (forall j, nth_error el0 (k + j) = nth_error el j) -> Forall2 (fun i e' => exists e, nth_error el0 i = Some e /\ same e' e) (seq k (length el)) l -> Forall2 same l el).
  { intros k el0 el. revert k. induction el as [|e el IH]; intros k l Hn HF; inversion HF as [|? e' ? l' (e0 & H0 & Hs) HF']; subst; [constructor|].
    pose proof (Hn O) as H. rewrite Nat.add_0_r in H. rewrite H0 in H. cbn in H. injection H as ->. constructor; [exact Hs|].
    apply (IH (S k)); [|exact HF']. intros j. pose proof (Hn (S j)) as HnS. cbn [nth_error] in HnS. rewrite <- HnS. f_equal. lia. }
  intros el l. apply (G O). intros j. reflexivity.
Qed.
Lemma sort_gen : forall less a sh el, built eqb a sh el ->
  (forall l, Forall2 same l el -> weak_order less l) ->
  exists a' el' l, sort eqb std_sort less a = Ok a' /\ built eqb a' [(1, len el)] el' /\ Forall2 same l el /\ Permutation l el' /\
  forall i j x y, (i < j)%nat -> nth_error el' i = Some x -> nth_error el' j = Some y -> less y x = false.
Proof using All.
  intros less a sh el HB HW. unfold sort. rewrite (SZ a sh el HB). cbn [bind]. unfold len. rewrite Nat2Z.id.
  destruct (read_at_ok a sh el (seq 0 (length el)) HB) as (l & Hl & HT).
  { intros k Hk. apply in_seq in Hk. lia. }
  rewrite Hl. cbn [bind]. pose proof (taken_all el l HT) as HF. destruct (std_sorts less l (HW l HF)) as [HP HS].
  assert (HLL : len (std_sort less l) = len el) by (unfold len; rewrite <- (Permutation_length HP), (Forall2_length HF); reflexivity).
  destruct (mk1_ok (std_sort less l)) as (a' & Ha' & Hb'); [rewrite HLL; eapply len_max; exact HB|].
  exists a', (std_sort less l), l. change (Z.of_nat (length el)) with (len el). rewrite <- HLL. auto 6.
Qed.
Lemma sort_int_ok : forall a sh el xs, built eqb a sh el -> ints ev_int el xs ->
  exists a' el' xs', sort eqb std_sort (int_less ev_int) a = Ok a' /\ built eqb a' [(1, len el)] el' /\ ints ev_int el' xs' /\ Permutation xs xs' /\
  (exists l, Forall2 same l el /\ Permutation l el') /\
  forall i j x y, (i < j)%nat -> nth_error xs' i = Some x -> nth_error xs' j = Some y -> ext_le x y.
Proof using All.
  intros a sh el xs HB HI.
  assert (HX : forall l, Forall2 same l el -> ints ev_int l xs).
  { intros l HF. clear - HF HI ev_same. revert xs HI. induction HF as [|e' e l el Hs HF IH]; intros xs HI; inversion HI as [|? x ? ys (v & Hv & Hd) HI']; subst; constructor; [|apply IH; assumption].
    exists v. rewrite (ev_same _ _ Hs). auto. }
  assert (HE : forall l e, ints ev_int l xs -> In e l -> exists v x, ev_int e = Ok v /\ denote v = Some x).
  { intros l e H Hin. clear - H Hin. induction H as [|e0 x l ys (v & Hv & Hd) HF IH]; [destruct Hin|]. destruct Hin as [<-|Hin]; [eauto|auto]. }
  destruct (sort_gen (int_less ev_int) a sh el HB) as (a' & el' & l & Hs & Hb & HF & HP & HN).
  { intros l HF. pose proof (HX l HF) as H. unfold int_less. split; [|split].
    - intros e He. destruct (HE l e H He) as (v & x & -> & Hx). destruct (lt_cases v v x x Hx Hx) as [(_ & _ & Hc)|[-> _]]; [|reflexivity]. exfalso. apply Hc, ext_refl.
    - intros e0 e1 e2 I0 I1 I2. destruct (HE l e0 H I0) as (v0 & x0 & -> & H0). destruct (HE l e1 H I1) as (v1 & x1 & -> & H1). destruct (HE l e2 H I2) as (v2 & x2 & -> & H2).
      destruct (lt_cases v0 v1 x0 x1 H0 H1) as [(-> & A1 & A2)|(-> & A1)]; [|discriminate]. destruct (lt_cases v1 v2 x1 x2 H1 H2) as [(-> & B1 & B2)|(-> & B1)]; [|discriminate]. intros _ _.
      destruct (lt_cases v0 v2 x0 x2 H0 H2) as [(-> & C1 & C2)|(-> & C1)]; [reflexivity|]. exfalso. apply A2. eapply ext_trans; eassumption.
    - intros e0 e1 e2 I0 I1 I2. destruct (HE l e0 H I0) as (v0 & x0 & -> & H0). destruct (HE l e1 H I1) as (v1 & x1 & -> & H1). destruct (HE l e2 H I2) as (v2 & x2 & -> & H2).
      destruct (lt_cases v0 v1 x0 x1 H0 H1) as [(-> & A1 & A2)|(-> & A1)]; [discriminate|]. destruct (lt_cases v1 v2 x1 x2 H1 H2) as [(-> & B1 & B2)|(-> & B1)]; [discriminate|]. intros _ _.
      destruct (lt_cases v0 v2 x0 x2 H0 H2) as [(-> & C1 & C2)|(-> & C1)]; [|reflexivity]. exfalso. apply C2. eapply ext_trans; eassumption. }
  pose proof (HX l HF) as H.
  assert (HQ : forall l l', Permutation l l' -> forall xs, ints ev_int l xs -> exists xs', ints ev_int l' xs' /\ Permutation xs xs').
  { clear. induction 1 as [|e l l' HP IH|e0 e1 l|l l' l'' HP1 IH1 HP2 IH2]; intros xs H.
    - inversion H; subst. exists []. split; constructor.
    - inversion H as [|? x ? ys Hx HF]; subst. destruct (IH ys HF) as (xs' & H1 & H2). exists (x :: xs'). split; constructor; assumption.
    - inversion H as [|? x ? ys Hx HF]; subst. inversion HF as [|? y ? zs Hy HF']; subst. exists (y :: x :: zs). split; [repeat constructor; assumption|]. constructor.
    - destruct (IH1 xs H) as (x1 & H1 & Q1). destruct (IH2 x1 H1) as (x2 & H2 & Q2). exists x2. split; [assumption|]. eapply perm_trans; eassumption. }
  destruct (HQ l el' HP xs H) as (xs' & HI' & HPx). exists a', el', xs'. do 4 (split; [assumption|]). split; [eauto|].
  intros i j x y Hij Hx Hy. destruct (ints_nth el' xs' i x HI' Hx) as (e & v & He & Hv & Hd). destruct (ints_nth el' xs' j y HI' Hy) as (e' & v' & He' & Hv' & Hd').
  specialize (HN i j e e' Hij He He'). unfold int_less in HN. rewrite Hv, Hv' in HN. destruct (lt_cases v' v y x Hd' Hd) as [(Hc & _)|(_ & Hle)]; [congruence|exact Hle].
Qed.
End Int.
Lemma sort_bool_ok : forall ev_bool std_sort, respects same ev_bool -> sorts std_sort -> forall a sh el bs, built eqb a sh el -> bools ev_bool el bs ->
  exists a' el', sort eqb std_sort (bool_less ev_bool) a = Ok a' /\ built eqb a' [(1, len el)] el' /\
  (exists l, Forall2 same l el /\ Permutation l el') /\
  forall i j x y, (i < j)%nat -> nth_error el' i = Some x -> nth_error el' j = Some y -> ~ (ev_bool x = Ok true /\ ev_bool y = Ok false).
Proof using All.
  intros ev_bool std_sort Hr Hs a sh el bs HB Hb.
  assert (HE : forall l e, Forall2 same l el -> In e l -> exists b, ev_bool e = Ok b).
  { intros l e HF Hin. clear - HF Hin Hb Hr. revert bs Hb. induction HF as [|e0 e1 l el0 H0 HF IH]; intros bs Hb; [destruct Hin|]. inversion Hb as [|? b ? ? Hb0 Hb']; subst.
    destruct Hin as [<-|Hin]; [exists b; rewrite (Hr _ _ H0); exact Hb0|eauto]. }
  destruct (sort_gen (fun _ => Err EvalError) (fun a b _ => eq_refl) std_sort Hs (bool_less ev_bool) a sh el HB) as (a' & el' & l & H1 & H2 & HF & HP & HN).
  { intros l HF. unfold bool_less. split; [|split].
    - intros e He. destruct (HE l e HF He) as (b & ->). lia.
    - intros e0 e1 e2 I0 I1 I2. destruct (HE l e0 HF I0) as (b0 & ->). destruct (HE l e1 HF I1) as (b1 & ->). destruct (HE l e2 HF I2) as (b2 & ->). lia.
    - intros e0 e1 e2 I0 I1 I2. destruct (HE l e0 HF I0) as (b0 & ->). destruct (HE l e1 HF I1) as (b1 & ->). destruct (HE l e2 HF I2) as (b2 & ->). lia. }
  exists a', el'. split; [exact H1|]. split; [exact H2|]. split; [eauto|]. intros i j x y Hij Hx Hy [Hc1 Hc2]. specialize (HN i j x y Hij Hx Hy). unfold bool_less in HN. rewrite Hc1, Hc2 in HN. discriminate.
Qed.
End R.
(** insertion sorts *)
Lemma stable_sorts : forall A, @sorts A stable_sort.
Proof.
  intros A less l HW. split; [apply stable_perm|].
  assert (G : forall l', incl l' l -> StronglySorted (fun a b => less b a = false) (stable_sort less l')).
  { destruct HW as (W1 & W2 & W3). induction l' as [|x l' IH]; intros Hi; cbn [stable_sort]; [constructor|].
    assert (Hx : In x l) by (apply Hi; left; reflexivity). assert (Hi' : incl (stable_sort less l') l).
    { intros z Hz. apply Hi. right. eapply Permutation_in; [apply Permutation_sym, stable_perm|exact Hz]. }
    assert (HS : StronglySorted (fun a b => less b a = false) (stable_sort less l')) by (apply IH; intros z Hz; apply Hi; right; exact Hz).
    revert HS Hi'. generalize (stable_sort less l') as m. induction m as [|y m IHm]; intros HS Him; cbn [st_insert]; [repeat constructor|].
    inversion HS as [|? ? HS' HF]; subst. assert (Hy : In y l) by (apply Him; left; reflexivity). destruct (less y x) eqn:L.
    - constructor; [apply IHm; [assumption|intros z Hz; apply Him; right; exact Hz]|]. apply Forall_forall. intros z Hz.
      apply (Permutation_in z (Permutation_sym (st_insert_perm _ less x m))) in Hz. destruct Hz as [<-|Hz].
      + destruct (less x y) eqn:L2; [|reflexivity]. rewrite <- (W1 x Hx). symmetry. apply (W2 x y x); assumption.
      + rewrite Forall_forall in HF. apply HF, Hz.
    - constructor; [assumption|]. constructor; [assumption|]. apply Forall_forall. intros z Hz. rewrite Forall_forall in HF. apply (W3 z y x); auto. apply Him. right; exact Hz. }
  intros i j a b Hij Ha Hb. exact (sorted_nth _ _ _ (G l (incl_refl l)) i j a b Hij Ha Hb).
Qed.
