(** Proofs of C77: reductions of arrays. *)
Require Import ZArith List Bool Lia ZifyBool.
From Verif Require Import Base LitProofs IntValModel IntValSpec IntValProofs IntValPropProofs SetModel ArrModel ArrSpec ArrProofs AccessProofs BarrModel BarrSpec BarrProofs RedModel RedSpec.
Import ListNotations.
Open Scope Z_scope.
Ltac Zify.zify_post_hook ::= idtac.
Notation card := ArrSpec.card.

Lemma ext_refl : forall a, ext_le a a.
Proof. destruct a; cbn; auto; lia. Qed.
Lemma ext_trans : forall a b c, ext_le a b -> ext_le b c -> ext_le a c.
Proof. destruct a, b, c; cbn; auto; try tauto; lia. Qed.
Lemma ext_total : forall a b, ext_le a b \/ ext_le b a.
Proof. destruct a, b; cbn; auto; lia. Qed.
Lemma ext_antisym : forall a b, ext_le a b -> ext_le b a -> a = b.
Proof. destruct a, b; cbn; intros; try tauto; f_equal; lia. Qed.
Lemma lt_cases : forall x y a b, denote x = Some a -> denote y = Some b ->
  iv_lt x y = true /\ ext_le a b /\ ~ ext_le b a \/ iv_lt x y = false /\ ext_le b a.
Proof.
  intros x y a b Hx Hy. destruct (C02_comparisons_l x y a b Hx Hy) as (_ & H & _).
  destruct (iv_lt x y) eqn:L; [left|right].
  - destruct H as [H _]. destruct (H eq_refl) as [H1 H2]. repeat split; auto. intros H3. apply H2. apply ext_antisym; assumption.
  - split; [reflexivity|]. destruct (ext_total b a) as [?|H1]; [assumption|]. destruct (ext_total a b) as [H2|H2]; [|assumption].
    destruct H as [_ H]. assert (a = b \/ a <> b) as [->|N] by (destruct a, b; try (right; discriminate); try (left; reflexivity); destruct (Z.eq_dec z z0); [left; congruence | right; congruence]).
    + apply ext_refl.
    + assert (false = true) by (apply H; split; assumption). discriminate.
Qed.
Lemma skipn_S : forall A (l : list A) n x, nth_error l n = Some x -> skipn n l = x :: skipn (S n) l.
Proof. induction l as [|y l IH]; destruct n; intros x H; cbn in *; try discriminate; [congruence | apply IH; assumption]. Qed.
Lemma firstn_S : forall A (l : list A) n x, nth_error l n = Some x -> firstn (S n) l = firstn n l ++ [x].
Proof. induction l as [|y l IH]; destruct n; intros x H; cbn in *; try discriminate; [congruence | f_equal; apply IH; assumption]. Qed.

Section R.
Variable E : Type.
Variable eqb : E -> E -> bool.
Variable same : E -> E -> Prop.
Hypothesis same_refl : forall e, same e e.
Hypothesis same_sym : forall a b, same a b -> same b a.
Hypothesis same_trans : forall a b c, same a b -> same b c -> same a c.
Hypothesis eqb_same : forall a b, eqb a b = true -> same a b.

Lemma reads : forall a sh el i e, built eqb a sh el -> nth_error el i = Some e -> exists e', get a (Z.of_nat i) = Ok e' /\ same e' e.
Proof using All.
  intros a sh el i e HB He. pose proof (built_rep E eqb same same_refl same_sym same_trans eqb_same a sh el HB) as R.
  destruct (built_facts E eqb same same_refl same_sym same_trans eqb_same a sh el HB) as (_ & _ & Hc & _).
  assert (i < length el)%nat by (apply nth_error_Some; congruence).
  destruct (rep_get E eqb same same_refl same_sym same_trans eqb_same a sh el (Z.of_nat i) R) as (x & y & Hy & Hg & Hs); [unfold len in Hc; lia|].
  unfold elem_at in Hy. rewrite Nat2Z.id in Hy. rewrite He in Hy. injection Hy as <-. eauto.
Qed.
Lemma read_ev : forall V (ev : E -> res V) a sh el i e, respects same ev -> built eqb a sh el -> nth_error el i = Some e ->
  (do e <- get a (Z.of_nat i); ev e) = ev e.
Proof using All.
  intros V ev a sh el i e Hr HB He. destruct (reads a sh el i e HB He) as (e' & -> & Hs). cbn [bind]. apply Hr, Hs.
Qed.
Lemma size_len : forall a sh el, built eqb a sh el -> asize a = Ok (len el).
Proof using All.
  intros a sh el HB. destruct (built_facts E eqb same same_refl same_sym same_trans eqb_same a sh el HB) as (H & _ & Hc & _). congruence.
Qed.
Lemma low_end : forall a r el, built eqb a [r] el -> amin a 0 = Ok (fst r) /\ INT_MIN <= fst r <= INT_MAX + 1 /\ len el = wid r.
Proof using All.
  intros a r el HB. destruct (built_facts E eqb same same_refl same_sym same_trans eqb_same a [r] el HB) as (_ & _ & Hc & (_ & Hf & _) & Hk).
  destruct (Hk O r eq_refl) as [H _]. cbn [ArrSpec.card] in Hc. inversion Hf as [|? ? (H1 & H2 & H3) ?]; subst. unfold wid in *. repeat split; try assumption; lia.
Qed.

(** ** Folds over the positions of an array *)
Section Int.
Variable ev_int : E -> res IntVal.
Hypothesis ev_same : respects same ev_int.
Variables (a : arr E) (sh : shape) (el : list E).
Hypothesis HB : built eqb a sh el.
Lemma int_read : forall i e, nth_error el i = Some e -> int_at ev_int a (Z.of_nat i) = ev_int e.
Proof using All. intros i e He. unfold int_at. eapply read_ev; eassumption. Qed.

(** a left fold that reads the array element by element *)
Fixpoint foldE {S : Type} (f : S -> IntVal -> Z -> res S) (l : list E) (i : Z) (s : S) : res S :=
  match l with [] => Ok s | e :: l => do x <- ev_int e; do s <- f s x i; foldE f l (i + 1) s end.
Section Fold.
Variables (S' : Type) (loop : nat -> Z -> S' -> res S') (f : S' -> IntVal -> Z -> res S').
Hypothesis loop_0 : forall i s, loop O i s = Ok s.
Hypothesis loop_S : forall n i s, loop (S n) i s = do x <- int_at ev_int a i; do s <- f s x i; loop n (i + 1) s.
Lemma fold_loop : forall n i s, (i + n = length el)%nat -> loop n (Z.of_nat i) s = foldE f (skipn i el) (Z.of_nat i) s.
Proof using All.
  induction n as [|n IH]; intros i s Hi.
  - rewrite loop_0. rewrite skipn_all2 by lia. reflexivity.
  - destruct (nth_error el i) as [e|] eqn:He; [|apply nth_error_None in He; lia].
    rewrite loop_S, (int_read i e He), (skipn_S _ _ _ _ He). cbn [foldE].
    destruct (ev_int e) as [x| |]; cbn [bind]; try reflexivity.
    destruct (f s x (Z.of_nat i)) as [s'| |]; cbn [bind]; try reflexivity.
    rewrite <- (Nat2Z.inj_succ i : _ = Z.of_nat i + 1) by lia. rewrite (IH (S i)) by lia. reflexivity.
Qed.
End Fold.

Lemma fold_fails : forall S (f : S -> IntVal -> Z -> res S) l k x i s, (forall s v i, exists s', f s v i = Ok s') ->
  fails_at ev_int l k x -> foldE f l i s = Err x.
Proof using Type.
  intros S f l k x i s Hf. revert k i s. induction l as [|e l IH]; intros k i s [(e' & He & Hx) Hb].
  - destruct k; discriminate.
  - cbn [foldE]. destruct k as [|k].
    + cbn in He. injection He as ->. rewrite Hx. reflexivity.
    + destruct (Hb O e ltac:(lia) eq_refl) as [v ->]. cbn [bind]. destruct (Hf s v i) as [s' ->]. cbn [bind].
      apply (IH k). split; [exists e'; auto|]. intros j e0 Hj He0. apply (Hb (Datatypes.S j) e0); [lia | exact He0].
Qed.

Lemma min_as_fold : forall n i s, (i + n = length el)%nat -> min_loop E ev_int a n (Z.of_nat i) s = foldE (fun s x _ => Ok (iv_min s x)) (skipn i el) (Z.of_nat i) s.
Proof using All. apply (fold_loop _ (min_loop E ev_int a)); intros; reflexivity. Qed.
Lemma max_as_fold : forall n i s, (i + n = length el)%nat -> max_loop E ev_int a n (Z.of_nat i) s = foldE (fun s x _ => Ok (iv_max s x)) (skipn i el) (Z.of_nat i) s.
Proof using All. apply (fold_loop _ (max_loop E ev_int a)); intros; reflexivity. Qed.
Lemma sum_as_fold : forall n i s, (i + n = length el)%nat -> sum_loop E ev_int a n (Z.of_nat i) s = foldE (fun s x _ => add_assign s x) (skipn i el) (Z.of_nat i) s.
Proof using All. apply (fold_loop _ (sum_loop E ev_int a)); intros; reflexivity. Qed.
Lemma product_as_fold : forall n i s, (i + n = length el)%nat -> product_loop E ev_int a n (Z.of_nat i) s = foldE (fun s x _ => mul_assign s x) (skipn i el) (Z.of_nat i) s.
Proof using All. apply (fold_loop _ (product_loop E ev_int a)); intros; reflexivity. Qed.
(** arg_min and arg_max carry two variables *)
Definition pick (better : IntVal -> IntVal -> bool) (s : IntVal * Z) (x : IntVal) (i : Z) : res (IntVal * Z) :=
  Ok (if better x (fst s) then (x, i) else s).
Lemma arg_min_as_fold : forall n i m k, (i + n = length el)%nat ->
  arg_min_loop E ev_int a n (Z.of_nat i) m k = do s <- foldE (pick iv_lt) (skipn i el) (Z.of_nat i) (m, k); Ok (snd s).
Proof using All.
  induction n as [|n IH]; intros i m k Hi; cbn [arg_min_loop].
  - rewrite skipn_all2 by lia. reflexivity.
  - destruct (nth_error el i) as [e|] eqn:He; [|apply nth_error_None in He; lia].
    rewrite (int_read i e He), (skipn_S _ _ _ _ He). cbn [foldE]. destruct (ev_int e) as [x| |]; cbn [bind]; try reflexivity.
    unfold pick at 1. cbn [bind fst]. replace (Z.of_nat i + 1) with (Z.of_nat (S i)) by lia.
    destruct (iv_lt x m); rewrite IH by lia; reflexivity.
Qed.
Lemma arg_max_as_fold : forall n i m k, (i + n = length el)%nat ->
  arg_max_loop E ev_int a n (Z.of_nat i) m k = do s <- foldE (pick iv_gt) (skipn i el) (Z.of_nat i) (m, k); Ok (snd s).
Proof using All.
  induction n as [|n IH]; intros i m k Hi; cbn [arg_max_loop].
  - rewrite skipn_all2 by lia. reflexivity.
  - destruct (nth_error el i) as [e|] eqn:He; [|apply nth_error_None in He; lia].
    rewrite (int_read i e He), (skipn_S _ _ _ _ He). cbn [foldE]. destruct (ev_int e) as [x| |]; cbn [bind]; try reflexivity.
    unfold pick at 1. cbn [bind fst]. replace (Z.of_nat i + 1) with (Z.of_nat (S i)) by lia.
    destruct (iv_gt x m); rewrite IH by lia; reflexivity.
Qed.
End Int.

(** ** Minimum and maximum *)
Section MinMax.
Variable ev_int : E -> res IntVal.
Lemma min_fold : forall l xs i m x, ints ev_int l xs -> denote m = Some x ->
  exists m' x', foldE ev_int (fun s x _ => Ok (iv_min s x)) l i m = Ok m' /\ denote m' = Some x' /\ (x' = x \/ In x' xs) /\ ext_le x' x /\ forall y, In y xs -> ext_le x' y.
Proof using Type.
  induction l as [|e l IH]; intros xs i m x HI Hm; inversion HI as [|? y ? ys (v & Hv & Hd) HI']; subst; cbn [foldE].
  - exists m, x. repeat split; auto. apply ext_refl. intros y [].
  - rewrite Hv. cbn [bind]. unfold iv_min. destruct (lt_cases v m y x Hd Hm) as [(-> & H1 & H2)|(-> & H1)].
    + destruct (IH ys (i + 1) v y HI' Hd) as (m' & x' & HF & Hx' & Ho & Hle & Hall). exists m', x'. repeat split; auto.
      * right. destruct Ho as [->|Ho]; [left; reflexivity | right; exact Ho].
      * eapply ext_trans; eassumption.
      * intros z [<-|Hz]; [assumption | apply Hall, Hz].
    + destruct (IH ys (i + 1) m x HI' Hm) as (m' & x' & HF & Hx' & Ho & Hle & Hall). exists m', x'. repeat split; auto.
      * destruct Ho as [->|Ho]; [left; reflexivity | right; right; exact Ho].
      * intros z [<-|Hz]; [eapply ext_trans; eassumption | apply Hall, Hz].
Qed.
Lemma max_fold : forall l xs i m x, ints ev_int l xs -> denote m = Some x ->
  exists m' x', foldE ev_int (fun s x _ => Ok (iv_max s x)) l i m = Ok m' /\ denote m' = Some x' /\ (x' = x \/ In x' xs) /\ ext_le x x' /\ forall y, In y xs -> ext_le y x'.
Proof using Type.
  induction l as [|e l IH]; intros xs i m x HI Hm; inversion HI as [|? y ? ys (v & Hv & Hd) HI']; subst; cbn [foldE].
  - exists m, x. repeat split; auto. apply ext_refl. intros y [].
  - rewrite Hv. cbn [bind]. unfold iv_max. destruct (lt_cases m v x y Hm Hd) as [(-> & H1 & H2)|(-> & H1)].
    + destruct (IH ys (i + 1) v y HI' Hd) as (m' & x' & HF & Hx' & Ho & Hle & Hall). exists m', x'. repeat split; auto.
      * right. destruct Ho as [->|Ho]; [left; reflexivity | right; exact Ho].
      * eapply ext_trans; eassumption.
      * intros z [<-|Hz]; [assumption | apply Hall, Hz].
    + destruct (IH ys (i + 1) m x HI' Hm) as (m' & x' & HF & Hx' & Ho & Hle & Hall). exists m', x'. repeat split; auto.
      * destruct Ho as [->|Ho]; [left; reflexivity | right; right; exact Ho].
      * intros z [<-|Hz]; [eapply ext_trans; eassumption | apply Hall, Hz].
Qed.
Hypothesis ev_same : respects same ev_int.
Lemma int_min_ok : forall a sh el xs, built eqb a sh el -> ints ev_int el xs ->
  match xs with [] => int_min ev_int a = Err EvalError | _ => exists m x, int_min ev_int a = Ok m /\ denote m = Some x /\ least x xs end.
Proof using All.
  intros a sh el xs HB HI. unfold int_min. rewrite (size_len a sh el HB). cbn [bind]. inversion HI as [|e y l ys (v & Hv & Hd) HI']; subst; [reflexivity|].
  replace (len (e :: l) =? 0) with false by (unfold len; cbn [length]; lia).
  change (int_at ev_int a 0) with (int_at ev_int a (Z.of_nat 0)). rewrite (int_read ev_int ev_same a sh (e :: l) HB 0 e eq_refl), Hv. cbn [bind].
  change 1 with (Z.of_nat 1) at 2. rewrite (min_as_fold ev_int ev_same a sh (e :: l) HB) by (unfold len; cbn [length]; lia). cbn [skipn].
  destruct (min_fold l ys (Z.of_nat 1) v y HI' Hd) as (m' & x' & HF & Hx' & Ho & Hle & Hall). exists m', x'. repeat split; auto.
  - destruct Ho as [->|Ho]; [left; reflexivity | right; exact Ho].
  - intros z [<-|Hz]; [assumption | apply Hall, Hz].
Qed.
Lemma int_max_ok : forall a sh el xs, built eqb a sh el -> ints ev_int el xs ->
  match xs with [] => int_max ev_int a = Err EvalError | _ => exists m x, int_max ev_int a = Ok m /\ denote m = Some x /\ greatest x xs end.
Proof using All.
  intros a sh el xs HB HI. unfold int_max. rewrite (size_len a sh el HB). cbn [bind]. inversion HI as [|e y l ys (v & Hv & Hd) HI']; subst; [reflexivity|].
  replace (len (e :: l) =? 0) with false by (unfold len; cbn [length]; lia).
  change (int_at ev_int a 0) with (int_at ev_int a (Z.of_nat 0)). rewrite (int_read ev_int ev_same a sh (e :: l) HB 0 e eq_refl), Hv. cbn [bind].
  change 1 with (Z.of_nat 1) at 2. rewrite (max_as_fold ev_int ev_same a sh (e :: l) HB) by (unfold len; cbn [length]; lia). cbn [skipn].
  destruct (max_fold l ys (Z.of_nat 1) v y HI' Hd) as (m' & x' & HF & Hx' & Ho & Hle & Hall). exists m', x'. repeat split; auto.
  - destruct Ho as [->|Ho]; [left; reflexivity | right; exact Ho].
  - intros z [<-|Hz]; [assumption | apply Hall, Hz].
Qed.
(** ** arg_min and arg_max *)
Section Pick.
Variable better : IntVal -> IntVal -> bool.
Variable le : ext -> ext -> Prop.
Hypothesis le_refl : forall x, le x x.
Hypothesis le_trans : forall x y z, le x y -> le y z -> le x z.
Hypothesis cases : forall x y u v, denote x = Some u -> denote y = Some v -> better x y = true /\ le u v /\ ~ le v u \/ better x y = false /\ le v u.
Lemma pick_fold : forall l xs px m k x, ints ev_int l xs -> denote m = Some x -> nth_error px k = Some x ->
  (forall y, In y px -> le x y) -> (forall j y, (j < k)%nat -> nth_error px j = Some y -> ~ le y x) ->
  exists s k', foldE ev_int (pick better) l (Z.of_nat (length px)) (m, Z.of_nat k) = Ok s /\ snd s = Z.of_nat k' /\
    first_pos (fun x => forall y, In y (px ++ xs) -> le x y) (px ++ xs) k'.
Proof using le_trans le_refl cases.
  induction l as [|e l IH]; intros xs px m k x HI Hm Hk Hl Hb; inversion HI as [|? y ? ys (v & Hv & Hd) HI']; subst; cbn [foldE].
  - exists (m, Z.of_nat k), k. split; [reflexivity|]. split; [reflexivity|]. rewrite app_nil_r. split; [eauto|].
    intros j y Hj Hy H. apply (Hb j y Hj Hy). apply H. eapply nth_error_In; eassumption.
  - rewrite Hv. unfold pick at 1. cbn [bind fst].
    assert (HPX : Z.of_nat (length px) + 1 = Z.of_nat (length (px ++ [y]))) by (rewrite app_length; cbn [length]; lia).
    replace (px ++ y :: ys) with ((px ++ [y]) ++ ys) by (rewrite <- app_assoc; reflexivity).
    assert (Hlt : (k < length px)%nat) by (apply nth_error_Some; congruence).
    destruct (cases v m y x Hd Hm) as [(-> & H1 & H2)|(-> & H1)]; rewrite HPX.
    + apply (IH ys (px ++ [y]) v (length px) y HI' Hd).
      * rewrite nth_error_app2 by lia. rewrite Nat.sub_diag. reflexivity.
      * intros z Hz. apply in_app_or in Hz. destruct Hz as [Hz|[<-|[]]]; [eapply le_trans; [exact H1|apply Hl, Hz] | apply le_refl].
      * intros j z Hj Hz Hc. rewrite nth_error_app1 in Hz by lia. apply H2. eapply le_trans; [|exact Hc]. apply Hl. eapply nth_error_In; eassumption.
    + apply (IH ys (px ++ [y]) m k x HI' Hm).
      * rewrite nth_error_app1 by lia. exact Hk.
      * intros z Hz. apply in_app_or in Hz. destruct Hz as [Hz|[<-|[]]]; [apply Hl, Hz | exact H1].
      * intros j z Hj Hz. rewrite nth_error_app1 in Hz by lia. apply (Hb j z Hj Hz).
Qed.
End Pick.
Lemma first_pos_weaken : forall V (P Q : V -> Prop) xs k, (forall x, In x xs -> (P x <-> Q x)) -> first_pos P xs k -> first_pos Q xs k.
Proof using Type.
  intros V P Q xs k H [(x & Hx & HP) Hb]. split.
  - exists x. split; [assumption|]. apply H; [eapply nth_error_In; eassumption|assumption].
  - intros j y Hj Hy HQ. apply (Hb j y Hj Hy). apply H; [eapply nth_error_In; eassumption|assumption].
Qed.
Lemma index_sum : forall k lo n, 0 <= k < n -> n <= INT_MAX -> INT_MIN <= lo <= INT_MAX + 1 -> iv_add (ofZ k) (ofZ lo) = Ok (ofZ (lo + k)).
Proof using Type.
  intros k lo n Hk Hn Hlo. assert (H : fits64 k /\ fits64 lo /\ fits64 (k + lo)) by (unfold fits64, LLONG_MIN, LLONG_MAX, INT_MIN, INT_MAX in *; lia).
  destruct (C01_add_l (ofZ k) (ofZ lo) k lo (int_of_Z k ltac:(tauto)) (int_of_Z lo ltac:(tauto))) as [HA _]. destruct HA as (r & -> & Hr); [tauto|].
  destruct (is_int_eq _ _ Hr) as [-> _]. rewrite (Z.add_comm k). reflexivity.
Qed.
Lemma ints_length : forall l xs, ints ev_int l xs -> length l = length xs.
Proof using Type. intros l xs H. eapply Forall2_length; eassumption. Qed.
Lemma arg_min_ok : forall a r el xs, built eqb a [r] el -> ints ev_int el xs ->
  match xs with [] => arg_min_int ev_int a = Err EvalError | _ => exists k, arg_min_int ev_int a = Ok (ofZ (fst r + Z.of_nat k)) /\ first_pos (fun x => least x xs) xs k end.
Proof using All.
  intros a r el xs HB HI. unfold arg_min_int. rewrite (size_len a [r] el HB). cbn [bind]. inversion HI as [|e y l ys (v & Hv & Hd) HI']; subst; [reflexivity|].
  replace (len (e :: l) =? 0) with false by (unfold len; cbn [length]; lia).
  change (int_at ev_int a 0) with (int_at ev_int a (Z.of_nat 0)). rewrite (int_read ev_int ev_same a [r] (e :: l) HB 0 e eq_refl), Hv. cbn [bind].
  change 1 with (Z.of_nat 1) at 2. rewrite (arg_min_as_fold ev_int ev_same a [r] (e :: l) HB) by (unfold len; cbn [length]; lia). cbn [skipn].
  destruct (pick_fold iv_lt ext_le ext_refl ext_trans) with (l := l) (xs := ys) (px := [y]) (m := v) (k := O) (x := y) as (s & k' & HF & Hs & HP); auto.
  { intros x0 y0 u0 v0 Hu Hw. destruct (lt_cases x0 y0 u0 v0 Hu Hw); tauto. }
  { intros z [<-|[]]. apply ext_refl. }
  { intros j z Hj. lia. }
  change (Z.of_nat (length [y])) with (Z.of_nat 1) in HF. change (Z.of_nat 0) with 0 in HF. rewrite HF. cbn [bind]. rewrite Hs.
  destruct (low_end a r _ HB) as (Hlo & Hr & Hw). rewrite Hlo. cbn [bind app] in *.
  destruct (built_facts E eqb same same_refl same_sym same_trans eqb_same a [r] _ HB) as (_ & _ & Hc & (_ & _ & Hm) & _).
  exists k'. split.
  - apply (index_sum _ _ (len (e :: l))); [|lia|assumption]. destruct HP as [(z & Hz & _) _]. assert (k' < length (y :: ys))%nat by (apply nth_error_Some; congruence).
    pose proof (ints_length _ _ HI'). unfold len. cbn [length] in *. lia.
  - eapply first_pos_weaken; [|exact HP]. intros x Hx. cbn beta. unfold least. tauto.
Qed.
Lemma arg_max_ok : forall a r el xs, built eqb a [r] el -> ints ev_int el xs ->
  match xs with [] => arg_max_int ev_int a = Err EvalError | _ => exists k, arg_max_int ev_int a = Ok (ofZ (fst r + Z.of_nat k)) /\ first_pos (fun x => greatest x xs) xs k end.
Proof using All.
  intros a r el xs HB HI. unfold arg_max_int. rewrite (size_len a [r] el HB). cbn [bind]. inversion HI as [|e y l ys (v & Hv & Hd) HI']; subst; [reflexivity|].
  replace (len (e :: l) =? 0) with false by (unfold len; cbn [length]; lia).
  change (int_at ev_int a 0) with (int_at ev_int a (Z.of_nat 0)). rewrite (int_read ev_int ev_same a [r] (e :: l) HB 0 e eq_refl), Hv. cbn [bind].
  change 1 with (Z.of_nat 1) at 2. rewrite (arg_max_as_fold ev_int ev_same a [r] (e :: l) HB) by (unfold len; cbn [length]; lia). cbn [skipn].
  destruct (pick_fold iv_gt (fun x y => ext_le y x) ext_refl (fun x y z H1 H2 => ext_trans z y x H2 H1)) with (l := l) (xs := ys) (px := [y]) (m := v) (k := O) (x := y) as (s & k' & HF & Hs & HP); auto.
  { intros x0 y0 u0 v0 Hu Hw. unfold iv_gt. destruct (lt_cases y0 x0 v0 u0 Hw Hu); tauto. }
  { intros z [<-|[]]. apply ext_refl. }
  { intros j z Hj. lia. }
  change (Z.of_nat (length [y])) with (Z.of_nat 1) in HF. change (Z.of_nat 0) with 0 in HF. rewrite HF. cbn [bind]. rewrite Hs.
  destruct (low_end a r _ HB) as (Hlo & Hr & Hw). rewrite Hlo. cbn [bind app] in *.
  destruct (built_facts E eqb same same_refl same_sym same_trans eqb_same a [r] _ HB) as (_ & _ & Hc & (_ & _ & Hm) & _).
  exists k'. split.
  - apply (index_sum _ _ (len (e :: l))); [|lia|assumption]. destruct HP as [(z & Hz & _) _]. assert (k' < length (y :: ys))%nat by (apply nth_error_Some; congruence).
    pose proof (ints_length _ _ HI'). unfold len. cbn [length] in *. lia.
  - eapply first_pos_weaken; [|exact HP]. intros x Hx. cbn beta. unfold greatest. tauto.
Qed.

(** ** Sum and product *)
Lemma add_case : forall m s v x, is_int m s -> is_int v x ->
  (fits64 (s + x) /\ exists r, add_assign m v = Ok r /\ is_int r (s + x)) \/ (~ fits64 (s + x) /\ add_assign m v = Err ArithmeticError).
Proof using Type.
  intros m s v x Hm Hv. destruct (C01_add_l m v s x Hm Hv) as [H1 H2]. change (add_assign m v) with (iv_add m v).
  destruct (fits64b (s + x)) eqn:F; [left|right].
  - apply fits64b_iff in F. auto.
  - assert (~ fits64 (s + x)) by (intros H; apply fits64b_iff in H; congruence). auto.
Qed.
Lemma sum_fold : forall l zs i m s, ints ev_int l (map Fin zs) -> is_int m s ->
  (forall k, fits64 (s + zsum (firstn k zs))) -> exists r, foldE ev_int (fun s x _ => add_assign s x) l i m = Ok r /\ is_int r (s + zsum zs).
Proof using Type.
  induction l as [|e l IH]; intros zs i m s HI Hm Hf; destruct zs as [|z zs]; inversion HI as [|? y ? ys (v & Hv & Hd) HI']; subst; cbn [foldE].
  - exists m. split; [reflexivity|]. cbn [zsum fold_right]. rewrite Z.add_0_r. assumption.
  - rewrite Hv. cbn [bind]. destruct (add_case m s v z Hm Hd) as [(Hz & r & Hr & Hi)|(Hn & _)].
    + rewrite Hr. cbn [bind]. destruct (IH zs (i + 1) r (s + z) HI' Hi) as (r' & HF & Hr').
      { intros k. specialize (Hf (S k)). cbn [firstn zsum fold_right] in Hf. fold (zsum (firstn k zs)) in Hf. rewrite <- Z.add_assoc. exact Hf. }
      exists r'. split; [exact HF|]. cbn [zsum fold_right]. fold (zsum zs). rewrite Z.add_assoc. exact Hr'.
    + exfalso. apply Hn. specialize (Hf 1%nat). cbn [firstn zsum fold_right] in Hf. rewrite Z.add_0_r in Hf. exact Hf.
Qed.
Lemma sum_fold_bad : forall l xs i m s, ints ev_int l xs -> is_int m s ->
  (exists k zs, firstn k xs = map Fin zs /\ ~ fits64 (s + zsum zs)) \/ (exists x, In x xs /\ forall z, x <> Fin z) -> foldE ev_int (fun s x _ => add_assign s x) l i m = Err ArithmeticError.
Proof using Type.
  assert (Hfit : forall m s, is_int m s -> fits64 s).
  { intros m s Hm. destruct (is_int_eq _ _ Hm) as [_ H]. exact H. }
  induction l as [|e l IH]; intros xs i m s HI Hm Hbad; inversion HI as [|? y ? ys (v & Hv & Hd) HI']; subst; cbn [foldE].
  - exfalso. destruct Hbad as [(k & zs & He & Hn)|(x & [] & _)]. rewrite firstn_nil in He. destruct zs; [|discriminate]. apply Hn. cbn [zsum fold_right]. rewrite Z.add_0_r. eauto.
  - rewrite Hv. cbn [bind]. destruct y as [|z|].
    1,3: unfold add_assign, finite2; replace (isFinite v) with false; [destruct (isFinite m); reflexivity|];
      unfold denote in Hd; unfold isFinite; destruct (iv_inf v); [reflexivity|]; destruct ((LLONG_MIN <=? iv_v v) && (iv_v v <=? LLONG_MAX)); discriminate.
    destruct (add_case m s v z Hm Hd) as [(Hz & r & Hr & Hi)|(Hn & Hx)]; [|rewrite Hx; reflexivity].
    rewrite Hr. cbn [bind]. apply (IH ys (i + 1) r (s + z) HI' Hi). destruct Hbad as [(k & zs & He & Hn)|(x & [<-|Hx] & Hinf)].
    + left. destruct k as [|k]; cbn [firstn] in He.
      * destruct zs; [|discriminate]. exfalso. apply Hn. cbn [zsum fold_right]. rewrite Z.add_0_r. eauto.
      * destruct zs as [|z' zs]; [discriminate|]. cbn [map] in He. injection He as <- He. exists k, zs. split; [exact He|]. cbn [zsum fold_right] in Hn. fold (zsum zs) in Hn. rewrite <- Z.add_assoc. exact Hn.
    + exfalso. apply (Hinf z). reflexivity.
    + right. eauto.
Qed.
Lemma sum_start : forall a sh el, built eqb a sh el -> sum_int ev_int a = foldE ev_int (fun s x _ => add_assign s x) el 0 (ofZ 0).
Proof using All.
  intros a sh el HB. unfold sum_int. rewrite (size_len a sh el HB). cbn [bind]. destruct el as [|e l]; [reflexivity|].
  replace (len (e :: l) =? 0) with false by (unfold len; cbn [length]; lia).
  rewrite (sum_as_fold ev_int ev_same a sh (e :: l) HB (Z.to_nat (len (e :: l))) 0) by (unfold len; lia). reflexivity.
Qed.
Lemma sum_ok : forall a sh el zs, built eqb a sh el -> ints ev_int el (map Fin zs) -> (forall k, fits64 (zsum (firstn k zs))) ->
  exists r, sum_int ev_int a = Ok r /\ is_int r (zsum zs).
Proof using All.
  intros a sh el zs HB HI Hf. rewrite (sum_start a sh el HB). apply (sum_fold el zs 0 (ofZ 0) 0 HI eq_refl). exact Hf.
Qed.
Lemma sum_bad : forall a sh el xs, built eqb a sh el -> ints ev_int el xs ->
  (exists k zs, firstn k xs = map Fin zs /\ ~ fits64 (zsum zs)) \/ (exists x, In x xs /\ forall z, x <> Fin z) -> sum_int ev_int a = Err ArithmeticError.
Proof using All.
  intros a sh el xs HB HI Hf. rewrite (sum_start a sh el HB). apply (sum_fold_bad el xs 0 (ofZ 0) 0 HI eq_refl). exact Hf.
Qed.
End MinMax.
End R.
