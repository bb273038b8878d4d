(** Proofs about array access. *)
Require Import ZArith List Bool Lia ZifyBool.
From Verif Require Import Base IntValModel IntValSpec IntValProofs ArrModel ArrSpec ArrProofs LinProofs AccessModel AccessSpec.
Import ListNotations.
Open Scope Z_scope.

Lemma int_fits : forall z, INT_MIN <= z <= INT_MAX -> fits64 z.
Proof. unfold fits64, LLONG_MIN, LLONG_MAX, INT_MIN, INT_MAX. lia. Qed.
Lemma i32_in : forall z, INT_MIN <= z <= INT_MAX -> i32 z = Ok z.
Proof. intros z H. unfold i32. replace ((INT_MIN <=? z) && (z <=? INT_MAX)) with true by lia. reflexivity. Qed.
Lemma int_of_Z : forall z, fits64 z -> is_int (ofZ z) z.
Proof. intros z H. exact (fin_ofZ z H). Qed.
Lemma is_int_eq : forall x z, is_int x z -> x = ofZ z /\ fits64 z.
Proof.
  intros [v i] z. unfold is_int, denote, ofZ, fits64. cbn [iv_v iv_inf]. destruct i.
  - destruct (v =? 1); [discriminate|]. destruct (v =? -1); discriminate.
  - destruct (_ && _) eqn:E; [|discriminate]. intros H. injection H as <-. split; [reflexivity|lia].
Qed.

Lemma out_in : forall b z, b = true -> outcome b z = Ok (ofZ z).
Proof. intros b z ->. reflexivity. Qed.
Lemma add_in : forall x y, fits64 x -> fits64 y -> fits64 (x + y) -> iv_add (ofZ x) (ofZ y) = Ok (ofZ (x + y)).
Proof. intros x y Hx Hy H. rewrite (iv_add_spec _ _ x y) by (apply int_of_Z; assumption). apply out_in. unfold fits64b, fits64 in *. lia. Qed.
Lemma sub_in : forall x y, fits64 x -> fits64 y -> fits64 (x - y) -> iv_sub (ofZ x) (ofZ y) = Ok (ofZ (x - y)).
Proof. intros x y Hx Hy H. rewrite (iv_sub_spec _ _ x y) by (apply int_of_Z; assumption). apply out_in. unfold fits64b, fits64 in *. lia. Qed.
Lemma mul_in : forall x y, Z.abs x <= LLONG_MAX -> Z.abs y <= LLONG_MAX -> Z.abs (x * y) <= LLONG_MAX -> iv_mul (ofZ x) (ofZ y) = Ok (ofZ (x * y)).
Proof.
  intros x y Hx Hy H. rewrite (iv_mul_spec _ _ x y); try (apply int_of_Z); unfold fits64, LLONG_MIN, LLONG_MAX in *; try lia.
  apply out_in. unfold LLONG_MAX. lia.
Qed.
Lemma mul_assign_in : forall x y, Z.abs x <= LLONG_MAX -> Z.abs y <= LLONG_MAX -> Z.abs (x * y) <= LLONG_MAX -> mul_assign (ofZ x) (ofZ y) = Ok (ofZ (x * y)).
Proof.
  intros x y Hx Hy H. rewrite (mul_assign_spec _ _ x y); try (apply int_of_Z); unfold fits64, LLONG_MIN, LLONG_MAX in *; try lia.
  apply out_in. unfold LLONG_MAX. lia.
Qed.

Lemma outside_test : forall x r, wf x -> INT_MIN <= fst r -> fst r <= snd r + 1 -> snd r <= INT_MAX ->
  iv_lt x (ofZ (fst r)) || iv_gt x (ofZ (snd r)) = false <-> inside x r.
Proof.
  intros [v i] r [e Hw] H1 H0 H2. unfold inside, iv_gt, iv_lt, isPlusInfinity, isMinusInfinity, isFinite, is_int, denote, ofZ in *. cbn [iv_v iv_inf] in *.
  destruct i; cbn [negb andb orb].
  - destruct (v =? 1) eqn:E1; [|destruct (v =? -1) eqn:E2; [|discriminate]].
    + cbn. rewrite ?orb_true_r, ?andb_true_r. split; [|intros (i & H & _); discriminate]. destruct (v =? -1) eqn:E3; cbn; discriminate.
    + cbn. rewrite ?orb_true_r, ?andb_true_r. split; [|intros (i & H & _); discriminate]. discriminate.
  - destruct (_ && _) eqn:E; [|discriminate]. split.
    + intros H. exists v. split; [reflexivity|lia].
    + intros (i & H & Hr). injection H as <-. lia.
Qed.

Section A.
Variable E : Type.
Variable eqb : E -> E -> bool.
Variable same : E -> E -> Prop.
Hypothesis same_refl : forall e, same e e.
Hypothesis same_sym : forall a b, same a b -> same b a.
Hypothesis same_trans : forall a b c, same a b -> same b c -> same a c.
Hypothesis eqb_same : forall a b, eqb a b = true -> same a b.

Variables (a : arr E) (sh : shape) (el : list E).
Hypothesis Hb : built eqb a sh el.

Lemma built_shape : shape_ok sh.
Proof. exact (proj1 (rep_shape _ _ _ _ _ (built_rep E eqb same same_refl same_sym same_trans eqb_same a sh el Hb))). Qed.
Lemma built_facts : len el = card sh /\ dims a = len sh /\
  (forall k lo hi, 0 <= k -> nth_error sh (Z.to_nat k) = Some (lo, hi) -> amin a k = Ok lo /\ amax a k = Ok hi) /\
  (forall i, 0 <= i < card sh -> exists e e', elem_at el i = Some e' /\ get a i = Ok e /\ same e e').
Proof.
  destruct (C29_l E eqb same same_refl same_sym same_trans eqb_same a sh el Hb) as (H1 & _ & H2 & H3 & H4). auto.
Qed.

Lemma dim_product_ok : forall rest pre, pre ++ rest = sh -> prefixes_fit sh ->
  dim_product a (length rest) (len pre) (card pre) = Ok (card sh).
Proof.
  destruct built_shape as (_ & Hr & _). destruct built_facts as (_ & _ & Hmm & _).
  induction rest as [|r rest IH]; intros pre Hp Hf; cbn [dim_product length].
  - rewrite app_nil_r in Hp. subst pre. reflexivity.
  - assert (nth_error sh (Z.to_nat (len pre)) = Some r) as Hn.
    { unfold len. rewrite Nat2Z.id, <- Hp, nth_error_app2 by lia. rewrite Nat.sub_diag. reflexivity. }
    destruct r as [lo hi]. destruct (Hmm (len pre) lo hi) as [H1 H2]; [unfold len; lia|exact Hn|].
    unfold awidth. rewrite H1, H2. cbn [bind].
    assert (range_ok (lo, hi)) as Hro by (eapply Forall_forall in Hr; [exact Hr|eapply nth_error_In, Hn]).
    rewrite (width_ok (lo, hi) Hro : width lo hi = _). cbn [bind].
    assert (card pre * wid (lo, hi) = card (pre ++ [(lo, hi)])) as Hc by (rewrite card_app; cbn [card]; lia).
    rewrite Hc. rewrite i32_in.
    + cbn [bind]. rewrite <- (IH (pre ++ [(lo, hi)])).
      * f_equal. unfold len. rewrite app_length. cbn [length]. lia.
      * rewrite <- app_assoc. exact Hp.
      * exact Hf.
    + specialize (Hf (length (pre ++ [(lo, hi)]))). rewrite <- Hp in Hf.
      change ((lo, hi) :: rest) with ([(lo, hi)] ++ rest) in Hf. rewrite app_assoc, firstn_app, firstn_all, Nat.sub_diag, firstn_O, app_nil_r in Hf.
      split; [|exact Hf]. assert (0 <= card (pre ++ [(lo, hi)])); [|unfold INT_MIN; lia].
      apply card_nonneg. rewrite <- Hp in Hr. change ((lo, hi) :: rest) with ([(lo, hi)] ++ rest) in Hr. rewrite app_assoc in Hr.
      apply Forall_app in Hr. tauto.
Qed.

Lemma walk_ok : forall rest pre idx p, pre ++ rest = sh -> length idx = length rest -> Forall wf idx ->
  0 <= p -> p + card rest <= INT_MAX ->
  (exists zs, Forall2 is_int idx zs /\ in_shape zs rest /\
     walk a (length rest) idx (len pre) (card rest) (ofZ p) = Ok (inl (ofZ (p + position rest zs)))) \/
  (exists k r x, first_outside (length pre) idx rest (k, r, x) /\
     walk a (length rest) idx (len pre) (card rest) (ofZ p) = Ok (inr (Z.of_nat k, fst r, snd r, x))).
Proof.
  destruct built_shape as (_ & Hr & _). destruct built_facts as (_ & _ & Hmm & _).
  induction rest as [|r rest IH]; intros pre idx p Hp Hlen Hwf Hp0 Hp1.
  - destruct idx; [|discriminate]. left. exists []. split; [constructor|]. split; [constructor|]. cbn. do 2 f_equal. f_equal. lia.
  - destruct idx as [|x idx]; [discriminate|]. cbn [length] in Hlen. assert (wf x /\ Forall wf idx) as [Hwx Hwr] by (inversion Hwf; auto).
    assert (nth_error sh (Z.to_nat (len pre)) = Some r) as Hn.
    { unfold len. rewrite Nat2Z.id, <- Hp, nth_error_app2 by lia. rewrite Nat.sub_diag. reflexivity. }
    assert (range_ok r) as Hro by (eapply Forall_forall in Hr; [exact Hr|eapply nth_error_In, Hn]).
    assert (Forall range_ok rest) as Hrr.
    { rewrite <- Hp in Hr. apply Forall_app in Hr. destruct Hr as [_ Hr]. inversion Hr; assumption. }
    pose proof (card_nonneg _ Hrr) as Hcn. destruct Hro as (Ho1 & Ho2 & Ho3).
    destruct (Hmm (len pre) (fst r) (snd r)) as [E1 E2]; [unfold len; lia|rewrite Hn; destruct r; reflexivity|].
    cbn [walk length]. rewrite E1, E2. cbn [bind]. fold (@length (Z * Z)).
    destruct (iv_lt x (ofZ (fst r)) || iv_gt x (ofZ (snd r))) eqn:Et.
    + right. exists (length pre), r, x. split; [|reflexivity]. constructor. intros Hi.
      apply outside_test in Hi; auto; [congruence| unfold wid in Ho3; lia].
    + apply outside_test in Et; auto; [|unfold wid in Ho3; lia]. destruct Et as (i & Hi & Hir).
      destruct (is_int_eq _ _ Hi) as [-> Hif].
      rewrite (width_ok r (conj Ho1 (conj Ho2 Ho3))). cbn [bind].
      assert (1 <= wid r) as Hw1 by (unfold wid in *; lia).
      replace (wid r =? 0) with false by lia.
      rewrite sub_in; [|exact Hif|apply int_fits; unfold wid, INT_MAX in *; lia|unfold fits64, LLONG_MIN, LLONG_MAX, wid, INT_MAX, INT_MIN in *; lia].
      cbn [bind].
      replace (Z.quot (card (r :: rest)) (wid r)) with (card rest) by (cbn [card]; rewrite Z.mul_comm, Z.quot_mul; lia).
      cbn [card] in Hp1.
      assert ((i - fst r) * card rest + card rest <= wid r * card rest) as Hm by (unfold wid; nia).
      assert (0 <= (i - fst r) * card rest) as Hm0 by nia.
      rewrite mul_in; [|unfold LLONG_MAX, wid, INT_MAX in *; lia|unfold LLONG_MAX, INT_MAX in *; nia|unfold LLONG_MAX, INT_MAX in *; nia].
      cbn [bind].
      change (add_assign (ofZ p) (ofZ ((i - fst r) * card rest))) with (iv_add (ofZ p) (ofZ ((i - fst r) * card rest))).
      rewrite add_in; [|apply int_fits; unfold INT_MIN; nia|apply int_fits; unfold INT_MIN; nia|apply int_fits; unfold INT_MIN; nia].
      cbn [bind].
      replace (len pre + 1) with (len (pre ++ [r])) by (unfold len; rewrite app_length; cbn [length]; lia).
      assert (length (pre ++ [r]) = S (length pre)) as Hls by (rewrite app_length; cbn [length]; lia).
      destruct (IH (pre ++ [r]) idx (p + (i - fst r) * card rest)) as [(zs & Hz1 & Hz2 & Hz3)|(k & r' & x' & Hf & Hz)].
      * rewrite <- app_assoc. exact Hp.
      * lia.
      * assumption.
      * lia.
      * lia.
      * left. exists (i :: zs). split; [constructor; assumption|]. split; [constructor; assumption|]. rewrite Hz3. cbn [position].
        do 2 f_equal. f_equal. lia.
      * right. exists k, r', x'. split; [|exact Hz]. rewrite Hls in Hf. apply fo_later; [|exact Hf]. exists i. auto.
Qed.

Lemma access_ok : forall idx, length idx = length sh -> Forall wf idx -> prefixes_fit sh ->
  (exists zs e e', Forall2 is_int idx zs /\ in_shape zs sh /\ elem_at el (position sh zs) = Some e' /\ same e e' /\
     access a idx = Ok (Found e)) \/
  (exists k r x, first_outside 0 idx sh (k, r, x) /\ access a idx = Ok (Outside (Z.of_nat k) (fst r) (snd r) x)).
Proof.
  intros idx Hlen Hwf Hf. destruct built_shape as (Hne & Hr & Hc). destruct built_facts as (_ & Hd & _ & Hg).
  unfold access. rewrite Hd. replace (Z.to_nat (len sh)) with (length sh) by (unfold len; lia).
  pose proof (dim_product_ok sh [] eq_refl Hf) as Hdp. change (len []) with 0 in Hdp. change (card []) with 1 in Hdp. rewrite Hdp. cbn [bind].
  pose proof (card_nonneg _ Hr) as Hcn.
  destruct (walk_ok sh [] idx 0 eq_refl Hlen Hwf (Z.le_refl 0) ltac:(lia)) as [(zs & H1 & H2 & H3)|(k & r & x & H1 & H2)].
  - left. change (len []) with 0 in H3. rewrite H3. cbn [bind toInt ofZ iv_inf iv_v]. rewrite Z.add_0_l.
    pose proof (position_range _ _ H2) as Hpr.
    replace (u32 (position sh zs)) with (position sh zs) by (unfold u32; rewrite Z.mod_small; [reflexivity|unfold INT_MAX in *; lia]).
    destruct (Hg _ Hpr) as (e & e' & G1 & G2 & G3). exists zs, e, e'. rewrite G2. cbn [bind]. auto 10.
  - right. exists k, r, x. split; [exact H1|]. change (len []) with 0 in H2. rewrite H2. reflexivity.
Qed.
End A.

Lemma in_shape_inside : forall idx zs sh, Forall2 is_int idx zs -> in_shape zs sh -> Forall2 inside idx sh.
Proof.
  intros idx zs sh H. revert sh. induction H; intros sh Hi; inversion Hi; subst; constructor; eauto. exists y. auto.
Qed.
Lemma fo_not : forall k idx sh o, first_outside k idx sh o -> ~ Forall2 inside idx sh.
Proof. induction 1; intros Hf; inversion Hf; subst; auto. Qed.
Lemma inside_in_shape : forall idx zs sh, Forall2 is_int idx zs -> Forall2 inside idx sh -> in_shape zs sh.
Proof.
  intros idx zs sh H. revert sh. induction H; intros sh Hi; inversion Hi; subst; constructor.
  - destruct H3 as (i & Hi1 & Hi2). unfold is_int in *. congruence.
  - apply IHForall2. assumption.
Qed.
Lemma is_int_fun : forall idx zs zs', Forall2 is_int idx zs -> Forall2 is_int idx zs' -> zs = zs'.
Proof.
  intros idx zs zs' H. revert zs'. induction H; intros zs' H'; inversion H'; subst; [reflexivity|]. f_equal; auto. unfold is_int in *. congruence.
Qed.

Lemma prefixes_fit_pos : forall sh, shape_ok sh -> 0 < card sh -> prefixes_fit sh.
Proof.
  intros sh (_ & Hr & Hc) Hp k. rewrite <- (firstn_skipn k sh), card_app in Hc. rewrite <- (firstn_skipn k sh) in Hp. rewrite card_app in Hp.
  rewrite <- (firstn_skipn k sh) in Hr. apply Forall_app in Hr. destruct Hr as [H1 H2].
  pose proof (card_nonneg _ H1). pose proof (card_nonneg _ H2). assert (1 <= card (skipn k sh)) by nia. nia.
Qed.

Section B.
Variable E : Type.
Variable eqb : E -> E -> bool.
Variable same : E -> E -> Prop.
Hypothesis same_refl : forall e, same e e.
Hypothesis same_sym : forall a b, same a b -> same b a.
Hypothesis same_trans : forall a b c, same a b -> same b c -> same a c.
Hypothesis eqb_same : forall a b, eqb a b = true -> same a b.

Lemma C31_in : forall a sh el idx zs, built eqb a sh el -> prefixes_fit sh -> Forall2 is_int idx zs -> in_shape zs sh ->
  exists e e', access a idx = Ok (Found e) /\ elem_at el (position sh zs) = Some e' /\ same e e'.
Proof.
  intros a sh el idx zs Hb Hf Hz Hs.
  assert (length idx = length sh) as Hlen.
  { transitivity (length zs); [clear - Hz; induction Hz; cbn; congruence|clear - Hs; induction Hs; cbn; congruence]. }
  destruct (access_ok E eqb same same_refl same_sym same_trans eqb_same a sh el Hb idx Hlen) as [(zs' & e & e' & H1 & H2 & H3 & H4 & H5)|(k & r & x & H1 & H2)].
  - clear - Hz. induction Hz; constructor; auto. eexists. exact H.
  - exact Hf.
  - assert (zs' = zs) as -> by (eapply is_int_fun; eassumption). eauto.
  - exfalso. eapply fo_not; [exact H1|]. eapply in_shape_inside; eassumption.
Qed.
Lemma C31_out : forall a sh el idx, built eqb a sh el -> prefixes_fit sh -> length idx = length sh -> Forall wf idx ->
  ~ Forall2 inside idx sh ->
  exists k r x, first_outside 0 idx sh (k, r, x) /\ access a idx = Ok (Outside (Z.of_nat k) (fst r) (snd r) x).
Proof.
  intros a sh el idx Hb Hf Hlen Hw Hn.
  destruct (access_ok E eqb same same_refl same_sym same_trans eqb_same a sh el Hb idx Hlen Hw Hf) as [(zs' & e & e' & H1 & H2 & _)|H]; [|exact H].
  exfalso. apply Hn. eapply in_shape_inside; eassumption.
Qed.

(** absent indices *)
Definition filled (r : Z * Z) (o : option IntVal) : IntVal := match o with Some x => x | None => ofZ (fst r) end.
Fixpoint fill (sh : shape) (idx : list (option IntVal)) : list IntVal :=
  match sh, idx with r :: sh, o :: idx => filled r o :: fill sh idx | _, _ => [] end.
Lemma indices_ok : forall a sh el, built eqb a sh el -> forall rest pre idx, pre ++ rest = sh -> length idx = length rest ->
  indices a idx (len pre) = Ok (fill rest idx).
Proof.
  intros a sh el Hb. destruct (built_facts E eqb same same_refl same_sym same_trans eqb_same a sh el Hb) as (_ & _ & Hmm & _).
  induction rest as [|r rest IH]; intros pre [|o idx] Hp Hlen; try discriminate; cbn [indices fill]; [reflexivity|].
  assert ((match o with Some x => Ok x | None => do lo <- amin a (len pre); Ok (ofZ lo) end) = Ok (filled r o)) as ->.
  { destruct o; [reflexivity|]. destruct (Hmm (len pre) (fst r) (snd r)) as [E1 _].
    - unfold len; lia.
    - unfold len. rewrite Nat2Z.id, <- Hp, nth_error_app2 by lia. rewrite Nat.sub_diag. destruct r; reflexivity.
    - rewrite E1. reflexivity. }
  cbn [bind]. replace (len pre + 1) with (len (pre ++ [r])) by (unfold len; rewrite app_length; cbn [length]; lia).
  rewrite IH; [reflexivity| |cbn in Hlen; lia]. rewrite <- app_assoc. exact Hp.
Qed.
Lemma eval_access_eq : forall a sh el idx, built eqb a sh el -> length idx = length sh ->
  eval_access a idx = if forallb absent idx then Ok None else
    do r <- access a (fill sh idx);
    match r with Outside _ _ _ _ => Err EvalError | Found e => Ok (if existsb absent idx then None else Some e) end.
Proof.
  intros a sh el idx Hb Hlen. unfold eval_access. change 0 with (len (@nil (Z * Z))) at 1.
  rewrite (indices_ok a sh el Hb sh [] idx eq_refl Hlen). reflexivity.
Qed.
End B.
