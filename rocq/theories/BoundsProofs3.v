(** Proofs about BoundsModel, part 3: the bounds contain all values. *)
Require Import ZArith List Bool Lia ZifyBool.
From Verif Require Import Base IntValModel IntValSpec IntValProofs IntValPropProofs ArrModel SetModel SetSpec
  LinModel LinSpec LinProofs BoundsModel BoundsSpec BoundsProofs BoundsProofs2.
Import ListNotations.
Open Scope Z_scope.

Definition covers (e : ex) (b : bnd) : Prop := okb b /\ forall s z, ev s e z -> inb b z.
Definition good (e : ex) (st st' : bst) : Prop :=
  fst st = true /\
  match typ e with
  | TyInt | TyBool => exists b, snd st' = b :: snd st /\ covers e b
  | TyArr => snd st' = snd st
  | TyOther => False
  end.
Definition sound (e : ex) : Prop := forall st st', run e st = Ok st' -> fst st' = true -> good e st st'.

Lemma sound_scalar : forall e st st', sound e -> scalar e -> run e st = Ok st' -> fst st' = true ->
  exists b, st = (true, snd st) /\ st' = (true, b :: snd st) /\ covers e b.
Proof.
  intros e [v l] [v' l'] Hs Sc H V. cbn in V. subst v'. destruct (Hs _ _ H eq_refl) as [V G]. cbn in V. subst v.
  destruct Sc as [T|T]; rewrite T in G; destruct G as (b & E & C); exists b; cbn in *; rewrite E; auto.
Qed.
Lemma pop_inv : forall st b st', pop st = Ok (b, st') -> st = (fst st', b :: snd st').
Proof. intros [v [|c l]] b st' H; cbn in *; [discriminate|]. injection H as <- <-. reflexivity. Qed.
Lemma popn_app : forall k v s, popn (length k) (v, k ++ s) = Ok (v, s).
Proof. induction k as [|b k IH]; intros v s; cbn; auto. Qed.
Lemma popn_fst : forall n st st', popn n st = Ok st' -> fst st' = fst st.
Proof. induction n as [|n IH]; intros st st' H; cbn in H; [now injection H as <-|]. bokp H b st1 E. apply pop_inv in E. apply IH in H. rewrite H, E. reflexivity. Qed.
Lemma b2i_fin : forall b, fin (b2i b). Proof. intros [|]; [apply fin_1|apply fin_0]. Qed.
Lemma b2i_v : forall b, iv_v (b2i b) = if b then 1 else 0. Proof. intros [|]; reflexivity. Qed.

(** lists *)
Lemma rev_scalar : forall l, Forall sound l -> Forall scalar l -> forall st st', run_rev run l st = Ok st' -> fst st' = true ->
  exists k, st = (true, snd st) /\ st' = (true, k ++ snd st) /\ length k = length l.
Proof.
  induction 1 as [|e l He _ IH]; intros Sc st st' H V; cbn [run_rev] in H.
  - injection H as <-. exists []. destruct st as [v s]. cbn in *. subst. auto.
  - inversion Sc; subst. bok H st1 E. destruct (sound_scalar _ _ _ He H2 H V) as (b & E1 & E2 & _).
    destruct (IH H3 _ _ E) as (k & K1 & K2 & K3); [now rewrite E1|]. exists (b :: k). split; auto. split; [|cbn; congruence].
    rewrite E2. f_equal. cbn. f_equal. rewrite K2. reflexivity.
Qed.
Lemma rev_args : forall l, Forall sound l -> Forall (fun e => typ e <> TyBool) l -> forall st st', run_rev run l st = Ok st' -> fst st' = true ->
  exists k, st = (true, snd st) /\ st' = (true, k ++ snd st) /\ length k = length (filter is_int_ty l).
Proof.
  induction 1 as [|e l He _ IH]; intros Sc st st' H V; cbn [run_rev] in H.
  - injection H as <-. exists []. destruct st as [v s]. cbn in *. subst. auto.
  - inversion Sc; subst. bok H st1 E. destruct (He _ _ H V) as [V1 G]. cbn [filter]. unfold is_int_ty at 1.
    destruct (IH H3 _ _ E V1) as (k & K1 & K2 & K3). destruct st' as [v' s']. cbn in V. subst v'.
    destruct (typ e) eqn:T; try congruence; try contradiction.
    + destruct G as (b & Eb & _). cbn in Eb. exists (b :: k). split; auto. split; [|cbn; congruence]. rewrite Eb, K2. reflexivity.
    + cbn in G. exists k. split; auto. split; auto. rewrite G, K2. reflexivity.
Qed.
Lemma elems_ok : forall l, Forall sound l -> Forall scalar l -> forall st st' stop, run_elems run l st = Ok (st', stop) -> fst st' = true ->
  stop = false /\ st = (true, snd st) /\ exists bs, st' = (true, bs ++ snd st) /\ Forall2 covers l bs.
Proof.
  induction 1 as [|e l He _ IH]; intros Sc st st' stop H V; cbn [run_elems] in H.
  - injection H as <- <-. destruct st as [v s]. cbn in *. subst. repeat split; auto. exists []. split; auto.
  - inversion Sc; subst. bokp H st1 stop1 E. destruct stop1.
    + injection H as <- <-. destruct (IH H3 _ _ _ E V) as (X & _). discriminate.
    + bok H st2 E2. destruct (fst st2) eqn:V2.
      * injection H as <- <-. destruct (sound_scalar _ _ _ He H2 E2 V2) as (b & E3 & E4 & C).
        destruct (IH H3 _ _ _ E) as (_ & K1 & bs & K2 & K3); [now rewrite E3|]. split; auto. split; auto. exists (b :: bs).
        split; [|constructor; auto]. rewrite E4. f_equal. cbn. f_equal. rewrite K2. reflexivity.
      * bok H st3 E3. injection H as <- <-. apply popn_fst in E3. congruence.
Qed.

(** linear terms *)
Lemma lo_minf : forall z, lo minus_infinity z. Proof. left. reflexivity. Qed.
Lemma hi_inf : forall z, hi iv_infinity z. Proof. left. reflexivity. Qed.
Lemma lo_fin : forall l z, fin l -> lo l z -> iv_v l <= z.
Proof. intros l z F [->|[_ H]]; auto. exfalso. now apply nfm. Qed.
Lemma hi_fin : forall u z, fin u -> hi u z -> z <= iv_v u.
Proof. intros l z F [->|[_ H]]; auto. exfalso. now apply nfp. Qed.
Lemma lin_term_ok : forall cv b lb ub lb' ub', fin cv -> okb b -> okl lb -> oku ub -> lin_term cv b lb ub = Ok (lb', ub') ->
  okl lb' /\ oku ub' /\ forall a z, inb b z -> (lo lb a -> lo lb' (a + iv_v cv * z)) /\ (hi ub a -> hi ub' (a + iv_v cv * z)).
Proof.
  intros cv [l u] lb ub lb' ub' Fc [Ol Ou] Hl Hu H. cbn [fst snd] in *. unfold lin_term in H. cbn [fst snd] in H.
  assert (C : iv_gt cv (ofZ 0) = (0 <? iv_v cv)). { unfold iv_gt. rewrite fin_iv_lt by auto using fin_0. reflexivity. }
  rewrite C in H. destruct (0 <? iv_v cv) eqn:S; bok H lb1 E1; bok H ub1 E2; injection H as <- <-.
  - assert (A1 : okl lb1 /\ forall a z, lo l z -> lo lb a -> lo lb1 (a + iv_v cv * z)).
    { destruct (isFinite l) eqn:Fl.
      - assert (F : fin l) by (apply fin_finite; auto). destruct (isFinite lb) eqn:Flb.
        + assert (F2 : fin lb) by (apply fin_finite; auto). bok E1 p Ep. destruct (fin_mul _ _ _ Fc F Ep) as [Fp Vp]. destruct (fin_add_assign _ _ _ F2 Fp E1) as [Fr Vr].
          split; [right; auto|]. intros a z L1 L2. apply lo_fin in L1, L2; auto. right. split; auto. rewrite Vr, Vp. nia.
        + injection E1 as <-. split; auto. intros a z _ _. destruct Hl as [->|F2]; [apply lo_minf|]. destruct (fin_inf _ F2) as [X _]. unfold isFinite in Flb. rewrite X in Flb. discriminate.
      - injection E1 as <-. split; auto. intros a z _ _. destruct Ol as [->|F2]; [apply lo_minf|]. destruct (fin_inf _ F2) as [X _]. unfold isFinite in Fl. rewrite X in Fl. discriminate. }
    assert (A2 : oku ub1 /\ forall a z, hi u z -> hi ub a -> hi ub1 (a + iv_v cv * z)).
    { destruct (isFinite u) eqn:Fl.
      - assert (F : fin u) by (apply fin_finite; auto). destruct (isFinite ub) eqn:Flb.
        + assert (F2 : fin ub) by (apply fin_finite; auto). bok E2 p Ep. destruct (fin_mul _ _ _ Fc F Ep) as [Fp Vp]. destruct (fin_add_assign _ _ _ F2 Fp E2) as [Fr Vr].
          split; [right; auto|]. intros a z L1 L2. apply hi_fin in L1, L2; auto. right. split; auto. rewrite Vr, Vp. nia.
        + injection E2 as <-. split; auto. intros a z _ _. destruct Hu as [->|F2]; [apply hi_inf|]. destruct (fin_inf _ F2) as [X _]. unfold isFinite in Flb. rewrite X in Flb. discriminate.
      - injection E2 as <-. split; auto. intros a z _ _. destruct Ou as [->|F2]; [apply hi_inf|]. destruct (fin_inf _ F2) as [X _]. unfold isFinite in Fl. rewrite X in Fl. discriminate. }
    destruct A1 as [A1 B1], A2 as [A2 B2]. split; auto. split; auto. intros a z [I1 I2]. cbn [fst snd] in *. auto.
  - assert (A1 : okl lb1 /\ forall a z, hi u z -> lo lb a -> lo lb1 (a + iv_v cv * z)).
    { destruct (isFinite u) eqn:Fl.
      - assert (F : fin u) by (apply fin_finite; auto). destruct (isFinite lb) eqn:Flb.
        + assert (F2 : fin lb) by (apply fin_finite; auto). bok E1 p Ep. destruct (fin_mul _ _ _ Fc F Ep) as [Fp Vp]. destruct (fin_add_assign _ _ _ F2 Fp E1) as [Fr Vr].
          split; [right; auto|]. intros a z L1 L2. apply hi_fin in L1; apply lo_fin in L2; auto. right. split; auto. rewrite Vr, Vp. nia.
        + injection E1 as <-. split; auto. intros a z _ _. destruct Hl as [->|F2]; [apply lo_minf|]. destruct (fin_inf _ F2) as [X _]. unfold isFinite in Flb. rewrite X in Flb. discriminate.
      - destruct Ou as [->|F2]; [|destruct (fin_inf _ F2) as [X _]; unfold isFinite in Fl; rewrite X in Fl; discriminate].
        cbn in E1. injection E1 as <-. split; [left; reflexivity|]. intros; apply lo_minf. }
    assert (A2 : oku ub1 /\ forall a z, lo l z -> hi ub a -> hi ub1 (a + iv_v cv * z)).
    { destruct (isFinite l) eqn:Fl.
      - assert (F : fin l) by (apply fin_finite; auto). destruct (isFinite ub) eqn:Flb.
        + assert (F2 : fin ub) by (apply fin_finite; auto). bok E2 p Ep. destruct (fin_mul _ _ _ Fc F Ep) as [Fp Vp]. destruct (fin_add_assign _ _ _ F2 Fp E2) as [Fr Vr].
          split; [right; auto|]. intros a z L1 L2. apply lo_fin in L1; apply hi_fin in L2; auto. right. split; auto. rewrite Vr, Vp. nia.
        + injection E2 as <-. split; auto. intros a z _ _. destruct Hu as [->|F2]; [apply hi_inf|]. destruct (fin_inf _ F2) as [X _]. unfold isFinite in Flb. rewrite X in Flb. discriminate.
      - destruct Ol as [->|F2]; [|destruct (fin_inf _ F2) as [X _]; unfold isFinite in Fl; rewrite X in Fl; discriminate].
        cbn in E2. injection E2 as <-. split; [left; reflexivity|]. intros; apply hi_inf. }
    destruct A1 as [A1 B1], A2 as [A2 B2]. split; auto. split; auto. intros a z [I1 I2]. cbn [fst snd] in *. auto.
Qed.
Lemma lin_acc_ok : forall bs cs lb ub v s st', Forall fits64 cs -> Forall okb bs -> okl lb -> oku ub ->
  lin_acc (length bs) cs lb ub (v, bs ++ s) = Ok st' ->
  exists b, st' = (v, b :: s) /\ okb b /\ forall a vs, Forall2 inb bs vs -> lo lb a -> hi ub a -> inb b (a + dot cs vs).
Proof.
  induction bs as [|b bs IH]; intros cs lb ub v s st' Fc Ob Hl Hu H; cbn [length lin_acc app] in H.
  - injection H as <-. exists (lb, ub). split; [reflexivity|]. split; [split; auto|]. intros a vs F L U. inversion F; subst.
    replace (a + dot cs []) with a by (destruct cs; cbn; lia). split; auto.
  - cbn [pop snd fst bind] in H. bok H c Ec. bokp H lb1 ub1 El. destruct cs as [|c0 cs]; [discriminate|]. cbn in Ec. injection Ec as <-.
    inversion Fc; subst. inversion Ob; subst. cbn [tl] in H.
    destruct (lin_term_ok (ofZ c0) b lb ub lb1 ub1) as (O1 & O2 & T); auto using fin_ofZ.
    destruct (IH cs lb1 ub1 v s st') as (b' & E & O & I); auto. exists b'. split; auto. split; auto.
    intros a vs F L U. inversion F; subst. destruct (T a y) as [T1 T2]; auto. cbn [ofZ iv_v] in T1, T2. cbn [dot]. replace (a + (c0 * y + dot cs l')) with (a + c0 * y + dot cs l') by lia. apply I; auto.
Qed.
Lemma dot_ones : forall vs, dot (repeat 1 (length vs)) vs = fold_right Z.add 0 vs.
Proof. induction vs as [|v vs IH]; cbn [length repeat dot fold_right]; [reflexivity|]. rewrite IH. lia. Qed.
Lemma F2_covers : forall l bs, Forall2 covers l bs -> Forall okb bs /\ forall s vs, Forall2 (ev s) l vs -> Forall2 inb bs vs.
Proof.
  induction 1 as [|e b l bs [H1 H2] _ [IH1 IH2]]; split; auto; intros s vs F; inversion F; subst; constructor; eauto.
Qed.

(** if-then-else *)
Lemma join_inv : forall acc st st', join_top acc st = Ok st' -> exists b s, st = (fst st', b :: s) /\ st' = (fst st', (iv_min (fst acc) (fst b), iv_max (snd acc) (snd b)) :: s).
Proof. intros acc st st' H. unfold join_top in H. bokp H b st1 E. apply pop_inv in E. injection H as <-. exists b, (snd st1). split; auto. Qed.
Definition okacc (acc : bnd) : Prop := (fst acc = iv_infinity \/ okl (fst acc)) /\ (snd acc = minus_infinity \/ oku (snd acc)).
Lemma join_ok : forall acc b, okacc acc -> okb b -> okb (iv_min (fst acc) (fst b), iv_max (snd acc) (snd b)) /\
  forall z, inb acc z \/ inb b z -> inb (iv_min (fst acc) (fst b), iv_max (snd acc) (snd b)) z.
Proof.
  intros acc b [A1 A2] [B1 B2]. destruct (min_lo _ _ A1 B1) as [M1 M2]. destruct (max_hi _ _ A2 B2) as [N1 N2].
  split; [split; auto|]. intros z [[H1 H2]|[H1 H2]]; split; cbn [fst snd]; auto.
Qed.
Lemma ite_valid : forall els, sound els -> forall bs acc st st', run_ite run bs (run els) acc st = Ok st' -> fst st' = true ->
  Forall (fun p => sound (snd p)) bs -> fst st = true.
Proof.
  intros els Se. induction bs as [|[c e] bs IH]; intros acc st st' H V Fs; cbn [run_ite] in H.
  - bok H st1 E. destruct (join_inv _ _ _ H) as (b & s & E1 & E2). rewrite V in E1. destruct (Se _ _ E) as [X _]; [now rewrite E1|exact X].
  - inversion Fs; subst. cbn [snd] in *. destruct c as [[[|]|]|]; try discriminate.
    + bok H st1 E. destruct (join_inv _ _ _ H) as (b & s & E1 & E2). rewrite V in E1. destruct (H2 _ _ E) as [X _]; [now rewrite E1|exact X].
    + eapply IH; eauto.
    + bok H st1 E. bokp H b st2 E2. apply pop_inv in E2. apply IH in H; auto. destruct (H2 _ _ E) as [X _]; [rewrite E2; exact H|exact X].
Qed.
Lemma ite_ok : forall els, sound els -> scalar els -> forall bs, Forall (fun p => sound (snd p)) bs -> Forall (fun p => scalar (snd p)) bs ->
  forall acc st st', okacc acc -> run_ite run bs (run els) acc st = Ok st' -> fst st' = true ->
  st = (true, snd st) /\ exists b, st' = (true, b :: snd st) /\ okb b /\ (forall z, inb acc z -> inb b z) /\ (forall s z, ev s (EIte bs els) z -> inb b z).
Proof.
  intros els He Se. induction 1 as [|[c e] bs H1 Hbs IH]; intros Sc acc st st' A H V; cbn [run_ite] in H.
  - bok H st1 E. destruct (join_inv _ _ _ H) as (b & s & E1 & E2). rewrite V in *.
    destruct (sound_scalar _ _ _ He Se E) as (b' & K1 & K2 & K3 & K4); [now rewrite E1|]. rewrite K2 in E1. injection E1 as <- <-.
    destruct (join_ok acc b' A K3) as [J1 J2]. split; auto. eexists. split; [exact E2|]. split; auto. split; auto.
    intros s0 z Hz. inversion Hz; subst. apply J2. right. eauto.
  - inversion Sc; subst. cbn [snd] in *. destruct c as [[[|]|]|].
    + bok H st1 E. destruct (join_inv _ _ _ H) as (b & s & E1 & E2). rewrite V in *.
      destruct (sound_scalar _ _ _ H1 H3 E) as (b' & K1 & K2 & K3 & K4); [now rewrite E1|]. rewrite K2 in E1. injection E1 as <- <-.
      destruct (join_ok acc b' A K3) as [J1 J2]. split; auto. eexists. split; [exact E2|]. split; auto. split; auto.
      intros s0 z Hz. inversion Hz; subst. apply J2. right. eauto.
    + destruct (IH H4 acc st st' A H V) as (K1 & b & K2 & K3 & K4 & K5). split; auto. exists b. split; auto. split; auto. split; auto.
      intros s z Hz. inversion Hz; subst. eauto.
    + discriminate.
    + bok H st1 E. bokp H b st2 E2. apply pop_inv in E2.
      destruct (fst st2) eqn:V2.
      * rewrite E2 in E. destruct (sound_scalar _ _ _ H1 H3 E eq_refl) as (b' & K1 & K2 & K3 & K4). injection K2 as -> K2.
        destruct (join_ok acc b' A K3) as [J1 J2]. destruct st2 as [v2 s2]. cbn in V2, K2. subst v2 s2.
        destruct (IH H4 (iv_min (fst acc) (fst b'), iv_max (snd acc) (snd b')) (true, snd st) st') as (_ & b & L2 & L3 & L4 & L5); auto.
        { destruct J1 as [J1 J3]. split; right; auto. }
        split; auto. exists b. split; auto. split; auto. split; [intros z Hz; apply L4; apply J2; auto|].
        intros s z Hz. inversion Hz; subst; [apply L4; apply J2; right; eauto|eauto].
      * apply ite_valid in H; auto. congruence.
Qed.

(** array accesses *)
Lemma same_idx_eq : forall a b, same_idx a b = true <-> a = b.
Proof.
  induction a as [|x a IH]; intros [|y b]; cbn; try (split; congruence). rewrite andb_true_iff, IH, Z.eqb_eq. split; [intros [-> ->]; auto|]. intros H. injection H. auto.
Qed.
Lemma run_elem_in : forall t is st r, run_elem run t is st = Some r -> exists e, In (is, e) t /\ r = run e st.
Proof.
  induction t as [|[js e] t IH]; intros is st r H; cbn in H; [discriminate|]. destruct (same_idx js is) eqn:E.
  - apply same_idx_eq in E. subst js. injection H as <-. exists e. split; [left|]; auto.
  - destruct (IH _ _ _ H) as (e' & I & ->). exists e'. split; [right|]; auto.
Qed.
Lemma par_indices_ok : forall idx is s vs, par_indices idx = Ok is -> Forall2 (ev s) idx vs -> vs = is.
Proof.
  induction idx as [|e idx IH]; intros is s vs H F; inversion F; subst; cbn [par_indices] in H; [congruence|].
  destruct e; try discriminate. bok H z Ez. bok H zs Ezs. injection H as <-. f_equal; [|eapply IH; eauto].
  match goal with H : ev _ (EPar _ _) _ |- _ => rename H into HE end. inversion HE; subst; cbn in Ez.
  - match goal with H : is_int _ _ |- _ => rename H into HI end. apply is_int_fin in HI. destruct HI as [Fi HI].
    unfold toInt in Ez. destruct (fin_inf i Fi) as [A B]. rewrite A in Ez. cbn in Ez. congruence.
  - destruct b; congruence.
Qed.
Lemma nodup_fst : forall (t : list (list Z * ex)) i a b, NoDup (map fst t) -> In (i, a) t -> In (i, b) t -> a = b.
Proof.
  induction t as [|[j e] t IH]; intros i a b N Ha Hb; [destruct Ha|]. inversion N; subst.
  assert (K : forall c, In (i, c) t -> In i (map fst t)) by (intros c Hc; apply in_map_iff; exists (i, c); auto).
  destruct Ha as [Ha|Ha], Hb as [Hb|Hb].
  - congruence.
  - injection Ha as -> ->. exfalso. eauto.
  - injection Hb as -> ->. exfalso. eauto.
  - eauto.
Qed.

(** operators *)
Lemma comp_run : forall e l u s b, compute_int_bounds e = Ok (l, u, true) -> run e (true, s) = Ok (true, b :: s) -> b = (l, u).
Proof.
  intros e l u s b H R. unfold compute_int_bounds in H. destruct (run e (true, [])) as [[v st]|x|] eqn:E.
  - pose proof (run_ext e s _ _ E) as X. unfold ext in X. cbn [fst snd app] in X. rewrite X in R. injection R as -> R.
    destruct st as [|b' st]; [discriminate|]. injection R as -> R. injection H as <- <-. destruct b; reflexivity.
  - destruct x; discriminate.
  - discriminate.
Qed.
Lemma finite4_fin : forall b0 b1, okb b0 -> okb b1 -> finite4 b0 b1 = true -> fin (fst b0) /\ fin (snd b0) /\ fin (fst b1) /\ fin (snd b1).
Proof.
  intros b0 b1 [A B] [C D] H. unfold finite4 in H. apply andb_true_iff in H. destruct H as [H H4]. apply andb_true_iff in H. destruct H as [H H3].
  apply andb_true_iff in H. destruct H as [H1 H2]. repeat split; apply fin_finite; auto.
Qed.
Lemma abs_ok : forall b r, okb b -> abs_bounds b = Ok r -> okb r /\ forall z, inb b z -> inb r (Z.abs z).
Proof.
  intros [l u] r [Ol Ou] H. unfold abs_bounds in H. cbn [fst snd] in *.
  assert (L0 : iv_lt l (ofZ 0) = true /\ (l = minus_infinity \/ (fin l /\ iv_v l < 0)) \/ iv_lt l (ofZ 0) = false /\ fin l /\ 0 <= iv_v l).
  { destruct Ol as [->|F]; [left; split; [reflexivity|auto]|]. rewrite fin_iv_lt by auto using fin_0. cbn [ofZ iv_v]. destruct (iv_v l <? 0) eqn:E; [left|right]; repeat split; auto; try lia. right. split; auto. lia. }
  assert (U0 : iv_lt u (ofZ 0) = true /\ fin u /\ iv_v u < 0 \/ iv_lt u (ofZ 0) = false /\ (u = iv_infinity \/ (fin u /\ 0 <= iv_v u))).
  { destruct Ou as [->|F]; [right; split; [reflexivity|auto]|]. rewrite fin_iv_lt by auto using fin_0. cbn [ofZ iv_v]. destruct (iv_v u <? 0) eqn:E; [left|right]; repeat split; auto; try lia. right. split; auto. lia. }
  destruct L0 as [[E1 L]|(E1 & Fl & L)]; rewrite E1 in H.
  - destruct U0 as [(E2 & Fu & U)|[E2 U]]; rewrite E2 in H.
    + bok H a Ea. bok H c Ec. injection H as <-. destruct (neg_u _ _ Ou Ea) as [A1 A2]. destruct (neg_l _ _ Ol Ec) as [C1 C2].
      split; [split; auto|]. intros z [Z1 Z2]. cbn [fst snd] in *. pose proof (hi_fin _ _ Fu Z2). rewrite Z.abs_neq by lia. split; cbn; auto.
    + bok H a Ea. injection H as <-. destruct (neg_l _ _ Ol Ea) as [A1 A2]. destruct (max_hi a u) as [M1 M2]; auto.
      split; [split; cbn; auto; right; apply fin_0|]. intros z [Z1 Z2]. cbn [fst snd] in *. split; cbn [fst snd].
      * right. split; [apply fin_0|]. cbn. lia.
      * apply M2. destruct (Z.le_ge_cases 0 z); [right; rewrite Z.abs_eq by lia; auto|left; rewrite Z.abs_neq by lia; auto].
  - injection H as <-. split; [split; auto|]. intros z [Z1 Z2]. cbn [fst snd] in *. pose proof (lo_fin _ _ Fl Z1). rewrite Z.abs_eq by lia. split; auto.
Qed.
(* bool2int: the maximum of a lower bound with 0 and the minimum of an upper bound with 1 *)
Lemma max0_lo : forall l, okl l -> okl (iv_max (ofZ 0) l) /\ forall z, 0 <= z -> lo l z -> lo (iv_max (ofZ 0) l) z.
Proof.
  intros l [->|F].
  - cbn. split; [right; apply fin_0|]. intros z Hz _. right. split; [apply fin_0|]. exact Hz.
  - destruct (fin_max (ofZ 0) l fin_0 F) as [G V]. split; [right; auto|]. intros z Hz L. apply lo_fin in L; auto. right. split; auto. rewrite V. cbn. lia.
Qed.
Lemma min1_hi : forall u, oku u -> oku (iv_min (ofZ 1) u) /\ forall z, z <= 1 -> hi u z -> hi (iv_min (ofZ 1) u) z.
Proof.
  intros l [->|F].
  - cbn. split; [right; apply fin_1|]. intros z Hz _. right. split; [apply fin_1|]. exact Hz.
  - destruct (fin_min (ofZ 1) l fin_1 F) as [G V]. split; [right; auto|]. intros z Hz L. apply hi_fin in L; auto. right. split; auto. rewrite V. cbn. lia.
Qed.
Lemma cov_bool : forall b, okb (b2i b, b2i b) /\ inb (b2i b, b2i b) (if b then 1 else 0).
Proof. intros b. split; [apply fin_ok; apply b2i_fin|]. apply inb_fin; try apply b2i_fin. cbn [fst snd]. rewrite b2i_v. lia. Qed.
Lemma cov_01 : okb (ofZ 0, ofZ 1) /\ forall z, z = 0 \/ z = 1 -> inb (ofZ 0, ofZ 1) z.
Proof. split; [apply fin_ok; [apply fin_0|apply fin_1]|]. intros z Hz. apply inb_fin; [apply fin_0|apply fin_1|]. cbn. lia. Qed.

Lemma good_push : forall e v s b, scalar e -> v = true -> covers e b -> good e (v, s) (v, b :: s).
Proof. intros e v s b Sc -> C. split; [reflexivity|]. destruct Sc as [-> | ->]; exists b; auto. Qed.
Lemma good_step : forall e a st st' , scalar e -> sound a -> scalar a -> run a st = Ok st' -> fst st' = true -> (forall b, covers a b -> covers e b) -> good e st st'.
Proof.
  intros e a st st' Se Ha Sa R V C. destruct (sound_scalar _ _ _ Ha Sa R V) as (b & E1 & E2 & K). rewrite E1, E2. apply good_push; auto.
Qed.
Lemma bad_not : forall st, fst (bad st) = true -> False. Proof. intros st H. discriminate. Qed.

Ltac inv H := inversion H; subst; clear H.
Lemma snd_par : forall t v, (forall i, v = PInt i -> exists z, is_int i z) -> sound (EPar t v).
Proof.
  intros t v HI [b0 s0] st' R V. cbn [run] in R. unfold enter_par in R. destruct t.
  - destruct v; try discriminate; injection R as <-; try discriminate.
    destruct (HI _ eq_refl) as [z Hz]. pose proof (is_int_fin _ _ Hz) as [F E]. cbn in V. apply good_push; [left; reflexivity|auto|].
    split; [apply fin_ok; auto|]. intros s y Hy. inversion Hy; subst. apply inb_fin; auto. cbn.
    match goal with H : is_int _ y |- _ => apply is_int_fin in H; destruct H end. lia.
  - destruct v; try discriminate; injection R as <-; try discriminate.
    cbn in V. apply good_push; [right; reflexivity|auto|]. destruct (cov_bool b) as [C1 C2]. split; auto.
    intros s y Hy. inversion Hy; subst. auto.
  - injection R as <-. split; auto. reflexivity.
  - destruct v; try discriminate; injection R as <-; discriminate.
Qed.
Lemma snd_id : forall x isb dom rhs, (forall s, dom = Some (DSet s) -> nf s) -> (forall e, rhs = Some e -> sound e /\ scalar e) -> sound (EId x isb dom rhs).
Proof.
  intros x isb dom rhs HD HR st st' R V.
  assert (Sc : scalar (EId x isb dom rhs)) by (unfold scalar; cbn; destruct isb; auto).
  cbn [run] in R. destruct dom as [[b|s]|].
  - injection R as <-. destruct st as [v s]. cbn in V. apply good_push; auto. destruct (cov_bool b) as [C1 C2]. split; auto.
    intros s0 y Hy. inversion Hy; subst. match goal with H : in_dmn _ _ |- _ => cbn in H; rewrite H end. auto.
  - destruct s as [|r s]; [injection R as <-; discriminate|]. injection R as <-. destruct st as [v s0]. cbn in V. apply good_push; auto.
    destruct (set_bounds (r :: s)) as [C1 C2]; [apply HD; reflexivity|discriminate|]. split; auto.
    intros s1 y Hy. inversion Hy; subst. auto.
  - destruct rhs as [e|].
    + destruct (HR e eq_refl) as [We Se]. eapply (good_step _ e); eauto. intros b [C1 C2]. split; auto. intros s1 y Hy. inversion Hy; subst. eauto.
    + injection R as <-. destruct st as [v s]. cbn in V. apply good_push; auto. destruct isb.
      * destruct cov_01 as [C1 C2]. split; auto. intros s1 y Hy. inversion Hy; subst. auto.
      * split; [split; left; reflexivity|]. intros s1 y Hy. split; left; reflexivity.
Qed.
Lemma snd_ite : forall bs els, Forall (fun p => sound (snd p)) bs -> Forall (fun p => scalar (snd p)) bs -> sound els -> scalar els -> sound (EIte bs els).
Proof.
  intros bs els H1 H2 H3 H4 st st' R V. cbn [run] in R.
  destruct (ite_ok els H3 H4 bs H1 H2 (iv_infinity, minus_infinity) st st') as (E1 & b & E2 & O & _ & C); auto.
  - split; left; reflexivity.
  - rewrite E1, E2. apply good_push; [left; reflexivity|auto|split; auto].
Qed.
Lemma snd_acc : forall idx x elems dom, Forall sound idx -> Forall scalar idx ->
  (forall t, elems = Some t -> NoDup (map fst t) /\ Forall (fun p => sound (snd p) /\ scalar (snd p)) t) -> nf_opt dom -> sound (EAcc idx x elems dom).
Proof.
  intros idx x elems dom H1 H2 HT HD st st' R V. cbn [run] in R. bok R st1 E1. bok R st2 E2.
  assert (K : fst st2 = true -> st = st2 /\ st2 = (true, snd st2)).
  { intros V2. pose proof (popn_fst _ _ _ E2) as V1. rewrite V2 in V1. destruct (rev_scalar idx H1 H2 st st1 E1 (eq_sym V1)) as (k & K1 & K2 & K3).
    rewrite K2, <- K3, popn_app in E2. injection E2 as <-. auto. }
  destruct x as [x|]; [|injection R as <-; discriminate].
  bok R r Er. destruct r as [r|].
  - destruct elems as [t|]; [|discriminate]. destruct (forallb is_par idx); [|discriminate]. bok Er is Ei. injection Er as Er.
    destruct (run_elem_in _ _ _ _ Er) as (e & Ie & ->). destruct (HT t eq_refl) as [N F]. rewrite Forall_forall in F. destruct (F _ Ie) as [Se Sc]. cbn in Se, Sc.
    destruct (sound_scalar _ _ _ Se Sc R V) as (b & B1 & B2 & C1 & C2). destruct (K (f_equal fst B1)) as [K1 K2]. subst st2. rewrite B1, B2. apply good_push; [left; reflexivity|auto|].
    split; auto. intros s z Hz. inversion Hz; subst.
    match goal with H : Forall2 _ idx ?is' |- _ => pose proof (par_indices_ok _ _ _ _ Ei H); subst is' end.
    match goal with H : In (is, ?e') t |- _ => assert (e = e') by (eapply nodup_fst; eauto); subst e' end. eauto.
  - destruct dom as [[|r s]|]; try (injection R as <-; discriminate). injection R as <-. destruct (K V) as [K1 K2]. rewrite K1, K2. apply good_push; [left; reflexivity|auto|].
    destruct (set_bounds (r :: s)) as [C1 C2]; [exact HD|discriminate|]. split; auto. intros s1 z Hz. inversion Hz; subst; auto.
Qed.
Lemma two_run : forall a b st st1 st2, sound a -> sound b -> scalar a -> scalar b -> run a st = Ok st1 -> run b st1 = Ok st2 -> fst st2 = true ->
  exists x y, st = (true, snd st) /\ st1 = (true, x :: snd st) /\ st2 = (true, y :: x :: snd st) /\ covers a x /\ covers b y.
Proof.
  intros a b st st1 st2 Ha Hb Sa Sb R1 R2 V. destruct (sound_scalar _ _ _ Hb Sb R2 V) as (y & Y1 & Y2 & Y3).
  destruct (sound_scalar _ _ _ Ha Sa R1 (f_equal fst Y1)) as (x & X1 & X2 & X3). exists x, y. split; auto. split; auto. split; auto. rewrite Y2, X2. reflexivity.
Qed.
Definition div_ok (op : bop) (a b : ex) : Prop := op = BIDiv -> exists l0 u0 l1 u1,
    compute_int_bounds a = Ok (ofZ l0, ofZ u0, true) /\ compute_int_bounds b = Ok (ofZ l1, ofZ u1, true) /\
    l0 <> 0 /\ u0 <> 0 /\ (0 <= l1 \/ u1 <= 0).
Lemma snd_bin : forall op a b, sound a -> sound b -> scalar a -> scalar b -> op <> BMod -> div_ok op a b -> sound (EBin op a b).
Proof.
  intros op a b Ha Hb Sa Sb NM DV st st' R V. cbn [run] in R. bok R st1 E1. bok R st2 E2. bokp R b1 st3 E3. bokp R b0 st4 E4. bok R ob E5.
  apply pop_inv in E3, E4. destruct ob as [r|]; [|injection R as <-; discriminate]. injection R as <-.
  assert (V2 : fst st2 = true) by (rewrite E3; cbn; rewrite E4; exact V).
  destruct (two_run _ _ _ _ _ Ha Hb Sa Sb E1 E2 V2) as (x & y & X1 & X2 & X3 & [CX1 CX2] & [CY1 CY2]).
  assert (Q : b1 = y /\ b0 = x /\ st4 = (true, snd st)).
  { destruct st3, st4. cbn in *. rewrite X3 in E3. injection E4 as ? ?. injection E3 as ? ? ?. subst. split; [auto|]. match goal with H : _ :: _ = _ :: _ |- _ => injection H as ? ? end. subst. auto. }
  destruct Q as (-> & -> & ->). rewrite X1. apply good_push; [left; reflexivity|auto|].
  unfold bin_bounds in E5. destruct (finite4 x y) eqn:F4; [|discriminate]. cbn [negb] in E5. destruct (finite4_fin x y CX1 CY1 F4) as (F1 & F2 & F3 & F5).
  destruct op; try congruence.
  - bok E5 l El. bok E5 u Eu. injection E5 as <-. destruct (fin_add _ _ _ F1 F3 El) as [G1 W1]. destruct (fin_add _ _ _ F2 F5 Eu) as [G2 W2].
    split; [apply fin_ok; auto|]. intros s z Hz. inversion Hz; subst. apply inb_fin; auto. cbn [fst snd]. rewrite W1, W2.
    match goal with HA : ev s a ?p, HB : ev s b ?q |- _ => pose proof (proj1 (inb_fin x p F1 F2) (CX2 s p HA)); pose proof (proj1 (inb_fin y q F3 F5) (CY2 s q HB)) end. lia.
  - bok E5 l El. bok E5 u Eu. injection E5 as <-. destruct (fin_sub _ _ _ F1 F5 El) as [G1 W1]. destruct (fin_sub _ _ _ F2 F3 Eu) as [G2 W2].
    split; [apply fin_ok; auto|]. intros s z Hz. inversion Hz; subst. apply inb_fin; auto. cbn [fst snd]. rewrite W1, W2.
    match goal with HA : ev s a ?p, HB : ev s b ?q |- _ => pose proof (proj1 (inb_fin x p F1 F2) (CX2 s p HA)); pose proof (proj1 (inb_fin y q F3 F5) (CY2 s q HB)) end. lia.
  - bok E5 c Ec. injection E5 as <-. destruct (mul_corners _ _ _ F1 F2 F3 F5 Ec) as [M1 M2]. split; auto. intros s z Hz. inversion Hz; subst. eauto.
  - destruct (DV eq_refl) as (l0 & u0 & l1 & u1 & B0 & B1 & N1 & N2 & S1).
    rewrite X1, X2 in E1. pose proof (comp_run _ _ _ _ _ B0 E1). rewrite X2, X3 in E2. pose proof (comp_run _ _ _ _ _ B1 E2). subst x y. cbn [fst snd] in *.
    bok E5 c Ec. injection E5 as <-.
    destruct (div_corners (ofZ l0, ofZ u0) (ofZ l1, ofZ u1) c) as [M1 M2]; auto. split; auto. intros s z Hz. inversion Hz; subst. eauto.
Qed.
Lemma snd_un : forall op a, sound a -> scalar a -> sound (EUn op a).
Proof.
  intros op a Ha Sa st st' R V. cbn [run] in R. bok R st1 E1. destruct op.
  - injection R as <-. eapply (good_step _ a); eauto; [left; reflexivity|]. intros b [C1 C2]. split; auto. intros s z Hz. inversion Hz; subst; eauto.
  - bokp R b st2 E2. bok R l El. bok R u Eu. injection R as <-. apply pop_inv in E2. cbn in V.
    destruct (sound_scalar _ _ _ Ha Sa E1) as (x & X1 & X2 & C1 & C2); [now rewrite E2|]. rewrite X2 in E2. injection E2 as _ <- E2.
    rewrite X1. unfold push. rewrite V, <- E2. apply good_push; [left; reflexivity|auto|]. destruct C1 as [O1 O2].
    destruct (neg_l _ _ O1 El) as [A1 A2]. destruct (neg_u _ _ O2 Eu) as [B1 B2]. split; [split; auto|]. intros s z Hz. inversion Hz; subst.
    match goal with HA : ev s a ?p |- _ => destruct (CX2 s p HA) || destruct (C2 s p HA) end. split; cbn; auto.
Qed.
Lemma lin_acc_fst : forall n cs lb ub st st', lin_acc n cs lb ub st = Ok st' -> fst st' = fst st.
Proof.
  induction n as [|n IH]; intros cs lb ub st st' R; cbn [lin_acc] in R; [injection R as <-; reflexivity|].
  bokp R b st2 E2. apply pop_inv in E2. bok R c Ec. bokp R lb1 ub1 El. apply IH in R. rewrite R, E2. reflexivity.
Qed.
Lemma acc_run : forall l cs d st st' stop st1, Forall sound l -> Forall scalar l -> Forall fits64 cs -> fits64 d ->
  run_elems run l st = Ok (st1, stop) -> (if stop : bool then Ok st1 else lin_acc (length l) cs (ofZ d) (ofZ d) st1) = Ok st' -> fst st' = true ->
  exists b, st = (true, snd st) /\ st' = (true, b :: snd st) /\ okb b /\ forall s vs, Forall2 (ev s) l vs -> inb b (d + dot cs vs).
Proof.
  intros l cs d st st' stop st1 H1 H2 Fc Fd E R V.
  assert (V1 : fst st1 = true).
  { destruct stop; [injection R as <-; exact V|]. apply lin_acc_fst in R. congruence. }
  destruct (elems_ok l H1 H2 _ _ _ E V1) as (-> & E1 & bs & E2 & F). destruct (F2_covers _ _ F) as [O C]. rewrite E2 in R.
  assert (L : length l = length bs) by (clear - F; induction F; cbn; congruence). rewrite L in R.
  destruct (lin_acc_ok bs cs (ofZ d) (ofZ d) true (snd st) st' Fc O) as (b & B1 & B2 & B3); auto.
  1, 2: right; apply fin_ofZ; auto.
  exists b. split; auto. split; auto. split; auto. intros s vs Fv. apply B3; eauto; right; split; try (apply fin_ofZ; auto); cbn; lia.
Qed.
Lemma snd_lin : forall cs al d, (forall l, al = Some l -> Forall sound l /\ Forall scalar l) -> Forall fits64 cs -> fits64 d -> sound (ELin cs al d).
Proof.
  intros cs al d HL Fc Fd st st' R V. cbn [run] in R. destruct al as [l|]; [|injection R as <-; discriminate]. destruct (HL l eq_refl) as [H1 H2].
  cbn [push pop snd fst bind] in R. bokp R st1 stop E. destruct (acc_run l cs d _ st' stop st1 H1 H2 Fc Fd E R V) as (b & B1 & B2 & B3 & B4).
  cbn in B1, B2. destruct st as [v s]. cbn in *. injection B1 as ->. rewrite B2. apply good_push; [left; reflexivity|auto|]. split; auto.
  intros s0 z Hz. inversion Hz; subst. rewrite Z.add_comm. eauto.
Qed.
Lemma snd_sum : forall al, (forall l, al = Some l -> Forall sound l /\ Forall scalar l) -> sound (ESum al).
Proof.
  intros al HL st st' R V. cbn [run] in R. destruct al as [l|]; [|injection R as <-; discriminate]. destruct (HL l eq_refl) as [H1 H2].
  bokp R st1 stop E. destruct (acc_run l (repeat 1 (length l)) 0 st st' stop st1 H1 H2) as (b & B1 & B2 & B3 & B4); auto.
  { apply Forall_forall. intros c Hc. apply repeat_spec in Hc. subst. unfold fits64, LLONG_MIN, LLONG_MAX. lia. }
  { unfold fits64, LLONG_MIN, LLONG_MAX. lia. }
  rewrite B1, B2. apply good_push; [left; reflexivity|auto|]. split; auto.
  intros s0 z Hz. inversion Hz; subst. rewrite <- dot_ones. replace (length vs) with (length l); [apply (B4 s0); auto|].
  match goal with H : Forall2 _ l vs |- _ => clear - H; induction H; cbn; congruence end.
Qed.
Lemma snd_times : forall a b, sound a -> sound b -> scalar a -> scalar b -> sound (ETimes a b).
Proof.
  intros a b Ha Hb Sa Sb st st' R V. cbn [run] in R. bok R st1 E1. bok R st2 E2. bokp R b1 st3 E3. bokp R b0 st4 E4.
  apply pop_inv in E3, E4. destruct (finite4 b0 b1) eqn:F4; cbn [negb] in R; [|injection R as <-; discriminate]. bok R c Ec. injection R as <-.
  assert (V2 : fst st2 = true) by (rewrite E3; cbn; rewrite E4; exact V).
  destruct (two_run _ _ _ _ _ Hb Ha Sb Sa E1 E2 V2) as (x & y & X1 & X2 & X3 & [CX1 CX2] & [CY1 CY2]).
  assert (Q : b1 = y /\ b0 = x /\ st4 = (true, snd st)).
  { destruct st3, st4. cbn in *. rewrite X3 in E3. injection E4 as ? ?. injection E3 as ? ? ?. subst. split; [auto|]. match goal with H : _ :: _ = _ :: _ |- _ => injection H as ? ? end. subst. auto. }
  destruct Q as (-> & -> & ->). rewrite X1. apply good_push; [left; reflexivity|auto|].
  destruct (finite4_fin x y CX1 CY1 F4) as (F1 & F2 & F3 & F5). destruct (mul_corners _ _ _ F1 F2 F3 F5 Ec) as [M1 M2]. split; auto. intros s z Hz. inversion Hz; subst. rewrite Z.mul_comm. eauto.
Qed.
Lemma one_run : forall a st st1 b st2, sound a -> scalar a -> run a st = Ok st1 -> pop st1 = Ok (b, st2) -> fst st2 = true ->
  st = (true, snd st) /\ st2 = (true, snd st) /\ covers a b.
Proof.
  intros a st st1 b st2 Ha Sa R E V. apply pop_inv in E. destruct (sound_scalar _ _ _ Ha Sa R) as (x & X1 & X2 & C); [now rewrite E|].
  rewrite X2 in E. destruct st2 as [v s]. cbn in *. injection E as <- <- <-. auto.
Qed.
Lemma snd_b2i : forall a, sound a -> scalar a -> sound (EBool2Int a).
Proof.
  intros a Ha Sa st st' R V. cbn [run] in R. bok R st1 E1. bokp R b st2 E2. injection R as <-.
  destruct (one_run _ _ _ _ _ Ha Sa E1 E2 V) as (X1 & X2 & [O1 O2] & C). rewrite X1, X2. apply good_push; [left; reflexivity|auto|].
  destruct (max0_lo _ O1) as [A1 A2]. destruct (min1_hi _ O2) as [B1 B2]. split; [split; auto|]. intros s z Hz. inversion Hz; subst.
  match goal with HA : ev s a ?p |- _ => destruct (C s p HA) end. split; cbn [fst snd]; [apply A2; auto; lia|apply B2; auto; lia].
Qed.
Lemma snd_abs : forall a, sound a -> scalar a -> sound (EAbs a).
Proof.
  intros a Ha Sa st st' R V. cbn [run] in R. bok R st1 E1. bokp R b st2 E2. bok R r Er. injection R as <-.
  destruct (one_run _ _ _ _ _ Ha Sa E1 E2 V) as (X1 & X2 & O & C). rewrite X1, X2. apply good_push; [left; reflexivity|auto|].
  destruct (abs_ok _ _ O Er) as [A1 A2]. split; auto. intros s z Hz. inversion Hz; subst. eauto.
Qed.
Lemma snd_sol : forall a, sound a -> scalar a -> sound (ESol a).
Proof.
  intros a Ha Sa st st' R V. cbn [run] in R. eapply (good_step _ a); eauto; [left; reflexivity|]. intros b [C1 C2]. split; auto. intros s z Hz. inversion Hz; subst; eauto.
Qed.
Lemma snd_uniform : forall v1 v2, wfe (EPar TyInt v1) -> wfe (EPar TyInt v2) -> sound (EUniform (EPar TyInt v1) (EPar TyInt v2)).
Proof.
  intros v1 v2 W1 W2 st st' R V. inv W1. inv W2. cbn [run] in R. bok R st1 E1. bok R st2 E2. bokp R b0 st3 E3. bokp R b1 st4 E4. injection R as <-. apply pop_inv in E3, E4.
  assert (V2 : fst st2 = true) by (rewrite E3; cbn; rewrite E4; exact V).
  assert (S1 : sound (EPar TyInt v1)) by (apply snd_par; auto). assert (S2 : sound (EPar TyInt v2)) by (apply snd_par; auto).
  destruct (two_run _ _ _ _ _ S2 S1 (or_introl eq_refl) (or_introl eq_refl) E1 E2 V2) as (x & y & X1 & X2 & X3 & [CX1 CX2] & [CY1 CY2]).
  assert (Q : b0 = y /\ b1 = x /\ st4 = (true, snd st)).
  { destruct st3, st4. cbn in *. rewrite X3 in E3. injection E4 as ? ?. injection E3 as ? ? ?. subst. split; [auto|]. match goal with H : _ :: _ = _ :: _ |- _ => injection H as ? ? end. subst. auto. }
  destruct Q as (-> & -> & ->). rewrite X1. apply good_push; [left; reflexivity|auto|].
  rewrite X1, X2 in E1. rewrite X2, X3 in E2. cbn in E1, E2. unfold enter_par in E1, E2.
  destruct v2 as [i2| | | |]; try discriminate. destruct v1 as [i1| | | |]; try discriminate. cbn in E1, E2. injection E1 as <-. injection E2 as <-. cbn [fst snd].
  destruct CX1 as [K1 K2]. destruct CY1 as [K3 K4]. split; [split; auto|]. intros s z Hz. inversion Hz; subst.
  match goal with HA : ev s (EPar TyInt (PInt i1)) ?p, HB : ev s (EPar TyInt (PInt i2)) ?q |- _ => destruct (CY2 s p HA); destruct (CX2 s q HB) end. cbn [fst snd] in *.
  split; cbn [fst snd].
  - match goal with H : lo i1 ?p |- _ => destruct H as [->|[? ?]] end; [left; auto|right; split; auto; lia].
  - match goal with H : hi i2 ?p |- _ => destruct H as [->|[? ?]] end; [left; auto|right; split; auto; lia].
Qed.
Lemma snd_call : forall args dom, Forall sound args -> Forall (fun e => typ e <> TyBool) args -> nf dom -> sound (ECallDom args dom).
Proof.
  intros args dom H1 H2 N st st' R V. cbn [run] in R. bok R st1 E1. bok R st2 E2.
  assert (V2 : fst st2 = true) by (destruct dom; injection R as <-; exact V).
  pose proof (popn_fst _ _ _ E2) as V1. rewrite V2 in V1. destruct (rev_args args H1 H2 st st1 E1 (eq_sym V1)) as (k & K1 & K2 & K3).
  rewrite K2, <- K3, popn_app in E2. injection E2 as <-. rewrite K1.
  destruct dom as [|r s].
  - injection R as <-. apply good_push; [left; reflexivity|auto|]. split; [apply fin_ok; [apply fin_1|apply fin_0]|]. intros s z Hz. inversion Hz; subst.
    match goal with H : elem z [] |- _ => destruct H as (? & ? & [] & _) end.
  - injection R as <-. apply good_push; [left; reflexivity|auto|]. destruct (set_bounds (r :: s)) as [C1 C2]; [exact N|discriminate|]. split; auto. intros s1 z Hz. inversion Hz; subst; auto.
Qed.

Lemma both_Forall : forall (P Q R : ex -> Prop) l, Forall (fun e => P e -> Q e -> R e) l -> Forall P l -> Forall Q l -> Forall R l.
Proof. intros P Q R l H. induction H; intros A B; inv A; inv B; constructor; auto. Qed.
Lemma Forall_l : forall A (P Q : A -> Prop) l, Forall (fun e => P e /\ Q e) l -> Forall P l.
Proof. intros A P Q l H. induction H as [|x l [? ?] _ IH]; constructor; auto. Qed.
Lemma Forall_r : forall A (P Q : A -> Prop) l, Forall (fun e => P e /\ Q e) l -> Forall Q l.
Proof. intros A P Q l H. induction H as [|x l [? ?] _ IH]; constructor; auto. Qed.
Lemma both_Forall2 : forall A (f : A -> ex) (P Q R : ex -> Prop) l, Forall (fun e => P (f e) -> Q (f e) -> R (f e)) l -> Forall (fun e => P (f e)) l -> Forall (fun e => Q (f e)) l -> Forall (fun e => R (f e)) l.
Proof. intros A f P Q R l H. induction H; intros X Y; inv X; inv Y; constructor; auto. Qed.

Ltac spec_some := repeat match goal with X : forall l, Some ?a = Some l -> _ |- _ => specialize (X a eq_refl) end.
Ltac fl := match goal with X : Forall (fun _ => _ /\ _) ?l |- Forall _ ?l => exact (Forall_l _ _ _ _ X) end.
Ltac fr := match goal with X : Forall (fun _ => _ /\ _) ?l |- Forall _ ?l => exact (Forall_r _ _ _ _ X) end.
Lemma sound_all : forall e, wfe e -> regular e -> sound e.
Proof.
  induction e using ex_ind'; intros W G; inversion W; subst.
  - apply snd_par; auto.
  - inversion G; subst. apply snd_id; auto. intros e He. match goal with X : forall e, rhs = Some e -> wfe e /\ scalar e |- _ => destruct (X e He) end. auto.
  - inversion G; subst. apply snd_ite; auto; [|fr].
    eapply (both_Forall2 _ snd wfe regular sound); [eassumption|fl|eassumption].
  - inversion G; subst. apply snd_acc; auto.
    + eapply (both_Forall wfe regular sound); [eassumption|fl|eassumption].
    + fr.
    + intros t Ht. match goal with X : forall t, elems = Some t -> NoDup _ /\ _ |- _ => destruct (X t Ht) as [N F] end. split; auto.
      assert (A : Forall (fun p => sound (snd p)) t) by (eapply (both_Forall2 _ snd wfe regular sound); [eauto|fl|eauto]).
      apply Forall_r in F. clear - A F. induction A; inv F; constructor; auto.
  - inversion G; subst; apply snd_bin; auto; try discriminate.
    + intros ->. congruence.
    + intros _. exists l0, u0, l1, u1. auto.
  - inversion G; subst. apply snd_un; auto.
  - inversion G; subst. apply snd_lin; auto. intros l Hl. subst al. spec_some. split; [|fr].
    eapply (both_Forall wfe regular sound); [eauto|fl|eauto].
  - inversion G; subst. apply snd_sum; auto. intros l Hl. subst al. spec_some. split; [|fr].
    eapply (both_Forall wfe regular sound); [eauto|fl|eauto].
  - inversion G; subst. apply snd_times; auto.
  - inversion G; subst. apply snd_b2i; auto.
  - inversion G; subst. apply snd_abs; auto.
  - apply snd_uniform; auto.
  - inversion G; subst. apply snd_sol; auto.
  - inversion G; subst. apply snd_call; auto. eapply (both_Forall wfe regular sound); eauto.
  - intros [v s] st' R V. cbn in R. injection R as <-. apply good_push; [right; reflexivity|auto|]. destruct cov_01 as [C1 C2]. split; auto. intros s0 z Hz. inversion Hz; subst; auto.
  - intros st st' R V. cbn [run] in R. bok R st1 E. injection R as <-. discriminate.
  - intros st st' R V. cbn in R. match goal with X : _ \/ _ |- _ => destruct X as [-> | ->] end; injection R as <-; [split; auto; reflexivity|discriminate].
Qed.

(** ** compute_int_bounds *)
Lemma comp_cases : forall e l u, wfe e -> regular e -> scalar e -> compute_int_bounds e = Ok (l, u, true) -> covers e (l, u).
Proof.
  intros e l u W G Sc H. unfold compute_int_bounds in H. destruct (run e (true, [])) as [[v st]|x|] eqn:R.
  - destruct v.
    + destruct (sound_scalar _ _ _ (sound_all e W G) Sc R eq_refl) as (b & _ & E & C). injection E as ->. injection H as <- <-. destruct b; exact C.
    + destruct (typ e) eqn:T; try discriminate. injection H as <- <-. destruct cov_01 as [C1 C2]. split; auto. intros s z Hz. apply C2.
      destruct e; try discriminate T.
      * cbn in T. subst t. inversion Hz; subst; [discriminate R|]. destruct b; auto.
      * inversion Hz; subst. destruct isb; [auto|discriminate].
      * inversion Hz; subst; auto.
      * inversion Hz.
  - destruct x; discriminate.
  - discriminate.
Qed.
Lemma C16_sound_l : forall e l u, wfe e -> regular e -> scalar e -> compute_int_bounds e = Ok (l, u, true) ->
  forall s z, ev s e z -> between z l u.
Proof. intros e l u W G Sc H s z Hz. destruct (comp_cases e l u W G Sc H) as [_ C]. exact (inb_between _ _ (C s z Hz)). Qed.
