(** Proofs about OptModel. *)
Require Import ZArith List Bool Lia ZifyBool Permutation Psatz.
From Verif Require Import Base IntValModel IntValSpec IntValProofs IntValPropProofs SetModel SetSpec SetProofs SetProofs3 SetPropProofs
  LinModel LinSpec LinProofs LinProofs3 DoubleModel DoubleSpec DoubleProofs OptModel OptSpec.
Import ListNotations.
Open Scope Z_scope.

Lemma set_minmax : forall s z mn mx, nf s -> elem z s -> set_min s = Ok mn -> set_max s = Ok mx ->
  exists x y, denote mn = Some x /\ denote mx = Some y /\ ext_le x (Fin z) /\ ext_le (Fin z) y.
Proof.
  intros s z mn mx N E Hmn Hmx. change (between z mn mx).
  destruct (Bz_ok z) as [HB Hz]. pose proof (proj1 (elem_k s z N) E) as M.
  pose proof (nf_nfk _ HB s N) as NK. apply (between_k _ HB z mn mx Hz).
  destruct s as [|[a b] s]; [destruct M|]. cbn [set_min set_max] in *. inversion Hmn; inversion Hmx; subst mn mx. clear Hmn Hmx.
  set (df := (a, b)) in *.
  assert (Wl : wfv (snd (last ((a, b) :: s) df))).
  { assert (I : In (last ((a, b) :: s) df) ((a, b) :: s)).
    { clearbody df. clear. generalize (a, b). induction s; intros p; [left; reflexivity|].
      change (last (p :: a0 :: s) df) with (last (a0 :: s) df). right. apply IHs. }
    apply nf_wfs in N. apply (N _ I). }
  pose proof (memk_last _ _ _ _ HB NK M df) as ML.
  assert (MF : key (Bz z) a <= z).
  { cbn in NK. destruct NK as (O & L1 & NK). destruct M as [M|M]; [cbn in M; lia|].
    apply (memk_lo (Bz z)) with (lo := key (Bz z) b + 2) in M; auto. unfold okr in O. cbn in *. lia. }
  assert (Wa : wfv a) by (cbn in NK; destruct NK as (O & _); unfold okr in O; cbn in O; tauto).
  repeat split; auto.
Qed.
Lemma set_single : forall s mn mx, nf s -> set_min s = Ok mn -> set_max s = Ok mx -> iv_eq mn mx = true ->
  fin mn /\ forall z, elem z s <-> z = iv_v mn.
Proof.
  intros s mn mx N Hmn Hmx E. apply iv_eq_iff in E. subst mx.
  assert (X : exists z, elem z s).
  { destruct s as [|[a b] s]; [discriminate|]. 
    assert (good_range (a, b)) as [z Hz] by (inversion N; subst; auto). exists z, a, b. split; [left; reflexivity|exact Hz]. }
  assert (U : forall z, elem z s -> is_int mn z).
  { intros z Hz. destruct (set_minmax s z mn mn N Hz Hmn Hmx) as (x & y & D1 & D2 & L1 & L2).
    rewrite D1 in D2. inversion D2; subst. destruct y; cbn in *; try contradiction. unfold is_int. rewrite D1. do 2 f_equal. lia. }
  destruct X as [z0 Hz0]. pose proof (U _ Hz0) as I0. apply is_int_fin in I0. destruct I0 as [F0 E0].
  split; auto. intros z. split.
  - intros Hz. apply U in Hz. apply is_int_fin in Hz. lia.
  - intros ->. rewrite E0. auto.
Qed.

Lemma ext_chain : forall x z k,
  (ext_le (Fin z) x -> ext_lt x (Fin k) -> z < k) /\ (ext_le x (Fin z) -> ext_lt (Fin k) x -> k < z) /\
  (ext_le (Fin z) x -> ext_le x (Fin k) -> z <= k) /\ (ext_le x (Fin z) -> ext_le (Fin k) x -> k <= z).
Proof.
  intros x z k. destruct x; unfold ext_lt; cbn; repeat split; intros; try contradiction; try tauto; try lia;
    match goal with H : _ /\ _ |- _ => destruct H as [A B] end;
    match type of B with Fin ?u <> Fin ?w => assert (u <> w) by (intros ->; auto) end; lia.
Qed.
Lemma fin_mod : forall x y r, fin x -> fin y -> iv_mod x y = Ok r -> fin r /\ iv_v y <> 0 /\ iv_v r = Z.rem (iv_v x) (iv_v y).
Proof.
  intros x y r Hx Hy H. rewrite (iv_mod_spec x y _ _ Hx Hy) in H. unfold outcome in H.
  destruct (iv_v y =? 0) eqn:E; cbn in H; inversion H; subst. cbn [ofZ iv_v].
  split; [|split; [lia|reflexivity]]. apply fin_ofZ.
  pose proof (proj2 (fin_inf _ Hx)). pose proof (proj2 (fin_inf _ Hy)). unfold fits64, LLONG_MIN, LLONG_MAX in *.
  pose proof (Z.rem_bound_abs (iv_v x) (iv_v y) ltac:(lia)). lia.
Qed.
Lemma fin_div : forall x y r, fin x -> fin y -> iv_div x y = Ok r -> fin r /\ iv_v y <> 0 /\ iv_v r = Z.quot (iv_v x) (iv_v y).
Proof.
  intros x y r Hx Hy H. destruct (C51_div_never_wrong_l x y _ _ r Hx Hy H) as [A B]. apply is_int_fin in B. tauto.
Qed.
Lemma fin_abs : forall x r, fin x -> iv_abs x = Ok r -> fin r /\ iv_v r = Z.abs (iv_v x).
Proof.
  intros x r Hx H. unfold iv_abs in H. destruct (fin_inf _ Hx) as [I F].
  unfold isFinite in H. rewrite I in H. cbn [negb] in H. rewrite fin_iv_lt in H by auto using fin_0. cbn [ofZ iv_v] in H.
  destruct (iv_v x <? 0) eqn:E.
  - destruct (fin_neg _ _ Hx H). split; auto. lia.
  - inversion H; subst. split; auto. lia.
Qed.
Lemma fin_toInt : forall x z, fin x -> toInt x = Ok z -> z = iv_v x.
Proof. intros x z F H. unfold toInt in H. rewrite (proj1 (fin_inf _ F)) in H. inversion H; auto. Qed.

Section Opt.
Context (fuel : nat) (ds : decls) (sort : list term -> list nat) (dom : ident -> option iset) (bdom : ident -> option bool).
Context (qfloor qceil : Z -> Z -> res Z) (vsort : list ident -> list ident) (lt : ident -> ident -> bool).
Context (s : valuation) (t : bvaluation).
Context (Hsort : sorts sort) (Hfd : fin_decls ds) (Hres : respects s ds) (Hdom : in_domains s dom) (Hb : in_bdomains t bdom).
Context (Hv : forall l, Permutation (vsort l) l).
Context (Hqf : forall a b r, 0 <= a -> 0 < b -> qfloor a b = Ok r -> r = a / b /\ fits64 r).
Context (Hqc : forall a b r, 0 <= a -> 0 < b -> qceil a b = Ok r -> r = - ((- a) / b) /\ fits64 r).

(** the bound: c*x <= rd iff x <= nd (c > 0) or x >= nd (c < 0) *)
Lemma le_bound_ok : forall c0 rd nd, fin c0 -> fin rd -> iv_v c0 <> 0 -> le_bound qfloor qceil c0 rd = Ok nd ->
  fin nd /\ forall x, iv_v c0 * x <= iv_v rd <-> (if iv_v c0 <? 0 then iv_v nd <= x else x <= iv_v nd).
Proof using Hqf Hqc.
  intros c0 rd nd Fc Fr C0 H. unfold le_bound in H.
  apply bind_ok in H. destruct H as (ac & Hac & H). destruct (fin_abs _ _ Fc Hac) as [Fac Eac].
  apply bind_ok in H. destruct H as (ad & Had & H). destruct (fin_abs _ _ Fr Had) as [Fad Ead].
  apply bind_ok in H. destruct H as (m & Hm & H). destruct (fin_mod _ _ _ Fad Fac Hm) as (Fm & Zac & Em).
  rewrite fin_iv_eq in H by auto using fin_0. cbn [ofZ iv_v] in H.
  destruct (iv_v m =? 0) eqn:E0.
  - destruct (fin_div _ _ _ Fr Fc H) as (Fn & _ & En). split; auto. intros x.
    assert (iv_v rd = iv_v c0 * iv_v nd).
    { pose proof (Z.quot_rem' (iv_v rd) (iv_v c0)) as Q. rewrite <- En in Q.
      assert (Z.rem (iv_v rd) (iv_v c0) = 0); [|lia].
      rewrite Eac, Ead in Em. rewrite Z.rem_abs_r in Em by lia.
      destruct (Z.abs_spec (iv_v rd)) as [[L A]|[L A]]; rewrite A in Em; [lia|]. rewrite Z.rem_opp_l in Em by lia. lia. }
    destruct (Z.ltb_spec (iv_v c0) 0); nia.
  - apply bind_ok in H. destruct H as (a & Ha & H). apply fin_toInt in Ha; auto. 
    apply bind_ok in H. destruct H as (b & Hb' & H). apply fin_toInt in Hb'; auto.
    unfold iv_ge in H. rewrite !fin_iv_le in H by auto using fin_0. cbn [ofZ iv_v] in H.
    rewrite <- Ha, <- Hb' in *. subst a b.
    pose proof (Z.div_mod (iv_v ad) (iv_v ac) ltac:(lia)) as D1. pose proof (Z.mod_pos_bound (iv_v ad) (iv_v ac) ltac:(lia)) as B1.
    pose proof (Z.div_mod (- iv_v ad) (iv_v ac) ltac:(lia)) as D2. pose proof (Z.mod_pos_bound (- iv_v ad) (iv_v ac) ltac:(lia)) as B2.
    destruct (Z.leb_spec 0 (iv_v c0)); cbn [andb] in H; destruct (Z.leb_spec 0 (iv_v rd)); cbn [andb] in H;
      apply bind_ok in H; destruct H as (q & Hq & H); (apply Hqf in Hq || apply Hqc in Hq); try lia; destruct Hq as [Eq Fq];
      try (apply bind_ok in H; destruct H as (n & Hn & H); unfold ll in Hn; destruct (fits64b (- q)) eqn:Fn; inversion Hn; subst n;
           unfold fits64b in Fn);
      inversion H; subst nd; (split; [apply fin_ofZ; unfold fits64 in *; lia|]); cbn [ofZ iv_v]; intros x;
      destruct (Z.ltb_spec (iv_v c0) 0); try lia.
    + assert (iv_v ac = iv_v c0) by lia. assert (iv_v ad = iv_v rd) by lia. nia.
    + assert (iv_v ac = iv_v c0) by lia. assert (iv_v ad = - iv_v rd) by lia. nia.
    + assert (iv_v ac = - iv_v c0) by lia. assert (iv_v ad = iv_v rd) by lia. nia.
    + assert (iv_v ac = - iv_v c0) by lia. assert (iv_v ad = - iv_v rd) by lia. nia.
Qed.

Lemma shortened_ok : forall k n c x rhs d st v,
  fin rhs -> fin d -> v = dot (map iv_v c) (map (tval s) x) + iv_v d ->
  shortened k n c x rhs d = Ok st ->
  match st with
  | SOk => True
  | SRewrite c' => sat s t c' <-> match k with LinLe => v <= iv_v rhs | LinEq => v = iv_v rhs | LinNe => v <> iv_v rhs end
  | _ => False
  end.
Proof using All.
  intros k n c x rhs d st v Fr Fd Ev H. unfold shortened in H. destruct (Nat.ltb _ _); [|inversion H; exact I].
  apply bind_ok in H. destruct H as (r & Hr & H). inversion H; subst st. destruct (fin_sub _ _ _ Fr Fd Hr) as [_ E].
  cbn. rewrite E. destruct k; lia.
Qed.

Lemma linear_ok : forall top k c x rhs st, con_ok (FLin k c x rhs) ->
  o_linear fuel ds sort dom qfloor qceil top k c x rhs = Ok st -> right_status s t (FLin k c x rhs) st.
Proof using All.
  intros top k c0 x0 rhs st (Fc & Fx & Fr & Hl) H. unfold o_linear in H.
  apply bind_ok in H. destruct H as (((c, x), d) & Hs & H).
  destruct (simplify_all s _ _ _ _ _ _ _ _ _ Hsort Hfd Fc Fx fin_0 Hl Hs) as (V & Fc' & Fd & Hl' & Nz & Nl & ND).
  specialize (V Hres). unfold lin_value in V. cbn [ofZ iv_v] in V.
  assert (SH : forall k' st', k' = k -> shortened k' (length c0) c x rhs d = Ok st' -> right_status s t (FLin k c0 x0 rhs) st').
  { intros k' st' -> H'. apply (shortened_ok k _ c x rhs d st' (dot (map iv_v c0) (map (tval s) x0))) in H'; auto; [|lia].
    destruct st'; cbn in *; auto; try contradiction. }
  assert (EMPTY : c = [] -> dot (map iv_v c0) (map (tval s) x0) = iv_v d).
  { intros ->. destruct x; cbn in *; lia. }
  destruct c as [|a [|b [|? ?]]].
  - specialize (EMPTY eq_refl). inversion H; subst st. clear H SH. unfold right_status, sat. cbn zeta. rewrite EMPTY.
    unfold iv_gt, iv_ne. destruct k; rewrite ?fin_iv_lt, ?fin_iv_eq by auto.
    + destruct (Z.eqb_spec (iv_v d) (iv_v rhs)); cbn; auto.
    + destruct (Z.ltb_spec (iv_v rhs) (iv_v d)); lia.
    + destruct (Z.eqb_spec (iv_v d) (iv_v rhs)); cbn; lia.
  - destruct x as [|u [|? ?]]; try discriminate Hl'. destruct top; [|eauto].
    inversion Fc' as [|? ? Fa _]; subst. inversion Nz as [|? ? Za _]; subst.
    destruct u as [lv|i|r]; try discriminate. cbn [map dot] in V. cbn [tval] in V.
    destruct k; eauto.
    + apply bind_ok in H. destruct H as (rd & Hrd & H). destruct (fin_sub _ _ _ Fr Fd Hrd) as [Frd Erd].
      apply bind_ok in H. destruct H as (m & Hm & H). destruct (fin_mod _ _ _ Frd Fa Hm) as (Fm & _ & Em).
      pose proof (Z.quot_rem' (iv_v rd) (iv_v a)) as QR.
      rewrite fin_iv_eq in H by auto using fin_0. cbn [ofZ iv_v] in H.
      destruct (Z.eqb_spec (iv_v m) 0) as [E0|E0].
      * apply bind_ok in H. destruct H as (nd & Hnd & H). destruct (fin_div _ _ _ Frd Fa Hnd) as (Fnd & _ & End).
        assert (RW : vid s i = iv_v nd <-> dot (map iv_v c0) (map (tval s) x0) = iv_v rhs) by nia.
        destruct (dom i) as [sd|] eqn:Ed.
        -- destruct (Hdom _ _ Ed) as [Nd El]. destruct (set_contains sd nd) eqn:Ec; inversion H; subst; cbn.
           ++ exact RW.
           ++ intros Hc. apply RW in Hc. rewrite Hc in El. apply (C07_contains_l sd nd _ Nd Fnd) in El. congruence.
        -- inversion H; subst; cbn. exact RW.
      * inversion H; subst; cbn. intros Hc.
        assert (X : iv_v rd = iv_v a * vid s i) by lia. rewrite X in Em. rewrite Z.mul_comm, Z.rem_mul in Em by auto. lia.
    + apply bind_ok in H. destruct H as (rd & Hrd & H). destruct (fin_sub _ _ _ Fr Fd Hrd) as [Frd Erd].
      apply bind_ok in H. destruct H as (nd & Hnd & H). destruct (le_bound_ok _ _ _ Fa Frd Za Hnd) as [Fnd LB].
      specialize (LB (vid s i)). unfold sat, right_status. cbn zeta.
      assert (LB' : dot (map iv_v c0) (map (tval s) x0) <= iv_v rhs <-> (if iv_v a <? 0 then iv_v nd <= vid s i else vid s i <= iv_v nd)).
      { rewrite <- LB. lia. }
      clear LB. destruct (dom i) as [sd|] eqn:Ed; [|exact (SH LinLe st eq_refl H)].
      destruct (Hdom _ _ Ed) as [Nd El].
      apply bind_ok in H. destruct H as (mx & Hmx & H). apply bind_ok in H. destruct H as (mn & Hmn & H).
      destruct (set_minmax _ _ _ _ Nd El Hmn Hmx) as (lo & hi & D1 & D2 & L1 & L2).
      destruct (C02_comparisons_l mn nd _ _ D1 Fnd) as (A1 & A2 & A3 & A4 & A5 & A6).
      destruct (C02_comparisons_l mx nd _ _ D2 Fnd) as (B1 & B2 & B3 & B4 & B5 & B6).
      rewrite fin_iv_lt in H by auto using fin_0. cbn [ofZ iv_v] in H.
      destruct (iv_v a <? 0).
      * destruct (iv_lt mx nd) eqn:E1; [|destruct (iv_ge mn nd) eqn:E2]; inversion H; subst; cbn.
        -- rewrite LB'. clear E1; pose proof (proj1 B2 eq_refl) as E1. pose proof (ext_chain hi (vid s i) (iv_v nd)). lia || (intros ?; assert (iv_v nd <= vid s i < iv_v nd) by tauto; lia) || (intros ?; assert (iv_v nd < vid s i <= iv_v nd) by tauto; lia).
        -- rewrite LB'. clear E2; pose proof (proj1 A3 eq_refl) as E2. pose proof (ext_chain lo (vid s i) (iv_v nd)). tauto.
        -- rewrite LB'. tauto.
      * destruct (iv_gt mn nd) eqn:E1; [|destruct (iv_le mx nd) eqn:E2]; inversion H; subst; cbn.
        -- rewrite LB'. clear E1; pose proof (proj1 A4 eq_refl) as E1. pose proof (ext_chain lo (vid s i) (iv_v nd)). lia || (intros ?; assert (iv_v nd <= vid s i < iv_v nd) by tauto; lia) || (intros ?; assert (iv_v nd < vid s i <= iv_v nd) by tauto; lia).
        -- rewrite LB'. clear E2; pose proof (proj1 B1 eq_refl) as E2. pose proof (ext_chain hi (vid s i) (iv_v nd)). tauto.
        -- rewrite LB'. tauto.
  - destruct x as [|u [|w [|? ?]]]; try discriminate Hl'. destruct k; eauto.
    apply bind_ok in H. destruct H as (rd & Hrd & H). destruct (fin_sub _ _ _ Fr Fd Hrd) as [Frd Erd].
    inversion Fc' as [|? ? Fa Fc2]; subst. inversion Fc2 as [|? ? Fb _]; subst.
    destruct (_ && iv_eq rd (ofZ 0)) eqn:E; [|eauto]. inversion H; subst. cbn.
    rewrite !fin_iv_eq in E by auto using fin_0, fin_1, fin_m1. cbn [ofZ iv_v] in E.
    cbn [map dot] in V.
    apply andb_true_iff in E. destruct E as [E1 E2]. apply orb_true_iff in E1.
    rewrite !andb_true_iff in E1. rewrite !Z.eqb_eq in *.
    destruct E1 as [[Q1 Q2]|[Q1 Q2]]; rewrite Q1, Q2 in V; lia.
  - destruct x as [|? [|? [|? ?]]]; try discriminate Hl'; eauto.
Qed.

Lemma lin_exp_ok : forall c x d st, exp_ok (XLin c x d) -> o_lin_exp fuel ds sort c x d = Ok st ->
  match st with SOk => True | SRewrite e => exp_value s e = exp_value s (XLin c x d) | _ => False end.
Proof using All.
  intros c0 x0 d0 st (Fc & Fx & Fr & Hl) H. unfold o_lin_exp in H.
  apply bind_ok in H. destruct H as (((c, x), d) & Hs & H).
  destruct (simplify_all s _ _ _ _ _ _ _ _ _ Hsort Hfd Fc Fx Fr Hl Hs) as (V & Fc' & Fd & Hl' & Nz & Nl & ND).
  specialize (V Hres). cbn [exp_value]. rewrite <- V.
  destruct c as [|a c]; destruct x as [|u x]; try discriminate Hl'.
  - inversion H; subst. cbn. unfold lin_value. cbn. lia.
  - destruct (Nat.ltb _ _); [|inversion H; exact I].
    destruct (_ && iv_eq d (ofZ 0)) eqn:E; inversion H; subst; cbn [exp_value]; auto.
    inversion Fc'; subst.
    rewrite !fin_iv_eq in E by auto using fin_0, fin_1. cbn [ofZ iv_v] in E.
    apply andb_true_iff in E. destruct E as [E E3]. apply andb_true_iff in E. destruct E as [E1 E2].
    apply Nat.eqb_eq in E1. destruct c; [|discriminate E1]. destruct x; [|discriminate Hl'].
    unfold lin_value. cbn [map dot]. rewrite Z.eqb_eq in *. rewrite E2, E3. lia.
Qed.

Lemma times_ok : forall a b o, fin_term a -> fin_term b -> times_result a b = Ok (Some o) ->
  tval s o = tval s a * tval s b.
Proof using All.
  intros a b o Fa Fb H. destruct a as [x|i|r]; destruct b as [y|j|q]; cbn in H; try discriminate.
  - apply bind_ok in H. destruct H as (p & Hp & H). inversion H; subst. cbn. apply (fin_mul _ _ _ Fa Fb Hp).
  - rewrite !fin_iv_eq in H by auto using fin_0, fin_1. cbn [ofZ iv_v] in H.
    destruct (Z.eqb_spec (iv_v x) 0); [|destruct (Z.eqb_spec (iv_v x) 1)]; inversion H; subst; cbn [tval ofZ iv_v]; nia.
  - rewrite !fin_iv_eq in H by auto using fin_0, fin_1. cbn [ofZ iv_v] in H.
    destruct (Z.eqb_spec (iv_v x) 0); [|destruct (Z.eqb_spec (iv_v x) 1)]; inversion H; subst; cbn [tval ofZ iv_v]; nia.
  - rewrite !fin_iv_eq in H by auto using fin_0, fin_1. cbn [ofZ iv_v] in H.
    destruct (Z.eqb_spec (iv_v y) 0); destruct (Z.eqb_spec (iv_v y) 1); inversion H; subst; cbn [tval ofZ iv_v]; nia.
  - rewrite !fin_iv_eq in H by auto using fin_0, fin_1. cbn [ofZ iv_v] in H.
    destruct (Z.eqb_spec (iv_v y) 0); destruct (Z.eqb_spec (iv_v y) 1); inversion H; subst; cbn [tval ofZ iv_v]; nia.
Qed.

Lemma element_ok : forall i l r st, con_ok (FElement i l r) -> o_element i l r = Ok st -> right_status s t (FElement i l r) st.
Proof using All.
  intros i l r st (Fi & Fl & Fr & FL) H. destruct i as [idx| |]; cbn in H; try (inversion H; exact I).
  assert (Fn : fin (ofZ (Z.of_nat (length l)))) by (apply fin_ofZ; auto).
  cbn in Fi. unfold iv_gt in H. rewrite !fin_iv_lt in H by auto using fin_1. cbn [ofZ iv_v] in H.
  destruct (_ || _) eqn:E.
  - inversion H; subst. cbn. intros (n & e & E1 & E2 & E3).
    assert (n < length l)%nat by (apply nth_error_Some; congruence). lia.
  - apply bind_ok in H. destruct H as (z & Hz & H). apply fin_toInt in Hz; auto. subst z.
    destruct (nth_error l (Z.to_nat (iv_v idx - 1))) as [e|] eqn:En; inversion H; subst. cbn. split.
    + intros X. exists (Z.to_nat (iv_v idx - 1)), e. repeat split; auto. lia.
    + intros (n & e' & E1 & E2 & E3). replace n with (Z.to_nat (iv_v idx - 1)) in E2 by lia. congruence.
Qed.

Lemma merge_common_in : forall p n, merge_common lt p n = true -> exists i, In i p /\ In i n.
Proof using.
  induction p as [|a p IH]; intros n H; [destruct n; discriminate|].
  induction n as [|b n IHn]; [discriminate|]. cbn in H.
  destruct (ident_eqb a b) eqn:E.
  - assert (a = b).
    { destruct a, b; cbn in E; try discriminate; f_equal; [apply Nat.eqb_eq|apply Z.eqb_eq]; auto. }
    subst. exists b. split; left; auto.
  - destruct (lt a b).
    + destruct (IH _ H) as (i & I1 & I2). exists i. split; [right; auto|auto].
    + destruct (IHn H) as (i & I1 & I2). exists i. split; [auto|right; auto].
Qed.
Lemma unfixed_in : forall l i, In i (unfixed bdom l) -> In (BId i) l.
Proof using.
  intros l i H. unfold unfixed in H. apply in_flat_map in H. destruct H as (b & I1 & I2).
  destruct b as [|j|]; try destruct I2. destruct (bdom j); [destruct I2|]. destruct I2 as [->|[]]. auto.
Qed.
Lemma clause_ok : forall p n, right_status s t (FClause p n) (o_clause bdom vsort lt p n).
Proof using All.
  intros p n. unfold o_clause. destruct (merge_common _ _ _) eqn:E; [|exact I].
  apply merge_common_in in E. destruct E as (i & I1 & I2).
  apply (Permutation_in _ (Hv _)) in I1. apply (Permutation_in _ (Hv _)) in I2.
  apply unfixed_in in I1. apply unfixed_in in I2. cbn.
  destruct (bvid t i) eqn:Eb; [left|right]; exists (BId i); auto.
Qed.

Lemma forall_ok : forall l l0 sub, (forall b, In b l0 -> bval t b = true \/ sub = false) ->
  right_status s t (FForall (l0 ++ l)) (forall_loop bdom l sub).
Proof using All.
  induction l as [|b l IH]; intros l0 sub H0.
  - cbn. destruct sub; cbn; auto. rewrite app_nil_r. intros b Hb0. destruct (H0 b Hb0); [auto|discriminate].
  - assert (ST : forall sub', (bval t b = true \/ sub' = false) -> (sub = false -> sub' = false) ->
                 right_status s t (FForall (l0 ++ b :: l)) (forall_loop bdom l sub')).
    { intros sub' H1 H2. replace (l0 ++ b :: l) with ((l0 ++ [b]) ++ l) by (rewrite <- app_assoc; reflexivity).
      apply IH. intros b' Hb'. apply in_app_or in Hb'. destruct Hb' as [Hb'|[<-|[]]]; auto.
      destruct (H0 b' Hb'); auto. }
    assert (BAD : bval t b = false -> ~ sat s t (FForall (l0 ++ b :: l))).
    { intros Eb Hs. cbn in Hs. specialize (Hs b ltac:(apply in_or_app; right; left; auto)). congruence. }
    destruct b as [v|i|r]; cbn [forall_loop].
    + destruct v; [apply ST; auto|apply BAD; reflexivity].
    + destruct (bdom i) as [[]|] eqn:E; [apply ST; [left; apply (Hb _ _ E)|auto]|apply BAD; apply (Hb _ _ E)|apply ST; auto].
    + apply ST; auto.
Qed.
Lemma exists_ok : forall l l0 fl, (forall b, In b l0 -> bval t b = false \/ fl = false) ->
  right_status s t (FExists (l0 ++ l)) (exists_loop bdom l fl).
Proof using All.
  induction l as [|b l IH]; intros l0 fl H0.
  - cbn. destruct fl; cbn; auto. rewrite app_nil_r. intros (b & Hb0 & E). destruct (H0 b Hb0); congruence.
  - assert (ST : forall fl', (bval t b = false \/ fl' = false) -> (fl = false -> fl' = false) ->
                 right_status s t (FExists (l0 ++ b :: l)) (exists_loop bdom l fl')).
    { intros fl' H1 H2. replace (l0 ++ b :: l) with ((l0 ++ [b]) ++ l) by (rewrite <- app_assoc; reflexivity).
      apply IH. intros b' Hb'. apply in_app_or in Hb'. destruct Hb' as [Hb'|[<-|[]]]; auto.
      destruct (H0 b' Hb'); auto. }
    assert (GOOD : bval t b = true -> sat s t (FExists (l0 ++ b :: l))).
    { intros Eb. exists b. split; auto. apply in_or_app; right; left; auto. }
    destruct b as [v|i|r]; cbn [exists_loop].
    + destruct v; [apply GOOD; reflexivity|apply ST; auto].
    + destruct (bdom i) as [[]|] eqn:E; [apply GOOD; apply (Hb _ _ E)|apply ST; [left; apply (Hb _ _ E)|auto]|apply ST; auto].
    + apply ST; auto.
Qed.
Lemma not_ok : forall a b, right_status s t (FNot a b) (o_not a b).
Proof using All.
  intros a b. destruct a as [x|i|r], b as [y|j|q]; cbn; auto;
    try destruct x; try destruct y; cbn; try discriminate; try congruence; auto;
    match goal with |- ?u = _ <-> _ => destruct u; split; congruence | _ => idtac end.
Qed.
Lemma div_ok : forall a b r st, con_ok (FDiv a b r) -> o_div a b r = Ok st -> right_status s t (FDiv a b r) st.
Proof using All.
  intros a b r st (Fa & Fb & Fr) H. destruct a as [x|i|?]; destruct b as [y|j|?]; destruct r as [z|k|?]; cbn in H; try (inversion H; exact I).
  apply bind_ok in H. destruct H as (q & Hq & H). destruct (fin_div _ _ _ Fa Fb Hq) as (Fq & Z0 & E).
  inversion H; subst. rewrite fin_iv_eq by auto. destruct (Z.eqb_spec (iv_v q) (iv_v z)); cbn; [split; congruence|].
  intros [_ X]. congruence.
Qed.
Lemma set_in_ok : forall a d st, con_ok (FSetIn a d) -> o_set_in dom a d = Ok st -> right_status s t (FSetIn a d) st.
Proof using All.
  intros a d st (Fa & Nd) H. destruct a as [v|i|r]; cbn in H; [| |inversion H; exact I].
  - pose proof (C07_contains_l d v _ Nd Fa) as C. inversion H; subst. destruct (set_contains d v); cbn; [tauto|].
    intros E. apply C in E. discriminate.
  - destruct (dom i) as [e|] eqn:Ed.
    + destruct (Hdom _ _ Ed) as [Ne El]. destruct (set_subset e d) eqn:E1; [|destruct (set_disjoint e d) eqn:E2]; inversion H; subst; cbn; auto.
      * apply (C07_subset_l e d Ne Nd); auto.
      * intros X. eapply (C07_disjoint_l e d Ne Nd); eauto.
    + apply bind_ok in H. destruct H as (mn & Hmn & H). apply bind_ok in H. destruct H as (mx & Hmx & H).
      destruct (iv_eq mn mx) eqn:E; inversion H; subst; cbn; auto.
      destruct (set_single _ _ _ Nd Hmn Hmx E) as [_ S]. symmetry. apply S.
Qed.
Lemma ne_ok : forall a b st, con_ok (FIntNe a b) -> o_int_ne dom a b = Ok st -> right_status s t (FIntNe a b) st.
Proof using All.
  assert (ID : forall i v (st : status fcon), fin v ->
    match dom i with
    | Some s0 =>
        if negb (set_contains s0 v) then Ok SEntailed
        else do mn <- set_min s0; do mx <- set_max s0; if iv_eq v mn && iv_eq v mx then Ok SFailed else Ok SOk
    | None => Ok SOk
    end = Ok st :> res (status fcon) ->
    match st with SOk => True | SFailed => vid s i = iv_v v | SEntailed => vid s i <> iv_v v | SRewrite _ => False end).
  { intros i v st Fv H. destruct (dom i) as [e|] eqn:Ed; [|inversion H; exact I].
    destruct (Hdom _ _ Ed) as [Ne El]. destruct (set_contains e v) eqn:Ec; cbn [negb] in H.
    - apply bind_ok in H. destruct H as (mn & Hmn & H). apply bind_ok in H. destruct H as (mx & Hmx & H).
      destruct (iv_eq v mn && iv_eq v mx) eqn:E; inversion H; subst; auto.
      apply andb_true_iff in E. rewrite !iv_eq_iff in E. destruct E as [<- <-].
      destruct (set_single e v v Ne Hmn Hmx (proj2 (iv_eq_iff _ _) eq_refl)) as [_ S]. apply S. auto.
    - inversion H; subst. intros X. rewrite X in El. apply (C07_contains_l e v _ Ne Fv) in El. congruence. }
  intros a b st (Fa & Fb) H. destruct a as [x|i|r]; destruct b as [y|j|q]; cbn in H; try (inversion H; exact I).
  - inversion H; subst. unfold iv_ne. rewrite fin_iv_eq by auto. destruct (Z.eqb_spec (iv_v x) (iv_v y)); cbn; lia.
  - apply ID in H; auto. destruct st; cbn; auto; try contradiction; lia.
  - apply ID in H; auto. destruct st; cbn; auto; try contradiction; lia.
Qed.
Lemma le_ok : forall a b st, con_ok (FIntLe a b) -> o_int_le dom a b = Ok st -> right_status s t (FIntLe a b) st.
Proof using All.
  intros a b st (Fa & Fb) H.
  destruct a as [x|i|r]; destruct b as [y|j|q]; cbn in H; try (inversion H; exact I).
  - inversion H; subst. rewrite fin_iv_le by auto. destruct (Z.leb_spec (iv_v x) (iv_v y)); cbn; lia.
  - destruct (dom j) as [e|] eqn:Ed; [|inversion H; exact I].
    destruct (Hdom _ _ Ed) as [Nd El].
    apply bind_ok in H. destruct H as (mx & Hmx & H). apply bind_ok in H. destruct H as (mn & Hmn & H).
    destruct (set_minmax _ _ _ _ Nd El Hmn Hmx) as (lo & hi & D1 & D2 & L1 & L2).
    destruct (C02_comparisons_l x mn _ _ Fa D1) as (A1 & A2 & A3 & A4 & A5 & A6).
    destruct (C02_comparisons_l x mx _ _ Fa D2) as (B1 & B2 & B3 & B4 & B5 & B6).
    destruct (iv_le x mn) eqn:E1; [|destruct (iv_gt x mx) eqn:E2]; inversion H; subst; cbn; auto.
    + clear E1; pose proof (proj1 A1 eq_refl) as E1. pose proof (ext_chain lo (vid s j) (iv_v x)). tauto.
    + clear E2; pose proof (proj1 B4 eq_refl) as E2. pose proof (ext_chain hi (vid s j) (iv_v x)) as (C1 & C2 & _). first [specialize (C1 L2 E2)|specialize (C2 L1 E2)]. lia.
  - destruct (dom i) as [e|] eqn:Ed; [|inversion H; exact I].
    destruct (Hdom _ _ Ed) as [Nd El].
    apply bind_ok in H. destruct H as (mx & Hmx & H). apply bind_ok in H. destruct H as (mn & Hmn & H).
    destruct (set_minmax _ _ _ _ Nd El Hmn Hmx) as (lo & hi & D1 & D2 & L1 & L2).
    destruct (C02_comparisons_l mn y _ _ D1 Fb) as (A1 & A2 & A3 & A4 & A5 & A6).
    destruct (C02_comparisons_l mx y _ _ D2 Fb) as (B1 & B2 & B3 & B4 & B5 & B6).
    destruct (iv_le mx y) eqn:E1; [|destruct (iv_gt mn y) eqn:E2]; inversion H; subst; cbn; auto.
    + clear E1; pose proof (proj1 B1 eq_refl) as E1. pose proof (ext_chain hi (vid s i) (iv_v y)). tauto.
    + clear E2; pose proof (proj1 A4 eq_refl) as E2. pose proof (ext_chain lo (vid s i) (iv_v y)) as (C1 & C2 & _). first [specialize (C1 L2 E2)|specialize (C2 L1 E2)]. lia.
Qed.

Lemma process_ok : forall top c st, con_ok c ->
  process fuel ds sort dom bdom qfloor qceil vsort lt top c = Ok st -> right_status s t c st.
Proof using All.
  intros top c st Ho H. destruct c; cbn [process] in H.
  - eapply linear_ok; eauto.
  - inversion H; exact I.
  - eapply le_ok; eauto.
  - eapply ne_ok; eauto.
  - eapply div_ok; eauto.
  - unfold o_times in H. apply bind_ok in H. destruct H as (o & Ho' & H). destruct o as [u|]; inversion H; subst; cbn; auto.
    destruct Ho as (Fa & Fb & Fr). apply times_ok in Ho'; auto. rewrite Ho'. split; auto.
  - eapply element_ok; eauto.
  - eapply set_in_ok; eauto.
  - inversion H; subst. apply clause_ok.
  - inversion H; subst. apply (forall_ok l [] true). intros b [].
  - inversion H; subst. apply (exists_ok l [] true). intros b [].
  - inversion H; subst. apply not_ok.
  - inversion H; exact I.
Qed.
Lemma process_exp_ok : forall e st, exp_ok e -> process_exp fuel ds sort e = Ok st ->
  match st with SOk => True | SRewrite e' => exp_value s e' = exp_value s e | _ => False end.
Proof using All.
  intros e st Ho H. destruct e; cbn [process_exp] in H.
  - eapply lin_exp_ok; eauto.
  - unfold o_times_fn in H. apply bind_ok in H. destruct H as (o & Ho' & H). destruct o as [u|]; inversion H; subst; cbn; auto.
    destruct Ho as (Fa & Fb). apply times_ok in Ho'; auto.
  - inversion H; exact I.
Qed.
End Opt.

Lemma guard_floor : forall a b r, 0 <= a -> 0 < b -> guard53 dquot_floor a b = Ok r -> r = a / b /\ fits64 r.
Proof.
  intros a b r Ha Hb H. unfold guard53 in H. destruct (_ && _) eqn:E; [|discriminate].
  unfold dquot_floor in H. destruct (double_div a b ltac:(lia) ltac:(lia) ltac:(lia)) as [Eq _]. rewrite Eq in H.
  cbn in H. unfold ll in H. destruct (fits64b _) eqn:F; inversion H; subst. split; auto. unfold fits64b, fits64 in *. lia.
Qed.
Lemma guard_ceil : forall a b r, 0 <= a -> 0 < b -> guard53 dquot_ceil a b = Ok r -> r = - ((- a) / b) /\ fits64 r.
Proof.
  intros a b r Ha Hb H. unfold guard53 in H. destruct (_ && _) eqn:E; [|discriminate].
  unfold dquot_ceil in H. destruct (double_div a b ltac:(lia) ltac:(lia) ltac:(lia)) as [_ Eq]. rewrite Eq in H.
  cbn in H. unfold ll in H. destruct (fits64b _) eqn:F; inversion H; subst. split; auto. unfold fits64b, fits64 in *. lia.
Qed.
Lemma C14_status_l : forall fuel ds sort dom bdom vsort lt s t,
  sorts sort -> fin_decls ds -> respects s ds -> in_domains s dom -> in_bdomains t bdom ->
  (forall l, Permutation (vsort l) l) ->
  forall top c st, con_ok c ->
  process fuel ds sort dom bdom (guard53 dquot_floor) (guard53 dquot_ceil) vsort lt top c = Ok st ->
  right_status s t c st.
Proof. intros. eapply process_ok; eauto using guard_floor, guard_ceil. Qed.
Lemma C14_exp_l : forall fuel ds sort s, sorts sort -> fin_decls ds -> respects s ds ->
  forall e st, exp_ok e -> process_exp fuel ds sort e = Ok st ->
  match st with SOk => True | SRewrite e' => exp_value s e' = exp_value s e | _ => False end.
Proof.
  intros fuel ds sort s H1 H2 H3.
  apply (process_exp_ok fuel ds sort (fun _ => None) (fun _ => None) (fun _ _ => UB) (fun _ _ => UB) (fun l => l) (fun _ _ => false)
           s {| bvid := fun _ => false; bvexp := fun _ => false |}); auto; try discriminate; intros ? ? H; discriminate H.
Qed.
