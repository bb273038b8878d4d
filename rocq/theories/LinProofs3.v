(** Proofs about LinModel, part 3: flatten_linexp_binop. *)
Require Import ZArith List Bool Lia Permutation ZifyBool.
From Verif Require Import Base IntValModel IntValSpec IntValProofs IntValPropProofs SetModel SetSpec SetProofs SetProofs3 SetPropProofs
  LinModel LinSpec LinProofs LinProofs2.
Import ListNotations.
Open Scope Z_scope.

(** ** helpers on domains *)
Lemma between_fin : forall z a b, fin a -> fin b -> (between z a b <-> iv_v a <= z <= iv_v b).
Proof.
  intros z a b Fa Fb. unfold between. unfold fin, is_int in *. rewrite Fa, Fb. split.
  - intros (x & y & X & Y & L1 & L2). inversion X; inversion Y; subst. cbn in *. lia.
  - intros H. do 2 eexists. repeat split; cbn; lia.
Qed.
Lemma interval_single : forall z d, fin d -> (elem z (set_interval d d) <-> z = iv_v d).
Proof.
  intros z d Fd. destruct (fin_denote d _ Fd) as (W & D1 & D2).
  destruct (C05_interval_l d d W W D1 D2) as [_ M]. rewrite M, between_fin by assumption. lia.
Qed.
Lemma memk_last : forall B s lo z, BIG <= B -> nfk B lo s -> memk B z s -> forall df, z <= key B (snd (last s df)).
Proof.
  intros B s lo z HB. revert lo. induction s as [|r s IH]; intros lo N M df; [destruct M|].
  cbn in N. destruct N as (O & L & N). destruct s as [|r2 s].
  - cbn [last]. destruct M as [M|M]; [lia|destruct M].
  - change (last (r :: r2 :: s) df) with (last (r2 :: s) df).
    destruct M as [M|M]; [|eapply IH; eauto].
    assert (Q : memk B (key B (fst r2)) (r2 :: s)).
    { left. cbn in N. destruct N as (O2 & _). unfold okr in O2. lia. }
    assert (Z2 : forall z', memk B z' (r2 :: s) -> z' <= key B (snd (last (r2 :: s) df))).
    { intros z' M'. clear IH M Q. revert N M'. generalize (key B (snd r) + 2). revert z'.
      generalize (r2 :: s). induction l as [|q l IHl]; intros z' lo' N M'; [destruct M'|].
      cbn in N. destruct N as (O1 & L1 & N1). destruct l as [|q2 l].
      - cbn [last]. destruct M' as [M'|M']; [lia|destruct M'].
      - change (last (q :: q2 :: l) df) with (last (q2 :: l) df).
        destruct M' as [M'|M']; [|eapply IHl; eauto].
        assert (memk B (key B (fst q2)) (q2 :: l)) by (left; cbn in N1; destruct N1 as (O2 & _); unfold okr in O2; lia).
        specialize (IHl _ _ N1 H). cbn in N1. destruct N1 as (_ & L2 & _). lia. }
    specialize (Z2 _ Q). cbn in N. destruct N as (_ & L2 & _). lia.
Qed.
Lemma intersects_sound : forall dom v0 v1 z, nf dom -> wf v0 -> wf v1 -> elem z dom -> between z v0 v1 ->
  domainIntersects dom v0 v1 = true.
Proof.
  intros dom v0 v1 z N W0 W1 E Bt. unfold domainIntersects. apply orb_true_iff. right.
  destruct (Bz_ok z) as [HB Hz]. pose proof (proj1 (elem_k dom z N) E) as M.
  pose proof (nf_nfk _ HB dom N) as NK.
  apply (between_k _ HB z v0 v1 Hz) in Bt. destruct Bt as (K0 & K1 & L).
  destruct dom as [|[a b] s]; [destruct M|].
  assert (Wl : wfv (snd (last ((a, b) :: s) (v0, v0)))).
  { assert (I : In (last ((a, b) :: s) (v0, v0)) ((a, b) :: s)).
    { clear. generalize (a, b). induction s; intros p; [left; reflexivity|].
      change (last (p :: a0 :: s) (v0, v0)) with (last (a0 :: s) (v0, v0)). right. apply IHs. }
    apply nf_wfs in N. apply (N _ I). }
  pose proof (memk_last _ _ _ _ HB NK M (v0, v0)) as ML.
  assert (MF : key (Bz z) a <= z).
  { cbn in NK. destruct NK as (O & L1 & NK). destruct M as [M|M]; [cbn in M; lia|].
    apply (memk_lo (Bz z)) with (lo := key (Bz z) b + 2) in M; auto. unfold okr in O. cbn in *. lia. }
  assert (Wa : wfv a) by (cbn in NK; destruct NK as (O & _); unfold okr in O; cbn in O; tauto).
  rewrite !(le_k (Bz z)) by assumption. lia.
Qed.

Lemma failed_ok : forall bot l u d z, fin d -> between z l u -> failed bot l u d = true -> ~ allowed bot z (iv_v d).
Proof.
  intros bot l u d z Fd (x & y & Hl & Hu & L1 & L2) H. unfold fin, is_int in Fd.
  destruct (C02_comparisons_l l d _ _ Hl Fd) as (A1 & A2 & A3 & A4 & A5 & A6).
  destruct (C02_comparisons_l u d _ _ Hu Fd) as (B1 & B2 & B3 & B4 & B5 & B6).
  destruct bot; cbn [failed allowed] in *;
    rewrite ?orb_true_iff, ?andb_true_iff, ?A1, ?A2, ?A3, ?A4, ?A5, ?B1, ?B2, ?B3, ?B4, ?B5 in H;
    unfold ext_lt in H; clear A1 A2 A3 A4 A5 A6 B1 B2 B3 B4 B5 B6; destruct x, y; cbn in *; try tauto;
    repeat match goal with H : _ /\ _ |- _ => destruct H | H : _ \/ _ |- _ => destruct H end; try tauto;
    repeat match goal with H : Fin _ = Fin _ |- _ => inversion H; clear H; subst
                         | H : Fin ?a <> Fin ?b |- _ => assert (a <> b) by congruence; clear H end; try discriminate; try lia.
Qed.
Lemma subsumed_ok : forall bot l u d z, fin d -> between z l u -> subsumed bot l u d = true -> allowed bot z (iv_v d).
Proof.
  intros bot l u d z Fd (x & y & Hl & Hu & L1 & L2) H. unfold fin, is_int in Fd.
  destruct (C02_comparisons_l l d _ _ Hl Fd) as (A1 & A2 & A3 & A4 & A5 & A6).
  destruct (C02_comparisons_l u d _ _ Hu Fd) as (B1 & B2 & B3 & B4 & B5 & B6).
  destruct bot; cbn [subsumed allowed] in *;
    rewrite ?orb_true_iff, ?andb_true_iff, ?A1, ?A2, ?A3, ?A4, ?A5, ?B1, ?B2, ?B3, ?B4, ?B5 in H;
    unfold ext_lt in H; clear A1 A2 A3 A4 A5 A6 B1 B2 B3 B4 B5 B6; destruct x, y; cbn in *; try tauto;
    repeat match goal with H : _ /\ _ |- _ => destruct H | H : _ \/ _ |- _ => destruct H end; try tauto;
    repeat match goal with H : Fin _ = Fin _ |- _ => inversion H; clear H; subst
                         | H : Fin ?a <> Fin ?b |- _ => assert (a <> b) by congruence; clear H end; try discriminate; try lia.
Qed.


Lemma expresses_iff : forall s dn P Q o, (P <-> Q) -> expresses s dn P o -> expresses s dn Q o.
Proof. intros s dn P Q o H E. destruct o; cbn in *; try tauto. destruct dn; tauto. Qed.

Section Binop.
  Context (s : valuation) (fuel : nat) (ds : decls) (sort : list term -> list nat).
  Context (bnd : term -> option (IntVal * IntVal)) (dom : ident -> option iset) (revmap : ident -> bool).
  Context (fdiv cdiv : IntVal -> IntVal -> res IntVal) (root dn rTrue own_id : bool).
  Context (Hbnd : in_bounds s bnd) (Hdom : in_domains s dom).
  Context (Hroot : root = true -> dn = false).

  Lemma one_term_ok : forall bot c t d o, fin c -> fin d -> Z.abs (iv_v c) = 1 ->
    one_term bnd dom revmap root dn bot c t d = Ok o ->
    expresses s dn (allowed bot (iv_v c * tval s t + iv_v d) 0) o.
  Proof using All.
    intros bot0 c t d0 o Fc Fd0 Hc H. unfold one_term in H.
    apply bind_ok in H. destruct H as ((bot, d) & Hbd & H).
    assert (G : fin d /\ (allowed bot0 (iv_v c * tval s t + iv_v d0) 0 <-> allowed bot (tval s t) (iv_v d))).
    { rewrite fin_iv_eq in Hbd by auto using fin_m1. cbn [ofZ iv_v] in Hbd.
      destruct (Z.eqb_spec (iv_v c) (-1)) as [E|E].
      - inversion Hbd; subst. split; auto. rewrite E. destruct bot0; cbn [flip allowed]; lia.
      - apply bind_ok in Hbd. destruct Hbd as (n & Hn & Hbd). inversion Hbd; subst.
        destruct (fin_neg _ _ Fd0 Hn) as [Fn En]. split; auto. assert (iv_v c = 1) by lia.
        rewrite H0, En. destruct bot; cbn [allowed]; lia. }
    destruct G as [Fd G]. eapply expresses_iff; [symmetry; exact G|]. clear G Hbd Fd0 d0 bot0.
    assert (Bd : forall rest, (rest = Ok o -> expresses s dn (allowed bot (tval s t) (iv_v d)) o) ->
      match bnd t with
      | Some (l, u) =>
        let su := if dn then failed bot l u d else subsumed bot l u d in
        let fa := if dn then subsumed bot l u d else failed bot l u d in
        if su then Ok (OConst true) else if fa then Ok (OConst false) else rest
      | None => rest
      end = Ok o -> expresses s dn (allowed bot (tval s t) (iv_v d)) o).
    { intros rest Hr Hb. destruct (bnd t) as [[l u]|] eqn:Eb; [|auto].
      pose proof (Hbnd _ _ _ Eb) as Bt. cbn zeta in Hb.
      pose proof (failed_ok bot l u d _ Fd Bt) as PF. pose proof (subsumed_ok bot l u d _ Fd Bt) as PS.
      destruct dn.
      - destruct (failed bot l u d); [inversion Hb; subst; cbn; tauto|].
        destruct (subsumed bot l u d); [inversion Hb; subst; cbn; intuition congruence|].
        auto.
      - destruct (subsumed bot l u d); [inversion Hb; subst; cbn; intuition congruence|].
        destruct (failed bot l u d); [inversion Hb; subst; cbn; intuition congruence|].
        auto. }
    revert H. apply Bd. clear Bd.
    intros Er.
    assert (Cmp : forall op a b, 
      (match bot with
       | BOT_LE => do d' <- iv_decr d; Ok (BOT_LQ, t, TLit d')
       | BOT_GR => do d' <- iv_incr d; Ok (BOT_LQ, TLit d', t)
       | BOT_GQ => Ok (BOT_LQ, TLit d, t)
       | _ => Ok (bot, t, TLit d)
       end) = Ok (op, a, b) -> expresses s dn (allowed bot (tval s t) (iv_v d)) (OCmp op a b)).
    { intros op a b Hab. cbn [expresses out_meaning].
      destruct bot; try (inversion Hab; subst; cbn [tval allowed]; lia);
        apply bind_ok in Hab; destruct Hab as (d' & Hd & Hab); inversion Hab; subst; cbn [tval allowed].
      - destruct (fin_decr _ _ Fd Hd) as [_ E]. lia.
      - destruct (fin_incr _ _ Fd Hd) as [_ E]. lia. }
    assert (Gen :
      (do ' (op, a, b) <-
          match bot with
          | BOT_LE => do d' <- iv_decr d; Ok (BOT_LQ, t, TLit d')
          | BOT_GR => do d' <- iv_incr d; Ok (BOT_LQ, TLit d', t)
          | BOT_GQ => Ok (BOT_LQ, TLit d, t)
          | _ => Ok (bot, t, TLit d)
          end;
       match t, root with
       | TId i, true =>
           match (if revmap i then None else dom i) with
           | Some s0 =>
               do nd <- limitDomain bot s0 d;
               match nd with
               | [] => Ok (OConst false)
               | _ => if set_equal s0 nd then Ok (OConst true) else Ok (ODom i nd)
               end
           | None => Ok (OCmp op a b)
           end
       | _, _ => Ok (OCmp op a b)
       end) = Ok o -> expresses s dn (allowed bot (tval s t) (iv_v d)) o).
    { intros Hg. apply bind_ok in Hg. destruct Hg as (((op, a), b) & Hab & Hg).
      pose proof (Cmp _ _ _ Hab) as C.
      destruct t as [v|i|r]; try (inversion Hg; subst; exact C).
      destruct root eqn:Eroot; [|inversion Hg; subst; exact C].
      destruct (if revmap i then None else dom i) as [s0|] eqn:Ed; [|inversion Hg; subst; exact C].
      assert (Edom : dom i = Some s0) by (destruct (revmap i); [discriminate|auto]).
      destruct (Hdom _ _ Edom) as [N0 E0]. rewrite (Hroot eq_refl).
      apply bind_ok in Hg. destruct Hg as (nd & Hnd & Hg).
      assert (NE : bot <> BOT_EQ) by (intros ->; discriminate).
      destruct (C10_limit_l bot s0 d _ N0 Fd NE) as [(r & Er' & Nr & Mr)|[Er' _]]; [|congruence].
      rewrite Hnd in Er'. inversion Er'; subst r.
      cbn [tval] in *.
      destruct nd as [|p nd].
      - inversion Hg; subst. cbn. split; [discriminate|]. intros Ha. exfalso.
        assert (X : elem (vid s i) []) by (apply Mr; auto). destruct X as (? & ? & [] & _).
      - destruct (set_equal s0 (p :: nd)) eqn:Eq; inversion Hg; subst.
        + pose proof (proj1 (C07_equal_l s0 (p :: nd) N0 Nr) Eq) as Q. cbn. split; [|auto]. intros _. apply Q, Mr in E0. tauto.
        + cbn [expresses out_meaning]. rewrite Mr. tauto. }
    assert (X : expresses s dn (allowed bot (tval s t) (iv_v d)) o).
    { destruct t as [v|i|r]; try (apply Gen; exact Er).
      destruct bot; try (apply Gen; exact Er).
      destruct root eqn:Eroot; [|apply Gen; exact Er].
      rewrite (Hroot eq_refl) in *. cbn [tval allowed] in *.
      destruct (dom i) as [s0|] eqn:Ed.
      - destruct (Hdom _ _ Ed) as [N0 E0]. unfold domainContains in Er.
        pose proof (C07_contains_l s0 d _ N0 Fd) as CC. pose proof (C10_domain_equals_l s0 d _ N0 Fd) as CE.
        destruct (set_contains s0 d).
        + destruct (domainEquals_val s0 d); inversion Er; subst.
          * cbn. split; [|auto]. intros _. apply CE; auto.
          * cbn [expresses out_meaning]. apply interval_single; auto.
        + inversion Er; subst. cbn. split; [discriminate|]. intros E. rewrite <- E in CC. tauto.
      - inversion Er; subst. cbn [expresses out_meaning]. apply interval_single; auto. }
    exact X.
  Qed.

  Lemma sum_bounds_ok : forall target cx l u rc l' u' rc',
    Forall (fun p => fin (fst p)) cx -> Forall (fun p => iv_v (fst p) <> 0) cx -> NoDup (map snd cx) ->
    fin l -> fin u -> fin rc -> (iv_v rc <> 0 -> ~ In (TId target) (map snd cx)) ->
    sum_bounds bnd own_id (Some target) cx l u rc = Ok (Some (l', u', rc')) ->
    fin l' /\ fin u' /\ fin rc' /\
    forall w, iv_v l <= w <= iv_v u ->
      iv_v l' <= w + iv_v rc * vid s target + dot (map (fun p => iv_v (fst p)) cx) (map (fun p => tval s (snd p)) cx)
                 - iv_v rc' * vid s target <= iv_v u'.
  Proof using All.
    intros target. induction cx as [|[c t] cx IH]; intros l u rc l' u' rc' Fc NZ ND Fl Fu Frc Hrc H; cbn in H.
    - inversion H; subst. repeat split; auto; cbn [map dot]; lia.
    - inversion Fc as [|? ? Fc1 Fc2]; inversion NZ as [|? ? NZ1 NZ2]; inversion ND as [|? ? ND1 ND2]; subst. cbn [fst snd] in *.
      destruct (own_id && term_eqb t (TId target)) eqn:E.
      + apply andb_prop in E. destruct E as [_ E].
        assert (t = TId target).
        { destruct t as [v|[n|r]|r]; cbn in E; destruct target as [m|q]; try discriminate.
          - apply Nat.eqb_eq in E; subst; auto.
          - do 2 f_equal; lia. }
        subst t.
        assert (R0 : iv_v rc = 0).
        { destruct (Z.eq_dec (iv_v rc) 0); auto. exfalso. apply Hrc; auto. left; auto. }
        apply IH in H; auto. destruct H as (A & B & C & D). repeat split; auto; specialize (D _ H); cbn [map dot fst snd tval]; rewrite R0; lia.
      + destruct (bnd t) as [[bl bu]|] eqn:Eb; [|discriminate].
        destruct (isFinite bl && isFinite bu) eqn:Ef; [|discriminate].
        pose proof (Hbnd _ _ _ Eb) as Bt.
        assert (FF : fin bl /\ fin bu).
        { destruct Bt as (x & y & X & Y & _). unfold isFinite in Ef.
          unfold denote in X, Y. destruct (iv_inf bl) eqn:I1, (iv_inf bu) eqn:I2; try discriminate.
          split; unfold fin, is_int, denote; rewrite ?I1, ?I2;
            [destruct ((LLONG_MIN <=? iv_v bl) && (iv_v bl <=? LLONG_MAX)) eqn:G
            |destruct ((LLONG_MIN <=? iv_v bu) && (iv_v bu <=? LLONG_MAX)) eqn:G]; auto; discriminate. }
        destruct FF as [Fbl Fbu]. apply between_fin in Bt; auto.
        unfold iv_gt in H. rewrite fin_iv_lt in H by auto using fin_0. cbn [ofZ iv_v] in H.
        destruct (Z.ltb_spec 0 (iv_v c)) as [Hp|Hp].
        * apply bind_ok in H. destruct H as (p & Hpm & H). apply bind_ok in H. destruct H as (l1 & Hl1 & H).
          apply bind_ok in H. destruct H as (q & Hq & H). apply bind_ok in H. destruct H as (u1 & Hu1 & H).
          destruct (fin_mul _ _ _ Fc1 Fbl Hpm) as [Fp Ep]. destruct (fin_add_assign _ _ _ Fl Fp Hl1) as [Fl1 El1].
          destruct (fin_mul _ _ _ Fc1 Fbu Hq) as [Fq Eq]. destruct (fin_add_assign _ _ _ Fu Fq Hu1) as [Fu1 Eu1].
          apply IH in H; auto; [|intros X Y; apply Hrc; [auto|right; auto]].
          destruct H as (A & B & C & D). repeat split; auto;
            specialize (D (w + iv_v c * tval s t) ltac:(rewrite El1, Eu1, Ep, Eq; nia)); cbn [map dot fst snd]; lia.
        * apply bind_ok in H. destruct H as (p & Hpm & H). apply bind_ok in H. destruct H as (l1 & Hl1 & H).
          apply bind_ok in H. destruct H as (q & Hq & H). apply bind_ok in H. destruct H as (u1 & Hu1 & H).
          destruct (fin_mul _ _ _ Fc1 Fbu Hpm) as [Fp Ep]. destruct (fin_add_assign _ _ _ Fl Fp Hl1) as [Fl1 El1].
          destruct (fin_mul _ _ _ Fc1 Fbl Hq) as [Fq Eq]. destruct (fin_add_assign _ _ _ Fu Fq Hu1) as [Fu1 Eu1].
          apply IH in H; auto; [|intros X Y; apply Hrc; [auto|right; auto]].
          destruct H as (A & B & C & D). repeat split; auto;
            specialize (D (w + iv_v c * tval s t) ltac:(rewrite El1, Eu1, Ep, Eq; nia)); cbn [map dot fst snd]; lia.
  Qed.

  Lemma dot_rev : forall (A : Type) (f g : A -> Z) l,
    dot (map f (rev l)) (map g (rev l)) = dot (map f l) (map g l).
  Proof using All.
    intros A f g. induction l; auto. cbn [rev]. rewrite !map_app, dot_app by (rewrite !map_length; auto).
    rewrite IHl. cbn. ring.
  Qed.
  Lemma combine_maps : forall (c : list IntVal) (x : list term), length c = length x ->
    map (fun p => iv_v (fst p)) (combine c x) = map iv_v c /\ map (fun p => tval s (snd p)) (combine c x) = map (tval s) x
    /\ map snd (combine c x) = x.
  Proof using All.
    induction c; destruct x; cbn; intros H; try discriminate; auto.
    destruct (IHc x ltac:(lia)) as (A & B & C). rewrite A, B, C. auto.
  Qed.

  Context (Hf : rounds_down fdiv) (Hc : rounds_up cdiv).
  Lemma assign_bounds_ok : forall target c x d u,
    Forall fin c -> fin d -> length c = length x -> Forall (fun v => iv_v v <> 0) c -> NoDup x ->
    assign_bounds bnd dom fdiv cdiv own_id target c x d = Ok u ->
    lin_value s c x d = 0 -> update_meaning s u.
  Proof using All.
    intros target c x d up Fc Fd Hl NZ ND H V. unfold assign_bounds in H.
    apply bind_ok in H. destruct H as (sb & Hsb & H).
    destruct sb as [[[l u] rc]|]; [|inversion H; subst; cbn; auto].
    destruct (combine_maps c x Hl) as (M1 & M2 & M3).
    apply sum_bounds_ok in Hsb; auto using fin_0.
    2: { apply Forall_rev. apply Forall_forall. intros [a b] I. apply in_combine_l in I. rewrite Forall_forall in Fc. auto. }
    2: { apply Forall_rev. apply Forall_forall. intros [a b] I. apply in_combine_l in I. rewrite Forall_forall in NZ. apply NZ; auto. }
    2: { rewrite map_rev, M3. apply NoDup_rev; auto. }
    destruct Hsb as (Fl & Fu & Frc & D). specialize (D (iv_v d) ltac:(lia)).
    rewrite dot_rev, M1, M2 in D. cbn [ofZ iv_v] in D. unfold lin_value in V.
    destruct (iv_ne rc (ofZ 0)) eqn:Erc; [|inversion H; subst; cbn; auto].
    unfold iv_ne in Erc. rewrite fin_iv_eq in Erc by auto using fin_0. cbn [ofZ iv_v] in Erc.
    apply bind_ok in H. destruct H as (nrc & Hn & H). destruct (fin_neg _ _ Frc Hn) as [Fn En].
    apply bind_ok in H. destruct H as ((bl, bu) & Hb & H).
    assert (BB : fin bl /\ fin bu /\ iv_v bl <= vid s target <= iv_v bu).
    { assert (W : exists w, iv_v l <= w <= iv_v u /\ w = iv_v nrc * vid s target).
      { exists (iv_v nrc * vid s target). split; [|auto]. rewrite En. lia. }
      destruct W as (w & Lw & Ew).
      rewrite fin_iv_lt in Hb by auto using fin_0. cbn [ofZ iv_v] in Hb.
      destruct (Z.ltb_spec (iv_v rc) 0).
      - apply bind_ok in Hb. destruct Hb as (a & Ha & Hb). apply bind_ok in Hb. destruct Hb as (b & Hb' & Hb). inversion Hb; subst.
        apply Hf in Ha; auto; [|lia]. apply Hc in Hb'; auto; [|lia].
        apply is_int_fin in Ha. apply is_int_fin in Hb'. destruct Ha as [Fa Ea], Hb' as [Fb Eb].
        repeat split; auto.
        + rewrite Ea. apply Z.div_le_upper_bound; lia.
        + rewrite Eb. assert (- iv_v u / iv_v nrc <= - vid s target); [|lia]. apply Z.div_le_upper_bound; lia.
      - apply bind_ok in Hb. destruct Hb as (a & Ha & Hb). apply bind_ok in Hb. destruct Hb as (b & Hb' & Hb). inversion Hb; subst.
        apply Hc in Ha; auto; [|lia]. apply Hf in Hb'; auto; [|lia].
        apply is_int_fin in Ha. apply is_int_fin in Hb'. destruct Ha as [Fa Ea], Hb' as [Fb Eb].
        repeat split; auto.
        + rewrite Ea. assert (- vid s target <= - iv_v u / iv_v nrc); [|lia].
          rewrite <- Z.div_opp_opp by lia. rewrite Z.opp_involutive. apply Z.div_le_lower_bound; lia.
        + rewrite Eb. rewrite <- Z.div_opp_opp by lia. apply Z.div_le_lower_bound; lia. }
    destruct BB as (Fbl & Fbu & BB).
    destruct (fin_denote bl _ Fbl) as (W0 & D0 & _). destruct (fin_denote bu _ Fbu) as (W1 & _ & D1).
    assert (Bt : between (vid s target) bl bu) by (apply between_fin; auto).
    destruct (dom target) as [s0|] eqn:Ed.
    - destruct (Hdom _ _ Ed) as [N0 E0].
      rewrite (intersects_sound s0 bl bu _ N0 W0 W1 E0 Bt) in H.
      destruct (C10_intersect_l s0 bl bu N0 W0 W1 D0 D1) as (r & Er & Nr & Mr).
      rewrite Er in H. cbn [bind] in H. destruct (set_equal s0 r); inversion H; subst; cbn; auto.
      apply Mr; auto.
    - inversion H; subst. cbn. apply (C05_interval_l bl bu W0 W1 D0 D1). auto.
  Qed.

  Context (Hsort : sorts sort) (Hfd : fin_decls ds) (Hres : respects s ds).

  Lemma add_side_ok : forall sign e c x d c' x' d',
    fin sign -> side_ok e -> Forall fin c -> Forall fin_term x -> fin d -> length c = length x ->
    add_side sign e (c, x, d) = Ok (c', x', d') ->
    Forall fin c' /\ Forall fin_term x' /\ fin d' /\ length c' = length x' /\
    exists z, side_value s e = Some (Fin z) /\ lin_value s c' x' d' = lin_value s c x d + iv_v sign * z.
  Proof using All.
    intros sign e c x d c' x' d' Fs Ho Fc Fx Fd Hl H. destruct e as [v|i|sc sx sd|]; cbn in H; try discriminate.
    - assert (H' : (do p <- iv_mul sign v; do d1 <- add_assign d p; Ok (c, x, d1)) = Ok (c', x', d')).
      { unfold catch_arith in H. destruct (do p <- iv_mul sign v; do d1 <- add_assign d p; Ok (c, x, d1)) as [?|[]|]; congruence. }
      clear H. apply bind_ok in H'. destruct H' as (p & Hp & H). apply bind_ok in H. destruct H as (d1 & Hd & H). inversion H; subst.
      assert (Fv : fin v).
      { pose proof (mul_inf_right _ _ _ Fs Hp (add_assign_inf _ _ _ Hd)) as I.
        destruct Ho as [z Hz]. unfold denote in Hz. rewrite I in Hz. unfold fin, is_int, denote. rewrite I.
        destruct ((LLONG_MIN <=? iv_v v) && (iv_v v <=? LLONG_MAX)); [auto|discriminate]. }
      destruct (fin_mul _ _ _ Fs Fv Hp) as [Fp Ep]. destruct (fin_add_assign _ _ _ Fd Fp Hd) as [Fd' Ed].
      repeat split; auto. exists (iv_v v). split; [exact Fv|]. unfold lin_value. lia.
    - inversion H; subst. repeat split; auto.
      + apply Forall_app; auto.
      + apply Forall_app; split; auto.
      + rewrite !app_length; cbn; lia.
      + exists (vid s i). split; [reflexivity|]. unfold lin_value.
        rewrite !map_app, dot_app by (rewrite !map_length; auto). cbn [map dot tval]. ring.
    - destruct Ho as (G1 & G2 & G3 & G4).
      assert (H' : (do p <- iv_mul sign sd; do d1 <- add_assign d p; do c1 <- scale_all sign sc; Ok (c ++ c1, x ++ sx, d1)) = Ok (c', x', d')).
      { unfold catch_arith in H.
        destruct (do p <- iv_mul sign sd; do d1 <- add_assign d p; do c1 <- scale_all sign sc; Ok (c ++ c1, x ++ sx, d1)) as [?|[]|]; congruence. }
      clear H. apply bind_ok in H'. destruct H' as (p & Hp & H). apply bind_ok in H. destruct H as (d1 & Hd & H).
      apply bind_ok in H. destruct H as (c1 & Hc1 & H). inversion H; subst.
      destruct (fin_mul _ _ _ Fs G3 Hp) as [Fp Ep]. destruct (fin_add_assign _ _ _ Fd Fp Hd) as [Fd' Ed].
      destruct (scale_all_ok _ _ _ Fs G1 Hc1) as (S1 & S2 & S3).
      repeat split; auto.
      + apply Forall_app; auto.
      + apply Forall_app; auto.
      + rewrite !app_length; lia.
      + exists (lin_value s sc sx sd). split; [reflexivity|]. unfold lin_value.
        rewrite !map_app, dot_app by (rewrite !map_length; auto). rewrite S2, dot_scale, Ed, Ep. ring.
  Qed.

  Lemma holds_allowed : forall bot x y, holds bot (Fin x) (Fin y) <-> allowed bot (x - y) 0.
  Proof using All.
    intros bot x y. destruct bot; cbn [holds allowed]; unfold ext_lt; cbn [ext_le].
    - split; [intros [A B]; assert (x <> y) by congruence; lia|intros A; split; [lia|intros B; inversion B; lia]].
    - lia.
    - split; [intros [A B]; assert (x <> y) by congruence; lia|intros A; split; [lia|intros B; inversion B; lia]].
    - lia.
    - split; [intros A; inversion A; lia|intros A; f_equal; lia].
    - split; [intros A B; apply A; f_equal; lia|intros A B; inversion B; lia].
  Qed.

  Lemma binop_ok : forall bot le0 le1 a b o,
    side_ok le0 -> side_ok le1 -> side_value s le0 = Some a -> side_value s le1 = Some b ->
    (exists z, a = Fin z) \/ (exists z, b = Fin z) ->
    linexp_binop fuel ds sort bnd dom revmap fdiv cdiv root dn rTrue own_id bot le0 le1 = Ok o ->
    expresses s dn (holds bot a b) o.
  Proof using All.
    intros bot le0 le1 a b o O0 O1 V0 V1 Hfin H. unfold linexp_binop in H.
    assert (Xor : forall (v : bool) (P : Prop), (v = true <-> P) -> (xorb dn v = true <-> (if dn then ~ P else P))).
    { intros v P X. destruct dn, v; cbn; intuition congruence. }
    assert (L : forall v, le0 = SLit v -> isFinite v = false -> expresses s dn (holds bot a b) (OConst (xorb dn (inf_left bot v)))).
    { intros v E I. subst le0. cbn [side_value] in V0. apply Xor.
      unfold isFinite in I. destruct (iv_inf v) eqn:Iv; [|discriminate].
      unfold denote in V0. rewrite Iv in V0.
      unfold inf_left, isMinusInfinity, isPlusInfinity. rewrite Iv.
      destruct (iv_v v =? 1) eqn:E1.
      - inversion V0; subst a. destruct Hfin as [[z X]|[z X]]; [discriminate|subst b].
        assert (E2 : (iv_v v =? -1) = false) by lia. rewrite E2.
        destruct bot; cbn; unfold ext_lt; cbn; intuition congruence.
      - destruct (iv_v v =? -1) eqn:E2; [|discriminate]. inversion V0; subst a.
        destruct Hfin as [[z X]|[z X]]; [discriminate|subst b].
        destruct bot; cbn; unfold ext_lt; cbn; intuition congruence. }
    assert (R : forall v, le1 = SLit v -> isFinite v = false -> expresses s dn (holds bot a b) (OConst (xorb dn (inf_right bot v)))).
    { intros v E I. subst le1. cbn [side_value] in V1. apply Xor.
      unfold isFinite in I. destruct (iv_inf v) eqn:Iv; [|discriminate].
      unfold denote in V1. rewrite Iv in V1.
      unfold inf_right, isMinusInfinity, isPlusInfinity. rewrite Iv.
      destruct (iv_v v =? 1) eqn:E1.
      - inversion V1; subst b. destruct Hfin as [[z X]|[z X]]; [subst a|discriminate].
        assert (E2 : (iv_v v =? -1) = false) by lia. rewrite E2.
        destruct bot; cbn; unfold ext_lt; cbn; intuition congruence.
      - destruct (iv_v v =? -1) eqn:E2; [|discriminate]. inversion V1; subst b.
        destruct Hfin as [[z X]|[z X]]; [subst a|discriminate].
        destruct bot; cbn; unfold ext_lt; cbn; intuition congruence. }
    match type of H with match ?e with _ => _ end = _ => destruct e as [eb|] eqn:Eearly end.
    { inversion H; subst o. clear H.
      destruct ((match bot with BOT_EQ => true | _ => false end) && root); [discriminate|].
      destruct le0 as [v|i|? ? ?|]; destruct le1 as [w|j|? ? ?|]; try discriminate;
        try (destruct (isFinite v) eqn:Iv; [discriminate|]; inversion Eearly; subst; apply L; auto);
        (destruct (isFinite w) eqn:Iw; [discriminate|]; inversion Eearly; subst; apply R; auto). }
    clear L R Eearly.
    apply bind_ok in H. destruct H as (((c0, x0), d0) & H0 & H).
    apply bind_ok in H. destruct H as (((cv, xv), dv) & H1 & H).
    apply bind_ok in H. destruct H as (((coeffv, alv), d) & H2 & H).
    apply add_side_ok in H0; auto using fin_1, fin_0. destruct H0 as (A1 & A2 & A3 & A4 & za & Za & Ea).
    apply add_side_ok in H1; auto using fin_m1. destruct H1 as (B1 & B2 & B3 & B4 & zb & Zb & Eb).
    rewrite V0 in Za. rewrite V1 in Zb. inversion Za; inversion Zb; subst a b.
    apply (simplify_all s) in H2; auto. destruct H2 as (Ev & Fc & Fd & Hl & NZ & NL & ND). specialize (Ev Hres).
    assert (EV : lin_value s coeffv alv d = za - zb).
    { rewrite Ev, Eb, Ea. unfold lin_value. cbn [map dot ofZ iv_v]. lia. }
    eapply expresses_iff; [symmetry; apply holds_allowed|]. rewrite <- EV. clear EV Ev Ea Eb Za Zb V0 V1.
    destruct coeffv as [|c cs].
    - apply bind_ok in H. destruct H as (nd & Hn & H). inversion H; subst. destruct (fin_neg _ _ Fd Hn) as [Fn En].
      destruct alv; [|discriminate]. unfold lin_value. cbn [map dot]. apply Xor. unfold const_result.
      pose proof fin_0.
      destruct bot; unfold iv_gt, iv_ge, iv_ne;
        rewrite ?fin_iv_lt, ?fin_iv_le, ?fin_iv_eq by assumption; cbn [ofZ iv_v allowed]; lia.
    - destruct alv as [|t ts]; [discriminate|].
      apply bind_ok in H. destruct H as (one & Hone & H).
      inversion Fc as [|? ? Fc1 Fcs]; subst.
      destruct one.
      + destruct cs; [|discriminate]. destruct ts; [|discriminate].
        apply bind_ok in Hone. destruct Hone as (ab & Hab & Hone). inversion Hone as [Hab1].
        destruct (C01_abs_l c _ Fc1) as [P1 P2].
        assert (Z.abs (iv_v c) = 1).
        { destruct (fits64b (Z.abs (iv_v c))) eqn:Ef.
          - apply fits64b_iff in Ef. destruct (P1 Ef) as (r & Er & Ir). rewrite Er in Hab. inversion Hab; subst r.
            apply is_int_fin in Ir. destruct Ir as [Fa Ea]. rewrite fin_iv_eq in Hab1 by auto using fin_1. cbn [ofZ iv_v] in Hab1. lia.
          - rewrite P2 in Hab; [discriminate|]. rewrite <- fits64b_iff. congruence. }
        apply one_term_ok in H; auto.
        eapply expresses_iff; [|exact H]. unfold lin_value. cbn [map dot]. rewrite Z.add_0_r. reflexivity.
      + apply bind_ok in H. destruct H as (opp & Hopp & H).
        destruct opp.
        * destruct t as [v|i0|r]; try discriminate. destruct ts as [|[v|i1|r] [|? ?]]; try discriminate.
          destruct bot; try discriminate. destruct cs as [|c1 [|? ?]]; try discriminate.
          apply bind_ok in Hopp. destruct Hopp as (n & Hn & Hopp). inversion Hopp as [Hop]. apply andb_prop in Hop.
          destruct Hop as [Hop1 Hop2]. inversion Fcs as [|? ? Fc2 _]; subst. destruct (fin_neg _ _ Fc2 Hn) as [Fn En].
          rewrite fin_iv_eq in Hop1, Hop2 by auto using fin_0. cbn [ofZ iv_v] in *.
          assert (Q : allowed BOT_EQ (lin_value s [c; c1] [TId i0; TId i1] d) 0 <-> vid s i0 = vid s i1).
          { unfold lin_value. cbn [map dot tval allowed]. inversion NZ; subst.
            assert (iv_v c1 = - iv_v c) by lia. assert (iv_v d = 0) by lia. rewrite H0, H1. nia. }
          eapply expresses_iff; [symmetry; exact Q|].
          destruct (root && rTrue).
          -- destruct (ds i0), (ds i1); inversion H; subst; cbn; tauto || (split; congruence).
          -- inversion H; subst; cbn; tauto.
        * apply bind_ok in H. destruct H as (up & Hup & H). apply bind_ok in H. destruct H as (((k, sign), d') & Hk & H).
          apply bind_ok in H. destruct H as (c' & Hsc & H). apply bind_ok in H. destruct H as (nd & Hnd & H).
          inversion H; subst o. cbn [expresses out_meaning].
          set (cc := c :: cs) in *. set (xx := t :: ts) in *.
          assert (U : allowed bot (lin_value s cc xx d) 0 -> update_meaning s up).
          { intros Al. destruct bot; cbn [andb] in Hup; try (inversion Hup; subst; exact I).
            destruct (Bool.bool_dec root true) as [Rt|Rt];
              [rewrite Rt in Hup|apply Bool.not_true_is_false in Rt; rewrite Rt in Hup; inversion Hup; subst; exact I].
            destruct (match le0 with SId i => Some i | _ => match le1 with SId i => Some i | _ => None end end) as [i|] eqn:Et.
            - replace (match le0, le1 with SId i, _ => Some i | _, SId i => Some i | _, _ => None end) with (Some i) in Hup
                by (rewrite <- Et; destruct le0, le1; reflexivity).
              eapply assign_bounds_ok; [| | | | |exact Hup|exact Al]; auto.
            - replace (match le0, le1 with SId i, _ => Some i | _, SId i => Some i | _, _ => None end) with (@None ident) in Hup
                by (rewrite <- Et; destruct le0, le1; reflexivity).
              inversion Hup; subst; exact I. }
          assert (M : (match k with KLe => dot (map iv_v c') (map (tval s) xx) <= iv_v nd
                     | KEq => dot (map iv_v c') (map (tval s) xx) = iv_v nd
                     | KNe => dot (map iv_v c') (map (tval s) xx) <> iv_v nd end) <-> allowed bot (lin_value s cc xx d) 0).
          { unfold lin_value.
            destruct bot; cbn [constructLinBuiltin] in Hk;
              repeat match type of Hk with bind _ _ = _ => let q := fresh in apply bind_ok in Hk; destruct Hk as (? & q & Hk) end;
              inversion Hk; subst; clear Hk;
              repeat match goal with
                | Q : add_assign ?p (ofZ 1) = Ok _ |- _ => apply fin_add_assign in Q; auto using fin_1; destruct Q
                | Q : iv_add ?p (ofZ 1) = Ok _ |- _ => apply fin_add in Q; auto using fin_1; destruct Q
                | Q : iv_neg d = Ok _ |- _ => apply fin_neg in Q; auto; destruct Q
                end;
              (apply scale_all_ok in Hsc; auto using fin_1, fin_m1; destruct Hsc as (S1 & S2 & S3));
              (apply fin_neg in Hnd; auto; destruct Hnd as [_ En]);
              rewrite S2, dot_scale, En; cbn [ofZ iv_v allowed] in *; lia. }
          tauto.
  Qed.
End Binop.

(** ** statements used by PropertiesLinear *)
Lemma C11_value_l : forall s fuel ds sort c x d c' x' d',
  sorts sort -> fin_decls ds -> respects s ds ->
  Forall fin c -> Forall fin_term x -> fin d -> length c = length x ->
  simplify_lin fuel ds sort c x d = Ok (c', x', d') ->
  lin_value s c' x' d' = lin_value s c x d.
Proof. intros. eapply (simplify_all s); eauto. Qed.
Lemma C11_nf_l : forall fuel ds sort c x d c' x' d',
  sorts sort -> fin_decls ds ->
  Forall fin c -> Forall fin_term x -> fin d -> length c = length x ->
  simplify_lin fuel ds sort c x d = Ok (c', x', d') ->
  length c' = length x' /\ Forall (fun v => iv_v v <> 0) c' /\ Forall (fun t => ~ is_lit t) x' /\ NoDup x'.
Proof.
  intros fuel ds sort c x d c' x' d' Hs Fd Fc Fx F Hl H.
  apply (simplify_all {| vid := fun _ => 0; vexp := fun _ => 0 |}) in H; auto.
  destruct H as (_ & _ & _ & A & B & C & D). auto.
Qed.
Lemma follow_total : forall ds (rank : ident -> nat), (forall i j, ds i = RId j -> (rank j < rank i)%nat) ->
  forall fuel i, (rank i < fuel)%nat -> exists j, follow fuel ds i = Ok j.
Proof.
  intros ds rank H. induction fuel as [|n IH]; intros i Hi; [lia|]. cbn.
  destruct (ds i) eqn:E; eauto. apply IH. apply H in E. lia.
Qed.
Lemma C11_total_l : forall fuel ds sort c x d,
  sorts sort -> fin_decls ds -> acyclic ds fuel ->
  Forall fin c -> Forall fin_term x -> fin d -> length c = length x ->
  (forall x', resolve_all fuel ds x = Ok x' -> small_lits x' /\ weight c x' + Z.abs (iv_v d) <= LLONG_MAX) ->
  exists r, simplify_lin fuel ds sort c x d = Ok r.
Proof.
  intros fuel ds sort c x d Hs Fd (rank & Hr & Hd) Fc Fx F Hl H.
  assert (T : forall y, exists y', resolve_all fuel ds y = Ok y').
  { induction y as [|t y (y' & IH)]; cbn; [eauto|]. rewrite IH.
    destruct t as [v|i|r]; cbn; eauto.
    destruct (follow_total ds rank Hd fuel i (Hr i)) as (j & ->). cbn. eauto. }
  destruct (T x) as (x' & E). destruct (H _ E). eapply simplify_total_l; eauto.
Qed.
Lemma C12_collect_l : forall s in_c e coeffs vars k co va k',
  fin in_c -> fin_lexp e -> Forall fin coeffs -> Forall fin_lexp vars -> fin k -> length coeffs = length vars ->
  collect_linexps in_c e coeffs vars k = Ok (co, va, k') ->
  length co = length va /\
  dot (map iv_v co) (map (leval s) va) + iv_v k' =
  dot (map iv_v coeffs) (map (leval s) vars) + iv_v k + iv_v in_c * leval s e.
Proof.
  intros s in_c e coeffs vars k co va k' A B C D E F H. apply (collect_linexps_ok s) in H; auto. tauto.
Qed.
Lemma C52_sum_l : forall s fuel ds sort lin_def keep ts r,
  sorts sort -> fin_decls ds -> respects s ds ->
  (forall t c x e, lin_def t = Some (c, x, e) ->
      Forall fin c /\ Forall fin_term x /\ fin e /\ length c = length x /\ tval s t = lin_value s c x e) ->
  Forall fin_term ts ->
  flatten_sum fuel ds sort lin_def keep ts = Ok r ->
  linexp_value s r = fold_right Z.add 0 (map (tval s) ts).
Proof.
  intros s fuel ds sort lin_def keep ts r Hs Fd R HD Ft H. unfold flatten_sum in H.
  apply (linexp_call_ok s) in H; auto using fin_0.
  - rewrite H. unfold lin_value. cbn [ofZ iv_v]. clear. induction ts; cbn [map dot fold_right]; [reflexivity|].
    cbn [ofZ iv_v]. lia.
  - rewrite map_length; auto.
  - apply Forall_forall. intros v I. apply in_map_iff in I. destruct I as (? & <- & _). apply fin_1.
Qed.
