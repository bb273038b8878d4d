Require Import ZArith List Bool Lia ZifyBool.
From Verif Require Import Base IntValModel IntValSpec IntValProofs SetModel SetSpec SetProofs SetProofs2 SetProofs3 SetPropProofs
  BsetProofs BsetProofs2 DomModel DomSpec DomProofs.
Import ListNotations.
Open Scope Z_scope.

(** ranges of a set all of whose elements are small are finite *)
Lemma range_fin s a b l u : nf s -> In (a, b) s -> fits64 l -> fits64 u -> (forall z, elem z s -> l <= z <= u) ->
  exists c d, a = ofZ c /\ b = ofZ d /\ fits64 c /\ fits64 d /\ c <= d /\ (forall z, c <= z <= d -> elem z s).
Proof.
  intros N Hi Fl Fu H. destruct (nf_in_okr BIG s a b BIG_ok N Hi) as (Wa & Wb & L & A2 & A3). cbn [fst snd] in *.
  assert (E : forall z, K a <= z <= K b -> - BIG < z < BIG -> elem z s).
  { intros z Hz HB. exists a, b. split; [assumption|]. apply (between_k BIG BIG_ok); auto. }
  assert (Ka : LLONG_MIN <= K a <= LLONG_MAX).
  { destruct (key_cases BIG BIG_ok a Wa) as [Q|[Q|Q]]; auto; exfalso.
    - lia.
    - assert (M := H (LLONG_MIN - 1)). destruct (Z_le_gt_dec (LLONG_MIN - 1) (K b)) as [J|J].
      + specialize (M (E (LLONG_MIN - 1) ltac:(unfold BIG, LLONG_MIN, LLONG_MAX in *; lia) ltac:(unfold BIG, LLONG_MIN, LLONG_MAX in *; lia))).
        unfold fits64 in *. lia.
      + destruct (key_cases BIG BIG_ok b Wb) as [R|[R|R]]; unfold BIG, LLONG_MIN, LLONG_MAX in *; lia. }
  assert (Kb : LLONG_MIN <= K b <= LLONG_MAX).
  { destruct (key_cases BIG BIG_ok b Wb) as [Q|[Q|Q]]; auto; exfalso; [|lia].
    assert (M := H (LLONG_MAX + 1) (E (LLONG_MAX + 1) ltac:(unfold BIG, LLONG_MIN, LLONG_MAX in *; lia) ltac:(unfold BIG, LLONG_MIN, LLONG_MAX in *; lia))).
    unfold fits64 in *. lia. }
  destruct (key_fin BIG a Wa ltac:(unfold BIG, LLONG_MIN, LLONG_MAX in *; lia)) as (Q1 & Q2 & _).
  destruct (key_fin BIG b Wb ltac:(unfold BIG, LLONG_MIN, LLONG_MAX in *; lia)) as (Q3 & Q4 & _).
  exists (K a), (K b). split; [rewrite Q2; destruct a; cbn in *; subst; reflexivity|].
  split; [rewrite Q4; destruct b; cbn in *; subst; reflexivity|]. split; [exact Ka|]. split; [exact Kb|]. split; [exact L|].
  intros z Hz. apply E; [assumption|]. unfold BIG, LLONG_MIN, LLONG_MAX in *. lia.
Qed.

Lemma nf_interval a b : fits64 a -> fits64 b -> nf (const_range (ofZ a) (ofZ b)).
Proof.
  intros Fa Fb. unfold const_range, iv_gt. rewrite (lt_k BIG BIG_ok) by now apply wfv_ofZ. cbn [key ofZ iv_inf iv_v].
  destruct (b <? a) eqn:E; [constructor|]. apply nf_one. exists a. exists (Fin a), (Fin b). cbn [fst snd].
  rewrite (is_int_ofZ a Fa : denote _ = _), (is_int_ofZ b Fb : denote _ = _). cbn. repeat split; lia.
Qed.
Lemma gap_elem r1 r2 s : nf (r1 :: r2 :: s) -> exists z, ~ elem z (r1 :: r2 :: s) /\
  (exists x y, between x (fst r1) (snd r1) /\ between y (fst r2) (snd r2) /\ x < z < y).
Proof.
  intros N. assert (N' := nf_nfk BIG BIG_ok _ N). destruct r1 as [a b], r2 as [c d]. cbn [nfk fst snd] in N'.
  destruct N' as (O1 & _ & O2 & G & _). assert (O1' := O1). assert (O2' := O2).
  destruct O1 as (Wa & Wb & L1 & A1 & B1), O2 as (Wc & Wd & L2 & A2 & B2). cbn [fst snd] in *.
  assert (Kb := key_cases BIG BIG_ok b Wb). assert (Kc := key_cases BIG BIG_ok c Wc).
  assert (HbB : - BIG < K b + 1 < BIG) by (unfold BIG, LLONG_MIN, LLONG_MAX in *; lia).
  exists (K b + 1). split.
  - intros E. apply (elem_kB BIG _ _ BIG_ok HbB N) in E.
    apply (nfk_ends BIG _ _ a b (nf_nfk BIG BIG_ok _ N)) in E; [assumption|now left].
  - exists (K b), (K c). split; [|split].
    + apply (between_k BIG BIG_ok); [lia|]. repeat split; auto; lia.
    + apply (between_k BIG BIG_ok); [lia|]. repeat split; auto; lia.
    + lia.
Qed.

(** by.l .. by.u without 0 is at most two ranges *)
Lemma diff_two l u rs : fits64 l -> fits64 u -> set_diff (const_range (ofZ l) (ofZ u)) (const_range (ofZ 0) (ofZ 0)) = Ok rs ->
  nf rs /\ (forall z, elem z rs <-> l <= z <= u /\ z <> 0) /\ (length rs <= 2)%nat.
Proof.
  intros Fl Fu E.
  assert (N1 := nf_interval l u Fl Fu). assert (N2 := nf_interval 0 0 (fits_small 0 ltac:(lia)) (fits_small 0 ltac:(lia))).
  destruct (C06_diff_l _ _ N1 N2) as [(r & E' & Nr & H)|[E' _]]; [|congruence].
  rewrite E in E'. inversion E'; subst r. split; [assumption|].
  assert (H' : forall z, elem z rs <-> l <= z <= u /\ z <> 0).
  { intros z. rewrite H. change (const_range (ofZ l) (ofZ u)) with (set_interval (ofZ l) (ofZ u)).
    change (const_range (ofZ 0) (ofZ 0)) with (set_interval (ofZ 0) (ofZ 0)).
    rewrite !interval_elem by (auto; apply fits_small; lia). lia. }
  split; [assumption|].
  destruct rs as [|r1 [|r2 [|r3 rs]]]; cbn; try lia. exfalso.
  destruct (gap_elem r1 r2 (r3 :: rs) Nr) as (z & Nz & x & y & Bx & By & Hz).
  assert (Nr2 : nf (r2 :: r3 :: rs)) by (inversion Nr; assumption).
  destruct (gap_elem r2 r3 rs Nr2) as (z' & Nz' & x' & y' & Bx' & By' & Hz').
  assert (e1 : elem x (r1 :: r2 :: r3 :: rs)) by (exists (fst r1), (snd r1); split; [left; now destruct r1|assumption]).
  assert (e2 : elem y (r1 :: r2 :: r3 :: rs)) by (exists (fst r2), (snd r2); split; [right; left; now destruct r2|assumption]).
  assert (e3 : elem y' (r1 :: r2 :: r3 :: rs)) by (exists (fst r3), (snd r3); split; [right; right; left; now destruct r3|assumption]).
  assert (e4 : elem x' (r1 :: r2 :: r3 :: rs)) by (exists (fst r2), (snd r2); split; [right; left; now destruct r2|assumption]).
  apply H' in e1, e2, e3, e4. rewrite H' in Nz. assert (z = 0) by lia. subst z.
  (* everything in r2 is positive *)
  assert (P2 : forall w, between w (fst r2) (snd r2) -> 0 < w).
  { intros w Bw. destruct (Z_lt_ge_dec 0 w) as [|G]; [assumption|]. exfalso. apply Nz.
    assert (B0 : between 0 (fst r2) (snd r2)).
    { destruct By as (p & q & D1 & D2 & L1 & L2). destruct Bw as (p' & q' & D1' & D2' & L1' & L2').
      rewrite D1 in D1'. rewrite D2 in D2'. inversion D1'; inversion D2'; subst p' q'.
      exists p, q. repeat split; auto; destruct p, q; cbn in *; try tauto; lia. }
    assert (e0 : elem 0 (r1 :: r2 :: r3 :: rs)) by (exists (fst r2), (snd r2); split; [right; left; now destruct r2|assumption]).
    apply H' in e0. lia. }
  assert (x' > 0) by (apply P2 in Bx'; lia).
  apply Nz'. assert (Ez : elem z' (r1 :: r2 :: r3 :: rs)) by (apply H'; lia).
  destruct Ez as (p & q & [Q|Hin] & Bz'); [|exists p, q; auto].
  exfalso. subst r1. cbn [fst snd] in *.
  (* r1 would then hold 0 *)
  assert (B0 : between 0 p q).
  { destruct Bx as (p' & q' & D1 & D2 & L1 & L2). destruct Bz' as (p2 & q2 & D1' & D2' & L1' & L2').
    rewrite D1 in D1'. rewrite D2 in D2'. inversion D1'; inversion D2'; subst p2 q2.
    exists p', q'. repeat split; auto; destruct p', q'; cbn in *; try tauto; lia. }
  assert (e0 : elem 0 ((p, q) :: r2 :: r3 :: rs)) by (exists p, q; split; [now left|assumption]).
  apply H' in e0. lia.
Qed.

Definition box (f : Z -> Z -> option Z) (a b c d : Z) (v : Z) : Prop := exists x y, a <= x <= b /\ c <= y <= d /\ f x y = Some v.

Lemma div_bounds_ok bx by_ a b l u s : b_valid bx = true -> b_valid by_ = true -> b_l bx = ofZ a -> b_u bx = ofZ b -> b_l by_ = ofZ l -> b_u by_ = ofZ u ->
  fits64 a -> fits64 b -> fits64 l -> fits64 u -> a <= b -> div_bounds bx by_ = Ok s ->
  (forall z, box div_value a b l u z -> elem z s) /\
  (forall z, elem z s -> exists v v', box div_value a b l u v /\ box div_value a b l u v' /\ v <= z <= v').
Proof.
  intros V1 V2 E1 E2 E3 E4 Fa Fb Fl Fu Hab E. unfold div_bounds, b_finite in E. rewrite V1, V2, E1, E2, E3, E4 in E. cbn [isFinite negb andb ofZ iv_inf] in E.
  change (mkIV l false) with (ofZ l) in E. change (mkIV u false) with (ofZ u) in E.
  change (mkIV 0 false) with (ofZ 0) in E.
  destruct (set_diff _ _) as [rs| |] eqn:D; cbn [bind] in E; try discriminate.
  destruct (diff_two l u rs Fl Fu D) as (N & H & Len).
  set (P := box div_value a b l u).
  assert (I0 : st_ok P (ofZ LLONG_MAX, ofZ LLONG_MIN)).
  { split; cbn [fst snd]; try (apply wfv_ofZ; unfold fits64, LLONG_MIN, LLONG_MAX; lia); left; rewrite K_ofZ; lia. }
  assert (Step : forall r st st', In r rs -> st_ok P st -> div_corners bx r st = Ok st' ->
     st_ok P st' /\ (forall z, lo_w st z -> lo_w st' z) /\ (forall z, hi_w st z -> hi_w st' z) /\
     (exists w, fits64 w /\ P w /\ lo_w st' w /\ hi_w st' w) /\
     (forall x y, a <= x <= b -> between y (fst r) (snd r) -> lo_w st' (Z.quot x y) /\ hi_w st' (Z.quot x y))).
  { intros [p q] st st' Hr I Ec.
    destruct (range_fin rs p q l u N Hr Fl Fu ltac:(intros z Hz; apply H in Hz; lia)) as (c & d & -> & -> & Fc & Fd & Hcd & Hin).
    assert (Sg : 0 < c \/ d < 0).
    { destruct (Z_lt_ge_dec 0 c); [auto|]. destruct (Z_lt_ge_dec d 0); [auto|]. exfalso.
      assert (Z0 := Hin 0 ltac:(lia)). apply H in Z0. lia. }
    assert (Ic := Hin c ltac:(lia)). assert (Id := Hin d ltac:(lia)). apply H in Ic, Id.
    assert (HP : forall q, In q [Z.quot a c; Z.quot a d; Z.quot b c; Z.quot b d] -> P q).
    { intros q [<-|[<-|[<-|[<-|[]]]]]; [exists a, c|exists a, d|exists b, c|exists b, d]; (repeat split; try lia; unfold div_value;
        match goal with |- context [?k =? 0] => replace (k =? 0) with false by lia end; reflexivity). }
    destruct (corners_ok P bx a b c d st st' I E1 E2 Fa Fb Fc Fd ltac:(lia) ltac:(lia) HP Ec) as (I' & Fq & L & U).
    split; [assumption|]. split; [intros z Hz; apply L; auto|]. split; [intros z Hz; apply U; auto|]. split.
    - exists (Z.quot a c). split; [assumption|]. split; [apply HP; cbn; auto|].
      split; [apply L|apply U]; right; exists (Z.quot a c); (split; [cbn; auto|lia]).
    - intros x y Hx By. assert (Hy : c <= y <= d).
      { destruct By as (e1 & e2 & B1 & B2 & B3 & B4). cbn [fst snd] in *.
        rewrite (is_int_ofZ c Fc : denote _ = _) in B1. rewrite (is_int_ofZ d Fd : denote _ = _) in B2.
        inversion B1; inversion B2; subst. cbn in *. lia. }
      destruct (quot_box a b c d x y Hx Sg Hy) as [Q1 Q2]. split; [apply L|apply U]; auto. }
  assert (Q : forall z, P z -> exists x y r, a <= x <= b /\ In r rs /\ between y (fst r) (snd r) /\ z = Z.quot x y).
  { intros z (x & y & Hx & Hy & Ez). unfold div_value in Ez. destruct (y =? 0) eqn:Y0; [discriminate|]. inversion Ez; subst.
    assert (Ey : elem y rs) by (apply H; lia). destruct Ey as (p & q & Hr & By). exists x, y, (p, q). auto. }
  destruct rs as [|r1 [|r2 [|r3 rs]]]; cbn [bind length] in *; try lia.
  - cbn [fst snd] in E. inversion E; subst s. split.
    + intros z Pz. destruct (Q z Pz) as (x & y & r & _ & [] & _).
    + intros z Ez. apply interval_elem in Ez; unfold fits64, LLONG_MIN, LLONG_MAX in *; lia.
  - destruct (div_corners bx r1 _) as [st| |] eqn:Ec; cbn [bind] in E; try discriminate. inversion E; subst s.
    destruct (Step r1 _ _ (or_introl eq_refl) I0 Ec) as (I1 & L1 & U1 & (w & Fw & Pw & Lw & Uw) & C1).
    destruct (final_ok P st w I1 Fw Pw Lw Uw) as [G1 G2]. split; [|exact G2].
    intros z Pz. destruct (Q z Pz) as (x & y & r & Hx & [<-|[]] & By & ->). destruct (C1 x y Hx By). now apply G1.
  - destruct (div_corners bx r1 _) as [st| |] eqn:Ec; cbn [bind] in E; try discriminate.
    destruct (div_corners bx r2 _) as [st2| |] eqn:Ec2; cbn [bind] in E; try discriminate. inversion E; subst s.
    destruct (Step r1 _ _ (or_introl eq_refl) I0 Ec) as (I1 & _ & _ & _ & C1).
    destruct (Step r2 _ _ (or_intror (or_introl eq_refl)) I1 Ec2) as (I2 & L2 & U2 & (w & Fw & Pw & Lw & Uw) & C2).
    destruct (final_ok P st2 w I2 Fw Pw Lw Uw) as [G1 G2]. split; [|exact G2].
    intros z Pz. destruct (Q z Pz) as (x & y & r & Hx & [<-|[<-|[]]] & By & ->).
    + destruct (C1 x y Hx By). apply G1; auto.
    + destruct (C2 x y Hx By). apply G1; auto.
Qed.

Lemma div_covers bx by_ s : div_bounds bx by_ = Ok s -> covers div_value bx by_ s.
Proof.
  intros E x y z Hx Hy Ez.
  destruct (b_finite bx) eqn:F1; [|unfold div_bounds in E; rewrite F1 in E; inversion E; apply unbounded_elem].
  destruct (b_finite by_) eqn:F2; [|unfold div_bounds in E; rewrite F1, F2 in E; inversion E; apply unbounded_elem].
  destruct (finite_holds bx x F1 Hx) as (a & b & A1 & A2 & A3 & A4 & A5).
  destruct (finite_holds by_ y F2 Hy) as (c & d & B1 & B2 & B3 & B4 & B5).
  assert (V1 : b_valid bx = true) by (unfold b_finite in F1; destruct (b_valid bx); auto).
  assert (V2 : b_valid by_ = true) by (unfold b_finite in F2; destruct (b_valid by_); auto).
  apply (div_bounds_ok bx by_ a b c d s V1 V2 A1 A2 B1 B2 A3 A4 B3 B4 ltac:(lia) E). exists x, y. auto.
Qed.

(** ** Remainder *)
Lemma neg_ok a r : fits64 a -> iv_neg (ofZ a) = Ok r -> r = ofZ (- a) /\ fits64 (- a).
Proof.
  intros F E. rewrite (iv_neg_spec (ofZ a) a (is_int_ofZ a F)) in E. unfold outcome in E.
  destruct (fits64b (- a)) eqn:Q; [|discriminate]. inversion E. split; [reflexivity|]. unfold fits64b, fits64 in *. lia.
Qed.
Lemma sub_ok a b r : fits64 a -> fits64 b -> iv_sub (ofZ a) (ofZ b) = Ok r -> r = ofZ (a - b) /\ fits64 (a - b).
Proof.
  intros Fa Fb E. rewrite (iv_sub_spec (ofZ a) (ofZ b) a b (is_int_ofZ a Fa) (is_int_ofZ b Fb)) in E. unfold outcome in E.
  destruct (fits64b (a - b)) eqn:Q; [|discriminate]. inversion E. split; [reflexivity|]. unfold fits64b, fits64 in *. lia.
Qed.
Lemma max_ofZ a b : iv_max (ofZ a) (ofZ b) = ofZ (Z.max a b).
Proof.
  unfold iv_max, iv_lt, isPlusInfinity, isMinusInfinity, isFinite. cbn. destruct (a <? b) eqn:E; unfold ofZ; f_equal; lia.
Qed.
Lemma between_lower b x : b_valid b = true -> holds b x -> isFinite (b_l b) = true -> iv_v (b_l b) <= x.
Proof.
  intros V H F. destruct (H V) as (p & q & D1 & D2 & L1 & L2). destruct (b_l b) as [v i]. unfold isFinite in F. destruct i; [discriminate|].
  unfold denote in D1. cbn [iv_inf iv_v] in D1. destruct (_ && _) in D1; [|discriminate]. inversion D1; subst. cbn [iv_v]. exact L1.
Qed.
Lemma between_upper b x : b_valid b = true -> holds b x -> isFinite (b_u b) = true -> x <= iv_v (b_u b).
Proof.
  intros V H F. destruct (H V) as (p & q & D1 & D2 & L1 & L2). destruct (b_u b) as [v i]. unfold isFinite in F. destruct i; [discriminate|].
  unfold denote in D2. cbn [iv_inf iv_v] in D2. destruct (_ && _) in D2; [|discriminate]. inversion D2; subst. cbn [iv_v]. exact L2.
Qed.

Lemma mod_covers bx by_ s : mod_bounds bx by_ = Ok s -> covers mod_value bx by_ s.
Proof.
  intros E x y z Hx Hy Ez. unfold mod_value in Ez. destruct (y =? 0) eqn:Y; [discriminate|]. inversion Ez; subst z. clear Ez.
  assert (R := Z.rem_bound_abs x y ltac:(lia)). unfold mod_bounds in E.
  assert (F0 : fits64 0) by (apply fits_small; lia).
  destruct (b_finite bx && (iv_v (b_l bx) =? 0) && (iv_v (b_u bx) =? 0)) eqn:Z0.
  { inversion E; subst s. apply andb_true_iff in Z0. destruct Z0 as [Z0 Z2]. apply andb_true_iff in Z0. destruct Z0 as [Z0 Z1].
    destruct (finite_holds bx x Z0 Hx) as (a & b & A1 & A2 & _ & _ & A5). rewrite A1 in Z1. rewrite A2 in Z2. cbn in Z1, Z2.
    change [(ofZ 0, ofZ 0)] with (set_interval (ofZ 0) (ofZ 0)); apply interval_elem; auto. assert (x = 0) by lia. subst. rewrite Z.rem_0_l by lia. lia. }
  destruct (b_finite by_) eqn:F2; cbn [negb] in E; [|inversion E; apply unbounded_elem].
  destruct (finite_holds by_ y F2 Hy) as (c & d & B1 & B2 & B3 & B4 & B5). rewrite B1, B2 in E.
  destruct (iv_neg (ofZ c)) as [nl| |] eqn:E1; cbn [bind] in E; try discriminate. apply neg_ok in E1; [|assumption]. destruct E1 as [-> G1].
  rewrite max_ofZ in E.
  destruct (iv_sub _ _) as [am| |] eqn:E2; cbn [bind] in E; try discriminate.
  apply sub_ok in E2; [|unfold fits64 in *; lia|apply fits_small; lia]. destruct E2 as [-> G2].
  assert (Sg : (mod_sign bx > 0 -> 0 <= x) /\ (mod_sign bx < 0 -> x <= 0)).
  { unfold mod_sign. destruct (b_valid bx) eqn:V; [|lia].
    destruct (isFinite (b_l bx) && (iv_v (b_l bx) >=? 0)) eqn:S1.
    - apply andb_true_iff in S1. destruct S1 as [S1 S2]. apply (between_lower bx x V Hx) in S1. lia.
    - destruct (isFinite (b_u bx) && (iv_v (b_u bx) <=? 0)) eqn:S3; [|lia].
      apply andb_true_iff in S3. destruct S3 as [S3 S4]. apply (between_upper bx x V Hx) in S3. lia. }
  assert (P1 : 0 <= x -> 0 <= Z.rem x y) by (intros; apply Z.rem_nonneg; lia).
  assert (P2 : x <= 0 -> Z.rem x y <= 0) by (intros; apply Z.rem_nonpos; lia).
  destruct (mod_sign bx >? 0) eqn:S1.
  { inversion E; subst s. apply interval_elem; auto. lia. }
  destruct (iv_neg _) as [na| |] eqn:E3; cbn [bind] in E; try discriminate. apply neg_ok in E3; [|assumption]. destruct E3 as [-> G3].
  destruct (mod_sign bx <? 0) eqn:S2; inversion E; subst s; apply interval_elem; auto; lia.
Qed.
