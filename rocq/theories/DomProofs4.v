Require Import ZArith List Bool Lia ZifyBool.
From Verif Require Import Base IntValModel IntValSpec IntValProofs SetModel SetSpec SetProofs SetProofs2 SetProofs3 SetPropProofs
  BsetProofs BsetProofs2 DomModel DomSpec DomProofs DomProofs2 DomProofs3.
Import ListNotations.
Open Scope Z_scope.

Definition inner (z : Z) : Prop := LLONG_MIN < z < LLONG_MAX.
Lemma inner_fits z : inner z -> fits64 z.
Proof. unfold inner, fits64. lia. Qed.
Lemma div_def a c : inner a -> fits64 c -> c <> 0 -> exists q, iv_div (ofZ a) (ofZ c) = Ok q.
Proof.
  intros A C N. rewrite (iv_div_spec _ _ a c (is_int_ofZ a (inner_fits a A)) (is_int_ofZ c C)); [|unfold inner in *; lia].
  unfold outcome. replace (c =? 0) with false by lia. eexists. reflexivity.
Qed.
Lemma div_defined bx by_ a b l u : b_valid bx = true -> b_valid by_ = true -> b_l bx = ofZ a -> b_u bx = ofZ b -> b_l by_ = ofZ l -> b_u by_ = ofZ u ->
  inner a -> inner b -> inner l -> inner u -> exists s, div_bounds bx by_ = Ok s.
Proof.
  intros V1 V2 E1 E2 E3 E4 Fa Fb Fl Fu. unfold div_bounds, b_finite. rewrite V1, V2, E1, E2, E3, E4. cbn [isFinite negb andb ofZ iv_inf].
  change (mkIV l false) with (ofZ l). change (mkIV u false) with (ofZ u). change (mkIV 0 false) with (ofZ 0).
  assert (Gl := inner_fits l Fl). assert (Gu := inner_fits u Fu).
  assert (N1 := nf_interval l u Gl Gu). assert (N2 := nf_interval 0 0 (fits_small 0 ltac:(lia)) (fits_small 0 ltac:(lia))).
  destruct (set_diff (const_range (ofZ l) (ofZ u)) (const_range (ofZ 0) (ofZ 0))) as [rs|e|] eqn:D.
  - destruct (diff_two l u rs Gl Gu D) as (N & H & Len). cbn [bind].
    assert (Step : forall r st, In r rs -> exists st', div_corners bx r st = Ok st').
    { intros [p q] [m n] Hr.
      destruct (range_fin rs p q l u N Hr Gl Gu ltac:(intros z Hz; apply H in Hz; lia)) as (c & d & -> & -> & Fc & Fd & Hcd & Hin).
      assert (Ic := Hin c ltac:(lia)). assert (Id := Hin d ltac:(lia)). apply H in Ic, Id.
      unfold div_corners. rewrite E1, E2. cbn [fst snd].
      destruct (div_def a c Fa Fc ltac:(lia)) as [q1 ->]. destruct (div_def a d Fa Fd ltac:(lia)) as [q2 ->].
      destruct (div_def b c Fb Fc ltac:(lia)) as [q3 ->]. destruct (div_def b d Fb Fd ltac:(lia)) as [q4 ->].
      cbn [bind]. eexists. reflexivity. }
    destruct rs as [|r1 [|r2 rs]]; cbn [bind].
    + eexists. reflexivity.
    + destruct (Step r1 (ofZ LLONG_MAX, ofZ LLONG_MIN) (or_introl eq_refl)) as [st ->]. eexists. reflexivity.
    + destruct (Step r1 (ofZ LLONG_MAX, ofZ LLONG_MIN) (or_introl eq_refl)) as [st ->]. cbn [bind].
      destruct (Step r2 st (or_intror (or_introl eq_refl))) as [st2 ->]. eexists. reflexivity.
  - exfalso. destruct (C06_diff_l _ _ N1 N2) as [(r & E' & _)|[E' H]]; [congruence|].
    unfold at_edge, const_range in H. destruct (iv_gt (ofZ l) (ofZ u)); destruct (iv_gt (ofZ 0) (ofZ 0));
      destruct H as [(x & y & Hi & Hx)|(x & y & Hi & Hx)]; cbn in Hi; try tauto;
      destruct Hi as [Q|[]]; inversion Q; subst x y; unfold inner in *;
      destruct Hx as [Hx|Hx]; inversion Hx; unfold LLONG_MIN, LLONG_MAX in *; lia.
  - exfalso. destruct (C06_diff_l _ _ N1 N2) as [(r & E' & _)|[E' H]]; congruence.
Qed.
Lemma neg_def a : inner a -> iv_neg (ofZ a) = Ok (ofZ (- a)).
Proof.
  intros A. rewrite (iv_neg_spec (ofZ a) a (is_int_ofZ a (inner_fits a A))). unfold outcome.
  replace (fits64b (- a)) with true; [reflexivity|]. unfold fits64b, inner, LLONG_MIN, LLONG_MAX in *. lia.
Qed.
Lemma mod_defined bx by_ l u : b_valid by_ = true -> b_l by_ = ofZ l -> b_u by_ = ofZ u ->
  inner l -> inner u -> exists s, mod_bounds bx by_ = Ok s.
Proof.
  intros V2 E3 E4 Fl Fu. unfold mod_bounds. destruct (_ && _); [eexists; reflexivity|].
  destruct (negb (b_finite by_)); [eexists; reflexivity|]. rewrite E3, E4, (neg_def l Fl). cbn [bind]. rewrite max_ofZ.
  rewrite (iv_sub_spec _ (ofZ 1) (Z.max (- l) u) 1) by (apply is_int_ofZ; unfold fits64, inner, LLONG_MIN, LLONG_MAX in *; lia).
  unfold outcome. destruct (fits64b (Z.max (- l) u - 1)) eqn:F.
  2:{ exfalso. unfold fits64b, inner, LLONG_MIN, LLONG_MAX in *. lia. }
  cbn [bind]. destruct (_ >? 0); [eexists; reflexivity|].
  rewrite neg_def by (unfold inner, fits64b, LLONG_MIN, LLONG_MAX in *; lia). cbn [bind].
  destruct (_ <? 0); eexists; reflexivity.
Qed.
Lemma pow_def a e : fits64 a -> a <> LLONG_MIN -> fits64 e -> e <= INT_MAX -> (0 <= e -> Z.abs a ^ e <= LLONG_MAX) -> (0 <= e \/ a <> 0) ->
  exists p, iv_pow (ofZ a) (ofZ e) = Ok p.
Proof.
  intros Fa Na Fe He Hp Df. destruct (Z_lt_ge_dec e 0) as [N|N].
  - rewrite (iv_pow_neg _ _ a e (is_int_ofZ a Fa) (is_int_ofZ e Fe) N). replace (a =? 0) with false by lia.
    destruct (a =? 1); [eexists; reflexivity|]. destruct (a =? -1); eexists; reflexivity.
  - rewrite (iv_pow_spec _ _ a e (is_int_ofZ a Fa) (is_int_ofZ e Fe)) by (auto; lia). unfold outcome.
    rewrite Z.abs_pow. replace (_ <=? _) with true by (symmetry; apply Z.leb_le, Hp; lia). eexists. reflexivity.
Qed.
Lemma abs_pow_le a e f : 0 <= e <= f -> 0 <= a -> a ^ f <= LLONG_MAX -> a ^ e <= LLONG_MAX.
Proof.
  intros He Ha H. destruct (Z.eq_dec a 0) as [->|N].
  - destruct (Z.eq_dec e 0) as [->|E]; [rewrite Z.pow_0_r; unfold LLONG_MAX; lia|]. rewrite Z.pow_0_l by lia. unfold LLONG_MAX; lia.
  - apply Z.le_trans with (a ^ f); [apply Z.pow_le_mono_r; lia|assumption].
Qed.
Lemma pow_defined base exp bl bu el eu : b_l base = ofZ bl -> b_u base = ofZ bu -> b_l exp = ofZ el -> b_u exp = ofZ eu ->
  fits64 bl -> fits64 bu -> fits64 el -> fits64 eu -> bl <> LLONG_MIN -> bu <> LLONG_MIN -> LLONG_MIN < el -> bl <= bu -> el <= eu -> eu <= INT_MAX ->
  (0 <= eu -> Z.abs bl ^ eu <= LLONG_MAX /\ Z.abs bu ^ eu <= LLONG_MAX) -> exists s, pow_bounds base exp = Ok s.
Proof.
  intros B1 B2 X1 X2 F1 F2 F3 F4 N1 N2 N3 Hb He Hi Hp. unfold pow_bounds. destruct (negb _); [eexists; reflexivity|].
  rewrite ?B1, ?B2, ?X2. rewrite !eq_k', lt_k' by (assumption || (apply fits_small; lia)).
  destruct ((bl =? 0) && (bu =? 0) && (eu <? 0)); [eexists; reflexivity|].
  set (s1 := pow_one base exp _).
  assert (S2 : exists s2, pow_minus_one base exp s1 = Ok s2).
  { unfold pow_minus_one. destruct (_ && _); [|eexists; reflexivity]. destruct (iv_ne _ _); [eexists; reflexivity|].
    rewrite X1. rewrite (iv_mod_spec (ofZ el) (ofZ 2) el 2) by (apply is_int_ofZ; auto; apply fits_small; lia).
    unfold outcome. cbn [Z.eqb negb bind]. destruct (iv_eq _ _); eexists; reflexivity. }
  destruct S2 as [s2 ->]. cbn [bind].
  assert (S3 : exists s3, pow_upper base exp s2 = Ok s3).
  { unfold pow_upper. rewrite B2, X2. unfold iv_ne, iv_ge. rewrite eq_k', le_k' by (assumption || (apply fits_small; lia)).
    destruct (negb (bu =? 0) || (0 <=? eu)) eqn:C; [|eexists; reflexivity].
    destruct (pow_def bu eu F2 N2 F4 Hi) as [p ->]; [intros; now apply Hp|lia|]. eexists; reflexivity. }
  destruct S3 as [s3 ->]. cbn [bind].
  assert (S4 : exists s4, pow_lower base exp s3 = Ok s4).
  { unfold pow_lower, iv_ne, iv_ge, iv_gt. rewrite B1, B2, X1, X2. rewrite ?eq_k', ?le_k', ?lt_k' by (assumption || (apply fits_small; lia)).
    destruct (bl <? 0) eqn:C.
    - destruct (pow_def bl eu F1 N1 F4 Hi) as [p ->]; [intros; now apply Hp|lia|]. cbn [bind].
      destruct (el =? eu) eqn:D; cbn [negb].
      + destruct ((0 <=? bu) && (0 <? el)); eexists; reflexivity.
      + rewrite (iv_sub_spec (ofZ eu) (ofZ 1) eu 1) by (apply is_int_ofZ; auto; apply fits_small; lia). unfold outcome.
        assert (Q : fits64b (eu - 1) = true) by (unfold fits64b, fits64, LLONG_MIN, LLONG_MAX in *; lia). rewrite Q. cbn [bind].
        destruct (pow_def bl (eu - 1) F1 N1) as [p' ->]; [unfold fits64b, fits64 in *; lia|lia| |lia|].
        * intros. apply abs_pow_le with eu; [lia|lia|apply Hp; lia].
        * eexists; reflexivity.
    - destruct (_ || _); [eexists; reflexivity|]. destruct (0 <=? el) eqn:D2; [|eexists; reflexivity].
      destruct (pow_def bl el F1 N1 F3 ltac:(lia)) as [p ->]; [|lia|eexists; reflexivity].
      intros. apply abs_pow_le with eu; [lia|lia|apply Hp; lia]. }
  destruct S4 as [s4 ->]. eexists. reflexivity.
Qed.
