Require Import ZArith List Bool Lia ZifyBool.
From Verif Require Import Base IntValModel IntValSpec IntValProofs SetModel SetSpec SetProofs SetProofs2 SetProofs3 SetPropProofs
  BsetProofs DomModel DomSpec.
Import ListNotations.
Open Scope Z_scope.

Notation K := (key BIG).
Lemma fits_small z : -10 <= z <= 10 -> fits64 z.
Proof. unfold fits64, LLONG_MIN, LLONG_MAX. lia. Qed.
Lemma wfv_ofZ z : fits64 z -> wfv (ofZ z).
Proof. intros H. unfold wfv. cbn. exact H. Qed.
Lemma K_ofZ z : K (ofZ z) = z.
Proof. reflexivity. Qed.
Lemma int_inv x z : is_int x z -> x = ofZ z /\ fits64 z.
Proof. apply is_int_iff. Qed.

Lemma interval_elem a b z : fits64 a -> fits64 b -> (elem z (set_interval (ofZ a) (ofZ b)) <-> a <= z <= b).
Proof.
  intros Fa Fb. unfold set_interval, iv_gt. rewrite (lt_k BIG BIG_ok) by now apply wfv_ofZ. cbn [key ofZ iv_inf iv_v].
  assert (D : forall c, fits64 c -> denote (ofZ c) = Some (Fin c)) by (intros c Hc; apply (is_int_ofZ c Hc)).
  destruct (b <? a) eqn:E.
  - split; [intros (x & y & [] & _)|lia].
  - split.
    + intros (x & y & [Q|[]] & u & v & U & V & L1 & L2). inversion Q; subst x y. rewrite D in U, V by assumption.
      inversion U; inversion V; subst. cbn in *. lia.
    + intros H. exists (ofZ a), (ofZ b). split; [now left|]. exists (Fin a), (Fin b). rewrite !D by assumption. cbn. auto with zarith.
Qed.
Lemma unbounded_elem z : elem z unbounded.
Proof. exists (mkIV (-1) true), iv_infinity. split; [now left|]. exists MInf, PInf. cbn. auto. Qed.

(** finite bounds *)
Lemma finite_holds b x : b_finite b = true -> holds b x ->
  exists l u, b_l b = ofZ l /\ b_u b = ofZ u /\ fits64 l /\ fits64 u /\ l <= x <= u.
Proof.
  intros F H. unfold b_finite in F. apply andb_true_iff in F. destruct F as [F F2]. apply andb_true_iff in F. destruct F as [F0 F1].
  destruct (H F0) as (p & q & D1 & D2 & L1 & L2). exists (iv_v (b_l b)), (iv_v (b_u b)).
  destruct (b_l b) as [l i], (b_u b) as [u j]. unfold isFinite in *. cbn in *. destruct i, j; try discriminate.
  unfold denote in *. cbn in *.
  destruct ((LLONG_MIN <=? l) && (l <=? LLONG_MAX)) eqn:E1; [|discriminate].
  destruct ((LLONG_MIN <=? u) && (u <=? LLONG_MAX)) eqn:E2; [|discriminate].
  inversion D1; inversion D2; subst. cbn in *. unfold fits64. repeat split; lia.
Qed.

(** ** The smallest and the largest value so far *)
Record st_ok (P : Z -> Prop) (s : IntVal * IntVal) : Prop := {
  s_l : wfv (fst s); s_u : wfv (snd s);
  s_lP : LLONG_MAX <= K (fst s) \/ fits64 (K (fst s)) /\ P (K (fst s));
  s_uP : K (snd s) <= LLONG_MIN \/ fits64 (K (snd s)) /\ P (K (snd s)) }.
Definition lo_w (s : IntVal * IntVal) (z : Z) : Prop := K (fst s) <= z.
Definition hi_w (s : IntVal * IntVal) (z : Z) : Prop := z <= K (snd s).

Lemma min_k a b : wfv a -> wfv b -> wfv (iv_min a b) /\ K (iv_min a b) = Z.min (K a) (K b).
Proof. intros A B. unfold iv_min. rewrite (lt_k BIG BIG_ok) by assumption. destruct (K b <? K a) eqn:E; split; auto; lia. Qed.
Lemma max_k a b : wfv a -> wfv b -> wfv (iv_max a b) /\ K (iv_max a b) = Z.max (K a) (K b).
Proof. intros A B. unfold iv_max. rewrite (lt_k BIG BIG_ok) by assumption. destruct (K a <? K b) eqn:E; split; auto; lia. Qed.

Lemma update_ok P s v : st_ok P s -> fits64 v -> P v ->
  st_ok P (update s (ofZ v)) /\ (forall z, lo_w (update s (ofZ v)) z <-> lo_w s z \/ v <= z) /\
  (forall z, hi_w (update s (ofZ v)) z <-> hi_w s z \/ z <= v).
Proof.
  intros [A B C D] F Pv. unfold update, lo_w, hi_w. cbn [fst snd].
  destruct (min_k (fst s) (ofZ v) A (wfv_ofZ v F)) as [M1 M2]. destruct (max_k (snd s) (ofZ v) B (wfv_ofZ v F)) as [M3 M4].
  rewrite K_ofZ in *. split; [split; cbn [fst snd]; auto|].
  - rewrite M2. destruct (Z.min_spec (K (fst s)) v) as [[_ ->]|[_ ->]]; auto.
  - rewrite M4. destruct (Z.max_spec (K (snd s)) v) as [[_ ->]|[_ ->]]; auto.
  - rewrite M2, M4. split; intros z; lia.
Qed.

Lemma final_ok P s w : st_ok P s -> fits64 w -> P w -> lo_w s w -> hi_w s w ->
  (forall z, lo_w s z -> hi_w s z -> elem z (set_interval (fst s) (snd s))) /\
  (forall z, elem z (set_interval (fst s) (snd s)) -> exists v v', P v /\ P v' /\ v <= z <= v').
Proof.
  intros [A B C D] F Pw L H. unfold lo_w, hi_w in *. destruct s as [m n]; cbn [fst snd] in *.
  assert (Fm : m = ofZ (K m) /\ fits64 (K m) /\ P (K m)).
  { destruct (key_cases BIG BIG_ok m A) as [Q|[Q|Q]].
    - exfalso. unfold fits64, BIG, LLONG_MIN, LLONG_MAX in *. lia.
    - exfalso. unfold fits64, BIG, LLONG_MIN, LLONG_MAX in *; lia.
    - destruct (key_fin BIG m A ltac:(unfold BIG, LLONG_MIN, LLONG_MAX in *; lia)) as (Q1 & Q2 & _).
      split; [rewrite Q2; destruct m; cbn in *; subst; reflexivity|]. split; [exact Q|]. destruct C as [C|C]; [|tauto].
      replace (K m) with w; [assumption|]. unfold fits64 in F. lia. }
  assert (Fn : n = ofZ (K n) /\ fits64 (K n) /\ P (K n)).
  { destruct (key_cases BIG BIG_ok n B) as [Q|[Q|Q]].
    - exfalso. unfold fits64, BIG, LLONG_MIN, LLONG_MAX in *. lia.
    - exfalso. unfold fits64, BIG, LLONG_MIN, LLONG_MAX in *; lia.
    - destruct (key_fin BIG n B ltac:(unfold BIG, LLONG_MIN, LLONG_MAX in *; lia)) as (Q1 & Q2 & _).
      split; [rewrite Q2; destruct n; cbn in *; subst; reflexivity|]. split; [exact Q|]. destruct D as [D|D]; [|tauto].
      replace (K n) with w; [assumption|]. unfold fits64 in F. lia. }
  destruct Fm as (Em & Fm & Pm), Fn as (En & Fn & Pn). rewrite Em, En. rewrite !K_ofZ. split; intros z.
  - intros. apply interval_elem; auto.
  - intros Hz. apply interval_elem in Hz; auto. exists (K m), (K n). auto.
Qed.

(** ** Division *)
Lemma quot_neg_r x y : y <> 0 -> Z.quot x (- y) = - Z.quot x y.
Proof. intros H. now rewrite Z.quot_opp_r. Qed.
Lemma quot_pos a b c d x y : a <= x <= b -> 0 < c -> c <= y <= d ->
  (Z.quot a c <= Z.quot x y \/ Z.quot a d <= Z.quot x y) /\ (Z.quot x y <= Z.quot b c \/ Z.quot x y <= Z.quot b d).
Proof.
  intros Hx Hc Hy.
  assert (M : forall p q k, p <= q -> 0 < k -> Z.quot p k <= Z.quot q k) by (intros; apply Z.quot_le_mono; lia).
  assert (D : forall p k m, 0 <= p -> 0 < k <= m -> Z.quot p m <= Z.quot p k) by (intros; apply Z.quot_le_compat_l; lia).
  assert (N : forall p k, k <> 0 -> Z.quot (- p) k = - Z.quot p k) by (intros; now apply Z.quot_opp_l).
  destruct (Z_le_gt_dec 0 x) as [P|P].
  - split.
    + right. apply Z.le_trans with (Z.quot x d); [apply M; lia|apply D; lia].
    + left. apply Z.le_trans with (Z.quot x c); [apply D; lia|apply M; lia].
  - assert (Q := D (- x) y d ltac:(lia) ltac:(lia)). assert (Q' := D (- x) c y ltac:(lia) ltac:(lia)).
    rewrite !N in * by lia. split.
    + left. apply Z.le_trans with (Z.quot x c); [apply M; lia|lia].
    + right. apply Z.le_trans with (Z.quot x d); [lia|apply M; lia].
Qed.
Lemma quot_box a b c d x y : a <= x <= b -> 0 < c \/ d < 0 -> c <= y <= d ->
  (exists q, In q [Z.quot a c; Z.quot a d; Z.quot b c; Z.quot b d] /\ q <= Z.quot x y) /\
  (exists q, In q [Z.quot a c; Z.quot a d; Z.quot b c; Z.quot b d] /\ Z.quot x y <= q).
Proof.
  intros Hx [H|H] Hy.
  - destruct (quot_pos a b c d x y Hx H Hy) as [[L|L] [U|U]]; split; eexists; (split; [|eassumption]); cbn; auto.
  - destruct (quot_pos a b (- d) (- c) x (- y) Hx ltac:(lia) ltac:(lia)) as [L U]. rewrite !quot_neg_r in * by lia. split.
    + destruct U as [U|U]; [exists (Z.quot b d)|exists (Z.quot b c)]; (split; [cbn; auto|lia]).
    + destruct L as [L|L]; [exists (Z.quot a d)|exists (Z.quot a c)]; (split; [cbn; auto|lia]).
Qed.

Lemma safeMult_min a b r : fits64 a -> b = 1 \/ b = -1 -> safeMult a b = Ok r -> r = a * b /\ fits64 r.
Proof.
  intros F B E. assert (R := safeMult_ok_inv a b r E). split; [assumption|]. unfold safeMult in E.
  replace (b =? 0) with false in E by lia.
  destruct (if a <? 0 then ll (0 - a) else Ok a) as [xa| |]; cbn [bind] in E; try discriminate.
  destruct (if b <? 0 then ll (0 - b) else Ok b) as [ya| |]; cbn [bind] in E; try discriminate.
  destruct (xa >? Z.quot LLONG_MAX ya); [discriminate|]. apply ll_inv in E. destruct E as [-> E]. exact E.
Qed.
Lemma div_ok a b r : fits64 a -> fits64 b -> b <> 0 -> iv_div (ofZ a) (ofZ b) = Ok r -> r = ofZ (Z.quot a b) /\ fits64 (Z.quot a b).
Proof.
  intros Fa Fb Nb E. destruct (Z.eq_dec b 1) as [U|U]; [|destruct (Z.eq_dec b (-1)) as [U'|U']].
  - subst. unfold iv_div in E. cbn -[safeMult] in E. destruct (safeMult a 1) as [q| |] eqn:S; cbn in E; try discriminate.
    apply safeMult_min in S; auto. inversion E. destruct S as [-> S]. rewrite Z.mul_1_r in *. rewrite Z.quot_1_r. auto.
  - subst. unfold iv_div in E. cbn -[safeMult] in E. destruct (safeMult a (-1)) as [q| |] eqn:S; cbn in E; try discriminate.
    apply safeMult_min in S; auto. inversion E. destruct S as [-> S].
    assert (Q : Z.quot a (-1) = a * -1) by (change (-1) with (- (1)); rewrite Z.quot_opp_r, Z.quot_1_r by lia; lia).
    rewrite Q. auto.
  - rewrite (iv_div_spec _ _ a b (is_int_ofZ a Fa) (is_int_ofZ b Fb)) in E; [|auto].
    unfold outcome in E. replace (b =? 0) with false in E by lia. cbn [negb andb] in E.
    inversion E. split; [reflexivity|]. unfold fits64 in *.
    assert (A : Z.abs (Z.quot a b) <= Z.abs a).
    { rewrite <- Z.quot_abs by lia. apply Z.quot_le_upper_bound; [lia|]. nia. }
    assert (a = LLONG_MIN -> Z.quot a b <> - LLONG_MIN).
    { intros -> C. assert (Q := Z.quot_rem LLONG_MIN b Nb). assert (R := Z.rem_bound_abs LLONG_MIN b Nb). rewrite C in Q.
      unfold LLONG_MIN in *. nia. }
    unfold LLONG_MIN, LLONG_MAX in *. lia.
Qed.

Lemma corners_ok P bx a b c d s s' : st_ok P s -> b_l bx = ofZ a -> b_u bx = ofZ b -> fits64 a -> fits64 b -> fits64 c -> fits64 d ->
  c <> 0 -> d <> 0 -> (forall q, In q [Z.quot a c; Z.quot a d; Z.quot b c; Z.quot b d] -> P q) ->
  div_corners bx (ofZ c, ofZ d) s = Ok s' ->
  st_ok P s' /\ fits64 (Z.quot a c) /\
  (forall z, lo_w s' z <-> lo_w s z \/ exists q, In q [Z.quot a c; Z.quot a d; Z.quot b c; Z.quot b d] /\ q <= z) /\
  (forall z, hi_w s' z <-> hi_w s z \/ exists q, In q [Z.quot a c; Z.quot a d; Z.quot b c; Z.quot b d] /\ z <= q).
Proof.
  intros I El Eu Fa Fb Fc Fd Nc Nd HP E. destruct s as [m n]. unfold div_corners in E. rewrite El, Eu in E. cbn [fst snd] in E.
  destruct (iv_div (ofZ a) (ofZ c)) as [q1| |] eqn:E1; cbn [bind] in E; try discriminate.
  destruct (iv_div (ofZ a) (ofZ d)) as [q2| |] eqn:E2; cbn [bind] in E; try discriminate.
  destruct (iv_div (ofZ b) (ofZ c)) as [q3| |] eqn:E3; cbn [bind] in E; try discriminate.
  destruct (iv_div (ofZ b) (ofZ d)) as [q4| |] eqn:E4; cbn [bind] in E; try discriminate.
  apply div_ok in E1, E2, E3, E4; auto. destruct E1 as [-> F1], E2 as [-> F2], E3 as [-> F3], E4 as [-> F4].
  assert (P1 : P (Z.quot a c)) by (apply HP; cbn; auto). assert (P2 : P (Z.quot a d)) by (apply HP; cbn; auto).
  assert (P3 : P (Z.quot b c)) by (apply HP; cbn; auto). assert (P4 : P (Z.quot b d)) by (apply HP; cbn; auto).
  destruct (update_ok P (m, n) _ I F1 P1) as (I1 & L1 & U1).
  destruct (update_ok P _ _ I1 F2 P2) as (I2 & L2 & U2).
  destruct (update_ok P _ _ I2 F3 P3) as (I3 & L3 & U3).
  destruct (update_ok P _ _ I3 F4 P4) as (I4 & L4 & U4).
  assert (E' : s' = update (update (update (update (m, n) (ofZ (Z.quot a c))) (ofZ (Z.quot a d))) (ofZ (Z.quot b c))) (ofZ (Z.quot b d)))
    by (inversion E; reflexivity).
  subst s'. split; [assumption|]. split; [assumption|]. split; intros z.
  - rewrite L4, L3, L2, L1. split.
    + intros [[[[?|?]|?]|?]|?]; auto; right; eexists; (split; [|eassumption]); cbn; auto.
    + intros [?|(q & Hq & ?)]; auto. cbn in Hq. destruct Hq as [<-|[<-|[<-|[<-|[]]]]]; auto.
  - rewrite U4, U3, U2, U1. split.
    + intros [[[[?|?]|?]|?]|?]; auto; right; eexists; (split; [|eassumption]); cbn; auto.
    + intros [?|(q & Hq & ?)]; auto. cbn in Hq. destruct Hq as [<-|[<-|[<-|[<-|[]]]]]; auto.
Qed.
