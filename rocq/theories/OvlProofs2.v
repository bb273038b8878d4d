(** Proofs about overload resolution: the order of the bucket, repeated resolution. *)
Require Import ZArith List Bool Arith Lia Permutation.
From Verif Require Import Base TypeModel TypeSpec TypeProofs OvlModel OvlSpec OvlProofs.
Import ListNotations.
Open Scope nat_scope.

(** ** Names *)
Lemma names_agree_false : forall a b, names_agree a b = false <->
  exists j p q m n, nth_error a j = Some p /\ nth_error b j = Some q /\ pa_name p = Some m /\ pa_name q = Some n /\ m <> n.
Proof.
  induction a as [|p a IH]; intros b.
  - cbn. split; [discriminate | intros (j & p & q & m & n & H & _); destruct j; discriminate].
  - destruct b as [|q b]; [cbn; split; [discriminate | intros (j & p' & q & m & n & _ & H & _); destruct j; discriminate]|].
    assert (T : (exists j p' q' m n, nth_error a j = Some p' /\ nth_error b j = Some q' /\ pa_name p' = Some m /\ pa_name q' = Some n /\ m <> n) ->
                exists j p' q' m n, nth_error (p :: a) j = Some p' /\ nth_error (q :: b) j = Some q' /\ pa_name p' = Some m /\ pa_name q' = Some n /\ m <> n).
    { intros (j & R). exists (S j). exact R. }
    cbn [names_agree]. destruct (pa_name p) as [x|] eqn:Np; [destruct (pa_name q) as [y|] eqn:Nq|].
    + rewrite andb_false_iff, IH. split.
      * intros [H|H]; [|auto]. exists 0, p, q, x, y. repeat split; auto. intros ->. rewrite (proj2 (str_eqb_eq y y) eq_refl) in H. discriminate.
      * intros ([|j] & p' & q' & m & n & H1 & H2 & H3 & H4 & H5).
        -- cbn in H1, H2. injection H1 as <-. injection H2 as <-. left. destruct (str_eqb x y) eqn:E; auto. apply str_eqb_eq in E. congruence.
        -- right. exists j, p', q', m, n. auto.
    + rewrite IH. split; [auto|]. intros ([|j] & p' & q' & m & n & H1 & H2 & H3 & H4 & H5); [cbn in H2; congruence | exists j, p', q', m, n; auto].
    + rewrite IH. split; [auto|]. intros ([|j] & p' & q' & m & n & H1 & H2 & H3 & H4 & H5); [cbn in H1; congruence | exists j, p', q', m, n; auto].
Qed.
Lemma same_types_iff : forall f g, same_types f g = true <-> length (fn_params f) = length (fn_params g) /\
  forall j p q, nth_error (fn_params f) j = Some p -> nth_error (fn_params g) j = Some q -> ty_eqb (pa_ty p) (pa_ty q) = true.
Proof.
  intros. unfold same_types. rewrite types_eqb_nth, !map_length. apply and_iff_compat_l. split.
  - intros H j p q Hp Hq. apply (H j); rewrite nth_error_map; [now rewrite Hp | now rewrite Hq].
  - intros H j x y Hx Hy. rewrite nth_error_map in Hx, Hy. destruct (nth_error (fn_params f) j) as [p|] eqn:Ep; [|discriminate]. destruct (nth_error (fn_params g) j) as [q|] eqn:Eq; [|discriminate].
    injection Hx as <-. injection Hy as <-. eauto.
Qed.

(** an ambiguous call *)
Lemma ambiguous_l : forall sub acc anch thr v args, well_formed v ->
  match_fn sub acc None anch thr v args = Ambiguous ->
  exists x y, In x v /\ In y v /\ takes acc args x /\ en_fi x <> en_fi y /\ types_eqb (en_t y) (en_t x) = true /\
    exists j p q m n, nth_error (fn_params (en_fi y)) j = Some p /\ nth_error (fn_params (en_fi x)) j = Some q /\ pa_name p = Some m /\ pa_name q = Some n /\ m <> n.
Proof.
  intros sub acc anch thr v args W H. rewrite match_fresh in H.
  destruct (scan _ _ _ _ _) as [x|] eqn:S; [|discriminate]. destruct (thr && _) eqn:E; [|discriminate].
  apply andb_true_iff in E as [_ E]. apply existsb_exists in E as (y & Hy & E). rewrite !andb_true_iff, !negb_true_iff in E. destruct E as ((E1 & E2) & E3).
  apply scan_in in S as [S|[S1 S2]]; [discriminate|].
  exists x, y. split; [auto|]. split; [auto|]. split; [apply viable_takes; auto|].
  split; [intros Q; rewrite Q in E1; unfold same_fi in E1; rewrite Nat.eqb_refl in E1; discriminate|].
  split; [auto|]. now apply names_agree_false.
Qed.

(** ** Repeated resolution *)
Lemma sibling_l : forall sub acc thr v args d f, (forall x, In x v -> fn_id (en_fi x) = fn_id d -> en_fi x = d) ->
  match_fn sub acc (Some d) false thr v args = Found f -> ~ differs_in_names_only f d.
Proof.
  intros sub acc thr v args d f U H (N & L & T & NN).
  assert (NS : same_names f d = false) by now apply names_agree_false.
  assert (ST : same_types f d = true) by now apply same_types_iff.
  unfold match_fn in H. destruct (match v with [x] => same_fi (en_fi x) d | _ => false end) eqn:SH.
  { destruct v as [|x [|]]; try discriminate. congruence. }
  assert (M : forall X Y : outcome, match v with [x] => X | _ => Y end = match v with [x] => X | _ => Y end) by reflexivity. clear M.
  replace (match v with | [] => false | [x] => same_fi (en_fi x) d | _ => false end) with false in H.
  cbn [skipped] in H.
  destruct (scan _ _ _ _ _) as [i|] eqn:SC; [|discriminate].
  apply scan_in in SC as [SC|[S1 S2]]; [discriminate|].
  apply andb_true_iff in S2 as [S2 _]. apply negb_true_iff in S2.
  destruct (other_names (Some d) false (en_fi i)) eqn:O.
  - assert (NST : same_types (en_fi i) d = false) by (unfold skipped in S2; rewrite O in S2; exact S2).
    destruct (find _ v) as [i2|] eqn:FI.
    + apply find_some in FI as [_ FI]. rewrite !andb_true_iff in FI. destruct FI as (_ & FI). injection H as <-. congruence.
    + destruct (thr && false && _); [discriminate|]. injection H as <-. congruence.
  - destruct (thr && false && _); [discriminate|]. injection H as <-.
    unfold other_names in O. rewrite NS in O. cbn in O. rewrite andb_true_r in O.
    apply andb_false_iff in O as [O|O].
    + apply negb_false_iff in O. apply Nat.eqb_eq in O. apply N. auto.
    + apply Nat.eqb_neq in O. unfold param_count in O. congruence.
Qed.

Lemma scan_ext : forall ok ok' less fill v best, (forall x, In x v -> ok x = ok' x) -> scan ok less fill v best = scan ok' less fill v best.
Proof.
  intros ok ok' less fill. induction v as [|i v IH]; intros best H; cbn; auto.
  rewrite (H i) by (cbn; auto). assert (H' : forall x, In x v -> ok x = ok' x) by (intros; apply H; cbn; auto).
  destruct (ok' i); auto. destruct best as [b|]; [destruct (less i b && negb (less b i)); auto | destruct fill; auto].
Qed.
(** resolving again does not change the declaration *)
Lemma stable_l : forall sub acc anch anch' thr' v args f,
  (forall x, In x v -> en_t x = map pa_ty (fn_params (en_fi x))) ->
  match_fn sub acc None anch true v args = Found f ->
  match_fn sub acc (Some f) anch' thr' v args = Found f.
Proof.
  intros sub acc anch anch' thr' v args f W H. rewrite match_fresh in H.
  destruct (scan _ _ _ _ _) as [x|] eqn:S; [|discriminate]. destruct (true && _) eqn:E; [discriminate|]. injection H as <-.
  unfold match_fn. destruct (match v with [y] => same_fi (en_fi y) (en_fi x) | _ => false end) eqn:SH; [reflexivity|].
  pose proof S as S'. apply scan_in in S' as [S'|[Hx _]]; [discriminate|].
  rewrite (scan_ext _ (fun i => viable acc args i)).
  - rewrite S. assert (O : other_names (Some (en_fi x)) anch' (en_fi x) = false) by (unfold other_names, same_fi; rewrite Nat.eqb_refl, andb_false_r; reflexivity).
    rewrite O. now rewrite andb_false_r.
  - intros y Hy. assert (K : skipped (Some (en_fi x)) anch' y = false); [|now rewrite K].
    unfold skipped, other_names. destruct (negb anch' && _ && _ && _ && _) eqn:Q; auto. exfalso.
    rewrite !andb_true_iff in Q. destruct Q as ((((Q0 & Q1) & Q2) & Q3) & Q4).
    cbn in E. assert (true = false); [|discriminate]. rewrite <- E. symmetry. apply existsb_exists. exists y. split; auto.
    rewrite Q1, Q3, (W y Hy), (W x Hx). unfold same_types in Q4. now rewrite Q4.
Qed.

(** ** The order of a bucket *)
Definition plain_scalar (e : env) (t : ty) : Prop := enum_free e t /\ ~ is_struct t /\ type_ok t.
Open Scope Z_scope.
Definition key (t : ty) : Z := toInt t + (if t_dim t =? -1 then 7 else 0).
Definition code (t : ty) : Z := if t_dim t =? -1 then 8 else if t_dim t =? 0 then 0 else t_dim t + 1.
Lemma key_eq : forall t, key t = 67108864 * (1 - b2z (t_st t)) + 4194304 * bt_num (t_bt t) + 2097152 * b2z (t_ti t) + 1048576 * b2z (t_ot t) + 16 * t_id t + code t.
Proof. intros. unfold key, code, toInt. rewrite !Z.shiftl_mul_pow2 by lia. destruct (t_dim t =? -1) eqn:E; lia. Qed.
Lemma code_range : forall t, type_ok t -> 0 <= code t <= 8.
Proof. intros t [_ H]. unfold code. destruct (t_dim t =? -1) eqn:A; [lia|]. destruct (t_dim t =? 0) eqn:B; lia. Qed.
Lemma b2z_01 : forall b, b2z b = 0 \/ b2z b = 1.
Proof. intros []; cbn; auto. Qed.
Lemma b2z_eq : forall a b, b2z a = b2z b -> a = b.
Proof. intros [] []; cbn; congruence. Qed.

Section Order.
Variable e : env.
Lemma scalar_id : forall t, plain_scalar e t -> t_id t = 0.
Proof. intros t ((_ & [S|H]) & N & _); [contradiction | auto]. Qed.
Lemma key_eqb : forall a b, plain_scalar e a -> plain_scalar e b -> (ty_eqb a b = true <-> key a = key b).
Proof.
  intros a b Ha Hb. rewrite !key_eq. pose proof (scalar_id a Ha). pose proof (scalar_id b Hb). destruct Ha as (_ & Na & Oa). destruct Hb as (_ & Nb & Ob).
  pose proof (code_range a Oa). pose proof (code_range b Ob). split.
  - intros E. apply C34_eq_l in E as (E1 & E2 & E3 & E4 & E5 & _). unfold code. rewrite E1, E2, E3, E4, E5. lia.
  - intros E. pose proof (b2z_01 (t_st a)). pose proof (b2z_01 (t_st b)). pose proof (b2z_01 (t_ti a)). pose proof (b2z_01 (t_ti b)). pose proof (b2z_01 (t_ot a)). pose proof (b2z_01 (t_ot b)).
    pose proof (bt_num_range (t_bt a)). pose proof (bt_num_range (t_bt b)).
    assert (b2z (t_st a) = b2z (t_st b)) by lia. assert (bt_num (t_bt a) = bt_num (t_bt b)) by lia.
    assert (b2z (t_ti a) = b2z (t_ti b)) by lia. assert (b2z (t_ot a) = b2z (t_ot b)) by lia. assert (code a = code b) by lia.
    apply C34_eq_l. repeat split; try (apply b2z_eq; auto; fail); [now apply bt_num_inj | | intros S; contradiction].
    destruct Oa as [_ Oa]. destruct Ob as [_ Ob]. unfold code in *.
    destruct (t_dim a =? -1) eqn:A1; destruct (t_dim b =? -1) eqn:B1; destruct (t_dim a =? 0) eqn:A2; destruct (t_dim b =? 0) eqn:B2; lia.
Qed.
Lemma base_le_num : forall x y, base_le x y -> x = y \/ bt_num x < bt_num y.
Proof. intros x y []; cbn; auto; right; lia. Qed.
Lemma key_sub : forall a b, plain_scalar e a -> plain_scalar e b -> subtype e true a b -> ty_eqb a b = false -> key a < key b.
Proof.
  intros a b Ha Hb S E.
  assert (Nk : key a <> key b) by (intros Q; apply (key_eqb a b Ha Hb) in Q; congruence).
  assert (SS : Sub e true a b) by (apply C35_decl_l; [apply Ha | apply Hb | auto]).
  pose proof (scalar_id a Ha) as Ia. pose proof (scalar_id b Hb) as Ib. destruct Ha as (_ & Na & Oa). destruct Hb as (_ & Nb & Ob).
  pose proof (code_range a Oa) as Ca. pose proof (code_range b Ob) as Cb. rewrite !key_eq in *. rewrite Ia, Ib in *.
  assert (TI : forall x y : bool, (x = y \/ x = false) -> b2z x <= b2z y) by (intros [] [] [?|?]; cbn; try lia; discriminate).
  assert (OT : forall x y : bool, (x = false \/ x = y) -> b2z x <= b2z y) by (intros [] [] [?|?]; cbn; try lia; discriminate).
  pose proof (b2z_01 (t_ti a)). pose proof (b2z_01 (t_ti b)). pose proof (b2z_01 (t_ot a)). pose proof (b2z_01 (t_ot b)).
  pose proof (bt_num_range (t_bt a)). pose proof (bt_num_range (t_bt b)).
  destruct SS as [a b N L I D S' T O | a b N L BL T O | a b n fa fb N Fa Fb E' D S' T O F].
  - apply TI in T. apply OT in O. rewrite S' in *. apply base_le_num in L.
    assert (C : code a <= code b).
    { unfold dims_ok in D. unfold code. destruct Oa as [_ Oa]. destruct (t_dim a =? -1) eqn:A1; destruct (t_dim b =? -1) eqn:B1; destruct (t_dim a =? 0) eqn:A2; destruct (t_dim b =? 0) eqn:B2; lia. }
    destruct L as [L|L]; [rewrite L in *|]; lia.
  - destruct L as (_ & _ & Sa & Sb & _). rewrite Sa, Sb in *. change (b2z true) with 1 in *. change (b2z false) with 0 in *. lia.
  - contradiction.
Qed.
Lemma key_cmp : forall a b, plain_scalar e a -> plain_scalar e b -> ~ subtype e true a b -> ~ subtype e true b a -> (toInt a < toInt b <-> key a < key b).
Proof.
  intros a b Ha Hb N1 N2.
  assert (X : forall a b, plain_scalar e a -> plain_scalar e b -> ~ subtype e true a b -> ~ subtype e true b a -> toInt a < toInt b -> key a < key b).
  { clear. intros a b Ha Hb N1 N2 L.
    destruct (Z_lt_ge_dec (key a) (key b)) as [K|K]; [auto|exfalso].
    assert (Ka : key a = toInt a + (if t_dim a =? -1 then 7 else 0)) by reflexivity. assert (Kb : key b = toInt b + (if t_dim b =? -1 then 7 else 0)) by reflexivity.
    assert (Da : t_dim a = -1) by (destruct (t_dim a =? -1) eqn:A; [lia|]; destruct (t_dim b =? -1); lia).
    assert (Db : t_dim b <> -1) by (intros Q; rewrite Da, Q in *; change (-1 =? -1) with true in *; cbv iota in *; lia).
    pose proof (scalar_id a Ha) as Ia. pose proof (scalar_id b Hb) as Ib. pose proof Ha as (_ & Na & Oa). pose proof Hb as (_ & Nb & Ob).
    pose proof (code_range a Oa) as Ca. pose proof (code_range b Ob) as Cb.
    assert (T : toInt b = key b) by (rewrite Kb; destruct (t_dim b =? -1) eqn:B; lia).
    assert (T2 : toInt a = key a - 7) by (rewrite Ka, Da; cbn; lia).
    rewrite T, T2, !key_eq, Ia, Ib in *. clear T T2 Ka Kb.
    assert (CA : code a = 8) by (unfold code; rewrite Da; reflexivity). rewrite CA in *.
    pose proof (b2z_01 (t_st a)). pose proof (b2z_01 (t_st b)). pose proof (b2z_01 (t_ti a)). pose proof (b2z_01 (t_ti b)). pose proof (b2z_01 (t_ot a)). pose proof (b2z_01 (t_ot b)).
    pose proof (bt_num_range (t_bt a)). pose proof (bt_num_range (t_bt b)).
    assert (b2z (t_st a) = b2z (t_st b)) by lia. assert (bt_num (t_bt a) = bt_num (t_bt b)) by lia.
    assert (b2z (t_ti a) = b2z (t_ti b)) by lia. assert (b2z (t_ot a) = b2z (t_ot b)) by lia.
    assert (C0 : code b > 1) by lia.
    assert (Z0 : t_dim b <> 0) by (intros Q; unfold code in C0; rewrite Q in C0; cbn in C0; lia).
    apply N2. apply C35_decl_l; [apply Hb | apply Ha|]. apply s_scalar; auto.
    - replace (t_bt b) with (t_bt a) by (apply bt_num_inj; auto). constructor.
    - right. auto.
    - apply b2z_eq; auto.
    - left. apply b2z_eq; auto.
    - right. apply b2z_eq; auto. }
  split; [apply X; auto|]. intros K.
  destruct (Z_lt_ge_dec (toInt a) (toInt b)) as [L|L]; auto. exfalso.
  destruct (Z_lt_ge_dec (toInt b) (toInt a)) as [L'|L'].
  - apply X in L'; auto. lia.
  - assert (E : toInt a = toInt b) by lia. apply toInt_inj in E; [|apply Ha | apply Hb]. destruct E as (E1 & E2 & E3 & E4 & E5 & E6).
    assert (key a = key b) by (rewrite !key_eq; unfold code; rewrite E1, E2, E3, E4, E5, E6; reflexivity). lia.
Qed.

(** lexicographic order of the keys *)
Fixpoint lex (a b : list Z) : bool :=
  match a, b with
  | x :: a', y :: b' => if x =? y then lex a' b' else x <? y
  | _, _ => false
  end.
Variables (sub : ty -> ty -> bool) (ts : list ty).
Hypothesis DE : decides_on e sub ts.
Hypothesis PS : forall t, In t ts -> plain_scalar e t.
Lemma types_less_lex : forall a b, incl a ts -> incl b ts -> types_less sub a b = lex (map key a) (map key b).
Proof.
  induction a as [|x a IH]; intros [|y b] Ia Ib; cbn; auto.
  assert (Hx : In x ts) by (apply Ia; cbn; auto). assert (Hy : In y ts) by (apply Ib; cbn; auto).
  assert (Ia' : incl a ts) by (intros z Hz; apply Ia; cbn; auto). assert (Ib' : incl b ts) by (intros z Hz; apply Ib; cbn; auto).
  pose proof (PS x Hx) as Px. pose proof (PS y Hy) as Py.
  pose proof (key_eqb x y Px Py) as KE.
  destruct (ty_eqb x y) eqn:E.
  - rewrite (proj2 (Z.eqb_eq (key x) (key y))) by (apply KE; auto). auto.
  - assert (K : key x <> key y) by (intros Q; apply KE in Q; discriminate). rewrite (proj2 (Z.eqb_neq (key x) (key y)) K).
    destruct (sub x y) eqn:S1.
    + symmetry. apply Z.ltb_lt. apply key_sub; auto. now apply (DE x y).
    + destruct (sub y x) eqn:S2.
      * symmetry. apply Z.ltb_ge. assert (key y < key x); [|lia]. apply key_sub; auto; [now apply (DE y x)|]. destruct (ty_eqb y x) eqn:Q; auto. apply ty_eqb_sym in Q. congruence.
      * assert (N1 : ~ subtype e true x y) by (intros Q; apply (DE x y) in Q; auto; congruence).
        assert (N2 : ~ subtype e true y x) by (intros Q; apply (DE y x) in Q; auto; congruence).
        pose proof (key_cmp x y Px Py N1 N2) as C1. pose proof (key_cmp y x Py Px N2 N1) as C2.
        destruct (cmp_spec x y) as (_ & M1 & M2).
        destruct (Z_lt_ge_dec (key x) (key y)) as [L|L].
        -- rewrite (proj2 M1) by (apply C1; auto). cbn. symmetry. now apply Z.ltb_lt.
        -- rewrite (proj2 M2) by (assert (toInt y < toInt x) by (apply C2; lia); lia). cbn. symmetry. apply Z.ltb_ge. lia.
Qed.
Close Scope Z_scope.
Lemma lex_irrefl : forall a, lex a a = false.
Proof. induction a as [|x a IH]; cbn; auto. now rewrite Z.eqb_refl. Qed.
Lemma lex_trans : forall a b c, length a = length b -> length b = length c -> lex a b = true -> lex b c = true -> lex a c = true.
Proof.
  induction a as [|x a IH]; intros [|y b] [|z c] L1 L2 H1 H2; cbn in *; try discriminate.
  destruct (Z.eqb_spec x y); destruct (Z.eqb_spec y z); destruct (Z.eqb_spec x z); subst; try lia; eauto; try (apply Z.ltb_lt in H1); try (apply Z.ltb_lt in H2); try (apply Z.ltb_lt); try lia.
Qed.
Lemma lex_total : forall a b, length a = length b -> lex a b = false -> lex b a = false -> a = b.
Proof.
  induction a as [|x a IH]; intros [|y b] L H1 H2; cbn in *; try discriminate; auto.
  rewrite (Z.eqb_sym y x) in H2. destruct (Z.eqb_spec x y) as [->|N]; [f_equal; auto|]. apply Z.ltb_ge in H1. apply Z.ltb_ge in H2. lia.
Qed.
Lemma types_eqb_keys : forall a b, incl a ts -> incl b ts -> (types_eqb a b = true <-> map key a = map key b).
Proof.
  induction a as [|x a IH]; intros [|y b] Ia Ib; cbn; try (split; congruence).
  assert (Hx : In x ts) by (apply Ia; cbn; auto). assert (Hy : In y ts) by (apply Ib; cbn; auto).
  assert (Ia' : incl a ts) by (intros z Hz; apply Ia; cbn; auto). assert (Ib' : incl b ts) by (intros z Hz; apply Ib; cbn; auto).
  rewrite andb_true_iff. fold (types_eqb a b). rewrite (IH b Ia' Ib'), (key_eqb x y (PS x Hx) (PS y Hy)). split; [intros []; congruence | intros H; injection H; auto].
Qed.
Definition inside (x : entry) : Prop := incl (en_t x) ts.
Lemma less_iff : forall x y, inside x -> inside y -> (entry_less sub x y = true <->
  length (en_t x) < length (en_t y) \/ (length (en_t x) = length (en_t y) /\ lex (map key (en_t x)) (map key (en_t y)) = true)).
Proof.
  intros x y Ix Iy. unfold entry_less. destruct (Nat.ltb_spec (length (en_t x)) (length (en_t y))); [intuition|].
  rewrite (types_less_lex _ _ Ix Iy). destruct (Nat.eqb_spec (length (en_t x)) (length (en_t y))); [intuition lia | intuition (try discriminate; try lia)].
Qed.
Lemma order_irrefl : forall x, inside x -> entry_less sub x x = false.
Proof. intros x Ix. destruct (entry_less sub x x) eqn:E; auto. apply less_iff in E; auto. destruct E as [E|[_ E]]; [lia | rewrite lex_irrefl in E; discriminate]. Qed.
Lemma order_trans : forall x y z, inside x -> inside y -> inside z -> entry_less sub x y = true -> entry_less sub y z = true -> entry_less sub x z = true.
Proof.
  intros x y z Ix Iy Iz H1 H2. apply less_iff in H1; auto. apply less_iff in H2; auto. apply less_iff; auto.
  destruct H1 as [H1|[L1 H1]]; destruct H2 as [H2|[L2 H2]]; try (left; lia). right. split; [lia|].
  apply (lex_trans _ (map key (en_t y))); rewrite ?map_length; auto.
Qed.
Lemma order_equal : forall x y, inside x -> inside y -> (entry_less sub x y = false /\ entry_less sub y x = false <-> types_eqb (en_t x) (en_t y) = true).
Proof.
  intros x y Ix Iy. split.
  - intros [H1 H2]. apply types_eqb_keys; auto. apply not_true_iff_false in H1. apply not_true_iff_false in H2. rewrite less_iff in H1, H2 by auto.
    assert (L : length (en_t x) = length (en_t y)) by lia.
    apply lex_total; rewrite ?map_length; auto; apply not_true_iff_false; intros Q; [apply H1 | apply H2]; right; split; auto.
  - intros H. assert (L : length (en_t x) = length (en_t y)) by (apply types_eqb_nth in H; tauto). apply types_eqb_keys in H; auto.
    split; apply not_true_iff_false; intros Q; apply less_iff in Q; auto; destruct Q as [Q|[_ Q]]; try lia; rewrite H, lex_irrefl in Q; discriminate.
Qed.
Lemma order_neg_trans : forall x y z, inside x -> inside y -> inside z -> entry_less sub x y = false -> entry_less sub y z = false -> entry_less sub x z = false.
Proof.
  intros x y z Ix Iy Iz H1 H2. destruct (entry_less sub x z) eqn:E; auto.
  destruct (entry_less sub y x) eqn:Q; [rewrite (order_trans y x z) in H2; auto|].
  assert (T : types_eqb (en_t x) (en_t y) = true) by (apply order_equal; auto).
  apply types_eqb_keys in T; auto. apply less_iff in E; auto. assert (L : length (en_t x) = length (en_t y)) by (rewrite <- (map_length key), T, map_length; auto).
  rewrite T, L in E. apply less_iff in E; auto. congruence.
Qed.
Lemma order_asym : forall x y, inside x -> inside y -> entry_less sub x y = true -> entry_less sub y x = false.
Proof. intros x y Ix Iy H. destruct (entry_less sub y x) eqn:E; auto. rewrite <- (order_irrefl x Ix). symmetry. apply (order_trans x y x); auto. Qed.
End Order.
Close Scope Z_scope.

(** ** Insertion sort *)
Section Sort.
Context {A : Type}.
Variables (D : A -> Prop) (less : A -> A -> bool).
Hypothesis asym : forall x y, D x -> D y -> less x y = true -> less y x = false.
Hypothesis ntrans : forall x y z, D x -> D y -> D z -> less x y = false -> less y z = false -> less x z = false.
Inductive desc : list A -> Prop :=
| desc_nil : desc []
| desc_cons : forall x l, (forall y, In y l -> less x y = false) -> desc l -> desc (x :: l).
Lemma move_left_perm : forall x l, Permutation (x :: l) (move_left less x l).
Proof. intros x. induction l as [|y l IH]; cbn; auto. destruct (less x y); auto. rewrite perm_swap. now constructor. Qed.
Lemma move_left_desc : forall x l, D x -> (forall y, In y l -> D y) -> desc l -> desc (move_left less x l).
Proof.
  intros x l Dx. induction l as [|y l IH]; intros Dl H; cbn.
  - constructor; [intros ? []|constructor].
  - inversion H as [|? ? H1 H2]; subst. assert (Dy : D y) by (apply Dl; cbn; auto). assert (Dl' : forall z, In z l -> D z) by (intros; apply Dl; cbn; auto).
    destruct (less x y) eqn:E.
    + constructor; auto. intros z Hz. apply (Permutation_in z (Permutation_sym (move_left_perm x l))) in Hz as [<-|Hz]; auto.
    + constructor; auto. intros z [<-|Hz]; auto. apply (ntrans x y z); auto.
Qed.
Lemma desc_rev : forall l, desc (rev l) <-> forall i j x y, i < j -> nth_error l i = Some x -> nth_error l j = Some y -> less y x = false.
Proof.
  assert (AP : forall l x, desc (l ++ [x]) <-> desc l /\ forall y, In y l -> less y x = false).
  { induction l as [|y l IH]; intros x; cbn.
    - split; [intros _; split; [constructor | intros ? []] | intros _; constructor; [intros ? [] | constructor]].
    - split.
      + intros H. inversion H as [|? ? H1 H2]; subst. apply IH in H2 as [H2 H3]. split.
        * constructor; auto. intros z Hz. apply H1. apply in_app_iff. auto.
        * intros z [<-|Hz]; auto. apply H1. apply in_app_iff. cbn. auto.
      + intros [H1 H2]. inversion H1 as [|? ? H3 H4]; subst. constructor; [|apply IH; split; auto].
        intros z Hz. apply in_app_iff in Hz as [Hz|[<-|[]]]; auto. }
  induction l as [|x l IH]; cbn.
  - split; [intros _ i j x y _ H; destruct i; discriminate | constructor].
  - rewrite AP, IH. split.
    + intros [H1 H2] [|i] [|j] a b L Ha Hb; cbn in *; try lia.
      * injection Ha as <-. apply H2. apply in_rev. rewrite rev_involutive. eauto using nth_error_In.
      * apply (H1 i j); auto; lia.
    + intros H. split.
      * intros i j a b L Ha Hb. apply (H (S i) (S j)); auto; lia.
      * intros y Hy. apply in_rev in Hy. apply In_nth_error in Hy as [j Hj]. apply (H 0 (S j)); auto; lia.
Qed.
Lemma insert_perm : forall x l, Permutation (x :: l) (insert less x l).
Proof.
  intros x [|y l]; auto. unfold insert. destruct (less x y); auto.
  rewrite <- Permutation_rev. rewrite <- move_left_perm. constructor. apply Permutation_rev.
Qed.
Lemma insert_desc : forall x l, D x -> (forall y, In y l -> D y) -> desc (rev l) -> desc (rev (insert less x l)).
Proof.
  intros x [|y l] Dx Dl H; [cbn; constructor; [intros ? [] | constructor]|]. unfold insert.
  destruct (less x y) eqn:E.
  - rewrite desc_rev in H. apply desc_rev.
    assert (Dy : D y) by (apply Dl; cbn; auto).
    intros [|i] [|j] a b L Ha Hb; cbn [nth_error] in Ha, Hb; try lia; [|apply (H i j); auto; lia].
    injection Ha as <-. destruct j as [|j]; cbn in Hb; [injection Hb as <-; auto|].
    assert (Q : less b y = false) by (apply (H 0 (S j)); auto; lia).
    assert (Db : D b) by (apply Dl; cbn; eauto using nth_error_In).
    apply (ntrans b y x); auto.
  - rewrite rev_involutive. apply move_left_desc; auto. intros z Hz. apply Dl. apply in_rev. exact Hz.
Qed.
Lemma insertion_sort_l : forall l, (forall y, In y l -> D y) ->
  Permutation l (insertion_sort less l) /\
  forall i j x y, i < j -> nth_error (insertion_sort less l) i = Some x -> nth_error (insertion_sort less l) j = Some y -> less y x = false.
Proof.
  intros l Dl. unfold insertion_sort.
  assert (G : forall l acc, (forall y, In y l -> D y) -> (forall y, In y acc -> D y) -> desc (rev acc) ->
    Permutation (l ++ acc) (fold_left (fun l x => insert less x l) l acc) /\ desc (rev (fold_left (fun l x => insert less x l) l acc))).
  { clear l Dl. induction l as [|x l IH]; intros acc Dl Da H; cbn; auto.
    assert (Dx : D x) by (apply Dl; cbn; auto).
    destruct (IH (insert less x acc)) as [P Q].
    - intros; apply Dl; cbn; auto.
    - intros y Hy. apply (Permutation_in y (Permutation_sym (insert_perm x acc))) in Hy as [<-|Hy]; auto.
    - apply insert_desc; auto.
    - split; auto. rewrite <- P, <- insert_perm. apply Permutation_middle. }
  destruct (G l []) as [P Q]; auto; [intros ? [] | constructor|]. rewrite app_nil_r in P. split; auto. now apply desc_rev.
Qed.
End Sort.

Lemma order_l : forall e sub v, decides_on e sub (bucket_types v) ->
  (forall t, In t (bucket_types v) -> enum_free e t /\ ~ is_struct t /\ type_ok t) ->
  forall x y z, In x v -> In y v -> In z v ->
  entry_less sub x x = false /\
  (entry_less sub x y = true -> entry_less sub y z = true -> entry_less sub x z = true) /\
  (entry_less sub x y = false /\ entry_less sub y x = false <-> types_eqb (en_t x) (en_t y) = true).
Proof.
  intros e sub v DE PS x y z Hx Hy Hz.
  assert (I : forall w, In w v -> inside (bucket_types v) w) by (intros w Hw t Ht; eapply in_bucket; eauto).
  split; [apply (order_irrefl e sub _ DE PS); auto|]. split; [apply (order_trans e sub _ DE PS); auto | apply (order_equal e sub _ DE PS); auto].
Qed.
Lemma sort_l : forall e sub v, decides_on e sub (bucket_types v) ->
  (forall t, In t (bucket_types v) -> enum_free e t /\ ~ is_struct t /\ type_ok t) ->
  Permutation v (insertion_sort (entry_less sub) v) /\ sorted sub (insertion_sort (entry_less sub) v).
Proof.
  intros e sub v DE PS.
  assert (I : forall w, In w v -> inside (bucket_types v) w) by (intros w Hw t Ht; eapply in_bucket; eauto).
  destruct (insertion_sort_l (inside (bucket_types v)) (entry_less sub)) with (l := v) as [P Q]; auto.
  - intros. apply (order_asym e sub _ DE PS); auto.
  - intros. apply (order_neg_trans e sub _ DE PS x y z); auto.
Qed.
