(** Proofs about the JSON reader. *)
Require Import ZArith List Bool Lia ZifyBool.
From Verif Require Import Base StrModel JsonModel JsonSpec.
Import ListNotations.
Open Scope Z_scope.

(** ** Integers *)
Lemma isdigit_iff : forall c, isdigit c = true <-> 48 <= c <= 57.
Proof. intros c. unfold isdigit. lia. Qed.
Lemma digits_snoc : forall l c, digits_value (l ++ [c]) = digits_value l * 10 + (c - 48).
Proof. intros. unfold digits_value. rewrite fold_left_app. reflexivity. Qed.
Lemma decimal_value : forall l v, decimal l v -> digits_value l = v /\ Forall (fun c => 48 <= c <= 57) l /\ l <> [].
Proof.
  intros l v H. induction H as [c H|l v c H [IH1 [IH2 IH3]] Hc].
  - split; [unfold digits_value; cbn [fold_left]; lia|]. split; [constructor; auto|discriminate].
  - split; [rewrite digits_snoc, IH1; lia|]. split; [apply Forall_app; auto|destruct l; discriminate].
Qed.
Lemma decimal_nonneg : forall l v, decimal l v -> 0 <= v.
Proof. intros l v H. induction H; lia. Qed.
Lemma read_int_ok : forall l result c rest, Forall (fun c => 48 <= c <= 57) l -> ends_number c ->
  read_int (l ++ c :: rest) result = Ok (TInt (stream_int (result ++ l)), c :: rest).
Proof.
  induction l as [|x l IH]; intros result c rest F [E1 [E2 [E3 E4]]].
  - cbn [app read_int]. assert (isdigit c = false) as -> by (unfold isdigit; lia). rewrite app_nil_r.
    destruct (c =? 46) eqn:?; [lia|]. destruct (c =? 101) eqn:?; [lia|]. destruct (c =? 69) eqn:?; [lia|]. reflexivity.
  - inversion F; subst. cbn [app read_int]. assert (isdigit x = true) as -> by (apply isdigit_iff; assumption).
    destruct (x =? 46) eqn:?; [lia|]. destruct (x =? 101) eqn:?; [lia|]. destruct (x =? 69) eqn:?; [lia|]. cbn [orb].
    rewrite IH by (try assumption; repeat split; assumption). rewrite <- app_assoc. reflexivity.
Qed.
Lemma readToken_number : forall x s, 48 <= x <= 57 \/ x = 45 -> readToken (x :: s) = read_int s [x].
Proof.
  intros x s H. cbn [readToken].
  repeat match goal with |- context [if ?b then _ else _] => lazymatch b with isdigit _ || _ => fail | _ => let E := fresh in destruct b eqn:E; [exfalso; lia|] end end.
  assert (isdigit x || (x =? 45) = true) as -> by (unfold isdigit; lia). reflexivity.
Qed.
Lemma readToken_blanks : forall b s, Forall blank b -> readToken (b ++ s) = readToken s.
Proof.
  intros b s H. induction H as [|c b H F IH]; [reflexivity|]. cbn [app readToken].
  assert ((c =? 10) || (c =? 32) || (c =? 9) || (c =? 13) = true) as -> by (unfold blank in H; lia). exact IH.
Qed.
(** what is read for an integer text: the number if it fits an int, the nearest int otherwise *)
Definition clamp (z : Z) : Z := Z.max INT_MIN (Z.min INT_MAX z).
Lemma C42_read : forall b t v c rest, Forall blank b -> integer_text t v -> ends_number c ->
  readToken (b ++ t ++ c :: rest) = Ok (TInt (clamp v), c :: rest).
Proof.
  intros b t v c rest B T E. rewrite readToken_blanks by exact B. destruct T as [l v D|l v D]; destruct (decimal_value l v D) as [V [F N]]; pose proof (decimal_nonneg l v D) as P.
  - destruct l as [|x l]; [congruence|]. inversion F; subst. cbn [app]. rewrite readToken_number by (left; assumption).
    rewrite read_int_ok by assumption. cbn [app]. do 3 f_equal. unfold stream_int.
    destruct (x =? 45) eqn:X; [lia|]. unfold clamp, INT_MIN, INT_MAX in *. lia.
  - cbn [app]. rewrite readToken_number by (right; reflexivity). rewrite read_int_ok by assumption. cbn [app]. unfold stream_int. cbn [Z.eqb Pos.eqb]. rewrite V.
    do 3 f_equal. unfold clamp, INT_MIN, INT_MAX. lia.
Qed.

(** ** Strings *)
Lemma lor_add : forall a x n, 0 <= n -> 0 <= x < 2 ^ n -> Z.lor (a * 2 ^ n) x = a * 2 ^ n + x.
Proof.
  intros a x n Hn Hx. assert (Z.land (a * 2 ^ n) x = 0) as L.
  { apply Z.bits_inj'. intros i Hi. rewrite Z.land_spec, Z.bits_0. destruct (Z.ltb i n) eqn:E.
    - rewrite Z.mul_pow2_bits_low by lia. reflexivity.
    - assert (Z.testbit x i = false) as ->; [|apply andb_false_r]. destruct (Z.eq_dec x 0) as [->|N]; [apply Z.bits_0|].
      apply Z.bits_above_log2; [lia|]. assert (Z.log2 x < n) by (apply Z.log2_lt_pow2; lia). lia. }
  rewrite Z.add_nocarry_lxor by exact L. symmetry. apply Z.lxor_lor. exact L.
Qed.
Lemma land_mod : forall x n, 0 <= n -> Z.land x (2 ^ n - 1) = x mod 2 ^ n.
Proof. intros x n H. rewrite <- Z.land_ones by exact H. rewrite Z.ones_equiv. f_equal. Qed.
Lemma utf8_ok : forall cp, 0 <= cp <= 1114111 -> utf8_bytes cp = utf8 cp.
Proof.
  intros cp H. unfold utf8_bytes, utf8.
  assert (forall x, Z.lor 128 (Z.land x 63) = 128 + x mod 64) as T.
  { intros x. change 63 with (2 ^ 6 - 1). rewrite (land_mod x 6) by lia. pose proof (Z.mod_pos_bound x 64). change 128 with (2 * 2 ^ 6). rewrite lor_add; [reflexivity|lia|]. change (2 ^ 6) with 64. lia. }
  assert (forall x, Z.land x 255 = x mod 256) as M by (intros x; apply (land_mod x 8); lia).
  assert (forall x, Z.shiftr x 6 = x / 64) as S by (intros x; rewrite Z.shiftr_div_pow2 by lia; reflexivity).
  destruct (cp <=? 127) eqn:E1, (cp <? 128) eqn:F1; try lia.
  { cbn [utf8_tail Nat.sub Nat.ltb Nat.leb]. rewrite M. f_equal. apply Z.mod_small. lia. }
  destruct (cp <=? 2047) eqn:E2, (cp <? 2048) eqn:F2; try lia.
  { cbn [utf8_tail Nat.sub Nat.ltb Nat.leb]. rewrite T, M, S. f_equal. change (Z.shiftl 240 (Z.of_nat 2)) with (30 * 2 ^ 5).
    assert (0 <= cp / 64 < 32) as B by (split; [apply Z.div_pos; lia|apply Z.div_lt_upper_bound; lia]).
    rewrite lor_add by lia. replace (30 * 2 ^ 5 + cp / 64) with (192 + cp / 64 + 3 * 256) by lia. rewrite Z.mod_add by lia. apply Z.mod_small. lia. }
  destruct (cp <=? 65535) eqn:E3, (cp <? 65536) eqn:F3; try lia.
  { cbn [utf8_tail Nat.sub Nat.ltb Nat.leb]. rewrite !T, M, !S. rewrite Z.div_div by lia. change (64 * 64) with 4096. f_equal.
    change (Z.shiftl 240 (Z.of_nat 1)) with (15 * 2 ^ 5).
    assert (0 <= cp / 4096 < 16) as B by (split; [apply Z.div_pos; lia|apply Z.div_lt_upper_bound; lia]).
    rewrite lor_add by lia. replace (15 * 2 ^ 5 + cp / 4096) with (224 + cp / 4096 + 1 * 256) by lia. rewrite Z.mod_add by lia. apply Z.mod_small. lia. }
  cbn [utf8_tail Nat.sub Nat.ltb Nat.leb]. rewrite !T, M, !S. rewrite !Z.div_div by lia. change (64 * 64) with 4096. change (4096 * 64) with 262144.
  f_equal.
  change (Z.shiftl 240 (Z.of_nat 0)) with (15 * 2 ^ 4).
  assert (0 <= cp / 262144 < 8) as B by (split; [apply Z.div_pos; lia|apply Z.div_lt_upper_bound; lia]).
  change (64 * 4096) with 262144. rewrite lor_add by lia. apply Z.mod_small. lia.
Qed.
Lemma join_ok : forall hi lo, 55296 <= hi <= 56319 -> 56320 <= lo <= 57343 ->
  let cp := 65536 + 1024 * (hi - 55296) + (lo - 56320) in Z.odd (cp / 65536) = true -> join_surrogates hi lo = cp.
Proof.
  intros hi lo H L cp O. unfold join_surrogates. rewrite Z.shiftl_mul_pow2 by lia. rewrite lor_add by lia.
  set (k := (hi - 55296) * 2 ^ 10 + (lo - 56320)). assert (cp = k + 1 * 65536) as E by (unfold cp, k; lia).
  assert (Z.odd (k / 65536) = false) as O'.
  { rewrite E, Z.div_add in O by lia. rewrite Z.odd_add in O. destruct (Z.odd (k / 65536)); [discriminate O|reflexivity]. }
  rewrite E. change (1 * 65536) with 65536.
  assert (Z.land k 65536 = 0) as D.
  { change 65536 with (1 * 2 ^ 16). apply Z.bits_inj'. intros i Hi. rewrite Z.land_spec, Z.bits_0. destruct (Z.eq_dec i 16) as [->|N].
    - assert (Z.testbit k 16 = false) as ->; [|reflexivity]. rewrite Z.testbit_odd, Z.shiftr_div_pow2 by lia. exact O'.
    - rewrite Z.mul_1_l, Z.pow2_bits_false by lia. apply andb_false_r. }
  rewrite Z.add_nocarry_lxor by exact D. symmetry. apply Z.lxor_lor. exact D.
Qed.
Lemma hexdigit_ok : forall c d, hex_of c d -> hexdigit c = Some d.
Proof.
  intros c d H. unfold hexdigit, isdigit. destruct H as [[H ->]|[[H ->]|[H ->]]].
  - assert ((48 <=? c) && (c <=? 57) = true) as -> by lia. reflexivity.
  - assert ((48 <=? c) && (c <=? 57) = false) as -> by lia. assert ((97 <=? c) && (c <=? 102) = true) as -> by lia. reflexivity.
  - assert ((48 <=? c) && (c <=? 57) = false) as -> by lia. assert ((97 <=? c) && (c <=? 102) = false) as -> by lia.
    assert ((65 <=? c) && (c <=? 70) = true) as -> by lia. reflexivity.
Qed.
Lemma hex_of_range : forall c d, hex_of c d -> 0 <= d < 16.
Proof. intros c d H. unfold hex_of in H. lia. Qed.
Lemma hex4_ok : forall t v, hex4 t v -> stream_hex t = Some v /\ 0 <= v <= 65535 /\ exists a b c d, t = [a; b; c; d].
Proof.
  intros t v (a & b & c & d & w & x & y & z & -> & Ha & Hb & Hc & Hd & ->).
  pose proof (hex_of_range _ _ Ha). pose proof (hex_of_range _ _ Hb). pose proof (hex_of_range _ _ Hc). pose proof (hex_of_range _ _ Hd).
  split; [|split; [lia|exists a, b, c, d; reflexivity]]. cbn [stream_hex hex_prefix]. 
  rewrite (hexdigit_ok _ _ Ha), (hexdigit_ok _ _ Hb), (hexdigit_ok _ _ Hc), (hexdigit_ok _ _ Hd). f_equal. lia.
Qed.
Lemma char_ok : forall t v s result, good_char t v -> read_string (t ++ s) result = read_string s (result ++ v).
Proof.
  intros t v s result [t' v' D N1 N2 N3 P]. destruct D; try reflexivity; try congruence.
  - cbn [app read_string]. destruct (c =? 34) eqn:E1; [lia|]. destruct (c =? 92) eqn:E2; [lia|]. reflexivity.
  - destruct (hex4_ok _ cp H) as (S & B & a & b & c & d & ->). cbn [app read_string Z.eqb Pos.eqb]. rewrite S.
    assert ((55296 <=? cp) && (cp <=? 56319) = false) as -> by lia. rewrite utf8_ok by lia. reflexivity.
  - destruct (hex4_ok _ hi H) as (S & B & a & b & c & d & ->). destruct (hex4_ok _ lo H1) as (S' & B' & a' & b' & c' & d' & ->).
    cbn [app read_string Z.eqb Pos.eqb]. rewrite S. assert ((55296 <=? hi) && (hi <=? 56319) = true) as -> by lia. cbn [andb].
    rewrite S'. assert ((lo <? 56320) || (57343 <? lo) = false) as -> by lia.
    assert (65536 <= 65536 + 1024 * (hi - 55296) + (lo - 56320) <= 1114111) as R by lia.
    rewrite join_ok; [|assumption|assumption|apply P; [reflexivity|lia]]. rewrite utf8_ok by lia. reflexivity.
Qed.
Lemma chars_ok : forall ts vs rest result, good_all ts vs -> read_string (ts ++ 34 :: rest) result = Ok (TString (result ++ vs), rest).
Proof.
  intros ts vs rest result G. revert result. induction G as [|t v ts vs C G IH]; intros result.
  - cbn [app read_string Z.eqb Pos.eqb]. rewrite app_nil_r. reflexivity.
  - rewrite <- app_assoc, (char_ok t v) by exact C. rewrite IH, app_assoc. reflexivity.
Qed.
Lemma C43_read : forall b ts vs rest, Forall blank b -> good_all ts vs -> readToken (b ++ 34 :: ts ++ 34 :: rest) = Ok (TString vs, rest).
Proof. intros b ts vs rest B G. rewrite readToken_blanks by exact B. cbn [readToken Z.eqb Pos.eqb orb]. rewrite (chars_ok ts vs) by exact G. reflexivity. Qed.

Lemma not_long : forall v cp, (length v < 4)%nat -> v = utf8 cp -> 65536 <= cp -> Z.odd (cp / 65536) = true.
Proof. intros v cp L E H. exfalso. unfold utf8 in E. subst v. repeat destruct (_ <? _) eqn:? in L; try lia. cbn in L. lia. Qed.
Lemma escape_good : forall s, good_all (escapeStringLit s) s.
Proof.
  induction s as [|c s IH]; [constructor|]. cbn [escapeStringLit flat_map]. fold (escapeStringLit s). change (c :: s) with ([c] ++ s).
  constructor; [|exact IH].
  destruct (c =? 10) eqn:E1; [apply Z.eqb_eq in E1; subst; constructor; [constructor|discriminate..|intros cp; apply not_long; cbn; lia]|].
  destruct (c =? 9) eqn:E2; [apply Z.eqb_eq in E2; subst; constructor; [constructor|discriminate..|intros cp; apply not_long; cbn; lia]|].
  destruct (c =? 34) eqn:E3; [apply Z.eqb_eq in E3; subst; constructor; [constructor|discriminate..|intros cp; apply not_long; cbn; lia]|].
  destruct (c =? 92) eqn:E4; [apply Z.eqb_eq in E4; subst; constructor; [constructor|discriminate..|intros cp; apply not_long; cbn; lia]|].
  constructor; [constructor; lia|discriminate..|intros cp; apply not_long; cbn; lia].
Qed.
Lemma C43_escape : forall b s rest, Forall blank b -> readToken (b ++ 34 :: escapeStringLit s ++ 34 :: rest) = Ok (TString s, rest).
Proof. intros b s rest B. apply C43_read; [exact B|apply escape_good]. Qed.
