Require Import ZArith List Bool Lia ZifyBool.
From Verif Require Import Base LitProofs B64Model B64Spec.
Import ListNotations.
Open Scope Z_scope.

Lemma range_check : forall (f : Z -> bool) n, 0 <= n -> forallb (fun k => f (Z.of_nat k)) (seq 0 (Z.to_nat n)) = true ->
  forall v, 0 <= v < n -> f v = true.
Proof.
  intros f n Hn H v Hv. rewrite forallb_forall in H. specialize (H (Z.to_nat v)).
  rewrite Z2Nat.id in H by lia. apply H. apply in_seq. lia.
Qed.
Lemma encode_value_digit : forall v, 0 <= v < 64 -> encode_value v = Ok (digit v).
Proof.
  intros v Hv.
  enough (match encode_value v with Ok c => c =? digit v | _ => false end = true).
  { destruct (encode_value v); try discriminate. f_equal. lia. }
  revert v Hv. apply range_check; [lia|]. vm_compute. reflexivity.
Qed.
Lemma decode_digit : forall v, 0 <= v < 64 -> decode_value (digit v) = Ok v.
Proof.
  intros v Hv.
  enough (match decode_value (digit v) with Ok c => c =? v | _ => false end = true).
  { destruct (decode_value (digit v)); try discriminate. f_equal. lia. }
  revert v Hv. apply range_check; [lia|]. vm_compute. reflexivity.
Qed.
Lemma to_char_mod : forall z, (to_char z) mod 256 = z mod 256.
Proof.
  intros z. unfold to_char. rewrite Zminus_mod, Z.mod_mod by lia.
  rewrite <- Zminus_mod. f_equal. lia.
Qed.
Lemma to_char_range : forall z, is_char (to_char z).
Proof. intros z. unfold to_char, is_char. pose proof (Z.mod_pos_bound (z + 128) 256 ltac:(lia)). lia. Qed.
Lemma to_char_eq : forall z c, is_char c -> z mod 256 = c mod 256 -> to_char z = c.
Proof.
  intros z c Hc H. unfold to_char, is_char in *. rewrite Zplus_mod, H, <- Zplus_mod.
  rewrite Z.mod_small; lia.
Qed.
Lemma to_char_id : forall c, is_char c -> to_char c = c.
Proof. intros. apply to_char_eq; auto. Qed.

(* fields of a char *)
Lemma land252 : forall b, Z.shiftr (Z.land b 252) 2 = b / 4 mod 64.
Proof.
  intros. change 252 with (Z.shiftl 63 2). rewrite land_mask by lia. rewrite Z.shiftr_div_pow2 by lia.
  rewrite Z.div_mul by lia. apply (land_ones' _ 6). lia.
Qed.
Lemma land240 : forall b, Z.shiftr (Z.land b 240) 4 = b / 16 mod 16.
Proof.
  intros. change 240 with (Z.shiftl 15 4). rewrite land_mask by lia. rewrite Z.shiftr_div_pow2 by lia.
  rewrite Z.div_mul by lia. apply (land_ones' _ 4). lia.
Qed.
Lemma land192 : forall b, Z.shiftr (Z.land b 192) 6 = b / 64 mod 4.
Proof.
  intros. change 192 with (Z.shiftl 3 6). rewrite land_mask by lia. rewrite Z.shiftr_div_pow2 by lia.
  rewrite Z.div_mul by lia. apply (land_ones' _ 2). lia.
Qed.
Lemma land48 : forall b, Z.shiftr (Z.land b 48) 4 = b / 16 mod 4.
Proof.
  intros. change 48 with (Z.shiftl 3 4). rewrite land_mask by lia. rewrite Z.shiftr_div_pow2 by lia.
  rewrite Z.div_mul by lia. apply (land_ones' _ 2). lia.
Qed.
Lemma land60 : forall b, Z.shiftr (Z.land b 60) 2 = b / 4 mod 16.
Proof.
  intros. change 60 with (Z.shiftl 15 2). rewrite land_mask by lia. rewrite Z.shiftr_div_pow2 by lia.
  rewrite Z.div_mul by lia. apply (land_ones' _ 4). lia.
Qed.
Lemma land63 : forall b, Z.land b 63 = b mod 64.
Proof. intros. apply (land_ones' _ 6). lia. Qed.
Lemma land15 : forall b, Z.land b 15 = b mod 16.
Proof. intros. apply (land_ones' _ 4). lia. Qed.

(* a char is determined by its fields *)
Lemma split64 : forall b, b mod 256 = b / 64 mod 4 * 64 + b mod 64.
Proof. intros. change 256 with (64 * 4). rewrite Z.rem_mul_r by lia. lia. Qed.
Lemma split16 : forall b, b mod 256 = b / 16 mod 16 * 16 + b mod 16.
Proof. intros. change 256 with (16 * 16) at 1. rewrite Z.rem_mul_r by lia. lia. Qed.
Lemma split4 : forall b, b mod 256 = b / 4 mod 64 * 4 + b mod 4.
Proof. intros. change 256 with (4 * 64). rewrite Z.rem_mul_r by lia. lia. Qed.
Lemma to_char_shl : forall x k, 0 <= k <= 8 -> exists q, to_char (Z.shiftl x k) = q * 2 ^ k /\ (q * 2 ^ k) mod 256 = (x * 2 ^ k) mod 256.
Proof.
  intros x k Hk. unfold to_char. rewrite Z.shiftl_mul_pow2 by lia.
  pose proof (Z.div_mod (x * 2 ^ k + 128) 256 ltac:(lia)) as H.
  set (d := (x * 2 ^ k + 128) / 256) in *. exists (x - d * 2 ^ (8 - k)).
  assert (E : 2 ^ (8 - k) * 2 ^ k = 256) by (rewrite <- Z.pow_add_r by lia; replace (8 - k + k) with 8 by lia; reflexivity).
  assert (E2 : (x - d * 2 ^ (8 - k)) * 2 ^ k = x * 2 ^ k - d * 256) by (rewrite Z.mul_sub_distr_r, <- Z.mul_assoc, E; lia).
  rewrite E2. split; [lia|]. rewrite Zminus_mod, Z.mod_mul, Z.sub_0_r, Z.mod_mod by lia. reflexivity.
Qed.
(* assembling a char from its high bits (already converted to char) and its low bits *)
Lemma assemble : forall b x r k, is_char b -> 0 <= k <= 8 -> 0 <= r < 2 ^ k -> b mod 256 = (x * 2 ^ k) mod 256 + r ->
  (x * 2 ^ k) mod 256 + r < 256 ->
  to_char (Z.lor (to_char (Z.shiftl x k)) r) = b.
Proof.
  intros b x r k Hb Hk Hr E Hlt. destruct (to_char_shl x k Hk) as (q & -> & Hq).
  rewrite lor_low by lia. apply to_char_eq; [auto|].
  rewrite E. rewrite <- Hq. rewrite Zplus_mod, (Z.mod_small r) by lia.
  pose proof (Z.mod_pos_bound (q * 2 ^ k) 256 ltac:(lia)). rewrite Z.mod_small by lia. lia.
Qed.

Lemma assemble' : forall b x r k, is_char b -> 0 <= k <= 8 -> 0 <= r < 2 ^ k -> b mod 256 = x * 2 ^ k + r ->
  0 <= x * 2 ^ k /\ x * 2 ^ k + r < 256 -> to_char (Z.lor (to_char (Z.shiftl x k)) r) = b.
Proof. intros. apply assemble; auto; rewrite (Z.mod_small (x * 2 ^ k)); lia. Qed.

(** ** The decoder follows the encoder *)
Inductive follows : encodestate -> decodestate -> list Z -> Prop :=
| fol_A : forall n cpl r p, follows (mkES n cpl step_A r) (mkDS step_a p) []
| fol_B : forall n cpl b, is_char b -> follows (mkES n cpl step_B (b mod 4 * 16)) (mkDS step_b (to_char (Z.shiftl (b / 4 mod 64) 2))) [b]
| fol_C : forall n cpl b, is_char b -> follows (mkES n cpl step_C (b mod 16 * 4)) (mkDS step_c (to_char (Z.shiftl (b / 16 mod 16) 4))) [b].

Lemma decode_app : forall l1 l2 st st1 o1, decode_block st l1 = Ok (st1, o1) ->
  decode_block st (l1 ++ l2) = do ' (st2, o2) <- decode_block st1 l2; Ok (st2, o1 ++ o2).
Proof.
  induction l1 as [|c l1 IH]; intros l2 st st1 o1 H; cbn [decode_block app] in *.
  - injection H as <- <-. destruct (decode_block st l2) as [[s o]| |]; reflexivity.
  - destruct (decode_char st c) as [[sa oa]| |]; try discriminate. cbn [bind] in *.
    destruct (decode_block sa l1) as [[sb ob]| |] eqn:E; try discriminate. cbn [bind] in H. injection H as <- <-.
    rewrite (IH l2 sa sb ob E). destruct (decode_block sb l2) as [[s o]| |]; try reflexivity. cbn [bind]. rewrite app_assoc. reflexivity.
Qed.
Lemma decode_skip : forall st c rest f, decode_value c = Ok f -> f < 0 -> decode_block st (c :: rest) = decode_block st rest.
Proof.
  intros st c rest f H Hf. cbn [decode_block]. unfold decode_char. rewrite H. cbn [bind].
  replace (f <? 0) with true by lia. cbn [bind]. destruct (decode_block st rest) as [[s o]| |]; reflexivity.
Qed.
Lemma break_shape : forall cpl n, (exists m, check_break cpl n = ([], m)) \/ (exists m, check_break cpl n = ([10], m)).
Proof. intros. unfold check_break. destruct (negb (cpl =? 0) && (n >=? cpl)); eauto. Qed.
Lemma decode_break : forall cpl n st rest, decode_block st (fst (check_break cpl n) ++ rest) = decode_block st rest.
Proof.
  intros. destruct (break_shape cpl n) as [[m ->] | [m ->]]; cbn [fst app]; [reflexivity|].
  apply (decode_skip _ 10 _ (-1)); [reflexivity | lia].
Qed.
Lemma decode_digit_char : forall st v rest, 0 <= v < 64 ->
  decode_block st (digit v :: rest) =
  do ' (st1, o1) <- (match d_step st with
    | step_a => Ok (mkDS step_b (to_char (Z.shiftl (Z.land v 63) 2)), [])
    | step_b => Ok (mkDS step_c (to_char (Z.shiftl (Z.land v 15) 4)), [to_char (Z.lor (d_plainchar st) (Z.shiftr (Z.land v 48) 4))])
    | step_c => Ok (mkDS step_d (to_char (Z.shiftl (Z.land v 3) 6)), [to_char (Z.lor (d_plainchar st) (Z.shiftr (Z.land v 60) 2))])
    | step_d => Ok (mkDS step_a 0, [to_char (Z.lor (d_plainchar st) (Z.land v 63))])
    end);
  do ' (st2, o2) <- decode_block st1 rest; Ok (st2, o1 ++ o2).
Proof.
  intros st v rest Hv. cbn [decode_block]. unfold decode_char. rewrite decode_digit by auto. cbn [bind].
  replace (v <? 0) with false by lia. reflexivity.
Qed.

Lemma step_follows : forall est dst pend b, follows est dst pend -> is_char b ->
  exists est' o dst' o' pend', encode_char est b = Ok (est', o) /\ e_cpl est' = e_cpl est /\
    decode_block dst o = Ok (dst', o') /\ follows est' dst' pend' /\ pend ++ [b] = o' ++ pend'.
Proof.
  intros est dst pend b HF Hb. destruct HF as [n cpl r p | n cpl a Ha | n cpl a Ha]; unfold encode_char; cbn [e_cpl e_stepcount e_step e_result].
  - pose proof (decode_break cpl n) as DB. destruct (check_break cpl n) as [br n'] eqn:Eb. cbn [fst] in DB.
    rewrite land252. pose proof (Z.mod_pos_bound (b / 4) 64 ltac:(lia)) as Hm. rewrite encode_value_digit by lia. cbn [bind].
    do 5 eexists. split; [reflexivity|]. split; [reflexivity|]. rewrite DB, decode_digit_char by lia. cbn [d_step bind decode_block app].
    split; [reflexivity|]. rewrite land63, Z.mod_mod by lia. change (Z.land b 3) with (Z.land b 3). rewrite land3, Z.shiftl_mul_pow2 by lia.
    split; [apply fol_B; auto|]. reflexivity.
  - pose proof (decode_break cpl n) as DB. destruct (check_break cpl n) as [br n'] eqn:Eb. cbn [fst] in DB.
    rewrite land240. pose proof (Z.mod_pos_bound (b / 16) 16 ltac:(lia)) as Hm. pose proof (Z.mod_pos_bound a 4 ltac:(lia)) as Hm2.
    change (a mod 4 * 16) with (a mod 4 * 2 ^ 4). rewrite lor_low by lia. set (v := a mod 4 * 2 ^ 4 + b / 16 mod 16).
    assert (Hv : 0 <= v < 64) by (unfold v; change (2 ^ 4) with 16; lia).
    rewrite to_char_id by (unfold is_char; lia). rewrite encode_value_digit by lia. cbn [bind].
    do 5 eexists. split; [reflexivity|]. split; [reflexivity|]. rewrite DB, decode_digit_char by lia. cbn [d_step d_plainchar bind decode_block app].
    split; [reflexivity|]. rewrite !land15, land48.
    assert (Ev : v / 16 = a mod 4) by (apply (div_char _ _ (b / 16 mod 16)); unfold v; lia). rewrite Ev, (Z.mod_small (a mod 4)) by lia.
    assert (Ev2 : v mod 16 = b / 16 mod 16) by (apply (mod_char _ (a mod 4)); unfold v; lia). rewrite Ev2.
    rewrite Z.shiftl_mul_pow2 by lia. split; [apply fol_C; auto|].
    cbn [app]. f_equal. symmetry.
    pose proof (Z.mod_pos_bound (a / 4) 64 ltac:(lia)). 
    apply assemble'; [auto | lia | lia | apply split4 | lia].
  - pose proof (decode_break cpl n) as DB. destruct (check_break cpl n) as [br n'] eqn:Eb. cbn [fst] in DB.
    pose proof (decode_break cpl n') as DB2. destruct (check_break cpl n') as [br2 n''] eqn:Eb2. cbn [fst] in DB2.
    rewrite land192. pose proof (Z.mod_pos_bound (b / 64) 4 ltac:(lia)) as Hm. pose proof (Z.mod_pos_bound a 16 ltac:(lia)) as Hm2.
    change (a mod 16 * 4) with (a mod 16 * 2 ^ 2). rewrite lor_low by lia. set (v := a mod 16 * 2 ^ 2 + b / 64 mod 4).
    assert (Hv : 0 <= v < 64) by (unfold v; change (2 ^ 2) with 4; lia).
    rewrite to_char_id by (unfold is_char; lia). rewrite encode_value_digit by lia. cbn [bind].
    rewrite land63, Z.shiftr_0_r. pose proof (Z.mod_pos_bound b 64 ltac:(lia)) as Hm3. rewrite encode_value_digit by lia. cbn [bind].
    do 5 eexists. split; [reflexivity|]. split; [reflexivity|]. rewrite DB. cbn [app].
    rewrite decode_digit_char by lia. cbn [d_step d_plainchar bind]. rewrite DB2.
    rewrite decode_digit_char by lia. cbn [d_step d_plainchar bind decode_block app].
    split; [reflexivity|]. split; [apply fol_A|]. rewrite app_nil_r.
    rewrite land60, !land3, land63, (Z.mod_small (b mod 64)) by lia.
    assert (Ev : v / 4 = a mod 16) by (apply (div_char _ _ (b / 64 mod 4)); unfold v; lia). rewrite Ev, (Z.mod_small (a mod 16)) by lia.
    assert (Ev2 : v mod 4 = b / 64 mod 4) by (apply (mod_char _ (a mod 16)); unfold v; lia). rewrite Ev2.
    pose proof (Z.mod_pos_bound (a / 16) 16 ltac:(lia)).
    f_equal; [|f_equal]; symmetry; apply assemble'; auto; lia.
Qed.

Lemma block_follows : forall l est dst pend, follows est dst pend -> Forall is_char l ->
  exists est' o dst' o' pend', encode_block est l = Ok (est', o) /\ e_cpl est' = e_cpl est /\
    decode_block dst o = Ok (dst', o') /\ follows est' dst' pend' /\ pend ++ l = o' ++ pend'.
Proof.
  induction l as [|b l IH]; intros est dst pend HF Hl.
  - do 5 eexists. split; [reflexivity|]. split; [reflexivity|]. split; [reflexivity|]. split; [exact HF|]. apply app_nil_r.
  - inversion_clear Hl. destruct (step_follows est dst pend b HF H) as (e1 & o1 & d1 & o1' & p1 & E1 & C1 & D1 & F1 & P1).
    destruct (IH e1 d1 p1 F1 H0) as (e2 & o2 & d2 & o2' & p2 & E2 & C2 & D2 & F2 & P2).
    cbn [encode_block]. rewrite E1. cbn [bind]. rewrite E2. cbn [bind].
    do 5 eexists. split; [reflexivity|]. split; [congruence|]. rewrite (decode_app _ _ _ _ _ D1), D2. cbn [bind].
    split; [reflexivity|]. split; [exact F2|].
    change (b :: l) with ([b] ++ l). rewrite app_assoc, P1, <- app_assoc, P2, app_assoc. reflexivity.
Qed.
Lemma end_follows : forall est dst pend, follows est dst pend ->
  exists o dst', encode_blockend est = Ok o /\ decode_block dst o = Ok (dst', pend) /\ (e_cpl est = 0 -> (length o <= 3)%nat).
Proof.
  assert (EQ : forall st rest, decode_block st (61 :: rest) = decode_block st rest)
    by (intros; apply (decode_skip _ 61 _ (-2)); [reflexivity | lia]).
  assert (NL : forall st cpl, decode_block st (if negb (cpl =? 0) then [10] else []) = Ok (st, [])).
  { intros. destruct (cpl =? 0); cbn [negb]; [reflexivity|]. rewrite (decode_skip _ 10 _ (-1)); [reflexivity | reflexivity | lia]. }
  assert (BL : forall cpl n, cpl = 0 -> fst (check_break cpl n) = []) by (intros; subst; reflexivity).
  intros est dst pend HF. destruct HF as [n cpl r p | n cpl a Ha | n cpl a Ha]; unfold encode_blockend; cbn [e_cpl e_stepcount e_step e_result].
  - do 2 eexists. split; [reflexivity|]. split; [apply NL|]. intros ->. cbn. lia.
  - pose proof (decode_break cpl n) as DB. pose proof (BL cpl n) as B1. destruct (check_break cpl n) as [br n']. cbn [fst] in *.
    pose proof (decode_break cpl n') as DB2. pose proof (BL cpl n') as B2. destruct (check_break cpl n') as [br2 n'']. cbn [fst] in *.
    pose proof (decode_break cpl n'') as DB3. pose proof (BL cpl n'') as B3. destruct (check_break cpl n'') as [br3 n''']. cbn [fst] in *.
    pose proof (Z.mod_pos_bound a 4 ltac:(lia)) as Hm2. rewrite encode_value_digit by lia. cbn [bind].
    do 2 eexists. split; [reflexivity|]. rewrite DB. cbn [app]. rewrite decode_digit_char by lia. cbn [d_step d_plainchar bind].
    rewrite DB2. rewrite EQ, DB3, EQ, NL. cbn [bind app]. split.
    + do 2 f_equal. f_equal. rewrite land48. rewrite Z.div_mul, (Z.mod_small (a mod 4)) by lia.
      pose proof (Z.mod_pos_bound (a / 4) 64 ltac:(lia)). apply assemble'; [auto | lia | lia | apply split4 | lia].
    + intros H. rewrite (B1 H), (B2 H), (B3 H), H. cbn. lia.
  - pose proof (decode_break cpl n) as DB. pose proof (BL cpl n) as B1. destruct (check_break cpl n) as [br n']. cbn [fst] in *.
    pose proof (decode_break cpl n') as DB2. pose proof (BL cpl n') as B2. destruct (check_break cpl n') as [br2 n'']. cbn [fst] in *.
    pose proof (Z.mod_pos_bound a 16 ltac:(lia)) as Hm2. rewrite encode_value_digit by lia. cbn [bind].
    do 2 eexists. split; [reflexivity|]. rewrite DB. cbn [app]. rewrite decode_digit_char by lia. cbn [d_step d_plainchar bind].
    rewrite DB2. rewrite EQ, NL. cbn [bind app]. split.
    + do 2 f_equal. f_equal. rewrite land60. rewrite Z.div_mul, (Z.mod_small (a mod 16)) by lia.
      pose proof (Z.mod_pos_bound (a / 16) 16 ltac:(lia)). apply assemble'; [auto | lia | lia | apply split16 | lia].
    + intros H. rewrite (B1 H), (B2 H), H. cbn. lia.
Qed.

(** ** Streams *)
Lemma encode_app : forall l1 l2 st st1 o1, encode_block st l1 = Ok (st1, o1) ->
  encode_block st (l1 ++ l2) = do ' (st2, o2) <- encode_block st1 l2; Ok (st2, o1 ++ o2).
Proof.
  induction l1 as [|c l1 IH]; intros l2 st st1 o1 H; cbn [encode_block app] in *.
  - injection H as <- <-. destruct (encode_block st l2) as [[s o]| |]; reflexivity.
  - destruct (encode_char st c) as [[sa oa]| |]; try discriminate. cbn [bind] in *.
    destruct (encode_block sa l1) as [[sb ob]| |] eqn:E; try discriminate. cbn [bind] in H. injection H as <- <-.
    rewrite (IH l2 sa sb ob E). destruct (encode_block sb l2) as [[s o]| |]; try reflexivity. cbn [bind]. rewrite app_assoc. reflexivity.
Qed.
(* encoding all at once *)
Definition encode_whole (st : encodestate) (l : list Z) : res (list Z) :=
  do ' (st1, o) <- encode_block st l; do o2 <- encode_blockend st1; Ok (o ++ o2).
Lemma encode_stream_whole : forall fuel N st l o, encode_stream fuel N st l = Ok o -> (0 < N)%nat -> encode_whole st l = Ok o.
Proof.
  induction fuel as [|fuel IH]; intros N st l o H HN; cbn [encode_stream] in H; [discriminate|].
  destruct (encode_block st (firstn N l)) as [[s1 o1]| |] eqn:E; try discriminate. cbn [bind] in H.
  destruct (2 * N <? length o1)%nat; [discriminate|].
  destruct ((N <=? length l)%nat && (0 <? length (firstn N l))%nat) eqn:C.
  - destruct (encode_stream fuel N s1 (skipn N l)) as [o2| |] eqn:E2; try discriminate. cbn [bind] in H. injection H as <-.
    apply IH in E2; [|auto]. unfold encode_whole in *. rewrite <- (firstn_skipn N l) at 1. rewrite (encode_app _ _ _ _ _ E).
    destruct (encode_block s1 (skipn N l)) as [[s3 o3]| |]; try discriminate. cbn [bind] in *.
    destruct (encode_blockend s3); try discriminate. cbn [bind] in *. injection E2 as <-. rewrite app_assoc. reflexivity.
  - assert (Hf : firstn N l = l) by (apply firstn_all2; rewrite firstn_length in C; lia). rewrite Hf in E.
    destruct (encode_blockend s1) as [o2| |] eqn:E2; try discriminate. cbn [bind] in H.
    destruct (2 * N <? length o2)%nat; [discriminate|]. injection H as <-.
    unfold encode_whole. rewrite E. cbn [bind]. rewrite E2. reflexivity.
Qed.
Lemma encode_block_length : forall l st st' o, e_cpl st = 0 -> encode_block st l = Ok (st', o) -> (length o <= 2 * length l)%nat /\ e_cpl st' = 0.
Proof.
  induction l as [|c l IH]; intros st st' o Hc H; cbn [encode_block] in H.
  - injection H as <- <-. cbn. auto.
  - destruct (encode_char st c) as [[s1 o1]| |] eqn:E; try discriminate. cbn [bind] in H.
    destruct (encode_block s1 l) as [[s2 o2]| |] eqn:E2; try discriminate. cbn [bind] in H. injection H as <- <-.
    assert ((length o1 <= 2)%nat /\ e_cpl s1 = 0).
    { unfold encode_char in E. rewrite Hc in E. unfold check_break in E. cbn [Z.eqb negb andb] in E.
      destruct (e_step st);
        repeat match type of E with context [encode_value ?x] => destruct (encode_value x); try discriminate; cbn [bind] in E end;
        injection E as <- <-; cbn; auto. }
    destruct H as [H1 H2]. apply IH in E2; [|auto]. rewrite app_length. cbn [length]. lia.
Qed.
Lemma encode_stream_total : forall fuel N st dst pend l, follows st dst pend -> Forall is_char l -> e_cpl st = 0 ->
  (2 <= N)%nat -> (length l < fuel)%nat -> exists o, encode_stream fuel N st l = Ok o.
Proof.
  induction fuel as [|fuel IH]; intros N st dst pend l HF Hl Hc HN Hfuel; [lia|]. cbn [encode_stream].
  assert (Hb : Forall is_char (firstn N l)) by (rewrite <- (firstn_skipn N l) in Hl; apply Forall_app in Hl; tauto).
  destruct (block_follows _ st dst pend HF Hb) as (e1 & o1 & d1 & o1' & p1 & E1 & C1 & D1 & F1 & P1).
  rewrite E1. cbn [bind]. destruct (encode_block_length _ _ _ _ Hc E1) as [HL Hc1].
  pose proof (firstn_le_length N l). rewrite firstn_length in *.
  replace (2 * N <? length o1)%nat with false by lia.
  destruct ((N <=? length l)%nat && (0 <? Nat.min N (length l))%nat) eqn:C.
  - destruct (IH N e1 d1 p1 (skipn N l)) as [o2 E2]; auto.
    + rewrite <- (firstn_skipn N l) in Hl; apply Forall_app in Hl; tauto.
    + rewrite skipn_length. lia.
    + rewrite E2. cbn [bind]. eauto.
  - destruct (end_follows e1 d1 p1 F1) as (o2 & d2 & E2 & D2 & L2). rewrite E2. cbn [bind].
    specialize (L2 Hc1). replace (2 * N <? length o2)%nat with false by lia. eauto.
Qed.

Definition credit (st : decodestate) : Z := match d_step st with step_a => 0 | step_b => 3 | step_c => 2 | step_d => 1 end.
Lemma decode_length : forall l st st' o, decode_block st l = Ok (st', o) ->
  4 * Z.of_nat (length o) + credit st' <= 3 * Z.of_nat (length l) + credit st.
Proof.
  induction l as [|c l IH]; intros st st' o H; cbn [decode_block] in H.
  - injection H as <- <-. cbn. lia.
  - destruct (decode_char st c) as [[s1 o1]| |] eqn:E; try discriminate. cbn [bind] in H.
    destruct (decode_block s1 l) as [[s2 o2]| |] eqn:E2; try discriminate. cbn [bind] in H. injection H as <- <-.
    apply IH in E2. rewrite app_length. unfold decode_char in E.
    destruct (decode_value c) as [f| |]; try discriminate. cbn [bind] in E.
    destruct (f <? 0); [injection E as <- <-; cbn [length]; lia|].
    destruct st as [stp p]; destruct stp; cbn [d_step] in E; injection E as <- <-; cbn [credit d_step length] in *; unfold credit in *; cbn [d_step] in *; lia.
Qed.
Lemma decode_stream_whole : forall fuel N st l st' o, (4 <= N)%nat -> (length l < fuel)%nat ->
  decode_block st l = Ok (st', o) -> decode_stream fuel N st l = Ok o.
Proof.
  induction fuel as [|fuel IH]; intros N st l st' o HN Hfuel H; [lia|]. cbn [decode_stream].
  assert (Hs : exists s1 o1, decode_block st (firstn N l) = Ok (s1, o1)).
  { rewrite <- (firstn_skipn N l) in H. revert H. generalize (skipn N l). generalize (firstn N l). clear.
    intros a. revert st st' o. induction a as [|c a IH]; intros st st' o b H; cbn [app decode_block] in *; [eauto|].
    destruct (decode_char st c) as [[sa oa]| |]; try discriminate. cbn [bind] in *.
    destruct (decode_block sa (a ++ b)) as [[sb ob]| |] eqn:E; try discriminate. destruct (IH _ _ _ _ E) as (s1 & o1 & ->). cbn. eauto. }
  destruct Hs as (s1 & o1 & E). rewrite E. cbn [bind].
  pose proof (decode_length _ _ _ _ E) as HL. pose proof (firstn_le_length N l) as HF. rewrite firstn_length in *.
  assert (credit st <= 3 /\ 0 <= credit s1) by (unfold credit; destruct (d_step st), (d_step s1); lia).
  unfold cells_used. replace (N <? length o1 + 1)%nat with false by lia.
  destruct ((N <=? length l)%nat && (0 <? Nat.min N (length l))%nat) eqn:C.
  - rewrite <- (firstn_skipn N l) in H. rewrite (decode_app _ _ _ _ _ E) in H.
    destruct (decode_block s1 (skipn N l)) as [[s2 o2]| |] eqn:E2; try discriminate. cbn [bind] in H. injection H as <- <-.
    rewrite (IH N s1 (skipn N l) s2 o2); auto. rewrite skipn_length. lia.
  - assert (Hf : firstn N l = l) by (apply firstn_all2; lia). rewrite Hf in E. rewrite E in H. injection H as <- <-. reflexivity.
Qed.

(** ** C40 *)
Lemma C40_round_trip_l : forall N M cpl s o, (0 < N)%nat -> (4 <= M)%nat -> Forall is_char s ->
  encode_base64 N cpl s = Ok o -> decode_base64 M o = Ok s.
Proof.
  intros N M cpl s o HN HM Hs H. unfold encode_base64 in H.
  destruct (encode_stream (S (length s)) N (init_encodestate cpl) s) as [o1| |] eqn:E; try discriminate. cbn [bind] in H. injection H as <-.
  apply encode_stream_whole in E; [|auto]. unfold encode_whole in E.
  destruct (block_follows s (init_encodestate cpl) init_decodestate [] (fol_A _ _ _ _) Hs) as (e1 & o2 & d1 & o1' & p1 & E1 & C1 & D1 & F1 & P1).
  rewrite E1 in E. cbn [bind] in E. destruct (end_follows e1 d1 p1 F1) as (o3 & d2 & E2 & D2 & L2).
  rewrite E2 in E. cbn [bind] in E. injection E as <-. cbn [decode_base64].
  apply (decode_stream_whole _ _ _ _ d2); auto. rewrite (decode_app _ _ _ _ _ D1), D2. cbn [bind]. cbn [app] in P1. rewrite <- P1. reflexivity.
Qed.
Lemma C40_total_l : forall N s, (2 <= N)%nat -> Forall is_char s -> exists o, encode_base64 N 0 s = Ok o.
Proof.
  intros N s HN Hs. unfold encode_base64.
  destruct (encode_stream_total (S (length s)) N (init_encodestate 0) init_decodestate [] s (fol_A _ _ _ _) Hs eq_refl HN (Nat.lt_succ_diag_r _)) as [o ->].
  cbn. eauto.
Qed.

Lemma byte_mod : forall c, is_char c -> byte_of c = c mod 256.
Proof.
  intros c Hc. unfold byte_of, is_char in *. destruct (Z.ltb_spec c 0).
  - symmetry. apply (mod_char _ (-1)); lia.
  - rewrite Z.mod_small; lia.
Qed.
Lemma byte_div : forall c k m, is_char c -> 0 < k -> 0 < m -> k * m = 256 -> c / k mod m = byte_of c / k.
Proof.
  intros c k m Hc Hk Hm E. rewrite byte_mod by auto. rewrite <- E.
  rewrite Z.rem_mul_r by lia. rewrite (Z.add_comm (c mod k)), Z.mul_comm, Z.div_add_l by lia.
  rewrite (Z.div_small (c mod k)) by (apply Z.mod_pos_bound; lia). lia.
Qed.
Lemma byte_mod_k : forall c k m, is_char c -> 0 < k -> 0 < m -> k * m = 256 -> c mod k = byte_of c mod k.
Proof.
  intros c k m Hc Hk Hm E. rewrite byte_mod by auto. rewrite <- E.
  rewrite Z.rem_mul_r by lia. rewrite (Z.add_comm (c mod k)), Z.mul_comm, Z.add_comm, Z.mod_add, Z.mod_mod by lia. reflexivity.
Qed.
Lemma list3_ind : forall (A : Type) (P : list A -> Prop), P [] -> (forall a, P [a]) -> (forall a b, P [a; b]) ->
  (forall a b c l, P l -> P (a :: b :: c :: l)) -> forall l, P l.
Proof.
  intros A P H0 H1 H2 H3. fix IH 1. intros [|a [|b [|c l]]]; [exact H0 | apply H1 | apply H2 | apply H3, IH].
Qed.
Lemma byte_range : forall c, is_char c -> 0 <= byte_of c < 256.
Proof. intros c Hc. unfold byte_of, is_char in *. destruct (Z.ltb_spec c 0); lia. Qed.
Lemma rfc_block : forall l n r, Forall is_char l -> encode_whole (mkES n 0 step_A r) l = Ok (rfc4648 (map byte_of l)).
Proof.
  assert (EA : forall n r a, is_char a -> encode_char (mkES n 0 step_A r) a = Ok (mkES ((n + 1) mod 2 ^ 64) 0 step_B (byte_of a mod 4 * 16), [digit (byte_of a / 4)])).
  { intros n r a Ha. unfold encode_char. cbn [e_cpl e_stepcount e_step check_break Z.eqb negb andb].
    rewrite land252. pose proof (Z.mod_pos_bound (a / 4) 64 ltac:(lia)). rewrite encode_value_digit by lia. cbn [bind app].
    rewrite land3, Z.shiftl_mul_pow2 by lia. rewrite (byte_div a 4 64), (byte_mod_k a 4 64) by (auto; lia). reflexivity. }
  assert (EB : forall n x b, is_char b -> 0 <= x < 4 -> encode_char (mkES n 0 step_B (x * 16)) b =
      Ok (mkES ((n + 1) mod 2 ^ 64) 0 step_C (byte_of b mod 16 * 4), [digit (x * 16 + byte_of b / 16)])).
  { intros n x b Hb Hx. unfold encode_char. cbn [e_cpl e_stepcount e_step e_result check_break Z.eqb negb andb].
    rewrite land240. pose proof (Z.mod_pos_bound (b / 16) 16 ltac:(lia)). change (x * 16) with (x * 2 ^ 4). rewrite lor_low by lia.
    rewrite to_char_id by (unfold is_char; lia). rewrite encode_value_digit by lia. cbn [bind app].
    rewrite land15, Z.shiftl_mul_pow2 by lia. rewrite (byte_div b 16 16), (byte_mod_k b 16 16) by (auto; lia). reflexivity. }
  assert (EC : forall n x c, is_char c -> 0 <= x < 16 -> exists n', encode_char (mkES n 0 step_C (x * 4)) c =
      Ok (mkES n' 0 step_A (byte_of c mod 64), [digit (x * 4 + byte_of c / 64); digit (byte_of c mod 64)])).
  { intros n x b Hb Hx. unfold encode_char. cbn [e_cpl e_stepcount e_step e_result check_break Z.eqb negb andb].
    rewrite land192. pose proof (Z.mod_pos_bound (b / 64) 4 ltac:(lia)). change (x * 4) with (x * 2 ^ 2). rewrite lor_low by lia.
    rewrite to_char_id by (unfold is_char; lia). rewrite encode_value_digit by lia. cbn [bind app].
    rewrite land63, Z.shiftr_0_r. pose proof (Z.mod_pos_bound b 64 ltac:(lia)). rewrite encode_value_digit by lia. cbn [bind].
    rewrite (byte_div b 64 4), (byte_mod_k b 64 4) by (auto; lia). eexists. reflexivity. }
  intros l. induction l as [|a|a b|a b c l IH] using list3_ind; intros n r Hl.
  - reflexivity.
  - inversion_clear Hl. pose proof (byte_range a H). unfold encode_whole. cbn [encode_block]. rewrite EA by auto. cbn [bind].
    unfold encode_blockend. cbn [e_cpl e_stepcount e_step e_result check_break Z.eqb negb andb].
    pose proof (Z.mod_pos_bound (byte_of a) 4 ltac:(lia)). rewrite encode_value_digit by lia. cbn [bind app map rfc4648].
    f_equal. f_equal; [f_equal|f_equal; f_equal].
    + change 64 with (4 * 16) at 1. rewrite Z.div_mul_cancel_r by lia. reflexivity.
    + change 64 with (4 * 16) at 1. rewrite Z.mul_mod_distr_r by lia. reflexivity.
  - inversion_clear Hl. inversion_clear H0. pose proof (byte_range a H). pose proof (byte_range b H1).
    pose proof (Z.mod_pos_bound (byte_of a) 4 ltac:(lia)). pose proof (Z.mod_pos_bound (byte_of b) 16 ltac:(lia)).
    unfold encode_whole. cbn [encode_block]. rewrite EA by auto. cbn [bind]. rewrite EB by auto. cbn [bind].
    unfold encode_blockend. cbn [e_cpl e_stepcount e_step e_result check_break Z.eqb negb andb].
    rewrite encode_value_digit by lia. cbn [bind app map rfc4648].
    pose proof (Z.div_mod (byte_of a) 4 ltac:(lia)). pose proof (Z.div_mod (byte_of b) 16 ltac:(lia)).
    f_equal. f_equal; [f_equal|f_equal; [f_equal|f_equal; f_equal]].
    + symmetry. apply (div_char _ _ ((byte_of a mod 4 * 256 + byte_of b) * 4)); lia.
    + rewrite (div_char ((byte_of a * 256 + byte_of b) * 4) (byte_of a * 16 + byte_of b / 16) (byte_of b mod 16 * 4)) by lia.
      symmetry. apply (mod_char _ (byte_of a / 4)); try lia.
    + symmetry. apply (mod_char _ (byte_of a * 16 + byte_of b / 16)); lia.
  - inversion_clear Hl. inversion_clear H0. inversion_clear H2. pose proof (byte_range a H). pose proof (byte_range b H1). pose proof (byte_range c H0).
    pose proof (Z.mod_pos_bound (byte_of a) 4 ltac:(lia)). pose proof (Z.mod_pos_bound (byte_of b) 16 ltac:(lia)). pose proof (Z.mod_pos_bound (byte_of c) 64 ltac:(lia)).
    unfold encode_whole. cbn [encode_block]. rewrite EA by auto. cbn [bind]. rewrite EB by auto. cbn [bind].
    destruct (EC (((n + 1) mod 2 ^ 64 + 1) mod 2 ^ 64) (byte_of b mod 16) c H0 ltac:(lia)) as [n' ->]. cbn [bind].
    specialize (IH n' (byte_of c mod 64) H3). unfold encode_whole in IH.
    destruct (encode_block (mkES n' 0 step_A (byte_of c mod 64)) l) as [[s1 o1]| |]; try discriminate. cbn [bind] in *.
    destruct (encode_blockend s1); try discriminate. cbn [bind] in *. injection IH as IH. cbn [app map rfc4648]. rewrite IH.
    pose proof (Z.div_mod (byte_of a) 4 ltac:(lia)). pose proof (Z.div_mod (byte_of b) 16 ltac:(lia)). pose proof (Z.div_mod (byte_of c) 64 ltac:(lia)).
    set (m := byte_of a * 65536 + byte_of b * 256 + byte_of c).
    f_equal. f_equal; [f_equal|f_equal; [f_equal|f_equal; [f_equal|f_equal; f_equal]]].
    + symmetry. apply (div_char _ _ (byte_of a mod 4 * 65536 + byte_of b * 256 + byte_of c)); lia.
    + rewrite (div_char m (byte_of a * 16 + byte_of b / 16) (byte_of b mod 16 * 256 + byte_of c)) by lia.
      symmetry. apply (mod_char _ (byte_of a / 4)); lia.
    + rewrite (div_char m (byte_of a * 1024 + byte_of b * 4 + byte_of c / 64) (byte_of c mod 64)) by lia.
      symmetry. apply (mod_char _ (byte_of a * 16 + byte_of b / 16)); lia.
    + symmetry. apply (mod_char _ (byte_of a * 1024 + byte_of b * 4 + byte_of c / 64)); lia.
Qed.
Lemma C40_rfc_l : forall N s, (2 <= N)%nat -> Forall is_char s -> encode_base64 N 0 s = Ok (64 :: rfc4648 (map byte_of s)).
Proof.
  intros N s HN Hs. destruct (C40_total_l N s HN Hs) as [o Ho]. rewrite Ho. unfold encode_base64 in Ho.
  destruct (encode_stream (S (length s)) N (init_encodestate 0) s) as [o1| |] eqn:E; try discriminate. cbn [bind] in Ho. injection Ho as <-.
  apply encode_stream_whole in E; [|lia]. unfold init_encodestate in E. rewrite rfc_block in E by auto. injection E as ->. reflexivity.
Qed.
Lemma decode_value_defined : forall c, is_char c -> c <> 123 -> exists f, decode_value c = Ok f.
Proof.
  intros c Hc Hn. unfold decode_value. destruct (Z.ltb_spec c 43); [eauto|].
  destruct (c - 43 >? decoding_size) eqn:E; [eauto|]. unfold decoding_size in E.
  destruct (nth_error decoding (Z.to_nat (c - 43))) eqn:E2; [eauto|].
  apply nth_error_None in E2. unfold is_char in Hc. cbn [length decoding] in E2. lia.
Qed.
Lemma decode_block_defined : forall l st, Forall is_char l -> ~ In 123 l -> exists st' o, decode_block st l = Ok (st', o).
Proof.
  induction l as [|c l IH]; intros st Hl Hn; cbn [decode_block]; [eauto|].
  inversion_clear Hl. destruct (decode_value_defined c H) as [f E]; [intros ->; apply Hn; left; reflexivity|].
  unfold decode_char. rewrite E. cbn [bind].
  assert (Hn' : ~ In 123 l) by (intros X; apply Hn; right; exact X).
  destruct (f <? 0); [|destruct (d_step st)]; cbn [bind];
    match goal with |- context [decode_block ?s l] => destruct (IH s H0 Hn') as (s' & o & ->); cbn; eauto end.
Qed.
Lemma C40_decode_defined_l : forall N s, (4 <= N)%nat -> Forall is_char s -> ~ In 123 s -> exists o, decode_base64 N (64 :: s) = Ok o.
Proof.
  intros N s HN Hs Hn. destruct (decode_block_defined s init_decodestate Hs Hn) as (st & o & E). exists o.
  cbn [decode_base64]. apply (decode_stream_whole _ _ _ _ st); auto.
Qed.
