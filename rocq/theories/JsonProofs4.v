(** Proofs about JSON data files. *)
Require Import ZArith List Bool Lia ZifyBool Arith.
From Verif Require Import Base IntValModel IntValSpec IntValProofs SetModel SetSpec SetProofs SetPropProofs StrModel JsonModel JsonSpec JsonProofs JsonProofs2 JsonProofs3.
Import ListNotations.
Open Scope Z_scope.

Lemma writes_arr_inv : forall r l s rest, writes r (JArr l) s rest -> exists s1, punct 91 s s1 /\ writes_list (inner r) l s1 rest.
Proof.
  intros r l s rest W. remember (JArr l) as v eqn:V. destruct W as [| | r v | | | | r l' s s1 rest P WL | |r v s s1 rest C P E|]; try discriminate V.
  - destruct (r_ids r); discriminate V.
  - exists s1. split; [exact P|]. unfold list_value in V. destruct (r_lev r) as [[|k]|]; try discriminate V; inversion V; subst; exact WL.
  - exfalso. apply (proj2 enum_ok) in E. destruct E as [E _]. subst v. exact E.
Qed.
Definition enum_reading : reading := mkR true None false.
Lemma writes_id_inv : forall k s rest, writes enum_reading (JId k) s rest -> quoted k s rest.
Proof.
  intros k s rest W. remember (JId k) as v eqn:V. remember enum_reading as r eqn:R. destruct W as [| | r v s rest Q| | | | r l' s s1 rest P WL | |r v s s1 rest C P E|]; try discriminate V.
  - subst r. cbn [r_ids enum_reading] in V. inversion V; subst. exact Q.
  - subst r. discriminate V.
  - subst r. discriminate C.
Qed.
Lemma enum_more_ok : forall ks s rest, writes_more enum_reading (map JId ks) s rest -> forall fuel lits, lits <> [] -> (length s < fuel)%nat ->
  parseEnumDef fuel s [] lits = Ok (JEnumDef [JSet (lits ++ map JId ks)], rest).
Proof.
  induction ks as [|k ks IH]; intros s rest W fuel lits N F; inversion W; subst; destruct fuel as [|fuel]; try lia; cbn [parseEnumDef].
  - rewrite (rt_93 s rest) by assumption. cbn [bind map]. rewrite app_nil_r. destruct lits; [congruence|reflexivity].
  - rewrite (rt_44 s s1) by assumption. cbn [bind]. match goal with H : writes _ _ _ _ |- _ => apply writes_id_inv in H end.
    assert (length s1 < length s)%nat by (lens; lia). destruct fuel as [|fuel]; [lia|]. cbn [parseEnumDef]. rewrite (rt_quoted k s1 s2) by assumption. cbn [bind].
    rewrite (IH s2 rest); [rewrite <- app_assoc; reflexivity|assumption|destruct lits; discriminate|lens; lia].
Qed.
Lemma enum_list_ok : forall ks s rest, writes_list enum_reading (map JId ks) s rest -> forall fuel, (length s < fuel)%nat ->
  parseEnumDef fuel s [] [] = Ok (JEnumDef [JSet (map JId ks)], rest).
Proof.
  intros [|k ks] s rest W fuel F; inversion W; subst; destruct fuel as [|fuel]; try lia; cbn [parseEnumDef].
  - rewrite (rt_93 s rest) by assumption. reflexivity.
  - match goal with H : writes _ _ _ _ |- _ => apply writes_id_inv in H end. rewrite (rt_quoted k s s1) by assumption. cbn [bind app].
    rewrite (enum_more_ok ks s1 rest) with (lits := [JId k]); [reflexivity|assumption|discriminate|lens; lia].
Qed.
Definition sound_type (t : tinfo) : Prop := ti_ranges t = ti_dim t.
Lemma value_ok : forall t v x s rest fuel, sound_type t -> writes (reading_of t) v s rest -> assigned t v x -> (length s < fuel)%nat ->
  parseExp fuel (Some t) s = Ok (x, rest).
Proof.
  intros t v x s rest fuel ST W A F. destruct fuel as [|fuel]; [lia|].
  destruct (ti_enum t) eqn:En.
  - unfold reading_of in W. rewrite En in W. destruct A; try congruence. destruct (writes_arr_inv _ _ _ _ W) as (s1 & P & WL). cbn [parseExp]. rewrite (rt_91 _ _ P). cbn [bind]. rewrite En.
    apply enum_list_ok; [exact WL|]. lens. lia.
  - rewrite exp_step by exact En. assert (matches (reading_of t) (Some t) O) as M by (unfold matches, reading_of; rewrite En, Nat.sub_0_r; auto).
    assert (plainly (Some t) O \/ (forall l, v <> list_value (reading_of t) l) -> parseElem fuel (Some t) O s = Ok (v, rest)) as Easy.
    { intros H. apply (proj1 writes_ok (reading_of t) v s rest W); [exact M|exact H|lia]. }
    assert (forall l, v = JArr l -> parseElem fuel (Some t) O s = do v <- array_value (Some t) O l; Ok (v, rest)) as Arr.
    { intros l ->. destruct (writes_arr_inv _ _ _ _ W) as (s1 & P & WL). unfold parseElem. rewrite (rt_91 _ _ P). cbn [bind].
      apply (proj1 (proj2 writes_ok) _ _ _ _ WL (Some t) O fuel); [apply matches_inner; exact M|]. lens. lia. }
    unfold sound_type in ST. destruct A as [v _ R|_|_ R|l _ R N|ds l _ R L P RC|ks E].
    + apply Easy. left. right. exact R.
    + apply Easy. right. intros l. unfold list_value. destruct (r_lev (reading_of t)) as [[|]|]; discriminate.
    + rewrite (Arr [] eq_refl). unfold array_value. rewrite (proj2 (Nat.leb_gt _ _)) by lia. cbn [andb]. rewrite (proj2 (Nat.ltb_lt _ _)) by lia. reflexivity.
    + rewrite (Arr l eq_refl). unfold array_value. rewrite R. cbn [Nat.leb Nat.ltb Nat.eqb andb]. destruct l as [|y l]; [congruence|]. rewrite <- ST, R.
      assert (coerce 1 (y :: l) = Ok (y :: l, [length (y :: l)])) as -> by (unfold coerce; destruct (as_arr y); reflexivity). reflexivity.
    + rewrite (Arr l eq_refl). unfold array_value. rewrite (proj2 (Nat.leb_gt _ _)) by lia. cbn [andb]. rewrite (proj2 (Nat.ltb_lt _ _)) by lia. cbn [andb Nat.eqb].
      rewrite <- ST, <- L, C64_complete by (assumption || lia). destruct l as [|y l].
      { exfalso. inversion RC; subst; [cbn in L; lia|]. inversion P; subst. cbn in *. lia. }
      cbn [bind]. rewrite (proj2 (Nat.eqb_neq (length ds) 1)) by lia. rewrite (proj2 (Nat.eqb_neq (length ds) 0)) by lia. rewrite ?L, Nat.eqb_refl. reflexivity.
    + congruence.
Qed.
Lemma raw_ok : forall v s rest fuel, writes raw v s rest -> (length s < fuel)%nat -> parseExp fuel None s = Ok (v, rest).
Proof.
  intros v s rest fuel W F. destruct fuel as [|fuel]; [lia|]. rewrite exp_step by reflexivity. apply (proj1 writes_ok raw v s rest W); [reflexivity|left; right; exact I|lia].
Qed.
Definition sound_types (known : str -> option tinfo) : Prop := forall k t, known k = Some t -> ti_ranges t = ti_dim t.
Lemma field_step : forall known fuel s items k out s1 s2, sound_types known -> keyed k s s1 -> field_of known k s1 s2 out ->
  parseModel (S fuel) known s items =
  do ' (next, s4) <- readToken s2;
  match next with
  | TObjClose => Ok (items ++ out, s4)
  | TComma => parseModel fuel known s4 (items ++ out)
  | _ => Err SyntaxError
  end.
Proof.
  intros known fuel s items k out s1 s2 ST K FO. cbn [parseModel]. destruct (keyed_run _ _ _ K) as (s5 & E1 & E2). rewrite E1. cbn [bind]. rewrite E2. cbn [bind].
  unfold field_of in FO. destruct (known k) as [t|] eqn:KN.
  - destruct FO as (v & x & W & A & ->). rewrite (value_ok t v x s1 s2) by (try assumption; try lia; exact (ST k t KN)). cbn [bind].
    destruct k as [|c k]; [reflexivity|]. destruct (c =? 95); [rewrite app_nil_r; reflexivity|reflexivity].
  - destruct FO as (v & W & ->). rewrite (raw_ok v s1 s2) by (try assumption; lia). cbn [bind]. rewrite app_nil_r. reflexivity.
Qed.
Lemma field_len : forall known k s rest out, field_of known k s rest out -> (length rest < length s)%nat.
Proof. intros known k s rest out H. unfold field_of in H. destruct (known k); [destruct H as (v & x & W & _)|destruct H as (v & W & _)]; apply len_w in W; exact W. Qed.
Lemma model_ok : forall known l s rest, sound_types known -> data_fields known l s rest -> forall fuel items, (length s < fuel)%nat ->
  parseModel fuel known s items = Ok (items ++ l, rest).
Proof.
  intros known l s rest ST H. induction H as [k out s s1 s2 rest K FO P|k out l s s1 s2 s3 rest K FO P H IH]; intros fuel items F; (destruct fuel as [|fuel]; [lia|]); rewrite (field_step known fuel s items k out s1 s2 ST K FO).
  - rewrite (rt_125 _ _ P). reflexivity.
  - rewrite (rt_44 _ _ P). cbn [bind]. rewrite IH; [rewrite <- app_assoc; reflexivity|]. apply field_len in FO. lens. lia.
Qed.
Lemma C65_l : forall known l s, sound_types known -> data_file known l s -> parseData known s = Ok l.
Proof.
  intros known l s ST [l' s' s1 rest P H B]. unfold parseData. rewrite (expect_123 _ _ P). cbn [bind]. rewrite (model_ok known l' s1 rest ST H) by lia. cbn [bind app].
  unfold expectToken. assert (readToken rest = Ok (TEof, [])) as ->; [|reflexivity]. rewrite <- (app_nil_r rest). rewrite readToken_blanks by exact B. reflexivity.
Qed.

(** ** Termination *)
Definition fine {A} (n : nat) (r : res (A * str)) : Prop := match r with Ok (_, s) => (length s < n)%nat | Err OutOfFuel => False | _ => True end.
Lemma fine_bind : forall A B n m (r : res (A * str)) (f : A -> str -> res (B * str)), fine m r -> (forall a s, r = Ok (a, s) -> (length s < m)%nat -> fine n (f a s)) -> fine n (do ' (a, s) <- r; f a s).
Proof. intros A B n m [[a s]|[]|] f H G; cbn in *; try contradiction; auto. Qed.
Lemma fine_weak : forall A n m (r : res (A * str)), (n <= m)%nat -> fine n r -> fine m r.
Proof. intros A n m [[a s]|[]|] L H; cbn in *; auto; lia. Qed.
(** a token takes at least one byte, unless the input is at its end *)
Definition fine_tok (s : str) (r : res (token * str)) : Prop :=
  match r with Ok (TEof, s') => (length s' <= length s)%nat | Ok (_, s') => (length s' < length s)%nat | Err OutOfFuel => False | _ => True end.
Definition fine_le (s : str) (r : res (token * str)) : Prop :=
  match r with Ok (_, s') => (length s' <= length s)%nat | Err OutOfFuel => False | _ => True end.
Lemma fine_string : forall n s result, (length s <= n)%nat -> fine_le s (read_string s result).
Proof.
  induction n as [|n IH]; intros s result L; (destruct s as [|c s]; [cbn; lia|]); [cbn in L; lia|]. cbn [length] in L. cbn [read_string].
  assert (forall t r x, (length t <= length s)%nat -> x = c :: s -> fine_le x (read_string t r)) as K.
  { intros t r x LT ->. assert (fine_le t (read_string t r)) as H by (apply IH; lia). unfold fine_le in *. destruct (read_string t r) as [[? ?]|[]|]; cbn [length] in *; auto; lia. }
  assert (forall x e, e <> OutOfFuel -> fine_le x (Err e)) as KE by (intros x [] N; try exact I; congruence).
  destruct (c =? 34); [cbn; lia|]. destruct (c =? 92); [|apply K; [lia|reflexivity]].
  destruct s as [|e s2]; [cbn; lia|]. cbn [length] in *.
  repeat (match goal with |- fine_le _ (if ?b then _ else _) => destruct b end; try (apply K; [cbn [length]; lia|reflexivity])).
  destruct s2 as [|a [|b [|c3 [|d s3]]]]; try exact I. destruct (stream_hex _); [|exact I]. cbn [length] in *.
  match goal with |- fine_le _ (if ?b then _ else _) => destruct b end; [|apply K; [lia|reflexivity]].
  destruct s3 as [|x [|y [|a' [|b' [|c' [|d' s4]]]]]]; try exact I. cbn [length] in *.
  match goal with |- fine_le _ (if ?b then _ else _) => destruct b end; [|exact I]. destruct (stream_hex _); [|exact I].
  match goal with |- fine_le _ (if ?b then _ else _) => destruct b end; [exact I|]. apply K; [lia|reflexivity].
Qed.
Lemma fine_exponent : forall s result, fine_le s (read_exponent s result).
Proof.
  induction s as [|c s IH]; intros result; [cbn; lia|]. cbn [read_exponent]. destruct (isdigit c); [|cbn; lia]. specialize (IH (result ++ [c])).
  unfold fine_le in *. destruct (read_exponent s (result ++ [c])) as [[? ?]|[]|]; cbn [length] in *; auto; lia.
Qed.
Lemma fine_exp_start : forall s c result, fine_le (c :: s) (do ' (r, s2) <- exponent_start s result; read_exponent s2 r).
Proof.
  intros s c result. unfold exponent_start. destruct s as [|x s]; [exact I|]. destruct (x =? 45).
  - destruct s as [|d s]; [exact I|]. destruct (isdigit d); [|exact I]. cbn [bind]. pose proof (fine_exponent s (result ++ [45; d])) as H. unfold fine_le in *. destruct (read_exponent _ _) as [[? ?]|[]|]; cbn [length] in *; auto; lia.
  - destruct (isdigit x); [|exact I]. cbn [bind]. pose proof (fine_exponent s (result ++ [x])) as H. unfold fine_le in *. destruct (read_exponent _ _) as [[? ?]|[]|]; cbn [length] in *; auto; lia.
Qed.
Lemma fine_float : forall s result, fine_le s (read_float s result).
Proof.
  induction s as [|c s IH]; intros result; [cbn; lia|]. cbn [read_float]. destruct (_ || _); [apply fine_exp_start|]. destruct (isdigit c); [|cbn; lia]. specialize (IH (result ++ [c])).
  unfold fine_le in *. destruct (read_float s (result ++ [c])) as [[? ?]|[]|]; cbn [length] in *; auto; lia.
Qed.
Lemma fine_int : forall s result, fine_le s (read_int s result).
Proof.
  induction s as [|c s IH]; intros result; [cbn; lia|]. cbn [read_int].
  destruct (c =? 46). { pose proof (fine_float s (result ++ [c])) as H. unfold fine_le in *. destruct (read_float _ _) as [[? ?]|[]|]; cbn [length] in *; auto; lia. }
  destruct (_ || _); [apply fine_exp_start|]. destruct (isdigit c); [|cbn; lia]. specialize (IH (result ++ [c])).
  unfold fine_le in *. destruct (read_int s (result ++ [c])) as [[? ?]|[]|]; cbn [length] in *; auto; lia.
Qed.
Lemma fine_weaken_tok : forall c s r, fine_le s r -> fine_tok (c :: s) r.
Proof. intros c s [[t s']|[]|] H; unfold fine_le, fine_tok in *; cbn [length]; auto. destruct t; lia. Qed.
Lemma fine_token : forall s, fine_tok s (readToken s).
Proof.
  induction s as [|c s IH]; [cbn; lia|]. cbn [readToken].
  destruct (_ || _ || _ || _). { unfold fine_tok in *. destruct (readToken s) as [[t s']|[]|]; cbn [length]; auto. destruct t; lia. }
  repeat (match goal with |- fine_tok _ (if ?b then _ else _) => destruct b end; try (cbn; lia); try exact I).
  - apply fine_weaken_tok. apply (fine_string (length s)). lia.
  - cbn [fine_tok length]. pose proof (skipn_length 3 s). lia.
  - cbn [fine_tok length]. pose proof (skipn_length 4 s). lia.
  - cbn [fine_tok length]. pose proof (skipn_length 3 s). lia.
  - apply fine_weaken_tok, fine_int.
Qed.
(** integer tokens fit an int *)
Lemma digits_nonneg : forall l, digits0 l -> 0 <= digits_value l.
Proof.
  intros l D. unfold digits_value. assert (forall a, 0 <= a -> 0 <= fold_left (fun a c => a * 10 + (c - 48)) l a) as H; [|apply H; lia].
  induction D as [|c l C D IH]; intros a A; cbn [fold_left]; [exact A|]. apply IH. lia.
Qed.
Lemma not_int_exp : forall s r t u, read_exponent s r = Ok (TInt t, u) -> False.
Proof. induction s as [|y s IH]; intros r t u E; [discriminate|]. cbn [read_exponent] in E. destruct (isdigit y); [eapply IH; exact E|discriminate]. Qed.
Lemma not_int_start : forall s r t u, (do ' (r, s2) <- exponent_start s r; read_exponent s2 r) = Ok (TInt t, u) -> False.
Proof. intros s r t u E. destruct (exponent_start s r) as [[? ?]| |]; try discriminate. cbn [bind] in E. eapply not_int_exp. exact E. Qed.
Lemma not_int_float : forall s r t u, read_float s r = Ok (TInt t, u) -> False.
Proof.
  induction s as [|y s IH]; intros r t u E; [discriminate|]. cbn [read_float] in E. destruct ((y =? 101) || (y =? 69)); [eapply not_int_start; exact E|].
  destruct (isdigit y); [eapply IH; exact E|discriminate].
Qed.
Lemma read_int_small : forall s c l, c = 45 \/ isdigit c = true -> digits0 l -> forall i s', read_int s (c :: l) = Ok (TInt i, s') -> INT_MIN <= i <= INT_MAX.
Proof.
  induction s as [|x s IH]; intros c l C D i s' H; [discriminate|]. cbn [read_int] in H.
  destruct (x =? 46); [exfalso; eapply not_int_float; exact H|].
  destruct (_ || _); [exfalso; eapply not_int_start; exact H|].
  destruct (isdigit x) eqn:DX.
  - cbn [app] in H. eapply (IH c (l ++ [x])); [exact C| |exact H]. apply Forall_app. split; [exact D|]. constructor; [apply isdigit_iff; exact DX|constructor].
  - inversion H; subst. unfold stream_int. pose proof (digits_nonneg l D). destruct (c =? 45) eqn:E.
    + unfold INT_MIN, INT_MAX. lia.
    + assert (0 <= digits_value (c :: l)) by (apply digits_nonneg; constructor; [apply isdigit_iff; destruct C; [lia|assumption]|exact D]). unfold INT_MIN, INT_MAX. lia.
Qed.
Lemma string_not_int : forall n s result i s', (length s <= n)%nat -> read_string s result <> Ok (TInt i, s').
Proof.
  induction n as [|n IH]; intros s result i s' L; (destruct s as [|c s]; [discriminate|]); [cbn in L; lia|]. cbn [length] in L. cbn [read_string].
  destruct (c =? 34); [discriminate|]. destruct (c =? 92); [|apply IH; lia].
  destruct s as [|e s2]; [discriminate|]. cbn [length] in *.
  repeat (match goal with |- (if ?b then _ else _) <> _ => destruct b end; try (apply IH; lia)).
  destruct s2 as [|a [|b [|c3 [|d s3]]]]; try discriminate. destruct (stream_hex _); [|discriminate]. cbn [length] in *.
  match goal with |- (if ?b then _ else _) <> _ => destruct b end; [|apply IH; lia].
  destruct s3 as [|x [|y [|a' [|b' [|c' [|d' s4]]]]]]; try discriminate. cbn [length] in *.
  match goal with |- (if ?b then _ else _) <> _ => destruct b end; [|discriminate]. destruct (stream_hex _); [|discriminate].
  match goal with |- (if ?b then _ else _) <> _ => destruct b end; [discriminate|]. apply IH; lia.
Qed.
Lemma token_small : forall s i s', readToken s = Ok (TInt i, s') -> INT_MIN <= i <= INT_MAX.
Proof.
  induction s as [|c s IH]; intros i s' H; [discriminate|]. cbn [readToken] in H.
  destruct (_ || _ || _ || _); [eapply IH; exact H|].
  repeat (match type of H with (if ?b then _ else _) = _ => destruct b eqn:? end; try discriminate).
  - exfalso. eapply string_not_int; [|exact H]. apply le_n.
  - eapply read_int_small; [| |exact H]; [|constructor]. destruct (isdigit c) eqn:?; [right; reflexivity|left; cbn in *; lia].
Qed.
Definition small_tok (p : token * token) : Prop := small (tok_int (fst p), tok_int (snd p)).
Lemma int_ranges_toks : forall ranges r, int_ranges ranges r = int_ranges (map toks (map (fun p => (tok_int (fst p), tok_int (snd p))) ranges)) r.
Proof. induction ranges as [|[a b] l IH]; intros r; [reflexivity|]. cbn [map toks int_ranges fst snd tok_int]. destruct (set_union _ r); [cbn [bind]; apply IH|reflexivity|reflexivity]. Qed.
Lemma int_ranges_fine : forall ranges, Forall small_tok ranges -> exists S, int_ranges ranges [] = Ok S.
Proof.
  intros ranges F. rewrite int_ranges_toks. destruct (int_ranges_ok (map (fun p => (tok_int (fst p), tok_int (snd p))) ranges) []) as (S & E & _);
    [rewrite Forall_map; exact F|constructor|intros z (a & b & [] & _)|exists S; exact E].
Qed.
Lemma tok_small : forall s t s', readToken s = Ok (t, s') -> INT_MIN <= tok_int t <= INT_MAX.
Proof. intros s t s' H. destruct t; try (cbn; unfold INT_MIN, INT_MAX; lia). eapply token_small. exact H. Qed.

Lemma tok_bind : forall B n s (f : token -> str -> res (B * str)),
  (forall t s1, readToken s = Ok (t, s1) -> (length s1 <= length s)%nat -> t = TEof \/ (length s1 < length s)%nat -> fine n (f t s1)) -> fine n (do ' (t, s1) <- readToken s; f t s1).
Proof.
  intros B n s f H. pose proof (fine_token s) as T. unfold fine_tok in T. destruct (readToken s) as [[t s1]|[]|]; cbn [bind]; try exact I; try contradiction.
  apply H; [reflexivity|destruct t; lia|]. destruct t; auto.
Qed.
Lemma string_bind : forall B n s (f : str -> str -> res (B * str)), (forall k s1, (length s1 < length s)%nat -> fine n (f k s1)) -> fine n (do ' (k, s1) <- expectString s; f k s1).
Proof.
  intros B n s f H. unfold expectString. pose proof (fine_token s) as T. unfold fine_tok in T. destruct (readToken s) as [[t s1]|[]|]; cbn [bind]; try exact I; try contradiction.
  destruct t; cbn [bind]; try exact I. apply H. exact T.
Qed.
Lemma int_bind : forall B n s (f : Z -> str -> res (B * str)), (forall k s1, (length s1 < length s)%nat -> fine n (f k s1)) -> fine n (do ' (k, s1) <- expectInt s; f k s1).
Proof.
  intros B n s f H. unfold expectInt. pose proof (fine_token s) as T. unfold fine_tok in T. destruct (readToken s) as [[t s1]|[]|]; cbn [bind]; try exact I; try contradiction.
  destruct t; cbn [bind]; try exact I. apply H. exact T.
Qed.
Lemma expect_bind : forall B n s tk (f : str -> res (B * str)), tk <> TEof -> (forall s1, (length s1 < length s)%nat -> fine n (f s1)) -> fine n (do s1 <- expectToken tk s; f s1).
Proof.
  intros B n s tk f N H. unfold expectToken. pose proof (fine_token s) as T. unfold fine_tok in T. destruct (readToken s) as [[t s1]|[]|]; cbn [bind]; try exact I; try contradiction.
  destruct tk; try congruence; destruct t; cbn [bind]; try exact I; apply H; exact T.
Qed.
Lemma enum_object_fine : forall fuel s key e c i, (length s < fuel)%nat -> fine (length s) (parseEnumObject fuel s key e c i).
Proof.
  induction fuel as [|fuel IH]; intros s key e c i F; [lia|]. cbn [parseEnumObject].
  apply (fine_bind _ _ _ (length s)).
  - destruct (seq key k_e).
    + apply tok_bind. intros t s1 _ _ [->|L]; [exact I|]. apply (fine_bind _ _ _ (length s)); [|intros v s2 _ L2; exact L2].
      destruct t; try exact I; try exact L. apply string_bind. intros k s2 L2. apply expect_bind; [discriminate|]. intros s3 L3. eapply fine_weak; [|apply IH; lia]. lia.
    + destruct (_ && _); [apply string_bind; intros k s1 L; exact L|]. destruct (_ && _); [apply int_bind; intros k s1 L; exact L|exact I].
  - intros [[e' c'] i'] s1 _ L. apply tok_bind. intros t s2 _ _ [->|L2]; [exact I|]. destruct t; try exact I.
    + destruct e' as [v|]; [|exact I]. repeat match goal with |- context [if ?b then _ else _] => destruct b end; try exact I; cbn; lia.
    + apply string_bind. intros k s3 L3. apply expect_bind; [discriminate|]. intros s4 L4. eapply fine_weak; [|apply IH; lia]. lia.
Qed.
Lemma set_fine : forall fuel ti s lt exprs ranges, Forall small_tok ranges -> (length s < fuel)%nat -> fine (length s) (parseSet fuel ti s lt exprs ranges).
Proof.
  induction fuel as [|fuel IH]; intros ti s lt exprs ranges SM F; [lia|]. cbn [parseSet]. apply tok_bind. intros t s1 RT _ [->|L]; [exact I|].
  assert (forall lt exprs ranges, Forall small_tok ranges -> fine (length s) (parseSet fuel ti s1 lt exprs ranges)) as K by (intros; eapply fine_weak; [|apply IH; [assumption|lia]]; lia).
  assert (small_tok (t, t)) as ST by (pose proof (tok_small _ _ _ RT); split; assumption).
  destruct t; try exact I.
  - assert (forall lt2 : listT, fine (length s)
      (do ' (a, s2) <- readToken s1;
       do lt1 <- match a with TInt _ => Ok (no_float lt2) | TFloat _ => Ok LFloat | _ => Err SyntaxError end;
       do s3 <- expectToken TComma s2;
       do ' (b, s4) <- readToken s3;
       do lt2 <- match b with TInt _ => Ok (no_float lt1) | TFloat _ => Ok LFloat | _ => Err SyntaxError end;
       do s5 <- expectToken TListClose s4; parseSet fuel ti s5 lt2 exprs (ranges ++ [(a, b)]))) as KK.
    { intros lt2. apply tok_bind. intros a s2 RA _ [->|L2]; [exact I|]. assert (forall m, fine (length s)
       (do s3 <- expectToken TComma s2; do ' (b, s4) <- readToken s3;
       do lt2 <- match b with TInt _ => Ok (no_float m) | TFloat _ => Ok LFloat | _ => Err SyntaxError end;
       do s5 <- expectToken TListClose s4; parseSet fuel ti s5 lt2 exprs (ranges ++ [(a, b)]))) as K3.
      { intros m. apply expect_bind; [discriminate|]. intros s3 L3. apply tok_bind. intros b s4 RB _ [->|L4]; [exact I|].
        assert (small_tok (a, b)) as SAB by (split; cbn [fst snd]; eapply tok_small; eassumption).
        assert (forall m, fine (length s) (do s5 <- expectToken TListClose s4; parseSet fuel ti s5 m exprs (ranges ++ [(a, b)]))) as K4.
        { intros m'. apply expect_bind; [discriminate|]. intros s5 L5. eapply fine_weak; [|apply IH; [apply Forall_app; auto|lia]]. lia. }
        destruct b; try exact I; apply K4. }
      destruct a; try exact I; apply K3. }
    destruct lt; try exact I; apply KK.
  - apply expect_bind; [discriminate|]. intros s2 L2. destruct lt; try (cbn; lia). destruct (int_ranges_fine ranges SM) as [S ->]. cbn. lia.
  - assert (fine (length s) (do ' (t, s2) <- readToken s1; do s3 <- expectToken TColon s2;
      do ' (v, s4) <- parseEnumObject (S (length s3)) s3 (match t with TString k => k | _ => [] end) None [] (-1); parseSet fuel ti s4 LObj (exprs ++ [v]) ranges)) as KK.
    { apply tok_bind. intros t s2 _ L2 _.
      apply expect_bind; [discriminate|]. intros s3 L3. apply (fine_bind _ _ _ (length s3)); [apply enum_object_fine; lia|]. intros v s4 _ L4. eapply fine_weak; [|apply IH; [assumption|lia]]. lia. }
    destruct lt; try exact I; apply KK.
  - apply K. exact SM.
  - destruct lt; try exact I; apply K; exact SM.
  - destruct (is_num_marker lt); [|exact I]. apply K. apply Forall_app. auto.
  - destruct (is_num_marker lt); [|exact I]. apply K. apply Forall_app. auto.
  - destruct (is_num_marker lt); [|exact I]. apply K. exact SM.
Qed.

Lemma array_value_fine : forall ti ri l n s, (length s < n)%nat -> fine n (do v <- array_value ti ri l; Ok (v, s)).
Proof.
  intros ti ri l n s L. unfold array_value. destruct ti as [t|]; [|exact L]. destruct (_ && _); [exact L|]. destruct (_ && _); [|exact L].
  destruct l as [|x l]; [exact L|]. destruct (coerce_no_fuel (ti_dim t) (x :: l)) as [NF _]. destruct (coerce (ti_dim t) (x :: l)) as [[els dims]|[]|]; cbn [bind]; try exact I; try congruence.
  destruct (_ || _); exact L.
Qed.
Lemma enum_constructor_fine : forall e c i n s, (length s < n)%nat -> fine n (do v <- enum_constructor e c i; Ok (v, s)).
Proof.
  intros e c i n s L. unfold enum_constructor. destruct (negb (isnil c)).
  - destruct e as [v|]; [|exact I]. assert (fine n (do v <- match set_of v with Some w => Ok (JCtor c w) | None => Err SyntaxError end; Ok (v, s))) as K by (destruct (set_of v); [exact L|exact I]).
    destruct v; try exact K. exact L.
  - destruct i as [v|]; [destruct (set_of v); [exact L|exact I]|]. destruct e as [v|]; [|exact I]. destruct v; try exact I. exact L.
Qed.
Lemma parse_fine : forall fuel,
  (forall ti ri s exps, (length s < fuel)%nat -> fine (length s) (parseArray fuel ti ri s exps)) /\
  (forall ti s fields, (length s < fuel)%nat -> fine (length s) (parseObject fuel ti s fields)) /\
  (forall ti s, (length s < fuel)%nat -> fine (length s) (parseExp fuel ti s)) /\
  (forall s cs ls, (length s < fuel)%nat -> fine (length s) (parseEnumDef fuel s cs ls)) /\
  (forall s key e c i, (S (length s) < fuel)%nat -> fine (length s) (parseEnumConstructorDef fuel s key e c i)).
Proof.
  induction fuel as [|fuel (IHa & IHo & IHe & IHd & IHc)]; [repeat split; intros; lia|]. split; [|split; [|split; [|split]]].
  - intros ti ri s exps F. cbn [parseArray]. apply tok_bind. intros t s1 _ _ [->|L]; [exact I|].
    assert (forall exps, fine (length s) (parseArray fuel ti ri s1 exps)) as K by (intros; eapply fine_weak; [|apply IHa; lia]; lia).
    destruct t; try apply K; try exact I.
    + apply (fine_bind _ _ _ (length s1)); [apply IHa; lia|]. intros v s2 _ L2. eapply fine_weak; [|apply IHa; lia]. lia.
    + apply array_value_fine. exact L.
    + apply (fine_bind _ _ _ (length s1)); [apply IHo; lia|]. intros v s2 _ L2. eapply fine_weak; [|apply IHa; lia]. lia.
  - intros ti s fields F. cbn [parseObject]. apply string_bind. intros k s1 L. apply expect_bind; [discriminate|]. intros s2 L2.
    destruct (seq k k_set).
    { destruct fields; [|exact I]. apply expect_bind; [discriminate|]. intros s3 L3. eapply fine_weak; [|apply set_fine; [constructor|lia]]. lia. }
    match goal with |- fine _ (if ?b then _ else _) => destruct b end.
    { destruct fields; [|exact I]. eapply fine_weak; [|apply enum_object_fine; lia]. lia. }
    apply (fine_bind _ _ _ (length s2)); [apply IHe; lia|]. intros v s3 _ L3. apply tok_bind. intros t s4 _ _ [->|L4]; [exact I|]. destruct t; try exact I; [cbn; lia|].
    eapply fine_weak; [|apply IHo; lia]. lia.
  - intros ti s F. cbn [parseExp]. apply tok_bind. intros t s1 _ _ [->|L]; [exact I|]. destruct t; try exact I; try exact L.
    + destruct (match ti with Some t => ti_enum t | None => false end); (eapply fine_weak; [|first [apply IHd|apply IHa]; lia]); lia.
    + eapply fine_weak; [|apply IHo; lia]. lia.
  - intros s cs ls F. cbn [parseEnumDef]. apply tok_bind. intros t s1 _ _ [->|L]; [exact I|]. destruct t; try exact I; try exact L.
    + apply string_bind. intros k s2 L2. apply expect_bind; [discriminate|]. intros s3 L3. apply (fine_bind _ _ _ (length s3)); [apply IHc; lia|]. intros v s4 _ L4. eapply fine_weak; [|apply IHd; lia]. lia.
    + eapply fine_weak; [|apply IHd; lia]. lia.
    + eapply fine_weak; [|apply IHd; lia]. lia.
  - intros s key e c i F. cbn [parseEnumConstructorDef]. apply (fine_bind _ _ _ (length s)).
    + destruct (_ && _); [apply (fine_bind _ _ _ (length s)); [apply IHe; lia|intros v s1 _ L; exact L]|].
      destruct (_ && _); [apply string_bind; intros k s1 L; exact L|]. destruct (_ && _); [|exact I]. apply (fine_bind _ _ _ (length s)); [apply IHe; lia|intros v s1 _ L; exact L].
    + intros [[e' c'] i'] s1 _ L. apply tok_bind. intros t s2 _ _ [->|L2]; [exact I|]. destruct t; try exact I.
      * apply enum_constructor_fine. lia.
      * apply string_bind. intros k s3 L3. apply expect_bind; [discriminate|]. intros s4 L4. eapply fine_weak; [|apply IHc; lia]. lia.
Qed.
Lemma model_fine : forall fuel known s items, (length s < fuel)%nat -> fine (length s) (parseModel fuel known s items).
Proof.
  induction fuel as [|fuel IH]; intros known s items F; [lia|]. cbn [parseModel]. apply string_bind. intros k s1 L. apply expect_bind; [discriminate|]. intros s2 L2.
  apply (fine_bind _ _ _ (length s2)); [apply (parse_fine (S (length s2))); lia|]. intros v s3 _ L3. apply tok_bind. intros t s4 _ _ [->|L4]; [exact I|].
  destruct t; try exact I; [cbn; lia|]. eapply fine_weak; [|apply IH; lia]. lia.
Qed.
Lemma C65_total_l : forall known s, parseData known s <> Err OutOfFuel.
Proof.
  intros known s. unfold parseData. unfold expectToken at 1. pose proof (fine_token s) as T. unfold fine_tok in T. destruct (readToken s) as [[t s1]|[]|]; cbn [bind]; try discriminate; try contradiction.
  destruct t; cbn [bind]; try discriminate. pose proof (model_fine (S (length s1)) known s1 [] (le_n _)) as M. unfold fine in M.
  destruct (parseModel (S (length s1)) known s1 []) as [[items s2]|[]|]; cbn [bind]; try discriminate; try contradiction.
  unfold expectToken. pose proof (fine_token s2) as T2. unfold fine_tok in T2. destruct (readToken s2) as [[t2 s3]|[]|]; cbn [bind]; try discriminate; try contradiction.
  destruct t2; cbn [bind]; discriminate.
Qed.
