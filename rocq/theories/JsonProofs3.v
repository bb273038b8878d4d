(** Proofs about the recursive descent of the JSON reader. *)
Require Import ZArith List Bool Lia ZifyBool Arith.
From Verif Require Import Base IntValModel IntValSpec IntValProofs SetModel SetSpec SetProofs SetPropProofs StrModel JsonModel JsonSpec JsonProofs JsonProofs2.
Import ListNotations.
Open Scope Z_scope.

(** ** Tokens *)
Lemma rt_quoted : forall v s rest, quoted v s rest -> readToken s = Ok (TString v, rest).
Proof. intros v s rest [b ts vs rest' B G]. apply C43_read; assumption. Qed.
Lemma rt_int : forall v s rest, int_lit v s rest -> readToken s = Ok (TInt v, rest).
Proof. intros v s rest [b t v' c rest' B T R E]. rewrite (C42_read b t v') by assumption. do 3 f_equal. unfold clamp, INT_MIN, INT_MAX in *. lia. Qed.
Lemma rt_91 : forall s rest, punct 91 s rest -> readToken s = Ok (TListOpen, rest).
Proof. intros s rest [b r B]. rewrite readToken_blanks by exact B. reflexivity. Qed.
Lemma rt_93 : forall s rest, punct 93 s rest -> readToken s = Ok (TListClose, rest).
Proof. intros s rest [b r B]. rewrite readToken_blanks by exact B. reflexivity. Qed.
Lemma rt_123 : forall s rest, punct 123 s rest -> readToken s = Ok (TObjOpen, rest).
Proof. intros s rest [b r B]. rewrite readToken_blanks by exact B. reflexivity. Qed.
Lemma rt_125 : forall s rest, punct 125 s rest -> readToken s = Ok (TObjClose, rest).
Proof. intros s rest [b r B]. rewrite readToken_blanks by exact B. reflexivity. Qed.
Lemma rt_44 : forall s rest, punct 44 s rest -> readToken s = Ok (TComma, rest).
Proof. intros s rest [b r B]. rewrite readToken_blanks by exact B. reflexivity. Qed.
Lemma rt_58 : forall s rest, punct 58 s rest -> readToken s = Ok (TColon, rest).
Proof. intros s rest [b r B]. rewrite readToken_blanks by exact B. reflexivity. Qed.

(** floats *)
Lemma read_exponent_ok : forall d result c rest, digits0 d -> ends_number c -> read_exponent (d ++ c :: rest) result = Ok (TFloat (result ++ d), c :: rest).
Proof.
  induction d as [|x d IH]; intros result c rest D E.
  - cbn [app read_exponent]. assert (isdigit c = false) as -> by (destruct E as [E _]; unfold isdigit; lia). rewrite app_nil_r. reflexivity.
  - inversion D; subst. cbn [app read_exponent]. assert (isdigit x = true) as -> by (apply isdigit_iff; assumption). rewrite IH by assumption. rewrite <- app_assoc. reflexivity.
Qed.
Lemma exponent_ok : forall e x result c rest, exponent_text (e :: x) -> ends_number c ->
  (e = 101 \/ e = 69) /\ (do ' (r, s2) <- exponent_start (x ++ c :: rest) (result ++ [e]); read_exponent s2 r) = Ok (TFloat (result ++ e :: x), c :: rest).
Proof.
  intros e x result c rest X E. inversion X as [e' sg d He Hs [N D]]; subst. split; [exact He|]. destruct d as [|d0 d]; [congruence|]. inversion D; subst.
  assert (isdigit d0 = true) as I by (apply isdigit_iff; assumption).
  destruct Hs as [->| ->]; cbn [app exponent_start Z.eqb Pos.eqb].
  - destruct (d0 =? 45) eqn:M; [lia|]. rewrite I. cbn [bind]. rewrite read_exponent_ok by assumption. rewrite <- !app_assoc. reflexivity.
  - rewrite I. cbn [bind]. rewrite read_exponent_ok by assumption. rewrite <- !app_assoc. reflexivity.
Qed.
Lemma read_float_ok : forall f x result c rest, digits0 f -> x = [] \/ exponent_text x -> ends_number c ->
  read_float (f ++ x ++ c :: rest) result = Ok (TFloat (result ++ f ++ x), c :: rest).
Proof.
  induction f as [|y f IH]; intros x result c rest F X E.
  - cbn [app]. destruct X as [->|X].
    + cbn [app read_float]. destruct E as [E1 [E2 [E3 E4]]]. assert ((c =? 101) || (c =? 69) = false) as -> by lia. assert (isdigit c = false) as -> by (unfold isdigit; lia). rewrite app_nil_r. reflexivity.
    + destruct x as [|e x]; [inversion X|]. destruct (exponent_ok e x result c rest X E) as [He P]. cbn [app read_float].
      assert ((e =? 101) || (e =? 69) = true) as -> by lia. exact P.
  - inversion F; subst. cbn [app read_float]. assert ((y =? 101) || (y =? 69) = false) as -> by lia. assert (isdigit y = true) as -> by (apply isdigit_iff; assumption).
    rewrite IH by assumption. rewrite <- !app_assoc. reflexivity.
Qed.
Lemma read_int_frac : forall i f x result c rest, digits0 i -> digits0 f -> x = [] \/ exponent_text x -> ends_number c ->
  read_int (i ++ 46 :: f ++ x ++ c :: rest) result = Ok (TFloat (result ++ i ++ 46 :: f ++ x), c :: rest).
Proof.
  induction i as [|y i IH]; intros f x result c rest I F X E.
  - cbn [app read_int Z.eqb Pos.eqb]. rewrite read_float_ok by assumption. rewrite <- app_assoc. reflexivity.
  - inversion I; subst. cbn [app read_int]. assert (y =? 46 = false) as -> by lia. assert ((y =? 101) || (y =? 69) = false) as -> by lia.
    assert (isdigit y = true) as -> by (apply isdigit_iff; assumption). rewrite IH by assumption. rewrite <- !app_assoc. reflexivity.
Qed.
Lemma read_int_exp : forall i x result c rest, digits0 i -> exponent_text x -> ends_number c ->
  read_int (i ++ x ++ c :: rest) result = Ok (TFloat (result ++ i ++ x), c :: rest).
Proof.
  induction i as [|y i IH]; intros x result c rest I X E.
  - destruct x as [|e x]; [inversion X|]. destruct (exponent_ok e x result c rest X E) as [He P]. cbn [app read_int].
    assert (e =? 46 = false) as -> by lia. assert ((e =? 101) || (e =? 69) = true) as -> by lia. exact P.
  - inversion I; subst. cbn [app read_int]. assert (y =? 46 = false) as -> by lia. assert ((y =? 101) || (y =? 69) = false) as -> by lia.
    assert (isdigit y = true) as -> by (apply isdigit_iff; assumption). rewrite IH by assumption. rewrite <- !app_assoc. reflexivity.
Qed.
Lemma C66_read : forall b t c rest, Forall blank b -> float_text t -> ends_number c -> readToken (b ++ t ++ c :: rest) = Ok (TFloat t, c :: rest).
Proof.
  intros b t c rest B T E. rewrite readToken_blanks by exact B. destruct T as [sg i f x S [N I] F X|sg i x S [N I] X].
  - destruct i as [|y i]; [congruence|]. inversion I; subst. destruct S as [->| ->].
    + cbn [app]. rewrite readToken_number by (left; assumption). rewrite <- app_assoc. cbn [app]. rewrite <- app_assoc. rewrite read_int_frac by assumption. reflexivity.
    + cbn [app]. rewrite readToken_number by (right; reflexivity). rewrite <- app_assoc. cbn [app]. rewrite <- app_assoc.
      change (y :: i ++ 46 :: f ++ x ++ c :: rest) with ((y :: i) ++ 46 :: f ++ x ++ c :: rest). rewrite read_int_frac by assumption. reflexivity.
  - destruct i as [|y i]; [congruence|]. inversion I; subst. destruct S as [->| ->].
    + cbn [app]. rewrite readToken_number by (left; assumption). rewrite <- app_assoc. rewrite read_int_exp by assumption. reflexivity.
    + cbn [app]. rewrite readToken_number by (right; reflexivity). rewrite <- app_assoc.
      change (y :: i ++ x ++ c :: rest) with ((y :: i) ++ x ++ c :: rest). rewrite read_int_exp by assumption. reflexivity.
Qed.

Lemma expect_quoted : forall v s rest, quoted v s rest -> expectString s = Ok (v, rest).
Proof. intros v s rest Q. unfold expectString. rewrite (rt_quoted _ _ _ Q). reflexivity. Qed.
Lemma expect_int : forall v s rest, int_lit v s rest -> expectInt s = Ok (v, rest).
Proof. intros v s rest Q. unfold expectInt. rewrite (rt_int _ _ _ Q). reflexivity. Qed.
Lemma expect_58 : forall s rest, punct 58 s rest -> expectToken TColon s = Ok rest.
Proof. intros s rest P. unfold expectToken. rewrite (rt_58 _ _ P). reflexivity. Qed.
Lemma expect_44 : forall s rest, punct 44 s rest -> expectToken TComma s = Ok rest.
Proof. intros s rest P. unfold expectToken. rewrite (rt_44 _ _ P). reflexivity. Qed.
Lemma expect_91 : forall s rest, punct 91 s rest -> expectToken TListOpen s = Ok rest.
Proof. intros s rest P. unfold expectToken. rewrite (rt_91 _ _ P). reflexivity. Qed.
Lemma expect_93 : forall s rest, punct 93 s rest -> expectToken TListClose s = Ok rest.
Proof. intros s rest P. unfold expectToken. rewrite (rt_93 _ _ P). reflexivity. Qed.
Lemma expect_123 : forall s rest, punct 123 s rest -> expectToken TObjOpen s = Ok rest.
Proof. intros s rest P. unfold expectToken. rewrite (rt_123 _ _ P). reflexivity. Qed.
Lemma expect_125 : forall s rest, punct 125 s rest -> expectToken TObjClose s = Ok rest.
Proof. intros s rest P. unfold expectToken. rewrite (rt_125 _ _ P). reflexivity. Qed.

(** ** Lengths *)
Lemma len_punct : forall c s rest, punct c s rest -> (length rest < length s)%nat.
Proof. intros c s rest [b r B]. rewrite app_length. cbn [length]. lia. Qed.
Lemma len_quoted : forall v s rest, quoted v s rest -> (length rest < length s)%nat.
Proof. intros v s rest [b ts vs r B G]. rewrite app_length. cbn [length]. rewrite app_length. cbn [length]. lia. Qed.
Lemma len_int : forall v s rest, int_lit v s rest -> (length rest < length s)%nat.
Proof.
  intros v s rest [b t v' c r B T R E]. rewrite !app_length. cbn [length]. assert (t <> []) as N by (destruct T as [l z D|l z D]; [apply decimal_value in D; tauto|discriminate]).
  destruct t; [congruence|cbn [length]; lia].
Qed.
Lemma len_keyed : forall k s rest, keyed k s rest -> (length rest < length s)%nat.
Proof. intros k s rest (s1 & Q & P). apply len_quoted in Q. apply len_punct in P. lia. Qed.
Lemma keyed_run : forall k s rest, keyed k s rest -> exists s1, expectString s = Ok (k, s1) /\ expectToken TColon s1 = Ok rest.
Proof. intros k s rest (s1 & Q & P). exists s1. split; [apply expect_quoted; exact Q|apply expect_58; exact P]. Qed.
Ltac lens := repeat match goal with
  | H : punct _ _ _ |- _ => apply len_punct in H
  | H : quoted _ _ _ |- _ => apply len_quoted in H
  | H : int_lit _ _ _ |- _ => apply len_int in H
  | H : keyed _ _ _ |- _ => apply len_keyed in H end.

Lemma seq_refl : forall a, seq a a = true.
Proof. intros a. unfold seq. destruct (list_eq_dec Z.eq_dec a a); congruence. Qed.
Lemma seq_ne : forall a b, a <> b -> seq a b = false.
Proof. intros a b N. unfold seq. destruct (list_eq_dec Z.eq_dec a b); congruence. Qed.

(** ** Enum members *)
Scheme enum_member_m := Minimality for enum_member Sort Prop
with enum_object_m := Minimality for enum_object Sort Prop.
Combined Scheme enum_ind from enum_member_m, enum_object_m.
(** parseEnum, as it is inlined in parseEnumObject *)
Definition parseEnum (fuel : nat) (s : str) : res (jval * str) :=
  do ' (next, s0) <- readToken s;
  match next with
  | TString k => Ok (JId k, s0)
  | TInt n => Ok (JInt n, s0)
  | TObjOpen =>
      do ' (k, s2) <- expectString s0;
      do s3 <- expectToken TColon s2;
      parseEnumObject fuel s3 k None [] (-1)
  | _ => Err SyntaxError
  end.
Definition member (v : jval) : Prop := match v with JId _ | JInt _ | JCtor _ _ | JToEnum _ _ => True | _ => False end.
Lemma len_enum : (forall v s rest, enum_member v s rest -> (length rest < length s)%nat) /\ (forall v s rest, enum_object v s rest -> (length rest < length s)%nat).
Proof. apply enum_ind; intros; lens; lia. Qed.
Lemma enum_step_e : forall fuel s e c i, parseEnumObject (S fuel) s k_e e c i =
  do ' (v, s1) <- parseEnum fuel s;
  do ' (next, s2) <- readToken s1;
  match next with
  | TComma => do ' (k, s3) <- expectString s2; do s4 <- expectToken TColon s3; parseEnumObject fuel s4 k (Some v) c i
  | TObjClose =>
      let ok_arg := match v with JId _ | JInt _ | JCtor _ _ | JToEnum _ _ => true | _ => false end in
      let is_id := match v with JId _ => true | _ => false end in
      if (negb (isnil c) && negb ok_arg) || (negb (i =? -1) && negb is_id) then Err SyntaxError
      else if negb (isnil c) then Ok (JCtor c v, s2)
      else if negb (i =? -1) then Ok (JToEnum v i, s2)
      else Ok (v, s2)
  | _ => Err SyntaxError
  end.
Proof.
  intros. cbn [parseEnumObject]. rewrite (seq_refl k_e). unfold parseEnum. destruct (readToken s) as [[t s0]| |]; [|reflexivity|reflexivity]. cbn [bind].
  destruct t; cbn [bind]; try reflexivity; destruct (expectString s0) as [[k s2]| |]; try reflexivity; cbn [bind]; destruct (expectToken TColon s2); try reflexivity; cbn [bind];
    destruct (parseEnumObject fuel a k None [] (-1)) as [[v s1]| |]; reflexivity.
Qed.
Lemma enum_ok :
  (forall v s rest, enum_member v s rest -> member v /\ forall fuel, (length s <= fuel)%nat -> parseEnum fuel s = Ok (v, rest)) /\
  (forall v s rest, enum_object v s rest -> member v /\ exists k s1, keyed k s s1 /\ (k = k_e \/ k = k_c) /\
     forall fuel, (length s1 < fuel)%nat -> parseEnumObject fuel s1 k None [] (-1) = Ok (v, rest)).
Proof.
  apply enum_ind.
  - intros k s rest Q. split; [exact I|]. intros fuel F. unfold parseEnum. rewrite (rt_quoted _ _ _ Q). reflexivity.
  - intros n s rest Q. split; [exact I|]. intros fuel F. unfold parseEnum. rewrite (rt_int _ _ _ Q). reflexivity.
  - intros v s s1 rest P _ (M & k & s2 & K & _ & R). split; [exact M|]. intros fuel F. unfold parseEnum. rewrite (rt_123 _ _ P). cbn [bind].
    destruct (keyed_run _ _ _ K) as (s3 & E1 & E2). rewrite E1. cbn [bind]. rewrite E2. cbn [bind]. apply R. lens. lia.
  - intros v s s1 s2 rest K _ (M & R) P. split; [exact M|]. exists k_e, s1. split; [exact K|]. split; [left; reflexivity|]. intros fuel F. destruct fuel as [|fuel]; [lia|].
    rewrite enum_step_e, R by lia. cbn [bind]. rewrite (rt_125 _ _ P). cbn [bind isnil negb andb orb Z.eqb Pos.eqb]. reflexivity.
  - intros f v s s1 s2 s3 s4 s5 rest NF K Q P1 K2 EM (M & R) P2. split; [exact I|]. exists k_c, s1. split; [exact K|]. split; [right; reflexivity|]. intros fuel F.
    destruct fuel as [|fuel]; [lia|]. cbn [parseEnumObject]. change (seq k_c k_e) with false. change (seq k_c k_c && (-1 =? -1)) with true. cbn [bind]. rewrite (expect_quoted _ _ _ Q). cbn [bind].
    rewrite (rt_44 _ _ P1). cbn [bind]. destruct (keyed_run _ _ _ K2) as (s6 & E1 & E2). rewrite E1. cbn [bind]. rewrite E2. cbn [bind].
    assert (length s4 < fuel)%nat by (lens; lia). destruct fuel as [|fuel]; [lia|]. change [101] with k_e. rewrite enum_step_e, R by lia. cbn [bind].
    rewrite (rt_125 _ _ P2). cbn [bind]. destruct f as [|f0 f]; [congruence|]. cbn [isnil negb andb orb Z.eqb Pos.eqb]. destruct v; try contradiction M; reflexivity.
  - intros k i s s1 s2 s3 s4 s5 rest NI K Q P1 K2 IL P2. split; [exact I|]. exists k_e, s1. split; [exact K|]. split; [left; reflexivity|]. intros fuel F.
    destruct fuel as [|fuel]; [lia|]. rewrite enum_step_e. unfold parseEnum. rewrite (rt_quoted _ _ _ Q). cbn [bind].
    rewrite (rt_44 _ _ P1). cbn [bind]. destruct (keyed_run _ _ _ K2) as (s6 & E1 & E2). rewrite E1. cbn [bind]. rewrite E2. cbn [bind].
    assert (length s4 < fuel)%nat by (lens; lia). destruct fuel as [|fuel]; [lia|]. cbn [parseEnumObject]. change (seq [105] k_e) with false. change (seq [105] k_c && _) with false.
    change (seq [105] k_i && isnil []) with true. cbn [bind]. rewrite (expect_int _ _ _ IL). cbn [bind]. rewrite (rt_125 _ _ P2). cbn [bind isnil negb andb orb].
    destruct (i =? -1) eqn:EI; [lia|]. reflexivity.
Qed.

(** ** Integer sets *)
Lemma nf_good : forall s r, nf s -> In r s -> good_range r.
Proof. intros s r H. induction H as [|r0 G|r1 r2 s G1 G2 H IH]; intros I; [contradiction|destruct I as [<-|[]]; exact G|destruct I as [<-|I]; [exact G1|apply IH; exact I]]. Qed.
Lemma small_not_edge : forall s, nf s -> (forall z, elem z s -> INT_MIN <= z <= INT_MAX) -> ~ at_edge s.
Proof.
  intros s N B (a & b & I & E). destruct (nf_good s (a, b) N I) as [z (x & y & Dx & Dy & L1 & L2)]. cbn [fst snd] in *. destruct E as [->| ->].
  - assert (elem LLONG_MIN s) as H. { exists (ofZ LLONG_MIN), b. split; [exact I|]. exists x, y. repeat split; try assumption; change (denote (ofZ LLONG_MIN)) with (Some (Fin LLONG_MIN)) in Dx; inversion Dx; subst; [cbn; lia|]. destruct y; cbn in *; lia. }
    apply B in H. unfold INT_MIN, LLONG_MIN in H. lia.
  - assert (elem LLONG_MAX s) as H. { exists a, (ofZ LLONG_MAX). split; [exact I|]. exists x, y. repeat split; try assumption; change (denote (ofZ LLONG_MAX)) with (Some (Fin LLONG_MAX)) in Dy; inversion Dy; subst; [|cbn; lia]. destruct x; cbn in *; lia. }
    apply B in H. unfold INT_MAX, LLONG_MAX in H. lia.
Qed.
Definition small (p : Z * Z) : Prop := INT_MIN <= fst p <= INT_MAX /\ INT_MIN <= snd p <= INT_MAX.
Definition toks (p : Z * Z) : token * token := (TInt (fst p), TInt (snd p)).
Lemma denote_ofZ : forall z, fits64 z -> denote (ofZ z) = Some (Fin z) /\ wf (ofZ z).
Proof.
  intros z F. assert (denote (ofZ z) = Some (Fin z)) as D by (unfold denote, ofZ, fits64 in *; cbn [iv_inf iv_v]; destruct (_ && _) eqn:E; [reflexivity|lia]).
  split; [exact D|]. eexists. exact D.
Qed.
Lemma int_ranges_ok : forall l r, Forall small l -> nf r -> (forall z, elem z r -> INT_MIN <= z <= INT_MAX) ->
  exists S, int_ranges (map toks l) r = Ok S /\ nf S /\ forall z, elem z S <-> elem z r \/ exists a b, In (a, b) l /\ a <= z <= b.
Proof.
  induction l as [|[a b] l IH]; intros r F N B.
  - exists r. split; [reflexivity|]. split; [exact N|]. intros z. split; [auto|]. intros [H|(a & b & [] & _)]. exact H.
  - inversion F as [|? ? [Sa Sb] F']; subst. cbn [fst snd] in Sa, Sb. cbn [map toks int_ranges tok_int fst snd].
    assert (fits64 a /\ fits64 b) as [Fa Fb] by (unfold fits64, LLONG_MIN, LLONG_MAX, INT_MIN, INT_MAX in *; lia).
    destruct (denote_ofZ a Fa) as [Da Wa]. destruct (denote_ofZ b Fb) as [Db Wb].
    destruct (C05_interval_l (ofZ a) (ofZ b)) as [NI EI]; [exact Wa|exact Wb|rewrite Da; discriminate|rewrite Db; discriminate|].
    assert (forall z, elem z (set_interval (ofZ a) (ofZ b)) <-> a <= z <= b) as EI'.
    { intros z. rewrite EI. unfold between. rewrite Da, Db. split; [intros (x & y & Ex & Ey & L1 & L2); inversion Ex; inversion Ey; subst; cbn in *; lia|].
      intros H. exists (Fin a), (Fin b). repeat split; cbn; lia. }
    destruct (C06_union_l _ r NI N) as [(S & -> & NS & ES)|(_ & [E|E])].
    + cbn [bind]. destruct (IH S F' NS) as (S' & -> & NS' & ES').
      { intros z H. apply ES in H. destruct H as [H|H]; [apply EI' in H; lia|apply B; exact H]. }
      exists S'. split; [reflexivity|]. split; [exact NS'|]. intros z. rewrite ES', ES, EI'. cbn [In]. split.
      * intros [[H|H]|(c & d & I & H)]; [right; exists a, b; auto|left; exact H|right; exists c, d; auto].
      * intros [H|(c & d & [I|I] & H)]; [auto|inversion I; subst; auto|right; exists c, d; auto].
    + exfalso. apply (small_not_edge _ NI); [|exact E]. intros z H. apply EI' in H. lia.
    + exfalso. apply (small_not_edge _ N B E).
Qed.
Lemma set_item_small : forall a b s rest, set_item a b s rest -> small (a, b).
Proof.
  assert (forall v s rest, int_lit v s rest -> INT_MIN <= v <= INT_MAX) as H by (intros v s rest [? ? ? ? ? ? ? R ?]; exact R).
  intros a b s rest [v s' r I|a' b' s' s1 s2 s3 s4 r P1 I1 P2 I2 P3]; split; cbn [fst snd]; eauto.
Qed.
Lemma set_items_small : forall l s rest, set_items l s rest -> Forall small l.
Proof. intros l s rest H. induction H; constructor; eauto using set_item_small. Qed.
Lemma set_item_step : forall a b s rest ti fuel lt exprs ranges, set_item a b s rest -> lt = LColon \/ lt = LInt ->
  parseSet (S fuel) ti s lt exprs ranges = parseSet fuel ti rest LInt exprs (ranges ++ [toks (a, b)]).
Proof.
  intros a b s rest ti fuel lt exprs ranges I L. cbn [parseSet]. destruct I as [v s' r I|a' b' s' s1 s2 s3 s4 r P1 I1 P2 I2 P3].
  - rewrite (rt_int _ _ _ I). cbn [bind]. destruct L as [->| ->]; reflexivity.
  - rewrite (rt_91 _ _ P1). cbn [bind]. destruct L as [->| ->]; rewrite (rt_int _ _ _ I1); cbn [bind no_float]; rewrite (expect_44 _ _ P2); cbn [bind]; rewrite (rt_int _ _ _ I2); cbn [bind];
      rewrite (expect_93 _ _ P3); reflexivity.
Qed.
Lemma len_item : forall a b s rest, set_item a b s rest -> (length rest < length s)%nat.
Proof. intros a b s rest [v s' r I|a' b' s' s1 s2 s3 s4 r P1 I1 P2 I2 P3]; lens; lia. Qed.
Lemma len_items : forall l s rest, set_items l s rest -> (length rest < length s)%nat.
Proof. intros l s rest H. induction H; lens; match goal with H : set_item _ _ _ _ |- _ => apply len_item in H end; lia. Qed.
Lemma set_items_ok : forall l s rest, set_items l s rest -> forall ti fuel lt exprs ranges, lt = LColon \/ lt = LInt -> (length s < fuel)%nat ->
  parseSet fuel ti s lt exprs ranges = do s2 <- expectToken TObjClose rest; do r <- int_ranges (ranges ++ map toks l) []; Ok (JIntSet r, s2).
Proof.
  intros l s rest H. induction H as [a b s s1 rest I P|a b l s s1 s2 rest I P H IH]; intros ti fuel lt exprs ranges L F.
  - destruct fuel as [|fuel]; [lia|]. rewrite (set_item_step a b s s1) by assumption. apply len_item in I. destruct fuel as [|fuel]; [lia|]. cbn [parseSet]. rewrite (rt_93 _ _ P). reflexivity.
  - destruct fuel as [|fuel]; [lia|]. rewrite (set_item_step a b s s1) by assumption. apply len_item in I. destruct fuel as [|fuel]; [lia|]. cbn [parseSet]. rewrite (rt_44 _ _ P). cbn [bind].
    apply len_punct in P. rewrite IH by (auto; lia). cbn [map]. rewrite <- app_assoc. reflexivity.
Qed.

(** ** Values *)
Scheme writes_m := Minimality for writes Sort Prop
with writes_list_m := Minimality for writes_list Sort Prop
with writes_more_m := Minimality for writes_more Sort Prop
with writes_fields_m := Minimality for writes_fields Sort Prop.
Combined Scheme writes_ind4 from writes_m, writes_list_m, writes_more_m, writes_fields_m.
Lemma len_writes :
  (forall r v s rest, writes r v s rest -> (length rest < length s)%nat) /\ (forall r l s rest, writes_list r l s rest -> (length rest < length s)%nat) /\
  (forall r l s rest, writes_more r l s rest -> (length rest < length s)%nat) /\ (forall r l s rest, writes_fields r l s rest -> (length rest < length s)%nat).
Proof.
  apply writes_ind4; intros; lens; try lia.
  - rewrite !app_length. cbn [length]. assert (t <> []) as N by (destruct H0 as [sg i f x _ [N _]|sg i x _ [N _] _]; destruct sg, i; congruence || discriminate). destruct t; [congruence|cbn [length]; lia].
  - rewrite !app_length. cbn [length]. lia.
  - rewrite !app_length. cbn [length]. lia.
  - rewrite !app_length. cbn [length]. lia.
  - apply (proj2 len_enum) in H1. lia.
  - apply len_items in H2. lia.
Qed.
Definition len_w := proj1 len_writes.
Definition len_l := proj1 (proj2 len_writes).
Definition len_m := proj1 (proj2 (proj2 len_writes)).

(** an element of an array, or a value when range_index is 0 *)
Definition parseElem (fuel : nat) (ti : option tinfo) (ri : nat) (s : str) : res (jval * str) :=
  do ' (next, s1) <- readToken s;
  match next with
  | TListOpen => parseArray fuel ti (match ti with None => O | Some _ => ri end) s1 []
  | TInt i => Ok (JInt i, s1)
  | TFloat d => Ok (JFloat d, s1)
  | TString k => Ok (string_value ti k, s1)
  | TBool b => Ok (JBool b, s1)
  | TNull => Ok (JAbsent, s1)
  | TObjOpen => parseObject fuel ti s1 []
  | _ => Err SyntaxError
  end.
Definition continues (s : str) : Prop := match readToken s with Ok (TComma, _) | Ok (TListClose, _) => False | _ => True end.
Lemma array_step : forall fuel ti ri s exps, continues s -> parseArray (S fuel) ti ri s exps =
  do ' (v, s1) <- parseElem fuel ti (S ri) s; parseArray fuel ti ri s1 (exps ++ [v]).
Proof.
  intros fuel ti ri s exps C. cbn [parseArray]. unfold parseElem. unfold continues in C. destruct (readToken s) as [[t s1]| |]; [|reflexivity|reflexivity]. cbn [bind].
  destruct t; cbn [bind]; try reflexivity; contradiction.
Qed.
Definition is_enum (ti : option tinfo) : bool := match ti with Some t => ti_enum t | None => false end.
Lemma exp_step : forall fuel ti s, is_enum ti = false -> parseExp (S fuel) ti s = parseElem fuel ti O s.
Proof.
  intros fuel ti s E. cbn [parseExp]. unfold parseElem. destruct (readToken s) as [[t s1]| |]; [|reflexivity|reflexivity]. cbn [bind].
  destruct t; try reflexivity. fold (is_enum ti). rewrite E. destruct ti; reflexivity.
Qed.
Definition matches (r : reading) (ti : option tinfo) (ri : nat) : Prop :=
  match ti with
  | None => r = raw
  | Some t => ti_enum t = false /\ r = mkR (ti_unknown t) (if ti_set t then Some (ti_ranges t - ri)%nat else None) (ti_int t || ti_unknown t)
  end.
Lemma matches_inner : forall r ti ri, matches r ti ri -> matches (inner r) ti (S ri).
Proof.
  intros r [t|] ri M; [|rewrite M; reflexivity]. destruct M as [E ->]. split; [exact E|]. unfold inner. cbn [r_ids r_lev r_ctor]. f_equal.
  destruct (ti_set t); [|reflexivity]. f_equal. lia.
Qed.
Lemma matches_string : forall r ti ri v, matches r ti ri -> string_value ti v = if r_ids r then JId v else JStr v.
Proof. intros r [t|] ri v M; [|rewrite M; reflexivity]. destruct M as [E ->]. cbn [string_value r_ids]. rewrite E. destruct (ti_unknown t); reflexivity. Qed.
Lemma matches_array : forall r ti ri l, matches r ti ri -> (0 < ri)%nat \/ match ti with Some t => ti_ranges t = O | None => True end ->
  array_value ti (match ti with None => O | Some _ => ri end) l = Ok (list_value r l).
Proof.
  intros r [t|] ri l M Z; [|rewrite M; reflexivity]. destruct M as [E ->]. unfold array_value, list_value. cbn [r_lev]. destruct (ti_set t).
  - rewrite andb_true_r. destruct (Nat.leb (ti_ranges t) ri) eqn:L.
    + apply Nat.leb_le in L. replace (ti_ranges t - ri)%nat with O by lia. reflexivity.
    + apply Nat.leb_gt in L. destruct (ti_ranges t - ri)%nat eqn:D; [lia|]. destruct Z as [Z|Z]; [|lia]. assert (Nat.eqb ri 0 = false) as -> by (apply Nat.eqb_neq; lia).
      rewrite andb_false_r. reflexivity.
  - rewrite andb_false_r. destruct Z as [Z|Z]; [assert (Nat.eqb ri 0 = false) as -> by (apply Nat.eqb_neq; lia); rewrite andb_false_r; reflexivity|]. rewrite Z. reflexivity.
Qed.
(** the condition under which a list is not turned into an array with index sets *)
Definition plainly (ti : option tinfo) (ri : nat) : Prop := (0 < ri)%nat \/ match ti with Some t => ti_ranges t = O | None => True end.

Lemma writes_ok :
  (forall r v s rest, writes r v s rest -> continues s /\ forall ti ri fuel, matches r ti ri -> plainly ti ri \/ (forall l, v <> list_value r l) -> (length s <= fuel)%nat ->
     parseElem fuel ti ri s = Ok (v, rest)) /\
  (forall r l s rest, writes_list r l s rest -> forall ti ri fuel, matches r ti (S ri) -> (length s < fuel)%nat ->
     parseArray fuel ti (match ti with None => O | Some _ => ri end) s [] = do v <- array_value ti (match ti with None => O | Some _ => ri end) l; Ok (v, rest)) /\
  (forall r l s rest, writes_more r l s rest -> forall ti ri fuel exps, matches r ti (S ri) -> (length s < fuel)%nat ->
     parseArray fuel ti ri s exps = do v <- array_value ti ri (exps ++ l); Ok (v, rest)) /\
  (forall r l s rest, writes_fields r l s rest -> forall ti ri fuel fields, matches r ti ri -> (length s < fuel)%nat ->
     parseObject fuel ti s fields = Ok (JRec (fields ++ l), rest)).
Proof.
  apply writes_ind4.
  - intros r v s rest I. split; [unfold continues; rewrite (rt_int _ _ _ I); exact Logic.I|]. intros. unfold parseElem. rewrite (rt_int _ _ _ I). reflexivity.
  - intros r b t c rest B T E. split; [unfold continues; rewrite C66_read by assumption; exact Logic.I|]. intros. unfold parseElem. rewrite C66_read by assumption. reflexivity.
  - intros r v s rest Q. split; [unfold continues; rewrite (rt_quoted _ _ _ Q); exact Logic.I|]. intros ti ri fuel M _ _. unfold parseElem. rewrite (rt_quoted _ _ _ Q). cbn [bind].
    rewrite (matches_string r ti ri v M). reflexivity.
  - intros r b rest B. split; [unfold continues|intros; unfold parseElem]; rewrite readToken_blanks by exact B; [exact Logic.I|reflexivity].
  - intros r b rest B. split; [unfold continues|intros; unfold parseElem]; rewrite readToken_blanks by exact B; [exact Logic.I|reflexivity].
  - intros r b rest B. split; [unfold continues|intros; unfold parseElem]; rewrite readToken_blanks by exact B; [exact Logic.I|reflexivity].
  - intros r l s s1 rest P W IH. split; [unfold continues; rewrite (rt_91 _ _ P); exact Logic.I|]. intros ti ri fuel M PL F. unfold parseElem. rewrite (rt_91 _ _ P). cbn [bind].
    apply len_punct in P. rewrite IH; [|apply matches_inner; exact M|lia]. destruct PL as [PL|PL]; [|exfalso; eapply PL; reflexivity].
    rewrite (matches_array r ti ri l M PL). reflexivity.
  - intros r l s s1 rest P W IH. split; [unfold continues; rewrite (rt_123 _ _ P); exact Logic.I|]. intros ti ri fuel M _ F. unfold parseElem. rewrite (rt_123 _ _ P). cbn [bind].
    apply len_punct in P. apply (IH ti ri fuel [] M). lia.
  - intros r v s s1 rest C P E. split; [unfold continues; rewrite (rt_123 _ _ P); exact Logic.I|]. intros ti ri fuel M _ F. unfold parseElem. rewrite (rt_123 _ _ P). cbn [bind].
    destruct (proj2 enum_ok _ _ _ E) as (_ & k & s2 & K & KK & R). assert (length s1 < length s)%nat by (lens; lia). destruct fuel as [|fuel]; [lia|]. cbn [parseObject].
    destruct (keyed_run _ _ _ K) as (s3 & E1 & E2). rewrite E1. cbn [bind]. rewrite E2. cbn [bind]. assert (seq k k_set = false) as -> by (destruct KK as [->| ->]; reflexivity).
    destruct ti as [t|]; [|rewrite M in C; discriminate]. destruct M as [En ->]. cbn [r_ctor] in C. rewrite En. cbn [orb]. rewrite C.
    assert (seq k k_e || seq k k_i || seq k k_c = true) as -> by (destruct KK as [->| ->]; reflexivity). cbn [andb]. apply R. lia.
  - intros r l S s s1 s2 s3 s4 rest P1 K P2 I P3 NS ES. split; [unfold continues; rewrite (rt_123 _ _ P1); exact Logic.I|]. intros ti ri fuel M _ F. unfold parseElem. rewrite (rt_123 _ _ P1). cbn [bind].
    assert (length s1 < length s)%nat by (lens; lia). destruct fuel as [|fuel]; [lia|]. cbn [parseObject].
    destruct (keyed_run _ _ _ K) as (s5 & E1 & E2). rewrite E1. cbn [bind]. rewrite E2. cbn [bind]. change (seq [115; 101; 116] k_set) with true. cbn [bind].
    rewrite (expect_91 _ _ P2). cbn [bind]. rewrite (set_items_ok _ _ _ I) by (auto; lia). rewrite (expect_125 _ _ P3). cbn [bind app].
    destruct (int_ranges_ok l [] (set_items_small _ _ _ I) nf_nil) as (S' & -> & NS' & ES'); [intros z (a & b & [] & _)|]. cbn [bind]. do 3 f_equal.
    apply C05_unique_l; [exact NS'|exact NS|]. intros z. rewrite ES', ES. split; [intros [(a & b & [] & _)|H']; exact H'|auto].
  - intros r s rest P ti ri fuel M F. destruct fuel as [|fuel]; [lia|]. cbn [parseArray]. rewrite (rt_93 _ _ P). reflexivity.
  - intros r v l s s1 rest W [C IH] WM IHm ti ri fuel M F. destruct fuel as [|fuel]; [lia|]. rewrite array_step by exact C. apply len_w in W.
    assert (parseElem fuel ti (S (match ti with None => O | Some _ => ri end)) s = Ok (v, s1)) as ->.
    { apply IH; [destruct ti; exact M|left; left; lia|lia]. }
    cbn [bind]. rewrite (IHm ti _ fuel [v]); [reflexivity|destruct ti; exact M|lia].
  - intros r s rest P ti ri fuel exps M F. destruct fuel as [|fuel]; [lia|]. cbn [parseArray]. rewrite (rt_93 _ _ P). cbn [bind]. rewrite app_nil_r. reflexivity.
  - intros r v l s s1 s2 rest P W [C IH] WM IHm ti ri fuel exps M F. destruct fuel as [|fuel]; [lia|]. cbn [parseArray]. rewrite (rt_44 _ _ P). cbn [bind]. apply len_punct in P.
    destruct fuel as [|fuel]; [lia|]. rewrite array_step by exact C. apply len_w in W. rewrite (IH ti (S ri) fuel M) by (try (left; left); lia). cbn [bind].
    rewrite (IHm ti ri fuel (exps ++ [v]) M) by lia. rewrite <- app_assoc. reflexivity.
  - intros r k v s s1 s2 rest FK K W [_ IH] P ti ri fuel fields M F. destruct fuel as [|fuel]; [lia|]. cbn [parseObject].
    destruct (keyed_run _ _ _ K) as (s5 & E1 & E2). rewrite E1. cbn [bind]. rewrite E2. cbn [bind]. inversion FK as [r' k' N1 N2]; subst. rewrite (seq_ne k k_set N1).
    assert (match ti with Some t => (ti_enum t || ti_int t || ti_unknown t) && (seq k k_e || seq k k_i || seq k k_c) | None => false end = false) as ->.
    { destruct ti as [t|]; [|reflexivity]. destruct M as [En ->]. cbn [r_ctor] in N2. rewrite En. cbn [orb]. destruct (ti_int t || ti_unknown t); [|reflexivity].
      destruct N2 as (A & B & D); [reflexivity|]. rewrite (seq_ne k k_e A), (seq_ne k k_c B), (seq_ne k k_i D). reflexivity. }
    assert (length s1 < length s)%nat by (lens; lia). destruct fuel as [|fuel]; [lia|]. rewrite exp_step by reflexivity. rewrite (IH None O fuel); [|reflexivity|left; right; exact I|lia]. cbn [bind].
    rewrite (rt_125 _ _ P). reflexivity.
  - intros r k v l s s1 s2 s3 rest FK K W [_ IH] P WF IHf ti ri fuel fields M F. destruct fuel as [|fuel]; [lia|]. cbn [parseObject].
    destruct (keyed_run _ _ _ K) as (s5 & E1 & E2). rewrite E1. cbn [bind]. rewrite E2. cbn [bind]. inversion FK as [r' k' N1 N2]; subst. rewrite (seq_ne k k_set N1).
    assert (match ti with Some t => (ti_enum t || ti_int t || ti_unknown t) && (seq k k_e || seq k k_i || seq k k_c) | None => false end = false) as ->.
    { destruct ti as [t|]; [|reflexivity]. destruct M as [En ->]. cbn [r_ctor] in N2. rewrite En. cbn [orb]. destruct (ti_int t || ti_unknown t); [|reflexivity].
      destruct N2 as (A & B & D); [reflexivity|]. rewrite (seq_ne k k_e A), (seq_ne k k_c B), (seq_ne k k_i D). reflexivity. }
    assert (length s1 < length s)%nat by (lens; lia). destruct fuel as [|fuel]; [lia|].
    assert (parseExp (S fuel) None s1 = Ok (v, s2)) as -> by (rewrite exp_step by reflexivity; apply IH; [reflexivity|left; right; exact I|lia]). cbn [bind].
    rewrite (rt_44 _ _ P). cbn [bind]. rewrite (IHf ti ri); [rewrite <- app_assoc; reflexivity|exact M|]. apply len_w in W. lens. lia.
Qed.
