(** Printed expressions are read back (C36), integers too (C39). *)
Require Import ZArith List Bool String Lia ZifyBool.
From Verif Require Import Base IntValModel IntValSpec IntValProofs StrModel TypeModel LexModel LexSpec LexProofs LexProofs2 LexProofs3 LexProofs4 LexProofs5 ParseModel ParseSpec ParseProofs ParseProofs2.
Import ListNotations.
Open Scope Z_scope.

Opaque rules best settled chew chews ends.

(** ** Leaves *)
Lemma dec_fuel_decimal : forall f n, 0 <= n < 2 ^ Z.of_nat (S f) -> decimal (dec_fuel (S f) n) n.
Proof.
  induction f as [|f IH]; intros n H.
  - change (2 ^ Z.of_nat 1) with 2 in H. cbn [dec_fuel]. destruct (n <? 10) eqn:E; [|lia]. assert (D : decimal [48 + n] ((48 + n) - 48)) by (apply D_one; lia). replace (48 + n - 48) with n in D by lia. exact D.
  - remember (S f) as g. cbn [dec_fuel]. destruct (n <? 10) eqn:E.
    + assert (D : decimal [48 + n] ((48 + n) - 48)) by (apply D_one; lia). replace (48 + n - 48) with n in D by lia. exact D.
    + subst g. pose proof (Z.div_mod n 10 ltac:(lia)) as D. pose proof (Z.mod_pos_bound n 10 ltac:(lia)) as M.
      assert (X : decimal (dec_fuel (S f) (n / 10) ++ [48 + n mod 10]) (10 * (n / 10) + ((48 + n mod 10) - 48))).
      { apply D_more; [|lia]. apply IH. rewrite (Nat2Z.inj_succ (S f)), Z.pow_succ_r in H by lia. lia. }
      replace (10 * (n / 10) + (48 + n mod 10 - 48)) with n in X by lia. exact X.
Qed.
Lemma dec_decimal n : 0 <= n -> decimal (dec n) n.
Proof.
  intros H. unfold dec. apply dec_fuel_decimal. split; [exact H|]. rewrite Nat2Z.inj_succ, Z2Nat.id by apply Z.log2_nonneg. destruct (Z.eq_dec n 0) as [->|N]; [cbn; lia|]. apply Z.log2_spec. lia.
Qed.
Lemma digits_begins ds v : decimal ds v -> begins ds.
Proof.
  intros H. destruct (decimal_digits _ _ H) as (N & F & _). destruct ds as [|c ds]; [congruence|]. inversion F; subst. exists c, ds. split; [reflexivity|].
  split; [|lia]. unfold startb. apply orb_true_iff. left. apply idcharb_ok. unfold is_idchar. lia.
Qed.
Lemma lexes_abs st buf n rest tk : normal st -> 0 <= n <= LLONG_MAX + 1 -> follow rest -> lexes false st buf rest tk -> lexes false st buf (dec n ++ rest) (abs_tok n :: tk).
Proof.
  intros Hst Hn Hr Hl. assert (abs_tok n = int_token (dec n) n) as ->.
  { unfold abs_tok, int_token. destruct (n <=? LLONG_MAX) eqn:E; [reflexivity|]. assert (n = LLONG_MAX + 1) as -> by lia. reflexivity. }
  apply lexes_int; [exact Hst|apply dec_decimal; lia|apply follow_ends; exact Hr|exact Hl].
Qed.
Lemma begins_inf : begins (txt "infinity").
Proof. eexists 105, _. split; [reflexivity|]. split; [reflexivity|discriminate]. Qed.
Lemma begins_cons c r : startb c = true -> c <> 45 -> begins (c :: r).
Proof. intros H N. exists c, r. split; [reflexivity|]. split; [exact H|]. intros E. contradiction. Qed.
Lemma begins_minus r : begins r -> begins (45 :: r).
Proof. intros (c & x & -> & H & _). exists 45, (c :: x). split; [reflexivity|]. split; [reflexivity|]. intros _. eauto. Qed.
Lemma is_bytes_txt s : is_bytes (txt s).
Proof. induction s as [|a s IH]; cbn [txt]; [constructor|]. constructor; [|exact IH]. pose proof (Ascii.N_ascii_bounded a). lia. Qed.
Lemma is_bytes_dec n : 0 <= n -> is_bytes (dec n).
Proof. intros H. apply is_bytes_digits. apply (decimal_digits _ _ (dec_decimal n H)). Qed.
Lemma is_bytes_cons c r : 0 <= c < 256 -> is_bytes r -> is_bytes (c :: r).
Proof. intros. constructor; assumption. Qed.

Lemma int_text_facts v : int_ok v -> begins (int_text v) /\ is_bytes (int_text v) /\
  (forall st buf rest tk, normal st -> follow rest -> lexes false st buf rest tk -> lexes false st buf (int_text v ++ rest) (int_toks v ++ tk)).
Proof.
  intros H. destruct before_all as (_ & Hm & _). destruct after_all as (_ & _ & Hi & _).
  assert (M : forall t st buf rest tk l, normal st -> begins t -> lexes false st buf (t ++ rest) (l ++ tk) -> lexes false st buf ((45 :: t) ++ rest) ((TSym "MZN_MINUS" :: l) ++ tk)).
  { intros t st buf rest tk l Hst Hb Hl. apply (before_ok (txt "-") (TSym "MZN_MINUS") st buf (t ++ rest) (l ++ tk) Hm Hst); [apply begins_app; exact Hb|exact Hl]. }
  assert (D : forall n, 0 <= n <= LLONG_MAX + 1 -> begins (dec n) /\ is_bytes (dec n)) by (intros n Hn; split; [eapply digits_begins; apply dec_decimal; lia|apply is_bytes_dec; lia]).
  unfold int_text, int_toks. destruct (int_cases v H) as [(n & -> & Hn)|[(n & -> & Hn)|[->|[->| ->]]]].
  - unfold isMinusInfinity, isPlusInfinity, ofZ. cbn [iv_inf iv_v andb]. destruct (n <? 0) eqn:E; [lia|]. destruct (D n ltac:(lia)) as [D1 D2]. split; [exact D1|]. split; [exact D2|].
    intros st buf rest tk Hst Hr Hl. assert (TInt n = abs_tok n) as -> by (unfold abs_tok; destruct (n <=? LLONG_MAX) eqn:E2; [reflexivity|lia]). apply lexes_abs; try assumption. lia.
  - unfold isMinusInfinity, isPlusInfinity, ofZ. cbn [iv_inf iv_v andb]. destruct (- n <? 0) eqn:E; [|lia]. rewrite Z.opp_involutive. destruct (D n ltac:(lia)) as [D1 D2].
    split; [apply begins_minus; exact D1|]. split; [apply is_bytes_cons; [lia|exact D2]|]. intros st buf rest tk Hst Hr Hl. apply M; [exact Hst|exact D1|]. apply lexes_abs; try assumption. lia.
  - change (isMinusInfinity (ofZ LLONG_MIN)) with false. change (isPlusInfinity (ofZ LLONG_MIN)) with false. change (iv_v (ofZ LLONG_MIN) <? 0) with true. change (- iv_v (ofZ LLONG_MIN)) with (LLONG_MAX + 1). cbv iota.
    destruct (D (LLONG_MAX + 1) ltac:(unfold LLONG_MAX; lia)) as [D1 D2].
    split; [apply begins_minus; exact D1|]. split; [apply is_bytes_cons; [lia|exact D2]|]. intros st buf rest tk Hst Hr Hl. apply M; [exact Hst|exact D1|]. apply lexes_abs; try assumption. unfold LLONG_MAX. lia.
  - cbn [isMinusInfinity isPlusInfinity iv_infinity iv_inf iv_v andb Z.eqb]. split; [apply begins_inf|]. split; [apply is_bytes_txt|]. intros st buf rest tk Hst Hr Hl. apply (after_ok _ _ st buf rest tk Hi Hst Hr Hl).
  - cbn [isMinusInfinity isPlusInfinity iv_inf iv_v andb Z.eqb]. split; [apply (begins_minus (txt "infinity")); apply begins_inf|]. split; [apply is_bytes_txt|]. intros st buf rest tk Hst Hr Hl.
    apply (M (txt "infinity") st buf rest tk [TSym "MZN_INFINITY"] Hst begins_inf). apply (after_ok _ _ st buf rest tk Hi Hst Hr Hl).
Qed.

Lemma name_named s : name_ok s -> named s /\ ~ In s misread.
Proof. intros (Ha & H1 & H2 & H3). split; [apply admitted_named; exact Ha|]. intros [X|[X|[X|[]]]]; congruence. Qed.
Lemma quoteId_begins s : named s -> begins (quoteId s).
Proof.
  intros Hn. destruct (named_facts s Hn) as (Hb & [Hne Hq] & _). destruct s as [|c s]; [congruence|]. inversion Hq as [|? ? Hc _]; subst. inversion Hb as [|? ? Hcb _]; subst.
  assert (Q : begins (39 :: cstr (c :: s) ++ [39])) by (apply begins_cons; [reflexivity|lia]).
  unfold quoteId. cbn [nth]. destruct (c =? 39) eqn:E; [lia|]. destruct (existsb _ _ || negb _) eqn:Eb; [exact Q|]. destruct (forallb _ _); [|exact Q].
  apply orb_false_iff in Eb as [_ Eb]. apply negb_false_iff in Eb. cbn [cstr]. destruct (c =? 0) eqn:E0; [lia|]. destruct (c =? 95) eqn:E95.
  - apply Z.eqb_eq in E95. subst c. apply begins_cons; [reflexivity|lia].
  - cbn [nth] in Eb. destruct (strchr_begin c Hcb Eb) as [X|X]; [|lia]. apply begins_cons; [unfold startb; rewrite (letterb_id _ X); reflexivity|]. unfold letterb, in_ranges in X. cbn [existsb fst snd] in X. lia.
Qed.

(** ** What the induction carries *)
Definition scans (e : ex) : Prop := forall st buf rest tk, normal st -> follow rest -> lexes false st buf rest tk -> lexes false st buf (print e ++ rest) (toks e ++ tk).
Definition nice (e : ex) : Prop := begins (print e) /\ is_bytes (print e) /\ scans e.
Lemma follow_op o r : follow (op_text o ++ r).
Proof. destruct o; cbn [op_text txt app follow followers In]; try (left; cbn; tauto). right. exists r. split; reflexivity. Qed.
Lemma begins_paren b e : nice e -> begins (paren b (print e)).
Proof. intros (H & _). destruct b; [apply begins_cons; [reflexivity|lia]|exact H]. Qed.
Lemma bytes_paren b e : nice e -> is_bytes (paren b (print e)).
Proof. intros (_ & H & _). destruct b; [|exact H]. cbn [paren]. apply is_bytes_cons; [lia|]. apply is_bytes_app; [exact H|repeat constructor; lia]. Qed.
Lemma follow_close r : follow (41 :: r).
Proof. left. cbn. tauto. Qed.
Lemma scans_paren e st buf rest tk : nice e -> normal st -> lexes false st buf rest tk -> lexes false st buf (paren true (print e) ++ rest) (tparen true (toks e) ++ tk).
Proof.
  intros (_ & _ & H) Hst Hl. cbn [paren tparen app]. apply lexes_open; [exact Hst|]. rewrite <- !app_assoc. cbn [app]. apply H; [constructor; exact Hst|apply follow_close|]. apply lexes_close; assumption.
Qed.
Lemma scans_operand b e st buf rest tk : nice e -> normal st -> follow rest -> lexes false st buf rest tk -> lexes false st buf (paren b (print e) ++ rest) (tparen b (toks e) ++ tk).
Proof. intros H Hst Hr Hl. destruct b; [apply scans_paren; assumption|]. destruct H as (_ & _ & H). apply H; assumption. Qed.

Lemma nice_int v : int_ok v -> nice (EInt v).
Proof. apply int_text_facts. Qed.
Lemma nice_set l u : int_ok l -> int_ok u -> iv_lt u l = false -> nice (ESet l u).
Proof.
  intros Hl Hu E. destruct (int_text_facts l Hl) as (L1 & L2 & L3). destruct (int_text_facts u Hu) as (U1 & U2 & U3). unfold nice, scans. cbn [print toks]. rewrite E.
  split; [apply begins_app; exact L1|]. split; [apply is_bytes_app; [exact L2|apply is_bytes_app; [apply is_bytes_txt|exact U2]]|].
  intros st buf rest tk Hst Hr H. rewrite <- !app_assoc. cbn [app]. apply L3; [exact Hst|apply (follow_op ODotdot)|].
  apply (lexes_op ODotdot); [exact Hst|apply begins_app; exact U1|discriminate|discriminate|]. apply U3; assumption.
Qed.
Lemma nice_str s : str_ok s -> nice (EStr s).
Proof.
  intros (Hb & H0 & H13). split; [apply begins_cons; [reflexivity|lia]|]. split; [cbn [print]; apply is_bytes_cons; [lia|]; apply is_bytes_app; [apply is_bytes_escape; exact Hb|repeat constructor; lia]|].
  intros st buf rest tk Hst Hr Hl. cbn [print toks app]. rewrite <- app_assoc. cbn [app]. apply lexes_string; try assumption. eapply lexes_buf; [exact Hst|exact Hl].
Qed.
Lemma nice_id s : name_ok s -> nice (EId s).
Proof.
  intros H. destruct (name_named s H) as [Hn Hm]. split; [apply quoteId_begins; exact Hn|]. split; [apply is_bytes_quoteId; apply (named_facts s Hn)|].
  intros st buf rest tk Hst Hr Hl. apply lexes_ident; try assumption. apply follow_breaks. exact Hr.
Qed.
Lemma nice_bool b : nice (EBool b).
Proof.
  destruct after_all as (Ht & Hf & _). split; [destruct b; (apply begins_cons; [reflexivity|vm_compute; discriminate])|]. split; [destruct b; apply is_bytes_txt|].
  intros st buf rest tk Hst Hr Hl. destruct b; [exact (after_ok _ _ st buf rest tk Ht Hst Hr Hl)|exact (after_ok _ _ st buf rest tk Hf Hst Hr Hl)].
Qed.
Lemma firstn_begins (k : nat) t r : begins t -> (k = 1%nat \/ (k = 2%nat /\ hd 0 t = 45)) -> firstn k (t ++ r) = firstn k t.
Proof.
  intros (c & x & -> & _ & D) [-> | [-> E]]; [reflexivity|]. cbn [hd] in E. destruct (D E) as (d & y & -> & _). reflexivity.
Qed.
Lemma nice_bin o a b : nice a -> nice b -> inverse o b = false -> no_clash o b -> nice (EBin o a b).
Proof.
  intros Ha Hb Hi [H1 H2]. unfold nice, scans. cbn [print toks]. rewrite Hi. split; [apply begins_app; apply begins_paren; exact Ha|].
  split; [apply is_bytes_app; [apply bytes_paren; exact Ha|apply is_bytes_app; [apply is_bytes_txt|apply bytes_paren; exact Hb]]|].
  intros st buf rest tk Hst Hr Hl. rewrite <- !app_assoc. cbn [app]. apply scans_operand; [exact Ha|exact Hst|apply follow_op|].
  pose proof (begins_paren (paren_right o b) b Hb) as Hbeg. apply lexes_op; [exact Hst|apply begins_app; exact Hbeg| | |apply scans_operand; assumption].
  - intros E. rewrite firstn_begins; [apply H1; exact E|exact Hbeg|tauto].
  - intros E. specialize (H2 E). destruct (Z.eq_dec (hd 0 (paren (paren_right o b) (print b))) 45) as [X|X]; [rewrite firstn_begins; [exact H2|exact Hbeg|tauto]|].
    destruct Hbeg as (c & x & E2 & _). rewrite E2 in *. cbn [hd] in X. cbn [app firstn txt]. intros Y. injection Y as Y _. contradiction.
Qed.
Lemma nice_inv a : nice a -> nice (EBin OPow a (EInt iv_minus1)).
Proof.
  intros Ha. destruct after_all as (_ & _ & _ & _ & _ & Hp). split; [apply begins_app; apply begins_paren; exact Ha|]. split; [apply is_bytes_app; [apply bytes_paren; exact Ha|apply (is_bytes_txt "^-1")]|].
  intros st buf rest tk Hst Hr Hl. cbn [print toks].
  change (op_text OPow ++ paren (paren_right OPow (EInt iv_minus1)) (int_text iv_minus1)) with (txt "^-1"). change (inverse OPow (EInt iv_minus1)) with true. cbv iota.
  rewrite <- !app_assoc. cbn [app]. apply scans_operand; [exact Ha|exact Hst|left; cbn; tauto|]. exact (after_ok _ _ st buf rest tk Hp Hst Hr Hl).
Qed.
(** only a unary plus makes a text start with + *)
Lemma no_plus e : readable e -> paren_un e = false -> firstn 1 (print e) <> txt "+".
Proof.
  intros H Hp. assert (C : forall c r, c <> 43 -> firstn 1 (c :: r) <> txt "+") by (intros c r N X; injection X as X; contradiction).
  assert (B : forall t r, begins t -> firstn 1 t <> txt "+" -> firstn 1 (t ++ r) <> txt "+") by (intros t r Hb N; rewrite firstn_begins by tauto; exact N).
  assert (I : forall v, int_ok v -> firstn 1 (int_text v) <> txt "+").
  { intros v Hv. unfold int_text. destruct (isMinusInfinity v); [apply C; first [lia | vm_compute; discriminate]|]. destruct (isPlusInfinity v); [apply C; first [lia | vm_compute; discriminate]|]. destruct (iv_v v <? 0) eqn:E; [apply C; first [lia | vm_compute; discriminate]|].
    assert (D : decimal (dec (iv_v v)) (iv_v v)) by (apply dec_decimal; lia). destruct (decimal_digits _ _ D) as (N & F & _). destruct (dec (iv_v v)) as [|c r]; [congruence|]. inversion F; subst. apply C. lia. }
  assert (Nm : forall s, name_ok s -> firstn 1 (quoteId s) <> txt "+").
  { intros s Hs. destruct (name_named s Hs) as [Hn _]. destruct (named_facts s Hn) as (Hb & [Hne Hq] & _). destruct s as [|c s]; [congruence|]. inversion Hb as [|? ? Hcb _]; subst.
    assert (Q : firstn 1 (39 :: cstr (c :: s) ++ [39]) <> txt "+") by (apply C; first [lia | vm_compute; discriminate]). unfold quoteId. cbn [nth]. destruct (c =? 39) eqn:E; [apply Z.eqb_eq in E; subst c; apply C; first [lia | vm_compute; discriminate]|].
    destruct (existsb _ _ || negb _) eqn:Eb; [exact Q|]. destruct (forallb _ _); [|exact Q]. apply orb_false_iff in Eb as [_ Eb]. apply negb_false_iff in Eb. cbn [cstr]. destruct (c =? 0) eqn:E0; [discriminate|]. apply C. intros ->.
    vm_compute in Eb. discriminate. }
  assert (Call : forall f args, name_ok f -> firstn 1 (print (ECall f args)) <> txt "+").
  { intros f args Hf. destruct (name_named f Hf) as [Hn _]. pose proof (quoteId_begins f Hn) as Hb. destruct args as [|x [|y [|z l]]]; cbn [print]; try (apply B; [exact Hb|apply Nm; exact Hf]).
    destruct (str_eqb f k_default); [apply C; first [lia | vm_compute; discriminate]|apply B; [exact Hb|apply Nm; exact Hf]]. }
  inversion H; subst; try discriminate Hp.
  - apply I; assumption.
  - destruct b; (apply C; first [lia | vm_compute; discriminate]).
  - apply C; first [lia | vm_compute; discriminate].
  - apply Nm; assumption.
  - cbn [print]. destruct (iv_lt u l); [apply C; first [lia | vm_compute; discriminate]|]. apply B; [apply int_text_facts; assumption|apply I; assumption].
  - apply Call; assumption.
  - apply C; first [lia | vm_compute; discriminate].
  - cbn [print]. destruct (paren_acc a) eqn:E; [apply C; first [lia | vm_compute; discriminate]|]. cbn [paren]. destruct a; try discriminate.
    + inversion H0; subst. apply B; [apply quoteId_begins; apply name_named; assumption|apply Nm; assumption].
    + inversion H0; subst. assert (Bg : begins (print (ECall f args))). { cbn [print]. assert (Bq : begins (quoteId f)) by (apply quoteId_begins; apply name_named; assumption).
        destruct args as [|x [|y [|z l]]]; try (apply begins_app; exact Bq). destruct (str_eqb f k_default); [apply begins_cons; [reflexivity|vm_compute; discriminate]|apply begins_app; exact Bq]. }
      apply B; [exact Bg|apply Call; assumption].
  - apply C; first [lia | vm_compute; discriminate].
Qed.
Lemma nice_un o a : nice a -> readable a -> nice (EUn o a).
Proof.
  intros Ha Hread. pose proof (begins_paren (paren_un a) a Ha) as Hb. destruct before_all as (Hnot & Hminus & _). split; [|split].
  - cbn [print]. destruct o; cbn [un_text txt app]; [apply begins_cons; [reflexivity|vm_compute; discriminate]|apply begins_cons; [reflexivity|vm_compute; discriminate]|apply (begins_minus (paren _ _)); exact Hb].
  - cbn [print]. apply is_bytes_app; [apply is_bytes_txt|apply bytes_paren; exact Ha].
  - intros st buf rest tk Hst Hr Hl. cbn [print toks]. rewrite <- app_assoc. cbn [app]. pose proof (scans_operand (paren_un a) a st buf rest tk Ha Hst Hr Hl) as Hs. pose proof (begins_app _ rest Hb) as Hb'. destruct o; cbn [un_text un_sym].
    + exact (before_ok _ _ st buf _ _ Hnot Hst Hb' Hs).
    + assert (N : firstn 1 (paren (paren_un a) (print a) ++ rest) <> txt "+").
      { rewrite firstn_begins by tauto. destruct (paren_un a) eqn:E; [discriminate|]. apply no_plus; assumption. }
      exact (lexes_op OPlus st buf _ _ Hst Hb' (fun _ => N) ltac:(discriminate) Hs).
    + exact (before_ok _ _ st buf _ _ Hminus Hst Hb' Hs).
Qed.

(** ** Lists *)
Lemma sep_map_cons {A} (f : A -> str) (c : str) x y l : sep c (map f (x :: y :: l)) = f x ++ c ++ sep c (map f (y :: l)).
Proof. reflexivity. Qed.
Lemma sep_map_cons2 {A B} (f : A -> list B) c x y l : sep c (map f (x :: y :: l)) = f x ++ c ++ sep c (map f (y :: l)).
Proof. reflexivity. Qed.
Lemma begins_list l : l <> [] -> Forall nice l -> begins (sep [44] (map print l)).
Proof. intros Hn HF. destruct l as [|x [|y l]]; [congruence| |]; inversion HF as [|? ? Hx _]; subst; [apply Hx|rewrite sep_map_cons; apply begins_app; apply Hx]. Qed.
Lemma bytes_list l : Forall nice l -> is_bytes (sep [44] (map print l)).
Proof.
  induction l as [|x l IH]; intros HF; [constructor|]. inversion HF as [|? ? Hx HF']; subst. destruct l as [|y l]; [apply Hx|]. rewrite sep_map_cons. apply is_bytes_app; [apply Hx|]. apply is_bytes_app; [repeat constructor; lia|]. apply IH. exact HF'.
Qed.
Lemma scans_list st rest tk : normal st -> follow rest -> forall l buf, l <> [] -> Forall nice l -> (forall buf, lexes false st buf rest tk) ->
  lexes false st buf (sep [44] (map print l) ++ rest) (sep [t_comma] (map toks l) ++ tk).
Proof.
  intros Hst Hr. destruct before_all as (_ & _ & _ & _ & _ & _ & _ & Hc & _). induction l as [|x l IH]; intros buf Hn HF Hl; [congruence|]. inversion HF as [|? ? Hx HF']; subst. destruct l as [|y l].
  - cbn [map sep]. apply Hx; auto.
  - rewrite sep_map_cons, sep_map_cons2, <- !app_assoc. cbn [app]. apply Hx; [exact Hst|left; cbn; tauto|].
    apply (before_ok _ _ st buf _ _ Hc Hst); [apply begins_app; apply begins_list; [discriminate|exact HF']|]. apply IH; [discriminate|exact HF'|exact Hl].
Qed.
Lemma lb_rb_check : forallb (fun s => tok_is t_lb (chews (txt "[") s [93])) normals = true.
Proof. vm_compute. reflexivity. Qed.
Lemma scans_brackets st buf rest tk l : normal st -> follow rest -> Forall nice l -> lexes false st buf rest tk ->
  lexes false st buf (91 :: sep [44] (map print l) ++ 93 :: rest) (t_lb :: sep [t_comma] (map toks l) ++ t_rb :: tk).
Proof.
  intros Hst Hr HF Hl. destruct before_all as (_ & _ & _ & _ & _ & _ & Hb & _). destruct after_all as (_ & _ & _ & _ & Ha & _).
  assert (R : forall buf, lexes false st buf (93 :: rest) (t_rb :: tk)) by (intros buf'; apply (after_ok (txt "]") t_rb st buf' rest tk Ha Hst Hr); eapply lexes_buf; eassumption).
  destruct l as [|x l].
  - cbn [map sep app]. pose proof lb_rb_check as K. apply (fun H => forallb_in _ _ _ H (normal_in _ Hst)) in K. cbv beta in K. apply tok_is_ok in K. exact (chews_ok st buf (txt "[") [93] rest t_lb _ K (R buf)).
  - apply (before_ok (txt "[") t_lb st buf _ _ Hb Hst); [apply begins_app; apply begins_list; [discriminate|exact HF]|]. apply scans_list; [exact Hst|left; cbn; tauto|discriminate|exact HF|exact R].
Qed.
Lemma nice_arr l : Forall nice l -> nice (EArr l).
Proof.
  intros HF. split; [apply begins_cons; [reflexivity|lia]|]. split; [cbn [print]; apply is_bytes_cons; [lia|]; apply is_bytes_app; [apply bytes_list; exact HF|repeat constructor; lia]|].
  intros st buf rest tk Hst Hr Hl. cbn [print toks app]. rewrite <- !app_assoc. cbn [app]. apply scans_brackets; assumption.
Qed.
Lemma nice_acc a idx : nice a -> Forall nice idx -> nice (EAcc a idx).
Proof.
  intros Ha HF. split; [apply begins_app; apply begins_paren; exact Ha|]. split; [cbn [print]; apply is_bytes_app; [apply bytes_paren; exact Ha|]; apply is_bytes_cons; [lia|]; apply is_bytes_app; [apply bytes_list; exact HF|repeat constructor; lia]|].
  intros st buf rest tk Hst Hr Hl. cbn [print toks app]. rewrite <- !app_assoc. cbn [app]. rewrite <- !app_assoc. cbn [app]. apply scans_operand; [exact Ha|exact Hst|left; cbn; tauto|]. apply scans_brackets; assumption.
Qed.
Lemma nice_call f args : name_ok f -> Forall nice args -> nice (ECall f args).
Proof.
  intros Hf HF. destruct (name_named f Hf) as [Hn Hm]. pose proof (quoteId_begins f Hn) as Hq. assert (Bq : is_bytes (quoteId f)) by (apply is_bytes_quoteId; apply (named_facts f Hn)).
  assert (G : begins (quoteId f ++ 40 :: sep [44] (map print args) ++ [41]) /\ is_bytes (quoteId f ++ 40 :: sep [44] (map print args) ++ [41]) /\
    forall st buf rest tk, normal st -> lexes false st buf rest tk -> lexes false st buf ((quoteId f ++ 40 :: sep [44] (map print args) ++ [41]) ++ rest) ((TIdent f :: t_open :: sep [t_comma] (map toks args) ++ [t_close]) ++ tk)).
  { split; [apply begins_app; exact Hq|]. split; [apply is_bytes_app; [exact Bq|]; apply is_bytes_cons; [lia|]; apply is_bytes_app; [apply bytes_list; exact HF|repeat constructor; lia]|].
    intros st buf rest tk Hst Hl. rewrite <- app_assoc. cbn [app]. rewrite <- !app_assoc. cbn [app]. apply lexes_ident; try assumption; [cbn; unfold is_idchar, is_letter; lia|]. apply lexes_open; [exact Hst|].
    assert (R : forall buf, lexes false (BRACKET :: st) buf (41 :: rest) (t_close :: tk)) by (intros buf'; apply lexes_close; [exact Hst|eapply lexes_buf; eassumption]).
    destruct args as [|x l]; [apply R|]. apply scans_list; [constructor; exact Hst|apply follow_close|discriminate|exact HF|exact R]. }
  destruct G as (G1 & G2 & G3). unfold nice, scans. destruct args as [|x [|y [|z l]]]; try (split; [exact G1|split; [exact G2|intros; apply G3; assumption]]).
  cbn [print toks]. destruct (str_eqb f k_default) eqn:E.
  - inversion HF as [|? ? Hx HF']; subst. inversion HF' as [|? ? Hy _]; subst. destruct before_all as (_ & _ & _ & _ & _ & _ & _ & _ & Hd).
    split; [apply begins_cons; [reflexivity|vm_compute; discriminate]|]. split.
    + repeat (apply is_bytes_app); try apply is_bytes_txt; [apply Hx|apply Hy].
    + intros st buf rest tk Hst Hr Hl.
      assert (T : (txt "((" ++ print x ++ txt ") default (" ++ print y ++ txt "))") ++ rest = 40 :: paren true (print x) ++ txt " default " ++ paren true (print y) ++ 41 :: rest).
      { cbn [txt paren app]. change (Z.of_N _) with 40 at 1 2. repeat (rewrite <- app_assoc; cbn [app]). reflexivity. }
      rewrite T.
      assert (U : tparen true (tparen true (toks x) ++ TSym "MZN_DEFAULT" :: tparen true (toks y)) ++ tk = t_open :: tparen true (toks x) ++ TSym "MZN_DEFAULT" :: tparen true (toks y) ++ t_close :: tk).
      { cbn [tparen app]. repeat (rewrite <- app_assoc; cbn [app]). reflexivity. }
      rewrite U. apply lexes_open; [exact Hst|]. assert (Hst' : normal (BRACKET :: st)) by (constructor; exact Hst). apply scans_paren; [exact Hx|exact Hst'|].
      apply (before_ok _ _ (BRACKET :: st) buf _ _ Hd Hst'); [apply begins_app; apply begins_paren; exact Hy|]. apply scans_paren; [exact Hy|exact Hst'|]. apply lexes_close; assumption.
  - cbn [map sep app] in *. rewrite <- !app_assoc in *. cbn [app] in *. split; [exact G1|]. split; [exact G2|]. intros st buf rest tk Hst Hr Hl. specialize (G3 st buf rest tk Hst Hl).
    repeat (rewrite <- app_assoc; cbn [app]). repeat (rewrite <- app_assoc in G3; cbn [app] in G3). exact G3.
Qed.

Definition btext (x : ex * ex) : str := print (fst x) ++ txt " then " ++ print (snd x).
Definition btoks (x : ex * ex) : list token := toks (fst x) ++ TSym "MZN_THEN" :: toks (snd x).
Definition bnice (x : ex * ex) : Prop := nice (fst x) /\ nice (snd x).
Lemma begins_branches l : l <> [] -> Forall bnice l -> begins (sep (txt " elseif ") (map btext l)).
Proof. intros Hn HF. destruct l as [|x [|y l]]; [congruence| |]; inversion HF as [|? ? Hx _]; subst; [apply begins_app; apply Hx|]. rewrite sep_map_cons. apply begins_app. apply begins_app. apply Hx. Qed.
Lemma bytes_btext x : bnice x -> is_bytes (btext x).
Proof. intros [H1 H2]. apply is_bytes_app; [apply H1|apply is_bytes_app; [apply is_bytes_txt|apply H2]]. Qed.
Lemma bytes_branches l : Forall bnice l -> is_bytes (sep (txt " elseif ") (map btext l)).
Proof.
  induction l as [|x l IH]; intros HF; [constructor|]. inversion HF as [|? ? Hx HF']; subst. destruct l as [|y l]; [apply bytes_btext; exact Hx|]. rewrite sep_map_cons. apply is_bytes_app; [apply bytes_btext; exact Hx|]. apply is_bytes_app; [apply is_bytes_txt|]. apply IH. exact HF'.
Qed.
Lemma scans_branch st x rest tk buf : normal st -> follow rest -> bnice x -> lexes false st buf rest tk -> lexes false st buf (btext x ++ rest) (btoks x ++ tk).
Proof.
  intros Hst Hr [H1 H2] Hl. destruct before_all as (_ & _ & _ & Ht & _). unfold btext, btoks. rewrite <- !app_assoc. cbn [app]. apply H1; [exact Hst|left; cbn; tauto|].
  apply (before_ok _ _ st buf _ _ Ht Hst); [apply begins_app; apply H2|]. apply H2; assumption.
Qed.
Lemma scans_branches st rest tk buf : normal st -> follow rest -> lexes false st buf rest tk -> forall l, l <> [] -> Forall bnice l ->
  lexes false st buf (sep (txt " elseif ") (map btext l) ++ rest) (sep [TSym "MZN_ELSEIF"] (map btoks l) ++ tk).
Proof.
  intros Hst Hr Hl. destruct before_all as (_ & _ & _ & _ & He & _). induction l as [|x l IH]; intros Hn HF; [congruence|]. inversion HF as [|? ? Hx HF']; subst. destruct l as [|y l].
  - cbn [map sep]. apply scans_branch; assumption.
  - rewrite sep_map_cons, sep_map_cons2, <- !app_assoc. cbn [app]. apply scans_branch; [exact Hst|left; cbn; tauto|exact Hx|].
    apply (before_ok _ _ st buf _ _ He Hst); [apply begins_app; apply begins_branches; [discriminate|exact HF']|]. apply IH; [discriminate|exact HF'].
Qed.
Lemma nice_ite bs els : bs <> [] -> Forall bnice bs -> (forall e, els = Some e -> nice e) -> nice (EIte bs els).
Proof.
  intros Hn HF He. destruct before_all as (_ & _ & Hif & _ & _ & Helse & _). destruct after_all as (_ & _ & _ & Hend & _).
  assert (Ep : print (EIte bs els) = txt "if " ++ sep (txt " elseif ") (map btext bs) ++ match els with Some e' => txt " else " ++ print e' | None => [] end ++ txt " endif") by reflexivity.
  assert (Et : toks (EIte bs els) = TSym "MZN_IF" :: sep [TSym "MZN_ELSEIF"] (map btoks bs) ++ match els with Some e' => TSym "MZN_ELSE" :: toks e' | None => [] end ++ [TSym "MZN_ENDIF"]) by reflexivity.
  unfold nice, scans. rewrite Ep, Et. split; [apply begins_cons; [reflexivity|vm_compute; discriminate]|]. split.
  - apply is_bytes_app; [apply is_bytes_txt|]. apply is_bytes_app; [apply bytes_branches; exact HF|]. apply is_bytes_app; [|apply is_bytes_txt]. destruct els as [e|]; [|constructor]. apply is_bytes_app; [apply is_bytes_txt|apply (He e eq_refl)].
  - intros st buf rest tk Hst Hr Hl. rewrite <- !app_assoc. cbn [app]. rewrite <- !app_assoc. cbn [app]. apply (before_ok _ _ st buf _ _ Hif Hst); [apply begins_app; apply begins_branches; assumption|].
    pose proof (after_ok _ _ st buf rest tk Hend Hst Hr Hl) as Hx. apply scans_branches; try assumption.
    + destruct els; left; cbn; tauto.
    + destruct els as [e|]; [|exact Hx]. cbn [app]. rewrite <- !app_assoc. apply (before_ok _ _ st buf _ _ Helse Hst); [apply begins_app; apply (He e eq_refl)|]. apply (He e eq_refl); [exact Hst|left; cbn; tauto|exact Hx].
Qed.

Lemma readable_nice e : readable e -> nice e.
Proof.
  induction e using ex_induct; intros HR; inversion HR; subst.
  - apply nice_int. assumption.
  - apply nice_bool.
  - apply nice_str. assumption.
  - apply nice_id. assumption.
  - apply nice_set; assumption.
  - apply nice_inv. auto.
  - apply nice_bin; auto. apply inverse_clash. assumption.
  - apply nice_un; auto.
  - apply nice_call; [assumption|]. eapply Forall_mp; eassumption.
  - apply nice_arr. eapply Forall_mp; eassumption.
  - apply nice_acc; [auto|]. eapply Forall_mp; eassumption.
  - apply nice_ite; [assumption| |auto]. eapply Forall_mp; [|eassumption]. eapply Forall_impl; [|exact H]. unfold bnice. cbv beta. tauto.
Qed.

Theorem C36_l e : readable e -> read (print e) = Ok e.
Proof.
  intros H. destruct (readable_nice e H) as (_ & Hb & Hs). unfold read.
  assert (E : lex false (print e) = Ok (toks e)).
  { apply lexes_lex; [|exact Hb]. specialize (Hs [INITIAL] [] [] [] N_init I). rewrite !app_nil_r in Hs. apply Hs. exists 1%nat. reflexivity. }
  rewrite E. cbn [bind]. apply parse_toks. exact H.
Qed.
