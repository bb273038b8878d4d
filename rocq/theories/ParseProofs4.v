(** The plain expressions are readable (C36), and the integers (C39). *)
Require Import ZArith List Bool String Lia ZifyBool.
From Verif Require Import Base IntValModel IntValSpec IntValProofs StrModel TypeModel LexModel LexSpec LexProofs LexProofs2 LexProofs3 LexProofs4 LexProofs5 ParseModel ParseSpec ParseProofs ParseProofs2 ParseProofs3.
Import ListNotations.
Open Scope Z_scope.

Opaque rules best settled chew chews ends.

Definition lev (e : ex) : nat := match e with EBin o _ _ => bot_level o | ESet _ _ => 9 | _ => 11 end.
Lemma plain_level o : plain_op o -> (bot_level o <= 11)%nat.
Proof. intros (A & B & C). destruct o; cbn; try lia; congruence. Qed.
Lemma plain_order o o' : plain_op o -> plain_op o' -> bot_prec o' < bot_prec o -> (bot_level o < bot_level o')%nat.
Proof. intros (A & B & C) (A' & B' & C') H. destruct o; try congruence; destruct o'; try congruence; cbn in *; lia. Qed.
Lemma plain_same o o' : plain_op o -> plain_op o' -> bot_prec o' = bot_prec o -> bot_level o = bot_level o'.
Proof. intros (A & B & C) (A' & B' & C') H. destruct o; try congruence; destruct o'; try congruence; cbn in *; lia. Qed.
Lemma plain_assoc o : plain_op o -> bot_assoc o <> AsRight /\ (bot_assoc o = AsLeft -> nonassoc (bot_level o) = false).
Proof. intros (A & B & C). destruct o; cbn; split; congruence. Qed.
Lemma loose_level o : plain_op o -> loose o -> (bot_level o < 9)%nat.
Proof. intros (A & B & C) (H1 & H2 & H3 & H4 & H5 & H6 & H7). destruct o; cbn; try lia; congruence. Qed.

(** an operand that gets no parentheses binds more tightly *)
Lemma left_level o a : plain a -> plain_op o -> (is_range a -> loose o) -> paren_left o a = false ->
  (bot_level o < lev a \/ (bot_level o = lev a /\ nonassoc (bot_level o) = false))%nat.
Proof.
  intros Ha Ho Hr Hp. pose proof (plain_level o Ho) as Hl. assert (G : (bot_level o < 11 \/ bot_level o = 11 /\ nonassoc (bot_level o) = false)%nat) by (destruct (Nat.eq_dec (bot_level o) 11) as [E|E]; [right; rewrite E; split; reflexivity|left; lia]).
  destruct Ha; cbn [lev]; try exact G; [left; apply loose_level; [exact Ho|apply Hr; exact I]|]. unfold paren_left in Hp. cbn [precedence] in Hp. apply orb_false_iff in Hp as [Hp1 Hp2].
  destruct (Z.eq_dec (bot_prec o) (bot_prec o0)) as [E|E].
  - right. split; [apply plain_same; congruence|]. destruct (plain_assoc o Ho) as [_ N]. apply N. destruct (bot_assoc o); [reflexivity| |]; rewrite E, Z.eqb_refl in Hp2; discriminate.
  - left. apply plain_order; [assumption|assumption|lia].
Qed.
Lemma right_level o b : plain b -> plain_op o -> (is_range b -> loose o) -> paren_right o b = false -> lefts b = [] \/ (bot_level o < lev b)%nat.
Proof.
  intros Hb Ho Hr Hp. destruct Hb; try (left; reflexivity); right; cbn [lev]; [apply loose_level; [exact Ho|apply Hr; exact I]|]. unfold paren_right in Hp. cbn [precedence] in Hp. apply orb_false_iff in Hp as [Hp1 Hp2].
  destruct (Z.eq_dec (bot_prec o) (bot_prec o0)) as [E|E]; [|apply plain_order; [assumption|assumption|lia]]. destruct (plain_assoc o Ho) as [N _]. rewrite E, Z.eqb_refl in Hp2. destruct (bot_assoc o); try discriminate. congruence.
Qed.
Lemma not_inverse o b : plain_op o -> inverse o b = false.
Proof. intros (A & _). destruct o; try reflexivity. congruence. Qed.
Lemma edges e : plain e -> Forall (fun l => (lev e <= l)%nat) (lefts e) /\ Forall (fun l => (lev e <= l)%nat) (rights e).
Proof.
  induction e using ex_induct; intros HP; inversion HP; subst; cbn [lefts rights lev]; try (split; constructor).
  - split; [constructor|]. destruct (neg_lit v); repeat constructor.
  - split; [repeat constructor|]. apply Forall_app. split; [|repeat constructor]. destruct (neg_lit u); repeat constructor.
  - rewrite (not_inverse o e2) by assumption. destruct (IHe1 ltac:(assumption)) as [L _]. destruct (IHe2 ltac:(assumption)) as [_ R]. split; apply Forall_app; (split; [|repeat constructor]).
    + destruct (paren_left o e1) eqn:E; [constructor|]. eapply Forall_impl; [|exact L]. cbv beta. intros l Hl. destruct (left_level o e1) as [X|[X _]]; try assumption; [tauto|lia|lia].
    + destruct (paren_right o e2) eqn:E; [constructor|]. eapply Forall_impl; [|exact R]. cbv beta. intros l Hl. destruct (right_level o e2) as [X|X]; try assumption; [tauto| |lia].
      pose proof (plain_level o ltac:(assumption)). destruct e2; cbn [lev] in *; try lia; [discriminate|]. cbn [lefts] in X. rewrite not_inverse in X; [destruct (if paren_left o0 e2_1 then [] else lefts e2_1); discriminate|]. match goal with K : plain (EBin o0 _ _) |- _ => inversion K; assumption end.
  - split; [constructor|]. apply Forall_app. split; [|repeat constructor; cbn; lia]. destruct (paren_un e) eqn:E; [constructor|]. destruct (IHe ltac:(assumption)) as [_ R]. eapply Forall_impl; [|exact R]. cbv beta. intros l Hl. destruct e; cbn in *; try lia; try discriminate; try contradiction.
  - split; [constructor|]. apply Forall_app. split; [|repeat constructor; cbn; lia]. destruct (paren_un e) eqn:E; [constructor|]. destruct (IHe ltac:(assumption)) as [_ R]. eapply Forall_impl; [|exact R]. cbv beta. intros l Hl. destruct e; cbn in *; try lia; try discriminate; try contradiction.
Qed.
Lemma decide_shift r l : (r < l)%nat -> decide r (Some l) = Shift.
Proof. intros H. unfold decide. assert (E : Nat.ltb l r = false) by (apply Nat.ltb_ge; lia). assert (E' : Nat.ltb r l = true) by (apply Nat.ltb_lt; lia). rewrite E, E'. reflexivity. Qed.
Lemma decide_reduce r l : (l < r \/ (l = r /\ nonassoc l = false))%nat -> decide r (Some l) = Reduce.
Proof.
  intros H. unfold decide. destruct (Nat.ltb l r) eqn:E; [reflexivity|]. apply Nat.ltb_ge in E. destruct H as [H|[-> H]]; [lia|]. assert (E' : Nat.ltb r r = false) by (apply Nat.ltb_ge; lia). rewrite E', H. reflexivity.
Qed.

Lemma plain_readable e : plain e -> readable e /\ firstn 1 (print e) <> txt "+".
Proof.
  assert (B : forall t r, begins t -> firstn 1 t <> txt "+" -> firstn 1 (t ++ r) <> txt "+") by (intros t r Hb N; rewrite firstn_begins by tauto; exact N).
  assert (L : forall l, Forall (fun e => plain e -> readable e /\ firstn 1 (print e) <> txt "+") l -> Forall plain l -> Forall readable l).
  { intros l HF HP. eapply Forall_mp; [|exact HP]. eapply Forall_impl; [|exact HF]. cbv beta. tauto. }
  induction e using ex_induct; intros HP; inversion HP; subst.
  - assert (R : readable (EInt v)) by (constructor; assumption). split; [exact R|apply no_plus; [exact R|reflexivity]].
  - assert (R : readable (EBool b)) by constructor. split; [exact R|apply no_plus; [exact R|reflexivity]].
  - assert (R : readable (EStr s)) by (constructor; assumption). split; [exact R|apply no_plus; [exact R|reflexivity]].
  - assert (R : readable (EId s)) by (constructor; assumption). split; [exact R|apply no_plus; [exact R|reflexivity]].
  - assert (R : readable (ESet l u)) by (constructor; assumption). split; [exact R|apply no_plus; [exact R|reflexivity]].
  - destruct (IHe1 ltac:(assumption)) as [R1 N1]. destruct (IHe2 ltac:(assumption)) as [R2 N2].
    assert (P1 : firstn 1 (paren (paren_left o e1) (print e1)) <> txt "+") by (destruct (paren_left o e1); [discriminate|exact N1]).
    assert (P2 : firstn 1 (paren (paren_right o e2) (print e2)) <> txt "+") by (destruct (paren_right o e2); [discriminate|exact N2]).
    split; [|cbn [print]; apply B; [apply begins_paren; apply readable_nice; exact R1|exact P1]].
    apply R_bin; try assumption.
    + unfold left_closes. destruct (paren_left o e1) eqn:E; [tauto|]. right. destruct (edges e1) as [_ R]; [assumption|]. eapply Forall_impl; [|exact R]. cbv beta. intros l Hl. apply decide_reduce.
      destruct (left_level o e1) as [X|[X Y]]; try assumption; [tauto|lia|]. destruct (Nat.eq_dec (bot_level o) l); [tauto|lia].
    + unfold right_opens. destruct (paren_right o e2) eqn:E; [tauto|]. right. destruct (edges e2) as [R _]; [assumption|]. destruct (right_level o e2) as [X|X]; try assumption; [tauto|rewrite X; constructor|].
      eapply Forall_impl; [|exact R]. cbv beta. intros l Hl. apply decide_shift. lia.
    + split; [intros _; exact P2|intros ->; match goal with K : plain_op OPow |- _ => destruct K as [N _]; congruence end].
  - destruct (IHe ltac:(assumption)) as [R1 N1]. split; [|vm_compute; discriminate]. apply R_un; [exact R1| |congruence]. destruct e; try (left; reflexivity); try (exfalso; match goal with K : ~ is_range _ |- _ => apply K; exact I end); right; constructor.
  - destruct (IHe ltac:(assumption)) as [R1 N1]. split; [|vm_compute; discriminate]. apply R_un; [exact R1| |tauto]. destruct e; try (left; reflexivity); try (exfalso; match goal with K : ~ is_range _ |- _ => apply K; exact I end); right; constructor.
  - assert (R : readable (ECall f args)) by (constructor; [assumption|apply L; assumption]). split; [exact R|apply no_plus; [exact R|reflexivity]].
  - assert (R : readable (EArr l)) by (constructor; apply L; assumption). split; [exact R|apply no_plus; [exact R|reflexivity]].
  - assert (R : readable (EAcc e idx)) by (constructor; [apply IHe; assumption|assumption|apply L; assumption]). split; [exact R|apply no_plus; [exact R|reflexivity]].
  - assert (R : readable (EIte bs els)).
    { constructor; [assumption| |].
      - eapply Forall_mp; [|eassumption]. eapply Forall_impl; [|exact H]. cbv beta. tauto.
      - intros e E. apply (H0 e E). auto. }
    split; [exact R|apply no_plus; [exact R|reflexivity]].
Qed.

(** ** Integers *)
Lemma digits_bytes ds v : decimal ds v -> is_bytes ds.
Proof. intros H. destruct (decimal_digits _ _ H) as (_ & F & _). eapply Forall_impl; [|exact F]. cbv beta. lia. Qed.
Lemma digits_begin ds v : decimal ds v -> begins ds.
Proof.
  intros H. destruct (decimal_digits _ _ H) as (N & F & _). destruct ds as [|c r]; [congruence|]. inversion F; subst. apply begins_cons; [|lia]. unfold startb, idcharb, in_ranges. cbn [existsb fst snd]. lia.
Qed.
Lemma lex_end : lexes false [INITIAL] [] [] [].
Proof. exists 1%nat. reflexivity. Qed.
Lemma decimal_nonneg ds v : decimal ds v -> 0 <= v.
Proof. induction 1; lia. Qed.
Theorem C39_digits_l ds v : decimal ds v -> (v < 2 ^ 63 -> read ds = Ok (EInt (ofZ v))) /\ (2 ^ 63 <= v -> read ds = Err SyntaxError).
Proof.
  intros Hd. unfold read. assert (E : lex false ds = Ok [int_token ds v]).
  { apply lexes_lex; [|eapply digits_bytes; exact Hd]. rewrite <- (app_nil_r ds) at 1. apply lexes_int; [constructor|exact Hd|exact I|exact lex_end]. }
  rewrite E. cbn [bind]. unfold int_token, LLONG_MAX. split; intros H.
  - destruct (v <=? 9223372036854775807) eqn:El; [reflexivity|lia].
  - destruct (v <=? 9223372036854775807) eqn:El; [lia|]. destruct (str_eqb ds maxneg); reflexivity.
Qed.
Theorem C39_negated_l ds v : decimal ds v ->
  (v < 2 ^ 63 -> read (45 :: ds) = Ok (EInt (ofZ (- v)))) /\ (ds = txt "9223372036854775808" -> read (45 :: ds) = Ok (EInt (ofZ LLONG_MIN))) /\ (2 ^ 63 < v -> read (45 :: ds) = Err SyntaxError).
Proof.
  intros Hd. unfold read. assert (E : lex false (45 :: ds) = Ok [TSym "MZN_MINUS"; int_token ds v]).
  { apply lexes_lex; [|apply is_bytes_cons; [lia|eapply digits_bytes; exact Hd]]. destruct before_all as (_ & Hm & _). apply (before_ok (txt "-") _ [INITIAL] [] ds _ Hm N_init); [eapply digits_begin; exact Hd|].
    rewrite <- (app_nil_r ds) at 1. apply lexes_int; [constructor|exact Hd|exact I|exact lex_end]. }
  rewrite E. cbn [bind]. unfold int_token. pose proof (decimal_nonneg _ _ Hd) as Hv. split; [|split]; intros H.
  - destruct (v <=? LLONG_MAX) eqn:El; [|unfold LLONG_MAX in El; lia]. change (parse [] Need [TSym "MZN_MINUS"; TInt v]) with (do ' (F', e) <- (do e' <- (do w <- iv_neg (ofZ v); Ok (EInt w)); reduce [] e' None); match F' with [] => Ok e | _ => Err SyntaxError end). rewrite iv_neg_abs by lia. reflexivity.
  - subst ds. assert (v = 9223372036854775808) as ->; [|reflexivity]. destruct (decimal_digits _ _ Hd) as (_ & _ & E2). rewrite <- E2. vm_compute. reflexivity.
  - destruct (v <=? LLONG_MAX) eqn:El; [unfold LLONG_MAX in El; lia|]. destruct (str_eqb ds maxneg) eqn:Em; [|reflexivity]. apply str_eqb_ok in Em. subst ds. destruct (decimal_digits _ _ Hd) as (_ & _ & E2). exfalso. rewrite <- E2 in H. vm_compute in H. discriminate.
Qed.
Theorem C39_printed_l n : LLONG_MIN <= n <= LLONG_MAX -> read (int_text (ofZ n)) = Ok (EInt (ofZ n)).
Proof. intros H. apply (C36_l (EInt (ofZ n))). constructor. left. split; [reflexivity|exact H]. Qed.
