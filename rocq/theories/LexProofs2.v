(** Running the lexer: it never gets stuck (C67); lemmas for reading one token after another. *)
Require Import ZArith List Bool String Ascii Lia ZifyBool.
From Verif Require Import Base IntValModel IntValSpec IntValProofs StrModel LexModel LexSpec LexProofs.
Import ListNotations.
Open Scope Z_scope.

Opaque rules best.

Definition no_echo (t : option token) : Prop := forall c, t <> Some (TEcho c).
Lemma run_ok fz a m st buf : good st -> allowed a (hd INITIAL st) = true -> (a = AInt -> matches digits m) ->
  exists t st' buf', run fz a m st buf = Ok (t, st', buf') /\ good st' /\ no_echo t.
Proof.
  intros G A D.
  assert (N : forall s, inside (hd INITIAL st) = false -> inside s = true -> good (s :: st)).
  { intros s H I. destruct G; [constructor; assumption|cbn [hd] in H; congruence]. }
  assert (B : inside (hd INITIAL st) = false -> good (BRACKET :: st)).
  { intros H. destruct G; [constructor; constructor; assumption|cbn [hd] in H; congruence]. }
  assert (P : inside (hd INITIAL st) = true -> exists st', pop st = Ok st' /\ good st').
  { intros H. destruct G as [st Hn|s st I Hn].
    - destruct (normal_hd _ Hn) as [[E|[E|E]] _]; rewrite E in H; discriminate.
    - exists st. split; [|constructor; exact Hn]. cbn [pop]. destruct (normal_hd _ Hn) as [_ Hne]. destruct st; [congruence|reflexivity]. }
  destruct a; cbn [allowed] in A; cbn [run];
    try (do 3 eexists; split; [reflexivity|split; [exact G|intros ? Hc; discriminate]]; fail);
    try (destruct (P A) as (st' & -> & G'); cbn [bind]; do 3 eexists; split; [reflexivity|split; [exact G'|intros ? Hc; discriminate]]; fail).
  - destruct fz; do 3 eexists; (split; [reflexivity|split; [exact G|intros ? Hc; discriminate]]).
  - specialize (D eq_refl). destruct (digits_forall _ D) as [_ F]. rewrite (strtoint_ok m 0) by (try exact F; unfold LLONG_MAX; lia). cbv zeta.
    destruct (_ <=? LLONG_MAX); do 3 eexists; (split; [reflexivity|split; [exact G|intros ? Hc; discriminate]]).
  - cbv zeta. destruct (_ <=? LLONG_MAX); do 3 eexists; (split; [reflexivity|split; [exact G|intros ? Hc; discriminate]]).
  - cbv zeta. destruct (_ <=? LLONG_MAX); do 3 eexists; (split; [reflexivity|split; [exact G|intros ? Hc; discriminate]]).
  - apply andb_true_iff in A as [A1 A2]. apply negb_true_iff in A1. do 3 eexists. split; [reflexivity|]. split; [apply N; assumption|intros ? Hc; discriminate].
  - apply andb_true_iff in A as [A1 A2]. apply negb_true_iff in A1. do 3 eexists. split; [reflexivity|]. split; [apply N; assumption|intros ? Hc; discriminate].
  - apply andb_true_iff in A as [A1 A2]. apply negb_true_iff in A1. destruct s; try discriminate. do 3 eexists. split; [reflexivity|]. split; [apply B; assumption|intros ? Hc; discriminate].
  - destruct G as [st Hn|s st I Hn]; [|cbn [hd] in A; destruct s; discriminate].
    destruct Hn as [|st Hn|s st Hs Hn]; cbn [hd] in A; try discriminate. cbn [pop]. destruct (normal_hd _ Hn) as [_ Hne]. destruct st; [congruence|]. cbn [bind].
    do 3 eexists. split; [reflexivity|]. split; [constructor; exact Hn|intros x Hx; discriminate].
  - destruct G as [st Hn|s st I Hn]; [|cbn [hd] in A; destruct s; discriminate].
    destruct Hn as [|st Hn|s st Hs Hn]; cbn [hd] in A; try discriminate. cbn [pop bind]. destruct (normal_hd _ Hn) as [_ Hne]. destruct st; [congruence|]. cbn [pop bind].
    do 3 eexists. split; [reflexivity|]. split; [apply G_inside; [reflexivity|exact Hn]|intros x Hx; discriminate].
  - assert (E : exists s, (s = STRING \/ s = STRING_QUOTE) /\ exists st0, st = s :: st0 /\ normal st0).
    { destruct G as [st Hn|s st I Hn]; [destruct (normal_hd _ Hn) as [[E|[E|E]] _]; rewrite E in A; discriminate|]. cbn [hd] in A. exists s. split; [destruct s; try discriminate; auto|eauto]. }
    destruct E as (s & Hs & st0 & -> & Hn). do 3 eexists. split; [reflexivity|]. split; [constructor; constructor; assumption|intros x Hx; discriminate].
  - assert (E : exists s, (s = STRING \/ s = STRING_QUOTE) /\ exists st0, st = s :: st0 /\ normal st0).
    { destruct G as [st Hn|s st I Hn]; [destruct (normal_hd _ Hn) as [[E|[E|E]] _]; rewrite E in A; discriminate|]. cbn [hd] in A. exists s. split; [destruct s; try discriminate; auto|eauto]. }
    destruct E as (s & Hs & st0 & -> & Hn). do 3 eexists. split; [reflexivity|]. split; [constructor; constructor; assumption|intros x Hx; discriminate].
Qed.

(** the rule that wins is allowed, and an integer is made of digits *)
Lemma best_allowed s text n a : best s rules text = Some (n, a) -> allowed a s = true /\ (a = AInt -> matches digits (firstn n text)).
Proof.
  intros H. destruct (best_wins _ _ _ _ _ H) as (i & r & Hr & Ar & Er & Lr & _). subst a. split; [eapply rule_allowed; eassumption|].
  intros E. pose proof (rule_forall (fun _ r => match r_act r with AInt => match r_pat r with PRe (RSeq (RSet false [(48, 57)]) (RStar (RSet false [(48, 57)]))) => true | _ => false end | _ => true end) int_rule i r Hr) as X.
  cbv beta in X. rewrite E in X. destruct (plen_some _ _ _ Lr) as (_ & M & _).
  destruct (r_pat r) as [l|q]; [discriminate|]. cbn [pmatches] in M. unfold digits, plus, digit, cls.
  repeat match type of X with (match ?x with _ => _ end) = true => destruct x; try discriminate X end. exact M.
Qed.

Lemma is_bytes_skipn n s : is_bytes s -> is_bytes (skipn n s).
Proof. revert s. induction n; intros s H; [exact H|]. destruct s; [constructor|]. inversion H; subst. apply IHn. assumption. Qed.

Lemma scan_total fz : forall fuel text st buf, is_bytes text -> good st -> (S (S (List.length text)) <= fuel)%nat ->
  exists toks, scan fuel fz st buf text = Ok toks /\ forall c, ~ In (TEcho c) toks.
Proof.
  induction fuel as [|fuel IH]; intros text st buf Hb G L; [lia|]. cbn [scan]. destruct text as [|c text].
  - assert (E : match st with STRING :: _ | STRING_QUOTE :: _ => True | _ => False end ->
        exists toks, (do st' <- pop st; emit (Some (TSym "MZN_UNTERMINATED_STRING")) (scan fuel fz st' buf [])) = Ok toks /\ forall c, ~ In (TEcho c) toks).
    { intros Hs. destruct G as [st Hn|s st I Hn]; [destruct Hn; contradiction|]. cbn [pop]. destruct (normal_hd _ Hn) as [Hh Hne]. destruct st as [|s1 st]; [congruence|]. cbn [bind].
      cbn [List.length] in L. destruct fuel as [|fuel]; [lia|]. assert (scan (S fuel) fz (s1 :: st) buf [] = Ok []) as ->.
      { cbn [scan]. cbn [hd] in Hh. destruct Hh as [-> | [-> | ->]]; reflexivity. }
      cbn. eexists. split; [reflexivity|]. intros c [Hc|[]]. discriminate. }
    destruct st as [|sx st]; [|destruct sx]; try (apply E; exact I); exists []; split; auto.
  - inversion Hb as [|? ? Hc Hb']; subst. destruct (progress (hd INITIAL st) c text Hc) as (n & a & B). rewrite B.
    destruct (best_allowed _ _ _ _ B) as [A D]. destruct (run_ok fz a (firstn (S n) (c :: text)) st buf G A D) as (t & st' & buf' & -> & G' & Hne). cbn [bind].
    destruct (IH (skipn (S n) (c :: text)) st' buf') as (toks & -> & Hi).
    + apply is_bytes_skipn. exact Hb.
    + exact G'.
    + rewrite skipn_length. cbn [List.length] in *. lia.
    + cbn. destruct t as [t|]; eexists; (split; [reflexivity|]); [|exact Hi]. intros x [Hx|Hx]; [apply (Hne x); rewrite Hx; reflexivity|exact (Hi x Hx)].
Qed.

Lemma scan_mono fz : forall fuel fuel' text st buf l, scan fuel fz st buf text = Ok l -> (fuel <= fuel')%nat -> scan fuel' fz st buf text = Ok l.
Proof.
  induction fuel as [|fuel IH]; intros fuel' text st buf l H L; [discriminate|]. destruct fuel' as [|fuel']; [lia|]. cbn [scan] in *.
  assert (T : forall t st' buf' text', emit t (scan fuel fz st' buf' text') = Ok l -> emit t (scan fuel' fz st' buf' text') = Ok l).
  { intros t st' buf' text' E. unfold emit in *. apply bind_ok in E as (l' & E1 & E2). rewrite (IH fuel' _ _ _ _ E1) by lia. exact E2. }
  destruct text as [|c text].
  - destruct st as [|sx st]; [|destruct sx]; try exact H; apply bind_ok in H as (st' & -> & H); cbn [bind]; apply T; exact H.
  - destruct (best (hd INITIAL st) rules (c :: text)) as [[n a]|]; [|apply T; exact H].
    apply bind_ok in H as ([[t st'] buf'] & -> & H). cbn [bind]. apply T. exact H.
Qed.

(** ** Reading token by token *)
(** the tokens of a text, from some state *)
Definition lexes (fz : bool) (st : list sc) (buf text : str) (toks : list token) : Prop := exists fuel, scan fuel fz st buf text = Ok toks.
Lemma lexes_lex fz text toks : lexes fz [INITIAL] [] text toks -> is_bytes text -> lex fz text = Ok toks.
Proof.
  intros (fuel & H) Hb. unfold lex. destruct (scan_total fz (S (S (List.length text))) text [INITIAL] [] Hb (G_normal _ N_init) (le_n _)) as (l & E & _). rewrite E.
  assert (scan (fuel + S (S (List.length text))) fz [INITIAL] [] text = Ok toks) by (eapply scan_mono; [exact H|lia]).
  assert (scan (fuel + S (S (List.length text))) fz [INITIAL] [] text = Ok l) by (eapply scan_mono; [exact E|lia]). congruence.
Qed.
Lemma lex_lexes fz text toks : lex fz text = Ok toks -> lexes fz [INITIAL] [] text toks.
Proof. intros H. eexists. exact H. Qed.
Lemma lexes_fun fz st buf text l l' : lexes fz st buf text l -> lexes fz st buf text l' -> l = l'.
Proof. intros (f & H) (f' & H'). assert (scan (f + f') fz st buf text = Ok l) by (eapply scan_mono; [exact H|lia]). assert (scan (f + f') fz st buf text = Ok l') by (eapply scan_mono; [exact H'|lia]). congruence. Qed.

Definition otl (t : option token) (l : list token) : list token := match t with Some t => t :: l | None => l end.
Lemma lexes_step fz st buf m rest a t st' buf' toks :
  m <> [] -> best (hd INITIAL st) rules (m ++ rest) = Some (List.length m, a) -> run fz a m st buf = Ok (t, st', buf') -> lexes fz st' buf' rest toks ->
  lexes fz st buf (m ++ rest) (otl t toks).
Proof.
  intros Hm B E (f & H). exists (S f). cbn [scan]. destruct m as [|c m]; [congruence|]. cbn [app]. cbn [app] in B. rewrite B.
  assert (F : firstn (List.length (c :: m)) (c :: m ++ rest) = c :: m) by (change (c :: m ++ rest) with ((c :: m) ++ rest); rewrite firstn_app, Nat.sub_diag, firstn_all, app_nil_r; reflexivity).
  assert (K : skipn (List.length (c :: m)) (c :: m ++ rest) = rest) by (change (c :: m ++ rest) with ((c :: m) ++ rest); rewrite skipn_app, Nat.sub_diag, skipn_all; reflexivity).
  rewrite F, K, E. cbn [bind]. rewrite H. reflexivity.
Qed.
(** and back *)
Lemma lexes_inv fz st buf c text toks : lexes fz st buf (c :: text) toks -> is_bytes (c :: text) ->
  exists m rest a t st' buf' l, c :: text = m ++ rest /\ m <> [] /\ best (hd INITIAL st) rules (c :: text) = Some (List.length m, a) /\
  run fz a m st buf = Ok (t, st', buf') /\ lexes fz st' buf' rest l /\ toks = otl t l.
Proof.
  intros (f & H) Hb. destruct f as [|f]; [discriminate|]. cbn [scan] in H. inversion Hb; subst. destruct (progress (hd INITIAL st) c text H2) as (n & a & B). rewrite B in H.
  apply bind_ok in H as ([[t st'] buf'] & E & H). unfold emit in H. apply bind_ok in H as (l & E2 & H). injection H as <-.
  assert (L : (S n <= List.length (c :: text))%nat) by (destruct (best_wins _ _ _ _ _ B) as (i & r & _ & _ & _ & Lr & _); apply plen_some in Lr; tauto).
  exists (firstn (S n) (c :: text)), (skipn (S n) (c :: text)), a, t, st', buf', l. rewrite firstn_length, Nat.min_l by exact L.
  split; [symmetry; apply firstn_skipn|]. split; [discriminate|]. split; [exact B|]. split; [exact E|]. split; [exists f; exact E2|]. destruct t; reflexivity.
Qed.

(** the buffer does not matter between tokens *)
Definition quiet_act (a : action) (s : sc) : bool :=
  match s with
  | COMMENT => match a with ASkip | APop | ASym _ => true | _ => false end
  | INITIAL | BRACKET | QUOTED =>
      match a with
      | AAppend | AAppendChar _ | AAppendSecond | AHexChar | AOctChar | ADoc | ADocFile | AQuoteStart | AQuoteMid | AStringEnd | AQuoteEnd | APop => false
      | APush t => sc_eqb t COMMENT
      | _ => true
      end
  | _ => true
  end.
Lemma quiet_all : forallb (fun x => forallb (fun s => negb (active (r_cond (snd x)) s) || quiet_act (r_act (snd x)) s) states) indexed = true.
Proof. vm_compute. reflexivity. Qed.
Lemma best_quiet s text n a : best s rules text = Some (n, a) -> quiet_act a s = true.
Proof.
  intros H. destruct (best_wins _ _ _ _ _ H) as (i & r & Hr & Ar & Er & Lr & _). subst a.
  pose proof (rule_forall (fun _ r => forallb (fun s => negb (active (r_cond r) s) || quiet_act (r_act r) s) states) quiet_all i r Hr) as X. cbv beta in X.
  rewrite forallb_forall in X. assert (Hs : In s states) by (destruct s; cbn; tauto). specialize (X s Hs). rewrite Ar in X. exact X.
Qed.
Inductive quiet : list sc -> Prop := Q_normal st : normal st -> quiet st | Q_comment st : normal st -> quiet (COMMENT :: st).
Lemma scan_buf fz : forall fuel text st b1 b2, quiet st -> scan fuel fz st b1 text = scan fuel fz st b2 text.
Proof.
  induction fuel as [|fuel IH]; intros text st b1 b2 Q; [reflexivity|]. cbn [scan]. destruct text as [|c text].
  - destruct Q as [st Hn|st Hn]; [|reflexivity]. destruct Hn; reflexivity.
  - destruct (best (hd INITIAL st) rules (c :: text)) as [[n a]|] eqn:B.
    2:{ rewrite (IH text st b1 b2 Q). reflexivity. }
    assert (A := proj1 (best_allowed _ _ _ _ B)). apply best_quiet in B.
    assert (R : forall t st', quiet st' -> (do ' (t0, st0, buf0) <- Ok (t, st', b1); emit t0 (scan fuel fz st0 buf0 (skipn n (c :: text)))) = (do ' (t0, st0, buf0) <- Ok (t, st', b2); emit t0 (scan fuel fz st0 buf0 (skipn n (c :: text))))).
    { intros t st' Q'. cbn [bind]. rewrite (IH _ _ b1 b2 Q'). reflexivity. }
    destruct Q as [st Hn|st Hn].
    + destruct (normal_hd _ Hn) as [Hh Hne].
      assert (X : quiet_act a INITIAL = true) by (destruct Hh as [E|[E|E]]; rewrite E in B; exact B).
      assert (Q0 : quiet st) by (constructor; exact Hn).
      destruct a; cbn [quiet_act] in X; try discriminate X; cbn [run]; try (apply R; exact Q0); try reflexivity.
      * destruct (fast_strtointval (ofZ 0) (firstn n (c :: text))) as [v|[]|]; try reflexivity; apply R; exact Q0.
      * destruct s; try discriminate X. apply R. apply Q_comment. exact Hn.
      * cbn [allowed] in A. apply andb_true_iff in A as [_ A]. destruct s; try discriminate A. apply R. constructor. constructor. exact Hn.
      * destruct Hn as [|st Hn|s st Hs Hn]; cbn [hd allowed] in A; try discriminate A. cbn [pop]. destruct (normal_hd _ Hn) as [_ Hne']. destruct st; [congruence|]. cbn [bind]. apply R. constructor. exact Hn.
    + cbn [hd] in B. destruct a; cbn [quiet_act] in B; try discriminate B; cbn [run]; try (apply R; apply Q_comment; exact Hn).
      cbn [pop]. destruct (normal_hd _ Hn) as [_ Hne]. destruct st; [congruence|]. cbn [bind]. apply R. constructor. exact Hn.
Qed.
Lemma lexes_buf fz st b1 b2 text toks : normal st -> lexes fz st b1 text toks -> lexes fz st b2 text toks.
Proof. intros Hn (f & H). exists f. rewrite <- H. apply scan_buf. constructor. exact Hn. Qed.

Theorem C67_l fz text : is_bytes text -> exists toks, lex fz text = Ok toks /\ forall c, ~ In (TEcho c) toks.
Proof. intros H. apply scan_total; [exact H|constructor; constructor|lia]. Qed.
