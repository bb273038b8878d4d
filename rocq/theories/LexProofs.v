(** The matcher against its specification, and the totality of the lexer (C67). *)
Require Import ZArith List Bool String Ascii Lia ZifyBool.
From Verif Require Import Base IntValModel IntValSpec IntValProofs StrModel LexModel LexSpec.
Import ListNotations.
Open Scope Z_scope.

(** ** longest *)
Lemma nullable_ok r : nullable r = true <-> matches r [].
Proof.
  induction r; cbn [nullable]; split; intros H; try discriminate; try (inversion H; fail); try (exact M_eps || exact (M_done _)); try reflexivity.
  - apply andb_true_iff in H as [H1 H2]. change (@nil Z) with (@nil Z ++ []). constructor; tauto.
  - inversion H as [| |a b s t Ha Hb E1 E2| | | |]; subst. apply app_eq_nil in E2 as [-> ->]. apply andb_true_iff. tauto.
  - apply orb_true_iff in H as [H|H]; [apply M_left|apply M_right]; tauto.
  - apply orb_true_iff. inversion H; subst; tauto.
Qed.

Lemma matches_none s : ~ matches RNone s.
Proof. inversion 1. Qed.
Lemma seq_ok a b s : matches (seq a b) s <-> matches (RSeq a b) s.
Proof.
  destruct a; cbn [seq]; try tauto.
  - split; intros H; [inversion H|]. inversion H as [| |? ? ? ? Ha| | | |]; inversion Ha.
  - split; intros H.
    + change s with ([] ++ s). constructor; [constructor|exact H].
    + inversion H as [| |? ? ? ? Ha Hb| | | |]; subst. inversion Ha; subst. exact Hb.
Qed.
Lemma alt_ok a b s : matches (alt a b) s <-> matches (RAlt a b) s.
Proof.
  assert (N : forall x, matches (RAlt RNone x) s <-> matches x s).
  { intros x. split; intros H; [inversion H; subst; [exfalso; eapply matches_none; eassumption|assumption]|apply M_right; exact H]. }
  assert (N' : forall x, matches (RAlt x RNone) s <-> matches x s).
  { intros x. split; intros H; [inversion H; subst; [assumption|exfalso; eapply matches_none; eassumption]|apply M_left; exact H]. }
  destruct a; cbn [alt]; try (symmetry; apply N); destruct b; try tauto; symmetry; apply N'.
Qed.

Lemma deriv_ok r : forall c s, matches (deriv c r) s <-> matches r (c :: s).
Proof.
  induction r; intros c s; cbn [deriv].
  - split; inversion 1.
  - split; inversion 1.
  - destruct (in_set neg l c) eqn:E.
    + split; intros H; inversion H; subst; constructor; assumption.
    + split; intros H; inversion H; subst; congruence.
  - assert (A : matches (seq (deriv c r1) r2) s <-> exists u v, s = u ++ v /\ matches r1 (c :: u) /\ matches r2 v).
    { rewrite seq_ok. split.
      - intros H. inversion H as [| |? ? u v Ha Hb| | | |]; subst. exists u, v. split; [reflexivity|]. rewrite <- IHr1. tauto.
      - intros (u & v & E & Ha & Hb). subst s. constructor; [apply IHr1; exact Ha|exact Hb]. }
    assert (B : matches (RSeq r1 r2) (c :: s) <-> (exists u v, s = u ++ v /\ matches r1 (c :: u) /\ matches r2 v) \/ (matches r1 [] /\ matches r2 (c :: s))).
    { split.
      - intros H. inversion H as [| |? ? u v Ha Hb E E'| | | |]; subst. destruct u as [|d u]; cbn [app] in *.
        + right. subst v. tauto.
        + left. injection E' as -> Es. exists u, v. rewrite Es. tauto.
      - intros [(u & v & -> & Ha & Hb)|[Ha Hb]].
        + change (c :: u ++ v) with ((c :: u) ++ v). constructor; assumption.
        + change (c :: s) with ([] ++ c :: s). constructor; assumption. }
    rewrite B. destruct (nullable r1) eqn:N.
    + rewrite alt_ok. split.
      * intros H. inversion H; subst; [left; apply A; assumption|right; split; [apply nullable_ok; exact N|apply IHr2; assumption]].
      * intros [H|[_ H]]; [apply M_left; apply A; exact H|apply M_right; apply IHr2; exact H].
    + rewrite A. split; [tauto|]. intros [H|[H _]]; [exact H|]. apply nullable_ok in H. congruence.
  - rewrite alt_ok. split; intros H; inversion H; subst; [apply M_left; apply IHr1|apply M_right; apply IHr2|apply M_left; apply IHr1|apply M_right; apply IHr2]; assumption.
  - rewrite seq_ok. split.
    + intros H. inversion H as [| |? ? u v Ha Hb| | | |]; subst. change (c :: u ++ v) with ((c :: u) ++ v). constructor; [apply IHr; exact Ha|exact Hb].
    + intros H. remember (RStar r) as R eqn:ER. remember (c :: s) as T eqn:ET. revert c s ER ET.
      induction H; intros c' s' ER ET; try discriminate. injection ER as ->. destruct s as [|d u]; cbn [app] in ET.
      * apply IHmatches2; [reflexivity|exact ET].
      * injection ET as -> <-. constructor; [apply IHr; assumption|assumption].
Qed.

Lemma longest_unfold r s : longest r s =
  match s with [] => if nullable r then Some O else None
  | c :: s' => match longest (deriv c r) s' with Some n => Some (S n) | None => if nullable r then Some O else None end end.
Proof. destruct r; destruct s as [|c s]; try reflexivity. cbn [deriv nullable]. destruct s; reflexivity. Qed.

Lemma longest_some s : forall r n, longest r s = Some n -> (n <= List.length s)%nat /\ matches r (firstn n s) /\ forall m, (m <= List.length s)%nat -> matches r (firstn m s) -> (m <= n)%nat.
Proof.
  induction s as [|c s IH]; intros r n H; rewrite longest_unfold in H.
  - destruct (nullable r) eqn:N; [|discriminate]. injection H as <-. cbn [firstn List.length]. split; [lia|]. split; [apply nullable_ok; exact N|lia].
  - destruct (longest (deriv c r) s) as [k|] eqn:E.
    + injection H as <-. destruct (IH _ _ E) as (L & M & X). cbn [firstn List.length]. split; [lia|]. split; [apply deriv_ok; exact M|].
      intros [|m] Hm Hx; [lia|]. cbn [firstn List.length] in *. apply deriv_ok in Hx. apply X in Hx; lia.
    + destruct (nullable r) eqn:N; [|discriminate]. injection H as <-. cbn [firstn List.length]. split; [lia|]. split; [apply nullable_ok; exact N|].
      intros [|m] Hm Hx; [lia|]. exfalso. cbn [firstn List.length] in *. apply deriv_ok in Hx.
      assert (D : forall t q k, (k <= List.length t)%nat -> matches q (firstn k t) -> longest q t <> None).
      { clear. induction t as [|c t IH]; intros q k L Hm Hn; rewrite longest_unfold in Hn.
        - rewrite firstn_nil in Hm. apply nullable_ok in Hm. rewrite Hm in Hn. discriminate.
        - destruct (longest (deriv c q) t) eqn:E; [discriminate|]. destruct k as [|k]; cbn [firstn List.length] in *.
          + apply nullable_ok in Hm. rewrite Hm in Hn. discriminate.
          + apply deriv_ok in Hm. apply (IH (deriv c q) k); [lia|exact Hm|exact E]. }
      apply (D s (deriv c r) m); [lia|exact Hx|exact E].
Qed.
Lemma longest_none s : forall r, longest r s = None -> forall m, (m <= List.length s)%nat -> ~ matches r (firstn m s).
Proof.
  induction s as [|c s IH]; intros r H m L Hm; rewrite longest_unfold in H.
  - rewrite firstn_nil in Hm. apply nullable_ok in Hm. rewrite Hm in H. discriminate.
  - destruct (longest (deriv c r) s) eqn:E; [discriminate|]. destruct m as [|m]; cbn [firstn List.length] in *.
    + apply nullable_ok in Hm. rewrite Hm in H. discriminate.
    + apply deriv_ok in Hm. apply (IH (deriv c r) E m); [lia|exact Hm].
Qed.

Lemma prefixb_ok l s : prefixb l s = true <-> exists t, s = l ++ t.
Proof.
  revert s. induction l as [|c l IH]; intros s; cbn [prefixb].
  - split; [exists s; reflexivity|reflexivity].
  - destruct s as [|d s].
    + split; [discriminate|]. intros (t & E). discriminate.
    + rewrite andb_true_iff, Z.eqb_eq, IH. split.
      * intros [-> (t & ->)]. exists t. reflexivity.
      * intros (t & E). injection E as -> ->. split; [reflexivity|exists t; reflexivity].
Qed.
Lemma plen_some p s n : plen p s = Some n -> (n <= List.length s)%nat /\ pmatches p (firstn n s) /\ forall m, (m <= List.length s)%nat -> pmatches p (firstn m s) -> (m <= n)%nat.
Proof.
  destruct p as [l|r]; cbn [plen pmatches]; [|apply longest_some].
  destruct (prefixb l s) eqn:E; [|discriminate]. intros H. injection H as <-. apply prefixb_ok in E as (t & ->).
  rewrite app_length. split; [lia|]. split; [rewrite firstn_app, Nat.sub_diag, firstn_all, app_nil_r; reflexivity|].
  intros m Hm E. apply (f_equal (@List.length Z)) in E. rewrite firstn_length, app_length in E. lia.
Qed.
Lemma plen_none p s m : plen p s = None -> (m <= List.length s)%nat -> ~ pmatches p (firstn m s).
Proof.
  destruct p as [l|r]; cbn [plen pmatches]; [|intros H; apply longest_none; exact H].
  destruct (prefixb l s) eqn:E; [discriminate|]. intros _ L H.
  assert (prefixb l s = true) by (apply prefixb_ok; exists (skipn m s); rewrite <- H, firstn_skipn; reflexivity). congruence.
Qed.
Lemma plen_max p s m : (m <= List.length s)%nat -> pmatches p (firstn m s) -> exists n, plen p s = Some n /\ (m <= n)%nat.
Proof.
  intros L H. destruct (plen p s) as [n|] eqn:E.
  - exists n. split; [reflexivity|]. apply (plen_some p s n E); assumption.
  - exfalso. eapply plen_none; eassumption.
Qed.

(** ** best *)
Definition wins (s : sc) (rs : list rule) (text : str) (i n : nat) (a : action) : Prop :=
  exists r, nth_error rs i = Some r /\ active (r_cond r) s = true /\ r_act r = a /\ plen (r_pat r) text = Some n /\
  forall j q m, nth_error rs j = Some q -> active (r_cond q) s = true -> plen (r_pat q) text = Some m -> (m <= n)%nat /\ ((j < i)%nat -> (m < n)%nat).

Lemma best_none s rs text : best s rs text = None -> forall j q, nth_error rs j = Some q -> active (r_cond q) s = true -> plen (r_pat q) text = None.
Proof.
  induction rs as [|r rs IH]; cbn [best]; intros H [|j] q E A; cbn [nth_error] in E; try discriminate.
  - injection E as ->. rewrite A in H. destruct (plen (r_pat q) text); [|reflexivity]. destruct (best s rs text) as [[m b]|]; [destruct (Nat.ltb n m)|]; discriminate.
  - destruct (active (r_cond r) s); [|eapply IH; eassumption]. destruct (plen (r_pat r) text); [|eapply IH; eassumption].
    destruct (best s rs text) as [[m b]|]; [destruct (Nat.ltb n m)|]; discriminate.
Qed.
Lemma best_wins s rs text n a : best s rs text = Some (n, a) -> exists i, wins s rs text i n a.
Proof.
  revert n a. induction rs as [|r rs IH]; cbn [best]; intros n a H; [discriminate|].
  assert (T : best s rs text = Some (n, a) -> (active (r_cond r) s = true -> forall m, plen (r_pat r) text = Some m -> (m < n)%nat) -> exists i, wins s (r :: rs) text i n a).
  { intros Hb Hr. destruct (IH _ _ Hb) as (i & q & Hq & Aq & Eq & Lq & Mq). exists (S i), q. repeat split; try assumption.
    - destruct j as [|j]; cbn [nth_error] in *; [injection H0 as ->; specialize (Hr H1 _ H2); lia|eapply Mq; eassumption].
    - intros J. destruct j as [|j]; cbn [nth_error] in *; [injection H0 as ->; apply Hr; assumption|eapply Mq; try eassumption; lia]. }
  destruct (active (r_cond r) s) eqn:A; [|apply T; [exact H|congruence]].
  destruct (plen (r_pat r) text) as [k|] eqn:P; [|apply T; [exact H|congruence]].
  destruct (best s rs text) as [[m b]|] eqn:B.
  - destruct (Nat.ltb k m) eqn:K.
    + injection H as -> ->. apply T; [reflexivity|]. intros _ k' E. injection E as <-. apply Nat.ltb_lt in K. exact K.
    + injection H as <- <-. apply Nat.ltb_ge in K. destruct (IH _ _ eq_refl) as (i & q & Hq & Aq & Eq & Lq & Mq).
      exists O, r. repeat split; try assumption; try lia. destruct j as [|j]; cbn [nth_error] in *.
      * injection H as ->. rewrite P in H1. injection H1 as <-. lia.
      * specialize (Mq j q0 m0 H H0 H1). lia.
  - injection H as <- <-. exists O, r. repeat split; try assumption; try lia. destruct j as [|j]; cbn [nth_error] in *.
    + injection H as ->. rewrite P in H1. injection H1 as <-. lia.
    + rewrite (best_none _ _ _ B j q H H0) in H1. discriminate.
Qed.
Lemma wins_fun s rs text i n a j m b : wins s rs text i n a -> wins s rs text j m b -> n = m /\ a = b.
Proof.
  intros (r & Hr & Ar & Er & Lr & Mr) (q & Hq & Aq & Eq & Lq & Mq).
  destruct (Mr j q m Hq Aq Lq) as [X1 X2]. destruct (Mq i r n Hr Ar Lr) as [Y1 Y2].
  assert (n = m) by lia. subst m. split; [reflexivity|]. assert (i = j) by (destruct (Nat.lt_trichotomy i j) as [|[|]]; [specialize (Y2 H); lia|assumption|specialize (X2 H); lia]).
  subst j. rewrite Hr in Hq. injection Hq as <-. congruence.
Qed.
Lemma wins_best s rs text i n a : wins s rs text i n a -> best s rs text = Some (n, a).
Proof.
  intros H. destruct (best s rs text) as [[m b]|] eqn:B.
  - destruct (best_wins _ _ _ _ _ B) as (j & Hj). destruct (wins_fun _ _ _ _ _ _ _ _ _ H Hj) as [-> ->]. reflexivity.
  - destruct H as (r & Hr & Ar & Er & Lr & Mr). rewrite (best_none _ _ _ B i r Hr Ar) in Lr. discriminate.
Qed.
(** flex picks what [best] finds *)
Lemma best_picked s text n a : best s rules text = Some (n, a) <-> exists i, picked s text i n a.
Proof.
  split.
  - intros H. destruct (best_wins _ _ _ _ _ H) as (i & r & Hr & Ar & Er & Lr & Mr). exists i, r. destruct (plen_some _ _ _ Lr) as (L1 & L2 & L3).
    repeat split; try assumption.
    + destruct (plen_max _ _ _ H2 H3) as (k & Hk & Hmk). destruct (Mr j q k H0 H1 Hk). lia.
    + intros J. destruct (plen_max _ _ _ H2 H3) as (k & Hk & Hmk). destruct (Mr j q k H0 H1 Hk) as [_ X]. specialize (X J). lia.
  - intros (i & r & Hr & Ar & Er & Lr & Pr & Mr). apply (wins_best s rules text i n a). destruct (plen_max _ _ _ Lr Pr) as (k & Hk & Hnk).
    destruct (plen_some _ _ _ Hk) as (L1 & L2 & L3). destruct (Mr i r k Hr Ar L1 L2) as [X _]. assert (k = n) by lia. subst k.
    exists r. repeat split; try assumption.
    + destruct (plen_some _ _ _ H1) as (Y1 & Y2 & _). apply (Mr j q m H H0 Y1 Y2).
    + intros J. destruct (plen_some _ _ _ H1) as (Y1 & Y2 & _). apply (Mr j q m H H0 Y1 Y2). exact J.
Qed.

(** ** Checks over all bytes and all rules *)
Definition all_bytes : list Z := map Z.of_nat (List.seq 0 256).
Lemma byte_in c : 0 <= c < 256 -> In c all_bytes.
Proof. intros H. unfold all_bytes. apply in_map_iff. exists (Z.to_nat c). split; [lia|]. apply in_seq. lia. Qed.
Lemma byte_forall (P : Z -> bool) : forallb P all_bytes = true -> forall c, 0 <= c < 256 -> P c = true.
Proof. intros H c Hc. rewrite forallb_forall in H. apply H. apply byte_in. exact Hc. Qed.
Definition indexed : list (nat * rule) := combine (List.seq 0 (List.length rules)) rules.
Lemma indexed_in i r : nth_error rules i = Some r -> In (i, r) indexed.
Proof.
  unfold indexed. generalize rules. intros rs. enough (G : forall k, nth_error rs i = Some r -> In ((k + i)%nat, r) (combine (List.seq k (List.length rs)) rs)) by (apply (G O)).
  revert i. induction rs as [|q rs IH]; intros i k H; [destruct i; discriminate|]. cbn [List.length List.seq combine]. destruct i as [|i]; cbn [nth_error] in H.
  - injection H as ->. left. f_equal. lia.
  - right. replace (k + S i)%nat with (S k + i)%nat by lia. apply IH. exact H.
Qed.
Lemma rule_forall (P : nat -> rule -> bool) : forallb (fun x => P (fst x) (snd x)) indexed = true -> forall i r, nth_error rules i = Some r -> P i r = true.
Proof. intros H i r Hr. rewrite forallb_forall in H. apply (H (i, r)). apply indexed_in. exact Hr. Qed.

(** a pattern that cannot begin with the byte c *)
Definition dead (p : pat) (c : Z) : bool :=
  match p with PLit [] => false | PLit (d :: _) => negb (d =? c) | PRe r => match deriv c r with RNone => true | _ => false end end.
Lemma dead_plen p c s n : dead p c = true -> plen p (c :: s) = Some n -> n = O.
Proof.
  destruct p as [[|d l]|r]; cbn [dead plen]; [discriminate| |].
  - cbn [prefixb]. intros H. apply negb_true_iff in H. rewrite H. discriminate.
  - intros H. rewrite longest_unfold. destruct (deriv c r); try discriminate. rewrite longest_unfold. cbn [nullable].
    destruct s; [|cbn [deriv]; rewrite longest_unfold; cbn [nullable deriv]].
    + destruct (nullable r); intros E; [injection E as <-; reflexivity|discriminate].
    + assert (forall t, longest RNone t = None) as N by (destruct t; reflexivity). destruct s; rewrite ?N; destruct (nullable r); intros E; try discriminate; injection E as <-; reflexivity.
Qed.

(** ** C67 *)
Definition states : list sc := [INITIAL; STRING; STRING_QUOTE; COMMENT; DOC; DOCFILE; BRACKET; QUOTED].
Definition progresses (s : sc) (c : Z) : bool :=
  existsb (fun r => active (r_cond r) s && match r_pat r with PLit [d] => d =? c | PLit _ => false | PRe p => nullable (deriv c p) end) rules.
Lemma progress_all : forallb (fun s => forallb (progresses s) all_bytes) states = true.
Proof. vm_compute. reflexivity. Qed.
Lemma progress s c text : 0 <= c < 256 -> exists n a, best s rules (c :: text) = Some (S n, a).
Proof.
  intros Hc. assert (P : progresses s c = true).
  { apply byte_forall; [|exact Hc]. pose proof progress_all as H. rewrite forallb_forall in H. apply H. destruct s; cbn; tauto. }
  unfold progresses in P. apply existsb_exists in P as (r & Hin & Hr). apply andb_true_iff in Hr as [Ar Pr].
  assert (L : exists k, plen (r_pat r) (c :: text) = Some (S k)).
  { destruct (r_pat r) as [[|d [|e l]]|q]; try discriminate.
    - cbn [plen prefixb]. rewrite Pr. cbn. eexists. reflexivity.
    - cbn [plen]. rewrite longest_unfold. assert (N : matches (deriv c q) (firstn 0 text)) by (apply nullable_ok; exact Pr).
      destruct (longest (deriv c q) text) as [k|] eqn:E; [exists k; reflexivity|]. exfalso. apply (longest_none _ _ E O); [lia|exact N]. }
  destruct L as (k & Hk). apply In_nth_error in Hin as (i & Hi).
  destruct (best s rules (c :: text)) as [[n a]|] eqn:B.
  - destruct (best_wins _ _ _ _ _ B) as (j & q & Hq & Aq & Eq & Lq & Mq). destruct (Mq i r (S k) Hi Ar Hk) as [X _]. destruct n; [lia|]. eauto.
  - rewrite (best_none _ _ _ B i r Hi Ar) in Hk. discriminate.
Qed.

(** stacks of start conditions that occur: a normal one, or a string or a comment on a normal one *)
Inductive normal : list sc -> Prop :=
| N_init : normal [INITIAL]
| N_bracket st : normal st -> normal (BRACKET :: st)
| N_quoted s st : s = STRING \/ s = STRING_QUOTE -> normal st -> normal (QUOTED :: s :: st).
Definition inside (s : sc) : bool := match s with STRING | STRING_QUOTE | COMMENT | DOC | DOCFILE => true | _ => false end.
Inductive good : list sc -> Prop :=
| G_normal st : normal st -> good st
| G_inside s st : inside s = true -> normal st -> good (s :: st).
Lemma normal_hd st : normal st -> (hd INITIAL st = INITIAL \/ hd INITIAL st = BRACKET \/ hd INITIAL st = QUOTED) /\ st <> [].
Proof. destruct 1; cbn; split; auto; discriminate. Qed.

(** what each action needs of the current condition *)
Definition allowed (a : action) (s : sc) : bool :=
  match a with
  | ADoc | ADocFile | APop | AStringEnd | AQuoteEnd => inside s
  | AQuoteStart | AQuoteMid => match s with STRING | STRING_QUOTE => true | _ => false end
  | APopChar => match s with BRACKET => true | _ => false end
  | AQuotedEnd => match s with QUOTED => true | _ => false end
  | APush t => negb (inside s) && inside t
  | APushClear t => negb (inside s) && inside t
  | APushChar t => negb (inside s) && match t with BRACKET => true | _ => false end
  | _ => true
  end.
Lemma allowed_all : forallb (fun x => forallb (fun s => negb (active (r_cond (snd x)) s) || allowed (r_act (snd x)) s) states) indexed = true.
Proof. vm_compute. reflexivity. Qed.
Lemma rule_allowed i r s : nth_error rules i = Some r -> active (r_cond r) s = true -> allowed (r_act r) s = true.
Proof.
  intros Hr A. pose proof (rule_forall (fun _ r => forallb (fun s => negb (active (r_cond r) s) || allowed (r_act r) s) states) allowed_all i r Hr) as H. cbv beta in H.
  rewrite forallb_forall in H. assert (Hs : In s states) by (destruct s; cbn; tauto). specialize (H s Hs). rewrite A in H. exact H.
Qed.
Lemma int_rule : forallb (fun x => match r_act (snd x) with AInt => match r_pat (snd x) with PRe (RSeq (RSet false [(48, 57)]) (RStar (RSet false [(48, 57)]))) => true | _ => false end | _ => true end) indexed = true.
Proof. vm_compute. reflexivity. Qed.
Lemma star_set l s : matches (RStar (RSet false l)) s -> Forall (fun c => in_ranges l c = true) s.
Proof.
  intros H. remember (RStar (RSet false l)) as r eqn:E. induction H; try discriminate; [constructor|].
  injection E as ->. inversion H; subst. constructor; [|apply IHmatches2; reflexivity]. unfold in_set in *. destruct (in_ranges l c); [reflexivity|discriminate].
Qed.
Lemma digits_forall s : matches digits s -> s <> [] /\ Forall (fun c => 48 <= c <= 57) s.
Proof.
  intros H. unfold digits, plus, digit in H. inversion H as [| |? ? u v Ha Hb| | | |]; subst. inversion Ha; subst. apply star_set in Hb. split; [discriminate|].
  assert (T : forall c, in_ranges [(48, 57)] c = true -> 48 <= c <= 57) by (intros d; cbn; lia).
  constructor; [apply T; unfold in_set in *; destruct (in_ranges [(48, 57)] c); [reflexivity|discriminate]|]. eapply Forall_impl; [|exact Hb]. cbv beta. exact T.
Qed.

Lemma strtoint_ok s : forall x, 0 <= x <= LLONG_MAX -> Forall (fun c => 48 <= c <= 57) s ->
  fast_strtointval (ofZ x) s = (let v := fold_left (fun x c => 10 * x + (c - 48)) s x in if v <=? LLONG_MAX then Ok v else Err ArithmeticError).
Proof.
  assert (G : forall s x, 0 <= x -> Forall (fun c => 48 <= c <= 57) s -> x <= fold_left (fun x c => 10 * x + (c - 48)) s x).
  { clear. induction s as [|c s IH]; intros x H F; cbn [fold_left]; [lia|]. inversion F; subst. specialize (IH (10 * x + (c - 48)) ltac:(lia) H3). lia. }
  induction s as [|c s IH]; intros x Hx F; cbn [fast_strtointval fold_left].
  - unfold toInt, ofZ. cbn [iv_inf iv_v]. destruct (x <=? LLONG_MAX) eqn:E; [reflexivity|lia].
  - inversion F as [|? ? Hc F']; subst.
    assert (M : iv_mul (ofZ x) (ofZ 10) = if x * 10 <=? LLONG_MAX then Ok (ofZ (x * 10)) else Err ArithmeticError).
    { unfold iv_mul, ofZ, isFinite. cbn [iv_inf iv_v negb].
      rewrite safeMult_spec; [|unfold fits64, LLONG_MIN, LLONG_MAX in *; lia ..]. unfold fits64b, LLONG_MIN, LLONG_MAX in *.
      destruct (x * 10 <=? 9223372036854775807) eqn:E; destruct (Z.abs (x * 10) <=? 9223372036854775807) eqn:E'; try lia; reflexivity. }
    rewrite M. specialize (G s (10 * x + (c - 48)) ltac:(lia) F'). cbv zeta in *. destruct (x * 10 <=? LLONG_MAX) eqn:E1; cbn [bind].
    + assert (A : iv_add (ofZ (x * 10)) (ofZ (c - 48)) = if x * 10 + (c - 48) <=? LLONG_MAX then Ok (ofZ (x * 10 + (c - 48))) else Err ArithmeticError).
      { unfold iv_add, finite2, ofZ, isFinite. cbn [iv_inf iv_v negb orb].
        rewrite safePlus_spec; [|unfold fits64, LLONG_MIN, LLONG_MAX in *; lia ..].
        replace (fits64b (x * 10 + (c - 48))) with (x * 10 + (c - 48) <=? LLONG_MAX) by (unfold fits64b, LLONG_MIN, LLONG_MAX in *; lia).
        destruct (x * 10 + (c - 48) <=? LLONG_MAX); reflexivity. }
      rewrite A. destruct (x * 10 + (c - 48) <=? LLONG_MAX) eqn:E2; cbn [bind].
      * replace (10 * x + (c - 48)) with (x * 10 + (c - 48)) in * by lia. apply IH; [lia|exact F'].
      * destruct (fold_left _ s _ <=? LLONG_MAX) eqn:E3; [lia|reflexivity].
    + destruct (fold_left _ s _ <=? LLONG_MAX) eqn:E3; [lia|reflexivity].
Qed.
