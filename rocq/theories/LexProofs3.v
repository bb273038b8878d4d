(** String literals and identifiers (C37, C38). *)
Require Import ZArith List Bool String Ascii Lia ZifyBool.
From Verif Require Import Base IntValModel StrModel JsonModel LexModel LexSpec LexProofs LexProofs2.
Import ListNotations.
Open Scope Z_scope.

Opaque rules best.

(** ** The rule that wins, read off its competitors *)
Lemma best_inv s c text n a : 0 <= c < 256 -> best s rules (c :: text) = Some (n, a) ->
  exists i r, nth_error rules i = Some r /\ active (r_cond r) s = true /\ r_act r = a /\ (0 < n <= List.length (c :: text))%nat /\ pmatches (r_pat r) (firstn n (c :: text)) /\
    dead (r_pat r) c = false /\
    forall j q m, nth_error rules j = Some q -> active (r_cond q) s = true -> (m <= List.length (c :: text))%nat -> pmatches (r_pat q) (firstn m (c :: text)) ->
      (m <= n)%nat /\ ((j < i)%nat -> (m < n)%nat).
Proof.
  intros Hc H. destruct (progress s c text Hc) as (k & b & E). rewrite E in H. injection H as <- <-.
  destruct (best_wins _ _ _ _ _ E) as (i & r & Hr & Ar & Er & Lr & Mr). exists i, r. destruct (plen_some _ _ _ Lr) as (L1 & L2 & L3).
  split; [exact Hr|]. split; [exact Ar|]. split; [exact Er|]. split; [lia|]. split; [exact L2|]. split.
  - destruct (dead (r_pat r) c) eqn:D; [|reflexivity]. apply (dead_plen _ _ _ _ D) in Lr. lia.
  - intros j q m Hq Aq Hm Pm. destruct (plen_max _ _ _ Hm Pm) as (x & Hx & Hmx). destruct (Mr j q x Hq Aq Hx) as [X1 X2]. split; [lia|]. intros J. specialize (X2 J). lia.
Qed.

(** ** Strings *)
Definition re_eq_dec : forall a b : re, {a = b} + {a <> b}.
Proof. repeat decide equality. Defined.
Definition pat_eq_dec : forall a b : pat, {a = b} + {a <> b}.
Proof. decide equality; [apply (list_eq_dec Z.eq_dec)|apply re_eq_dec]. Defined.
Definition pat_eqb (a b : pat) : bool := if pat_eq_dec a b then true else false.

Definition plainc (c : Z) : bool := negb ((c =? 92) || (c =? 34) || (c =? 10) || (c =? 13) || (c =? 0)).
Definition p_plain : pat := PRe (RStar (ncls [(92, 92); (34, 34); (10, 10); (13, 13); (0, 0)])).
Definition p_any : pat := PRe (ncls [(10, 10)]).
Definition str_check (c : Z) : bool :=
  negb (plainc c) || forallb (fun x => negb (active (r_cond (snd x)) STRING) || dead (r_pat (snd x)) c
    || (pat_eqb (r_pat (snd x)) p_plain && match r_act (snd x) with AAppend => true | _ => false end) || (pat_eqb (r_pat (snd x)) p_any && Nat.ltb 179 (fst x))) indexed.
Lemma str_check_all : forallb str_check all_bytes = true.
Proof. vm_compute. reflexivity. Qed.
Definition k_plain : nat := 179.
Lemma rule_plain : nth_error rules k_plain = Some (R (CIn [STRING; STRING_QUOTE]) p_plain AAppend).
Proof. vm_compute. reflexivity. Qed.

Lemma plain_set c : in_set true [(92, 92); (34, 34); (10, 10); (13, 13); (0, 0)] c = plainc c.
Proof. unfold in_set, plainc, in_ranges. cbn [existsb fst snd]. destruct (c =? 92) eqn:E1, (c =? 34) eqn:E2, (c =? 10) eqn:E3, (c =? 13) eqn:E4, (c =? 0) eqn:E5; lia. Qed.
Lemma star_forall neg l s : matches (RStar (RSet neg l)) s <-> Forall (fun c => in_set neg l c = true) s.
Proof.
  split.
  - intros H. remember (RStar (RSet neg l)) as r eqn:E. induction H; try discriminate; [constructor|].
    injection E as ->. inversion H; subst. constructor; [assumption|apply IHmatches2; reflexivity].
  - induction 1; [constructor|]. change (x :: l0) with ([x] ++ l0). constructor; [constructor; assumption|assumption].
Qed.
(** a prefix that satisfies P is not longer than what P holds of *)
Lemma run_bound (P : Z -> Prop) m rest k : (match rest with [] => True | c :: _ => ~ P c end) -> (k <= List.length (m ++ rest))%nat -> Forall P (firstn k (m ++ rest)) -> (k <= List.length m)%nat.
Proof.
  intros Hr L F. destruct (le_lt_dec k (List.length m)) as [|G]; [assumption|exfalso]. rewrite firstn_app in F. apply Forall_app in F as [_ F].
  destruct rest as [|c rest]; [rewrite app_nil_r in L; lia|]. destruct (k - List.length m)%nat eqn:E; [lia|]. cbn [firstn] in F. inversion F; subst. contradiction.
Qed.
Lemma firstn_app_l {A} (m rest : list A) : firstn (List.length m) (m ++ rest) = m.
Proof. rewrite firstn_app, Nat.sub_diag, firstn_all, app_nil_r. reflexivity. Qed.

Lemma set_len neg l w : matches (RSet neg l) w -> List.length w = 1%nat.
Proof. inversion 1; reflexivity. Qed.

Lemma plain_best m rest : m <> [] -> is_bytes m -> Forall (fun c => plainc c = true) m -> (match rest with [] => True | c :: _ => plainc c = false end) ->
  best STRING rules (m ++ rest) = Some (List.length m, AAppend).
Proof.
  intros Hm Hb F Hr. destruct m as [|c m]; [congruence|]. inversion Hb as [|? ? Hc _]; subst. inversion F as [|? ? Hp _]; subst.
  destruct (progress STRING c (m ++ rest) Hc) as (n & a & E). cbn [app]. rewrite E.
  destruct (best_inv _ _ _ _ _ Hc E) as (i & r & Hi & Ai & Ei & Li & Mi & Di & X).
  assert (K : (List.length (c :: m) <= S n)%nat /\ ((k_plain < i)%nat -> (List.length (c :: m) < S n)%nat)).
  { apply (X k_plain _ (List.length (c :: m)) rule_plain); [reflexivity|cbn [List.length]; rewrite app_length; lia|].
    change (c :: m ++ rest) with ((c :: m) ++ rest). rewrite firstn_app_l. cbn [r_pat pmatches]. unfold ncls. apply star_forall. eapply Forall_impl; [|exact F]. cbv beta. intros d. rewrite plain_set. tauto. }
  pose proof (byte_forall _ str_check_all c Hc) as Y. unfold str_check in Y. rewrite Hp in Y. cbn [negb orb] in Y. rewrite forallb_forall in Y.
  specialize (Y (i, r) (indexed_in _ _ Hi)). cbn [fst snd] in Y. rewrite Ai, Di in Y. cbn [negb orb] in Y. unfold pat_eqb in Y.
  destruct (pat_eq_dec (r_pat r) p_plain) as [Ep|_].
  - assert (Ea : a = AAppend). { subst a. destruct (r_act r); cbn in Y; try (destruct (pat_eq_dec (r_pat r) p_any); [rewrite Ep in e|]; discriminate). reflexivity. }
    subst a. rewrite Ea. f_equal. f_equal. rewrite Ep in Mi. cbn [pmatches] in Mi. apply star_forall in Mi.
    assert ((S n <= List.length (c :: m))%nat); [|lia]. apply (run_bound (fun c => in_set true [(92, 92); (34, 34); (10, 10); (13, 13); (0, 0)] c = true) (c :: m) rest); [|exact (proj2 Li)|exact Mi].
    destruct rest; [exact I|]. rewrite plain_set. congruence.
  - destruct (pat_eq_dec (r_pat r) p_any) as [Ep|_]; [|discriminate]. cbn [andb orb] in Y. apply Nat.ltb_lt in Y. exfalso.
    rewrite Ep in Mi. cbn [pmatches] in Mi. apply set_len in Mi. rewrite firstn_length in Mi. cbn [List.length] in *.
    destruct K as [_ K]. specialize (K Y). lia.
Qed.

Lemma escape_best d rest : (d = 110 \/ d = 116 \/ d = 34 \/ d = 92) -> best STRING rules (92 :: d :: rest) =
  Some (2%nat, if d =? 110 then AAppendChar 10 else if d =? 116 then AAppendChar 9 else AAppendSecond).
Proof. intros [-> | [-> | [-> | ->]]]; destruct rest as [|x [|y rest]]; vm_compute; reflexivity. Qed.
Lemma close_best rest : best STRING rules (34 :: rest) = Some (1%nat, AStringEnd).
Proof. destruct rest as [|x [|y rest]]; vm_compute; reflexivity. Qed.
Lemma open_best s rest : s = INITIAL \/ s = BRACKET \/ s = QUOTED -> best s rules (34 :: rest) = Some (1%nat, APushClear STRING).
Proof. intros [-> | [-> | ->]]; destruct rest as [|x [|y rest]]; vm_compute; reflexivity. Qed.

Lemma cstr_id s : ~ In 0 s -> cstr s = s.
Proof. induction s as [|c s IH]; intros H; [reflexivity|]. cbn [cstr]. destruct (c =? 0) eqn:E; [exfalso; apply H; left; lia|]. rewrite IH; [reflexivity|]. intros X. apply H. right. exact X. Qed.


(** ** C37 *)
Definition keeps (c : Z) : bool := plainc c && negb (c =? 9).
(** the longest prefix without special characters *)
Lemma span_plain s : exists m r, s = m ++ r /\ Forall (fun c => keeps c = true) m /\ match r with [] => True | c :: _ => keeps c = false end.
Proof.
  induction s as [|c s IH].
  - exists [], []. repeat split. constructor.
  - destruct (keeps c) eqn:E.
    + destruct IH as (m & r & -> & F & H). exists (c :: m), r. repeat split; [constructor; assumption|exact H].
    + exists [], (c :: s). repeat split; [constructor|exact E].
Qed.
Lemma escape_plain m : Forall (fun c => keeps c = true) m -> escapeStringLit m = m.
Proof.
  induction 1 as [|c m H F IH]; [reflexivity|]. unfold escapeStringLit in *. cbn [flat_map]. rewrite IH. unfold keeps, plainc in H.
  destruct (c =? 10) eqn:E1; [lia|]. destruct (c =? 9) eqn:E2; [lia|]. destruct (c =? 34) eqn:E3; [lia|]. destruct (c =? 92) eqn:E4; [lia|]. reflexivity.
Qed.
Lemma escape_app a b : escapeStringLit (a ++ b) = escapeStringLit a ++ escapeStringLit b.
Proof. unfold escapeStringLit. apply flat_map_app. Qed.

Lemma string_body fz st rest toks : normal st -> lexes fz st [] rest toks -> forall n s buf, (List.length s <= n)%nat -> is_bytes s -> ~ In 0 s -> ~ In 13 s -> ~ In 0 buf ->
  lexes fz (STRING :: st) buf (escapeStringLit s ++ 34 :: rest) (TString (buf ++ s) :: toks).
Proof.
  intros Hst Hrest. destruct (normal_hd _ Hst) as [_ Hne].
  assert (E0 : forall buf, ~ In 0 buf -> lexes fz (STRING :: st) buf (34 :: rest) (TString buf :: toks)).
  { intros buf Hb. change (34 :: rest) with ([34] ++ rest). change (TString buf :: toks) with (otl (Some (TString buf)) toks).
    eapply lexes_step; [discriminate|apply close_best| |].
    - cbn [run]. destruct st as [|s0 st]; [congruence|]. cbn [pop bind]. rewrite cstr_id by exact Hb. reflexivity.
    - eapply lexes_buf; [exact Hst|exact Hrest]. }
  induction n as [|n IH]; intros s buf L Hb H0 H13 Hbuf.
  { destruct s; [|cbn in L; lia]. cbn. rewrite app_nil_r. apply E0. exact Hbuf. }
  destruct (span_plain s) as (m & r & -> & F & Hr). rewrite escape_app, (escape_plain m F), <- app_assoc.
  apply Forall_app in Hb as [Hbm Hbr]. rewrite in_app_iff in H0, H13. rewrite app_length in L.
  assert (ER : forall buf', ~ In 0 buf' -> (m = [] -> r <> []) -> lexes fz (STRING :: st) buf' (escapeStringLit r ++ 34 :: rest) (TString (buf' ++ r) :: toks)).
  { intros buf' Hbuf' Hmr. destruct r as [|c r].
    - cbn. rewrite app_nil_r. apply E0. exact Hbuf'.
    - inversion Hbr as [|? ? Hc Hbr']; subst. cbn [In] in H0, H13.
      assert (Hd : exists d, (d = 110 /\ c = 10 \/ d = 116 /\ c = 9 \/ d = 34 /\ c = 34 \/ d = 92 /\ c = 92) /\ escapeStringLit (c :: r) = 92 :: d :: escapeStringLit r).
      { unfold keeps, plainc in Hr. unfold escapeStringLit. cbn [flat_map].
        destruct (c =? 10) eqn:E1; [exists 110; split; [lia|reflexivity]|]. destruct (c =? 9) eqn:E2; [exists 116; split; [lia|reflexivity]|].
        destruct (c =? 34) eqn:E3; [exists 34; split; [lia|reflexivity]|]. destruct (c =? 92) eqn:E4; [exists 92; split; [lia|reflexivity]|]. exfalso. lia. }
      destruct Hd as (d & Hd & ->). cbn [app]. change (92 :: d :: escapeStringLit r ++ 34 :: rest) with ([92; d] ++ escapeStringLit r ++ 34 :: rest).
      change (TString (buf' ++ c :: r) :: toks) with (otl None (TString (buf' ++ c :: r) :: toks)).
      eapply lexes_step; [discriminate|apply escape_best; lia| |].
      + instantiate (1 := buf' ++ [c]). instantiate (1 := STRING :: st).
        destruct Hd as [[-> ->] | [[-> ->] | [[-> ->] | [-> ->]]]]; reflexivity.
      + replace (buf' ++ c :: r) with ((buf' ++ [c]) ++ r) by (rewrite <- app_assoc; reflexivity). apply IH.
        * cbn [List.length] in L. lia.
        * exact Hbr'.
        * tauto.
        * tauto.
        * rewrite in_app_iff. cbn [In]. tauto. }
  destruct m as [|c m].
  - cbn [app]. destruct r as [|c r]; [cbn; rewrite app_nil_r; apply E0; exact Hbuf|]. apply ER; [exact Hbuf|discriminate].
  - change (TString (buf ++ (c :: m) ++ r) :: toks) with (otl None (TString (buf ++ (c :: m) ++ r) :: toks)).
    eapply lexes_step; [discriminate| | |].
    + apply plain_best; [discriminate|exact Hbm|eapply Forall_impl; [|exact F]; cbv beta; intros d Hk; unfold keeps in Hk; apply andb_true_iff in Hk; tauto|].
      destruct r as [|d r]; [reflexivity|]. unfold keeps, plainc in Hr. unfold escapeStringLit. cbn [flat_map]. cbn [In] in H0, H13.
      destruct (d =? 10) eqn:E1; [reflexivity|]. destruct (d =? 9) eqn:E2; [reflexivity|]. destruct (d =? 34) eqn:E3; [reflexivity|].
      destruct (d =? 92) eqn:E4; [reflexivity|]. exfalso. assert (d <> 0) by (intros ->; tauto). assert (d <> 13) by (intros ->; tauto). lia.
    + cbn [run]. rewrite cstr_id by tauto. reflexivity.
    + rewrite app_assoc. apply ER; [rewrite in_app_iff; tauto|discriminate].
Qed.

Lemma lexes_string fz st buf s rest toks : normal st -> is_bytes s -> ~ In 0 s -> ~ In 13 s -> lexes fz st [] rest toks ->
  lexes fz st buf (34 :: escapeStringLit s ++ 34 :: rest) (TString s :: toks).
Proof.
  intros Hst Hb H0 H13 Hr. change (34 :: escapeStringLit s ++ 34 :: rest) with ([34] ++ escapeStringLit s ++ 34 :: rest).
  change (TString s :: toks) with (otl None (TString ([] ++ s) :: toks)).
  eapply lexes_step; [discriminate|apply open_best; apply (normal_hd _ Hst)|reflexivity|].
  apply (string_body fz st rest toks Hst Hr (List.length s)); auto.
Qed.
Lemma is_bytes_app a b : is_bytes a -> is_bytes b -> is_bytes (a ++ b).
Proof. intros. apply Forall_app. split; assumption. Qed.
Lemma is_bytes_escape s : is_bytes s -> is_bytes (escapeStringLit s).
Proof.
  induction 1 as [|c s H F IH]; [constructor|]. unfold escapeStringLit in *. cbn [flat_map]. apply is_bytes_app; [|exact IH].
  destruct (c =? 10); [repeat constructor; lia|]. destruct (c =? 9); [repeat constructor; lia|]. destruct (c =? 34); [repeat constructor; lia|].
  destruct (c =? 92); [repeat constructor; lia|]. repeat constructor; lia.
Qed.

Theorem C37_l fz s rest toks : is_bytes s -> is_bytes rest -> ~ In 0 s -> ~ In 13 s -> lex fz rest = Ok toks ->
  lex fz (34 :: escapeStringLit s ++ 34 :: rest) = Ok (TString s :: toks).
Proof.
  intros Hb Hr H0 H13 H. apply lexes_lex.
  - apply lexes_string; try assumption; [constructor|]. apply lex_lexes. exact H.
  - constructor; [lia|]. apply is_bytes_app; [apply is_bytes_escape; exact Hb|constructor; [lia|exact Hr]].
Qed.
