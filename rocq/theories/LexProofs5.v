(** Identifiers (C38) and integers (C39). *)
Require Import ZArith List Bool String Ascii Lia ZifyBool.
From Verif Require Import Base IntValModel StrModel JsonModel LexModel LexSpec LexProofs LexProofs2 LexProofs3 LexProofs4.
Import ListNotations.
Open Scope Z_scope.

Opaque rules best.

(** ** Identifiers are read back *)
Definition misread : list str := map txt ["infinity"; "variant_record"; "_"]%string.
Lemma in_str (s : str) l : In s l -> existsb (str_eqb s) l = true.
Proof. intros H. apply existsb_exists. exists s. split; [exact H|apply str_eqb_ok; reflexivity]. Qed.
Lemma str_in (s : str) l : existsb (str_eqb s) l = true -> In s l.
Proof. intros H. apply existsb_exists in H as (x & Hx & E). apply str_eqb_ok in E. subst x. exact Hx. Qed.

Lemma keywords_known : forallb (fun k => existsb (str_eqb k) (txt "9223372036854775808" :: reserved ++ misread)) keywords = true.
Proof. vm_compute. reflexivity. Qed.
Lemma qops_known : forallb (fun k => existsb (str_eqb k) keywords || negb (forallb idcharb k)) qops = true.
Proof. vm_compute. reflexivity. Qed.

Lemma strchr_begin c : 0 <= c < 256 -> strchr idBegin c = true -> letterb c = true \/ c = 0.
Proof.
  intros Hc H. assert (X : forallb (fun c => implb (strchr idBegin c) (letterb c || (c =? 0))) all_bytes = true) by (vm_compute; reflexivity).
  pose proof (byte_forall _ X c Hc) as Y. cbv beta in Y. rewrite H in Y. cbn [implb] in Y. apply orb_true_iff in Y as [Y|Y]; [left; exact Y|right; apply Z.eqb_eq; exact Y].
Qed.
Lemma strchr_chars c : 0 <= c < 256 -> strchr idChars c = true -> idcharb c = true \/ c = 0.
Proof.
  intros Hc H. assert (X : forallb (fun c => implb (strchr idChars c) (idcharb c || (c =? 0))) all_bytes = true) by (vm_compute; reflexivity).
  pose proof (byte_forall _ X c Hc) as Y. cbv beta in Y. rewrite H in Y. cbn [implb] in Y. apply orb_true_iff in Y as [Y|Y]; [left; exact Y|right; apply Z.eqb_eq; exact Y].
Qed.
Lemma idchar_quotable c : idcharb c = true -> c <> 39 /\ c <> 10 /\ c <> 13 /\ c <> 0.
Proof. unfold idcharb, in_ranges. cbn [existsb fst snd]. lia. Qed.

Lemma symbol_bare s : s = txt "forall" \/ s = txt "exists" -> matches ident s /\ is_bytes s /\ ~ In s keywords.
Proof.
  intros H. assert (B : forall s, forallb (fun c => (0 <=? c) && (c <? 256)) s = true -> is_bytes s).
  { intros t Ht. rewrite forallb_forall in Ht. apply Forall_forall. intros c Hc. specialize (Ht c Hc). lia. }
  assert (F : forall t, forallb idcharb t = true -> Forall (fun c => idcharb c = true) t) by (intros t Ht; rewrite forallb_forall in Ht; apply Forall_forall; exact Ht).
  split; [|split].
  - apply ident_shape. destruct H as [->| ->].
    + exists [], 102, (txt "orall"). repeat split; [left; reflexivity|apply F; reflexivity].
    + exists [], 101, (txt "xists"). repeat split; [left; reflexivity|apply F; reflexivity].
  - destruct H as [->| ->]; apply B; reflexivity.
  - intros X. apply in_str in X. destruct H as [->| ->]; vm_compute in X; discriminate.
Qed.

Lemma named_facts s : named s -> is_bytes s /\ quotable s /\ ~ In s qops.
Proof.
  assert (G : matches ident s -> is_bytes s -> ~ In s keywords -> is_bytes s /\ quotable s /\ ~ In s qops).
  { intros Hm Hb Hk. pose proof (ident_idchars _ Hm) as F. split; [exact Hb|]. split; [split|].
    - apply ident_shape in Hm as (o & c & t & -> & _). destruct o; discriminate.
    - eapply Forall_impl; [|exact F]. cbv beta. apply idchar_quotable.
    - intros Q. pose proof qops_known as K. rewrite forallb_forall in K. specialize (K s Q). apply orb_true_iff in K as [K|K]; [apply Hk; apply str_in; exact K|].
      apply negb_true_iff in K. assert (forallb idcharb s = true) by (apply forallb_forall; rewrite Forall_forall in F; exact F). congruence. }
  intros [Hm Hb Hk|Hq Hb Hn|Hs]; [apply G; assumption|tauto|]. apply symbol_bare in Hs. apply G; tauto.
Qed.

Lemma lexes_ident st buf s rest toks : normal st -> named s -> ~ In s misread -> breaks rest -> lexes false st buf rest toks -> lexes false st buf (quoteId s ++ rest) (TIdent s :: toks).
Proof.
  intros Hst Hn Hm Hr Hl. destruct (named_facts s Hn) as (Hb & Hq & Hnq). pose proof (normal_in st Hst) as Hs.
  assert (E0 : cstr s = s). { apply cstr_id. intros X. destruct Hq as [_ F]. rewrite Forall_forall in F. specialize (F _ X). tauto. }
  assert (NZ : forall c, In c s -> c <> 0) by (intros c X; destruct Hq as [_ F]; rewrite Forall_forall in F; specialize (F _ X); tauto).
  assert (Quoted : lexes false st buf ((39 :: s ++ [39]) ++ rest) (TIdent s :: toks)).
  { destruct (quoted_best (hd INITIAL st) s rest Hs Hq Hnq) as (a & B & Ha). change (TIdent s :: toks) with (otl (Some (TIdent s)) toks).
    eapply lexes_step; [discriminate|exact B| |exact Hl]. destruct Ha as [->| ->]; cbn [run]; rewrite inner_quoted; reflexivity. }
  unfold quoteId. rewrite E0. destruct (nth 0 s 0 =? 39) eqn:E39.
  { exfalso. destruct Hq as [Hne F]. destruct s as [|c s]; [congruence|]. cbn [nth] in E39. inversion F; subst. lia. }
  set (offset := if nth 0 s 0 =? 95 then 1%nat else 0%nat). destruct (existsb (str_eqb s) reserved) eqn:Er; [exact Quoted|]. cbn [orb].
  destruct (strchr idBegin (nth offset s 0)) eqn:Eb; cbn [negb]; [|exact Quoted].
  destruct (forallb (strchr idChars) (skipn (1 + offset) s)) eqn:Ec; [|exact Quoted].
  assert (Hid : matches ident s).
  { rewrite forallb_forall in Ec. assert (T : forall c, In c (skipn (1 + offset) s) -> idcharb c = true).
    { intros c Hc. assert (Hin : In c s) by (rewrite <- (firstn_skipn (1 + offset) s); apply in_app_iff; right; exact Hc).
      destruct (strchr_chars c) as [X|X]; [|apply Ec; exact Hc|exact X|exfalso; apply (NZ c Hin X)]. unfold is_bytes in Hb. rewrite Forall_forall in Hb. apply Hb. exact Hin. }
    assert (T2 : forall c, In c s -> strchr idBegin c = true -> letterb c = true).
    { intros c Hin Hc. destruct (strchr_begin c) as [X|X]; [|exact Hc|exact X|exfalso; apply (NZ c Hin X)]. unfold is_bytes in Hb. rewrite Forall_forall in Hb. apply Hb. exact Hin. }
    apply ident_shape. destruct s as [|c s]; [destruct Hq; congruence|]. cbn [nth] in offset. unfold offset in *. destruct (c =? 95) eqn:E95.
    - apply Z.eqb_eq in E95. subst c. destruct s as [|c s]; [exfalso; apply Hm; right; right; left; reflexivity|]. cbn [nth skipn Nat.add] in *. exists [95], c, s.
      split; [reflexivity|]. split; [right; reflexivity|]. split; [apply T2; [right; left; reflexivity|exact Eb]|]. apply Forall_forall. exact T.
    - cbn [nth skipn Nat.add] in *. exists [], c, s. split; [reflexivity|]. split; [left; reflexivity|]. split; [apply T2; [left; reflexivity|exact Eb]|]. apply Forall_forall. exact T. }
  assert (Hk : ~ In s keywords).
  { intros K. pose proof keywords_known as X. rewrite forallb_forall in X. specialize (X s K). apply str_in in X. destruct X as [X|X].
    - subst s. apply ident_shape in Hid as (o & c & t & E & Ho & Hc & _). destruct Ho as [->| ->]; cbn [app] in E; injection E; intros; subst; discriminate.
    - apply in_app_iff in X as [X|X]; [apply in_str in X; congruence|tauto]. }
  change (TIdent s :: toks) with (otl (Some (TIdent s)) toks). eapply lexes_step; [destruct Hq; assumption|apply ident_best; assumption|reflexivity|exact Hl].
Qed.

Lemma is_bytes_quoteId s : is_bytes s -> is_bytes (quoteId s).
Proof.
  intros H. assert (C : is_bytes (cstr s)). { clear -H. induction H as [|c s Hc F IH]; [constructor|]. cbn [cstr]. destruct (c =? 0); constructor; assumption. }
  assert (Q : is_bytes (39 :: cstr s ++ [39])) by (constructor; [lia|]; apply is_bytes_app; [exact C|repeat constructor; lia]).
  unfold quoteId. destruct (nth 0 s 0 =? 39); [exact C|]. destruct (existsb (str_eqb (cstr s)) reserved || _); [exact Q|]. destruct (forallb _ _); [exact C|exact Q].
Qed.

Theorem C38_l s rest toks : admitted s -> ~ In s misread -> is_bytes rest -> breaks rest -> lex false rest = Ok toks -> lex false (quoteId s ++ rest) = Ok (TIdent s :: toks).
Proof.
  intros Ha Hm Hb Hr Hl. pose proof (admitted_named s Ha) as Hn. apply lexes_lex.
  - apply lexes_ident; try assumption; [constructor|]. apply lex_lexes. exact Hl.
  - apply is_bytes_app; [|exact Hb]. apply is_bytes_quoteId. apply (named_facts s Hn).
Qed.

(** ** Integers *)
Definition maxneg : str := txt "9223372036854775808".
Definition digitb (c : Z) : bool := in_ranges [(48, 57)] c.
Lemma digitb_ok c : digitb c = true <-> 48 <= c <= 57.
Proof. unfold digitb, in_ranges. cbn [existsb fst snd]. lia. Qed.
Definition k_digits : nat := 29.
Lemma rule_digits : nth_error rules k_digits = Some (R CNorm (PRe digits) AInt).
Proof. vm_compute. reflexivity. Qed.
(** the patterns of the rules that match a text that begins with a digit *)
Definition p_float1 : pat := PRe (RSeq digits (RSeq (chr 46) digits)).
Definition p_float2 : pat := PRe (RSeq digits (RSeq (chr 46) (RSeq digits expo))).
Definition p_float3 : pat := PRe (RSeq digits expo).
Definition p_hex : pat := PRe (RSeq (chr 48) (RSeq xX (LexModel.plus hexd))).
Definition p_oct : pat := PRe (RSeq (chr 48) (RSeq (chr 111) (LexModel.plus octd))).
Definition pat_in (p : pat) (l : list pat) : bool := existsb (pat_eqb p) l.
Definition digit_check (c : Z) : bool :=
  negb (digitb c) || forallb (fun x => negb (active3 (snd x)) || dead (r_pat (snd x)) c
    || (pat_eqb (r_pat (snd x)) (PLit maxneg) && match r_act (snd x) with ASym s => String.eqb s "MZN_MAX_NEGATIVE_INTEGER_LITERAL" | _ => false end && Nat.ltb (fst x) k_digits)
    || (pat_eqb (r_pat (snd x)) (PRe digits) && match r_act (snd x) with AInt => Nat.leb k_digits (fst x) | _ => false end)
    || pat_in (r_pat (snd x)) [p_float1; p_float2; p_float3; PRe hexfloat; p_hex; p_oct] || (pat_eqb (r_pat (snd x)) p_any && Nat.ltb k_digits (fst x))) indexed.
Lemma digit_check_all : forallb digit_check all_bytes = true.
Proof. vm_compute. reflexivity. Qed.

Lemma digits_split u : forall ds x v rest, Forall (fun c => 48 <= c <= 57) u -> Forall (fun c => 48 <= c <= 57) ds -> ~ (48 <= x <= 57) ->
  match rest with [] => True | c :: _ => ~ (48 <= c <= 57) end -> ds ++ rest = u ++ x :: v -> rest = x :: v.
Proof.
  induction u as [|c u IH]; intros [|d ds] x v rest Hu Hd Hx Hr E; cbn [app] in E.
  - exact E.
  - injection E as -> E. inversion Hd; subst. contradiction.
  - subst rest. inversion Hu; subst. contradiction.
  - injection E as -> E. inversion Hu; inversion Hd; subst. eapply IH; eassumption.
Qed.
Lemma ends_digit rest : ends_number rest -> match rest with [] => True | c :: _ => ~ (48 <= c <= 57) end.
Proof. destruct rest; cbn; tauto. Qed.
Lemma cls_inv l w : matches (cls l) w -> exists c, w = [c] /\ in_ranges l c = true.
Proof. unfold cls. intros H. apply set_inv in H as (c & -> & H). rewrite in_set_pos in H. eauto. Qed.
Lemma expo_head w : matches expo w -> exists x v, w = x :: v /\ (x = 101 \/ x = 69).
Proof. unfold expo. intros H. apply seq_inv in H as (a & v & -> & Ha & _). apply cls_inv in Ha as (x & -> & Hx). exists x, v. split; [reflexivity|]. unfold in_ranges in Hx. cbn [existsb fst snd] in Hx. lia. Qed.
Lemma plus_digit_head w : matches digits w -> exists d v, w = d :: v /\ 48 <= d <= 57.
Proof. intros H. apply digits_forall in H as [Hn F]. destruct w as [|d w]; [congruence|]. inversion F; subst. eauto. Qed.
Lemma xX_inv w : matches xX w -> exists x, w = [x] /\ (x = 120 \/ x = 88).
Proof. unfold xX. intros H. apply cls_inv in H as (x & -> & Hx). exists x. split; [reflexivity|]. unfold in_ranges in Hx. cbn [existsb fst snd] in Hx. lia. Qed.

Lemma no_longer p w z ds rest : In p [p_float1; p_float2; p_float3; PRe hexfloat; p_hex; p_oct] -> pmatches p w -> Forall (fun c => 48 <= c <= 57) ds -> ends_number rest ->
  ds ++ rest = w ++ z -> False.
Proof.
  intros Hp Hw Hd Hr E. pose proof (ends_digit _ Hr) as Hr'.
  assert (Dot : forall u v, matches digits u -> (exists d v', v = d :: v' /\ 48 <= d <= 57) -> w = u ++ [46] ++ v -> False).
  { intros u v Hu (d & v' & -> & Hv) ->. apply digits_forall in Hu as [_ Fu]. rewrite <- app_assoc in E. cbn [app] in E.
    apply digits_split in E; try assumption; [|lia]. subst rest. cbn in Hr. destruct Hr as (_ & _ & _ & _ & _ & _ & Hr). specialize (Hr eq_refl). lia. }
  assert (Zero : forall x v, w = 48 :: x :: v -> x = 120 \/ x = 88 \/ x = 111 -> False).
  { intros x v -> Hx. change ((48 :: x :: v) ++ z) with ([48] ++ x :: (v ++ z)) in E. apply digits_split in E; try assumption; [|repeat constructor; lia|lia]. subst rest. cbn in Hr. lia. }
  destruct Hp as [<-|[<-|[<-|[<-|[<-|[<-|[]]]]]]]; cbn [pmatches p_float1 p_float2 p_float3 p_hex p_oct] in Hw.
  - apply seq_inv in Hw as (u & t & -> & Hu & H). apply seq_inv in H as (d & v & -> & Hdot & Hv). apply chr_inv in Hdot as ->. eapply Dot; [exact Hu|apply plus_digit_head; exact Hv|reflexivity].
  - apply seq_inv in Hw as (u & t & -> & Hu & H). apply seq_inv in H as (d & v & -> & Hdot & Hv). apply chr_inv in Hdot as ->. apply seq_inv in Hv as (v1 & v2 & -> & Hv & _). eapply Dot; [exact Hu| |reflexivity].
    apply plus_digit_head in Hv as (d & v' & -> & Hv). exists d, (v' ++ v2). split; [reflexivity|exact Hv].
  - apply seq_inv in Hw as (u & t & -> & Hu & H). apply expo_head in H as (x & v & -> & Hx). apply digits_forall in Hu as [_ Fu]. rewrite <- app_assoc in E. cbn [app] in E.
    apply digits_split in E; try assumption; [|lia]. subst rest. cbn in Hr. lia.
  - unfold hexfloat in Hw. inversion Hw as [| | |? ? ? H|? ? ? H| |]; subst; apply seq_inv in H as (a & t & -> & Ha & H); apply chr_inv in Ha as ->; apply seq_inv in H as (b & v & -> & Hx & _); apply xX_inv in Hx as (x & -> & Hx);
      eapply Zero; [reflexivity|lia|reflexivity|lia].
  - apply seq_inv in Hw as (a & t & -> & Ha & H); apply chr_inv in Ha as ->; apply seq_inv in H as (b & v & -> & Hx & _); apply xX_inv in Hx as (x & -> & Hx). eapply Zero; [reflexivity|lia].
  - apply seq_inv in Hw as (a & t & -> & Ha & H); apply chr_inv in Ha as ->; apply seq_inv in H as (b & v & -> & Hx & _); apply chr_inv in Hx as ->. eapply Zero; [reflexivity|lia].
Qed.

Lemma digits_match ds : ds <> [] -> Forall (fun c => 48 <= c <= 57) ds -> matches digits ds.
Proof.
  intros Hn F. destruct ds as [|c ds]; [congruence|]. inversion F; subst. change (c :: ds) with ([c] ++ ds). unfold digits, LexModel.plus, digit, cls. constructor.
  - constructor. rewrite in_set_pos. apply digitb_ok. assumption.
  - apply star_forall. eapply Forall_impl; [|eassumption]. cbv beta. intros d Hd. rewrite in_set_pos. apply digitb_ok. exact Hd.
Qed.

Definition int_act (ds : str) : action := if str_eqb ds maxneg then ASym "MZN_MAX_NEGATIVE_INTEGER_LITERAL" else AInt.
Lemma rule_maxneg : exists k, nth_error rules k = Some (R CNorm (PLit maxneg) (ASym "MZN_MAX_NEGATIVE_INTEGER_LITERAL")) /\ (k < k_digits)%nat.
Proof. exists 28%nat. split; [vm_compute; reflexivity|unfold k_digits; lia]. Qed.

Lemma digits_best s ds rest : In s normals -> ds <> [] -> Forall (fun c => 48 <= c <= 57) ds -> ends_number rest -> best s rules (ds ++ rest) = Some (List.length ds, int_act ds).
Proof.
  intros Hs Hne Hd Hr. destruct ds as [|c ds]; [congruence|]. set (w := c :: ds) in *. assert (Hc : 48 <= c <= 57) by (inversion Hd; assumption). assert (Hcb : 0 <= c < 256) by lia.
  assert (An : active CNorm s = true) by (destruct Hs as [<-|[<-|[<-|[]]]]; reflexivity).
  assert (Ew : w ++ rest = c :: (ds ++ rest)) by reflexivity.
  destruct (progress s c (ds ++ rest) Hcb) as (n & a & E). rewrite Ew, E.
  destruct (best_inv _ _ _ _ _ Hcb E) as (i & r & Hi & Ai & Ei & Li & Mi & Di & X). rewrite <- Ew in Mi, Li, X.
  assert (K : (List.length w <= S n)%nat /\ ((k_digits < i)%nat -> (List.length w < S n)%nat)).
  { apply (X k_digits _ (List.length w) rule_digits); [exact An|rewrite app_length; lia|]. rewrite firstn_app_l. cbn [r_pat pmatches]. apply digits_match; assumption. }
  assert (B : Forall (fun c => 48 <= c <= 57) (firstn (S n) (w ++ rest)) -> S n = List.length w).
  { intros F. assert ((S n <= List.length w)%nat); [|lia]. apply (run_bound (fun c => 48 <= c <= 57) w rest); [apply ends_digit; exact Hr|exact (proj2 Li)|exact F]. }
  pose proof (byte_forall _ digit_check_all c Hcb) as Y. unfold digit_check in Y. rewrite (proj2 (digitb_ok c) Hc) in Y. cbn [negb orb] in Y. rewrite forallb_forall in Y.
  specialize (Y (i, r) (indexed_in _ _ Hi)). cbn [fst snd] in Y. rewrite (active3_ok r s Hs Ai), Di in Y. cbn [negb orb] in Y. unfold pat_eqb in Y.
  apply orb_true_iff in Y as [Y|Y]; [apply orb_true_iff in Y as [Y|Y]; [apply orb_true_iff in Y as [Y|Y]|]|].
  - apply andb_true_iff in Y as [Y Y2]. apply andb_true_iff in Y as [Y Y1]. destruct (pat_eq_dec (r_pat r) (PLit maxneg)) as [Ep|_]; [|discriminate]. rewrite Ep in Mi. cbn [pmatches] in Mi.
    assert (N : S n = List.length w). { apply B. rewrite Mi. apply Forall_forall. intros d Hd'. assert (G : forallb digitb maxneg = true) by (vm_compute; reflexivity). rewrite forallb_forall in G. apply digitb_ok. apply G. exact Hd'. }
    rewrite N in Mi. rewrite firstn_app_l in Mi. rewrite N. f_equal. f_equal. unfold int_act. rewrite (proj2 (str_eqb_ok w maxneg) Mi).
    subst a. destruct (r_act r); try discriminate. apply String.eqb_eq in Y1. rewrite Y1. reflexivity.
  - apply andb_true_iff in Y as [Y Y1]. destruct (pat_eq_dec (r_pat r) (PRe digits)) as [Ep|_]; [|discriminate]. rewrite Ep in Mi. cbn [pmatches] in Mi. apply digits_forall in Mi as [_ Mi].
    pose proof (B Mi) as N. rewrite N. f_equal. f_equal. unfold int_act. destruct (str_eqb w maxneg) eqn:Em.
    + exfalso. apply str_eqb_ok in Em. destruct rule_maxneg as (k & Hk & Lk). destruct (r_act r) eqn:Ea; try discriminate. apply Nat.leb_le in Y1.
      destruct (X k _ (List.length w) Hk An) as [_ W]; [rewrite app_length; lia|rewrite firstn_app_l; exact Em|]. specialize (W ltac:(lia)). lia.
    + subst a. destruct (r_act r); try discriminate. reflexivity.
  - exfalso. unfold pat_in in Y. apply existsb_exists in Y as (p & Hp & Ep). unfold pat_eqb in Ep. destruct (pat_eq_dec (r_pat r) p) as [Eq|_]; [|discriminate]. rewrite Eq in Mi.
    eapply (no_longer p _ (skipn (S n) (w ++ rest)) w rest Hp Mi Hd Hr). symmetry. apply firstn_skipn.
  - exfalso. apply andb_true_iff in Y as [Y Y1]. destruct (pat_eq_dec (r_pat r) p_any) as [Ep|_]; [|discriminate]. apply Nat.ltb_lt in Y1. rewrite Ep in Mi. cbn [pmatches] in Mi. apply set_len in Mi.
    rewrite firstn_length, Nat.min_l in Mi by lia. destruct K as [_ K]. specialize (K Y1). unfold w in K. cbn [List.length] in K. lia.
Qed.

Lemma decimal_digits ds v : decimal ds v -> ds <> [] /\ Forall (fun c => 48 <= c <= 57) ds /\ fold_left (fun x c => 10 * x + (c - 48)) ds 0 = v.
Proof.
  induction 1 as [c H|l v c Hl (Hn & F & E) H].
  - split; [discriminate|]. split; [repeat constructor; lia|]. cbn [fold_left]. lia.
  - split; [destruct l; discriminate|]. split; [apply Forall_app; split; [exact F|repeat constructor; lia]|]. rewrite fold_left_app, E. reflexivity.
Qed.
Definition int_token (ds : str) (v : Z) : token :=
  if v <=? LLONG_MAX then TInt v else if str_eqb ds maxneg then TSym "MZN_MAX_NEGATIVE_INTEGER_LITERAL" else TSym "MZN_INVALID_INTEGER_LITERAL".
Lemma lexes_int fz st buf ds v rest toks : normal st -> decimal ds v -> ends_number rest -> lexes fz st buf rest toks -> lexes fz st buf (ds ++ rest) (int_token ds v :: toks).
Proof.
  intros Hst Hd Hr Hl. destruct (decimal_digits _ _ Hd) as (Hn & F & E). change (int_token ds v :: toks) with (otl (Some (int_token ds v)) toks).
  eapply lexes_step; [exact Hn|apply digits_best; try assumption; apply normal_in; exact Hst| |exact Hl]. unfold int_act, int_token.
  destruct (str_eqb ds maxneg) eqn:Em.
  - apply str_eqb_ok in Em. subst ds. vm_compute in E. subst v. reflexivity.
  - cbn [run]. rewrite (strtoint_ok ds 0) by (try assumption; unfold LLONG_MAX; lia). cbv zeta. rewrite E. destruct (v <=? LLONG_MAX); reflexivity.
Qed.
Lemma is_bytes_digits ds : Forall (fun c => 48 <= c <= 57) ds -> is_bytes ds.
Proof. apply Forall_impl. lia. Qed.
Theorem C39_l fz ds v rest toks : decimal ds v -> is_bytes rest -> ends_number rest -> lex fz rest = Ok toks -> lex fz (ds ++ rest) = Ok (int_token ds v :: toks).
Proof.
  intros Hd Hb Hr Hl. apply lexes_lex.
  - apply lexes_int; try assumption; [constructor|apply lex_lexes; exact Hl].
  - apply is_bytes_app; [|exact Hb]. apply is_bytes_digits. apply (decimal_digits _ _ Hd).
Qed.
