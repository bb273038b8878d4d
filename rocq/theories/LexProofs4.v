(** Identifiers (C38). *)
Require Import ZArith List Bool String Ascii Lia ZifyBool.
From Verif Require Import Base IntValModel StrModel JsonModel LexModel LexSpec LexProofs LexProofs2 LexProofs3.
Import ListNotations.
Open Scope Z_scope.

Opaque rules best.

Definition normals : list sc := [INITIAL; BRACKET; QUOTED].
Definition active3 (r : rule) : bool := existsb (active (r_cond r)) normals.
Lemma active3_ok r s : In s normals -> active (r_cond r) s = true -> active3 r = true.
Proof. intros H A. unfold active3. apply existsb_exists. exists s. tauto. Qed.
Lemma normal_in st : normal st -> In (hd INITIAL st) normals.
Proof. intros H. destruct (normal_hd _ H) as [[E|[E|E]] _]; rewrite E; cbn; tauto. Qed.

(** ** Bare identifiers *)
Definition letterb (c : Z) : bool := in_ranges [(65, 90); (97, 122)] c.
Definition idcharb (c : Z) : bool := in_ranges [(65, 90); (97, 122); (48, 57); (95, 95)] c.
Lemma idcharb_ok c : idcharb c = true <-> is_idchar c.
Proof. unfold idcharb, is_idchar, is_letter, in_ranges. cbn [existsb fst snd]. lia. Qed.
Lemma letterb_id c : letterb c = true -> idcharb c = true.
Proof. unfold letterb, idcharb, in_ranges. cbn [existsb fst snd]. lia. Qed.
Lemma in_set_pos l c : in_set false l c = in_ranges l c.
Proof. unfold in_set. destruct (in_ranges l c); reflexivity. Qed.

Lemma set_inv neg l w : matches (RSet neg l) w -> exists c, w = [c] /\ in_set neg l c = true.
Proof. inversion 1; subst. eauto. Qed.
Lemma seq_inv a b w : matches (RSeq a b) w -> exists u v, w = u ++ v /\ matches a u /\ matches b v.
Proof. inversion 1; subst. eauto. Qed.
Lemma opt_inv a w : matches (LexModel.opt a) w -> w = [] \/ matches a w.
Proof. unfold LexModel.opt. intros H. inversion H as [| | |? ? ? H'|? ? ? H'| |]; subst; [inversion H'; left; reflexivity|right; assumption]. Qed.
Lemma ident_shape w : matches ident w <-> exists o c t, w = o ++ c :: t /\ (o = [] \/ o = [95]) /\ letterb c = true /\ Forall (fun c => idcharb c = true) t.
Proof.
  unfold ident, chr, letter, idchar, cls. split.
  - intros H. apply seq_inv in H as (o & v & -> & Ho & H). apply seq_inv in H as (x & t & -> & Hx & Ht). apply set_inv in Hx as (c & -> & Hc).
    apply star_set in Ht. rewrite in_set_pos in Hc. exists o, c, t. split; [reflexivity|]. split; [|split; assumption].
    apply opt_inv in Ho as [->|Ho]; [left; reflexivity|right]. apply set_inv in Ho as (d & -> & Hd). rewrite in_set_pos in Hd. unfold in_ranges in Hd. cbn [existsb fst snd] in Hd. f_equal. lia.
  - intros (o & c & t & -> & Ho & Hc & Ht). constructor.
    + destruct Ho as [->| ->]; [apply M_left; constructor|apply M_right; constructor; reflexivity].
    + change (c :: t) with ([c] ++ t). constructor; [constructor; rewrite in_set_pos; exact Hc|]. apply star_forall. eapply Forall_impl; [|exact Ht]. cbv beta. intros d. rewrite in_set_pos. tauto.
Qed.
Lemma ident_idchars w : matches ident w -> Forall (fun c => idcharb c = true) w.
Proof.
  intros H. apply ident_shape in H as (o & c & t & -> & Ho & Hc & Ht). apply Forall_app. split.
  - destruct Ho as [->| ->]; repeat constructor.
  - constructor; [apply letterb_id; exact Hc|exact Ht].
Qed.

Definition lit_id (p : pat) : bool := match p with PLit l => forallb idcharb l | _ => false end.
Definition k_ident : nat := 153.
Lemma rule_ident : nth_error rules k_ident = Some (R CNorm (PRe ident) AIdent).
Proof. vm_compute. reflexivity. Qed.
Definition is_AIdent (a : action) : bool := match a with AIdent => true | _ => false end.
Definition id_check (c : Z) : bool :=
  negb (letterb c || (c =? 95)) || forallb (fun x => negb (active3 (snd x)) || dead (r_pat (snd x)) c || lit_id (r_pat (snd x))
    || (pat_eqb (r_pat (snd x)) (PRe ident) && is_AIdent (r_act (snd x))) || (pat_eqb (r_pat (snd x)) p_any && Nat.ltb k_ident (fst x))) indexed.
Lemma id_check_all : forallb id_check all_bytes = true.
Proof. vm_compute. reflexivity. Qed.

(** the words that are read as something else than identifiers *)
Definition keywords : list str :=
  flat_map (fun r => match r_pat r with PLit l => if active3 r && negb (is_AIdent (r_act r)) && forallb idcharb l then [l] else [] | _ => [] end) rules.

Lemma ident_best s w rest : In s normals -> matches ident w -> is_bytes w -> breaks rest -> ~ In w keywords -> best s rules (w ++ rest) = Some (List.length w, AIdent).
Proof.
  intros Hs Hw Hb Hr Hk. pose proof (ident_idchars _ Hw) as Fw. pose proof Hw as Hshape. apply ident_shape in Hshape as (o & c0 & t & Ew & Ho & Hc0 & _).
  assert (Hd : exists c w', w = c :: w' /\ letterb c || (c =? 95) = true).
  { destruct Ho as [->| ->]; cbn [app] in Ew; subst w; do 2 eexists; (split; [reflexivity|]); [rewrite Hc0|]; reflexivity. }
  destruct Hd as (c & w' & Ec & Hc). clear o c0 t Ew Ho Hc0. assert (Hcb : 0 <= c < 256) by (subst w; inversion Hb; assumption).
  rewrite Ec in *. cbn [app] in *. destruct (progress s c (w' ++ rest) Hcb) as (n & a & E). rewrite E.
  destruct (best_inv _ _ _ _ _ Hcb E) as (i & r & Hi & Ai & Ei & Li & Mi & Di & X).
  assert (K : (List.length (c :: w') <= S n)%nat /\ ((k_ident < i)%nat -> (List.length (c :: w') < S n)%nat)).
  { apply (X k_ident _ (List.length (c :: w')) rule_ident); [destruct Hs as [<-|[<-|[<-|[]]]]; reflexivity|cbn [List.length]; rewrite app_length; lia|].
    change (c :: w' ++ rest) with ((c :: w') ++ rest). rewrite firstn_app_l. exact Hw. }
  assert (B : Forall (fun c => idcharb c = true) (firstn (S n) (c :: w' ++ rest)) -> S n = List.length (c :: w')).
  { intros F. assert ((S n <= List.length (c :: w'))%nat); [|lia]. apply (run_bound (fun c => idcharb c = true) (c :: w') rest); [|exact (proj2 Li)|exact F].
    destruct rest; [exact I|]. rewrite idcharb_ok. exact Hr. }
  pose proof (byte_forall _ id_check_all c Hcb) as Y. unfold id_check in Y. rewrite Hc in Y. cbn [negb orb] in Y. rewrite forallb_forall in Y.
  specialize (Y (i, r) (indexed_in _ _ Hi)). cbn [fst snd] in Y. rewrite (active3_ok r s Hs Ai), Di in Y. cbn [negb orb] in Y. unfold pat_eqb in Y.
  destruct (lit_id (r_pat r)) eqn:Li0.
  - destruct (r_pat r) as [l|] eqn:El; [|discriminate]. cbn [lit_id pmatches] in *.
    assert (N : S n = List.length (c :: w')). { apply B. rewrite Mi. rewrite forallb_forall in Li0. apply Forall_forall. exact Li0. }
    assert (Ew : l = c :: w'). { rewrite <- Mi, N. change (c :: w' ++ rest) with ((c :: w') ++ rest). apply firstn_app_l. }
    destruct (is_AIdent (r_act r)) eqn:Ea.
    + rewrite N. f_equal. f_equal. subst a. destruct (r_act r); try discriminate. reflexivity.
    + exfalso. apply Hk. unfold keywords. apply in_flat_map. exists r. split; [eapply nth_error_In; exact Hi|]. rewrite El, (active3_ok r s Hs Ai), Ea, Li0. cbn [andb negb]. left. exact Ew.
  - cbn [orb] in Y. destruct (pat_eq_dec (r_pat r) (PRe ident)) as [Ep|_].
    + rewrite Ep in Mi. cbn [pmatches] in Mi. rewrite (B (ident_idchars _ Mi)). f_equal. f_equal. subst a. rewrite Ep in Y.
      destruct (is_AIdent (r_act r)) eqn:Ea; [destruct (r_act r); try discriminate; reflexivity|]. cbn [andb orb] in Y.
      destruct (pat_eq_dec (PRe ident) p_any) as [Q|_]; [vm_compute in Q; discriminate Q|discriminate Y].
    + cbn [andb orb] in Y. destruct (pat_eq_dec (r_pat r) p_any) as [Ep|_]; [|discriminate]. cbn [andb] in Y. apply Nat.ltb_lt in Y. exfalso.
      rewrite Ep in Mi. cbn [pmatches] in Mi. apply set_len in Mi. rewrite firstn_length in Mi. cbn [List.length] in *. destruct K as [_ K]. specialize (K Y). lia.
Qed.

(** ** Quoted identifiers *)
Definition quotable (s : str) : Prop := s <> [] /\ Forall (fun c => c <> 39 /\ c <> 10 /\ c <> 13 /\ c <> 0) s.
Definition p_quoted : pat := PRe (RSeq (chr 39) (RSeq (LexModel.plus (ncls [(39, 39); (10, 10); (13, 13); (0, 0)])) (chr 39))).
Definition p_tilde : pat := PRe (RSeq (chr 39) (RSeq (chr 126) (RSeq (cls [(43, 43); (42, 42); (61, 61); (47, 47); (45, 45)]) (chr 39)))).
Lemma chr_inv c w : matches (chr c) w -> w = [c].
Proof. unfold chr. intros H. apply set_inv in H as (d & -> & H). rewrite in_set_pos in H. unfold in_ranges in H. cbn [existsb fst snd] in H. f_equal. lia. Qed.
Lemma matches_chr c : matches (chr c) [c].
Proof. unfold chr. constructor. rewrite in_set_pos. unfold in_ranges. cbn [existsb fst snd]. lia. Qed.
Lemma quoted_shape w : pmatches p_quoted w <-> exists s, w = 39 :: s ++ [39] /\ quotable s.
Proof.
  assert (S : forall c, in_set true [(39, 39); (10, 10); (13, 13); (0, 0)] c = true <-> c <> 39 /\ c <> 10 /\ c <> 13 /\ c <> 0).
  { intros c. unfold in_set, in_ranges. cbn [existsb fst snd]. lia. }
  unfold p_quoted. cbn [pmatches]. split.
  - intros H. apply seq_inv in H as (a & v & -> & Ha & H). apply seq_inv in H as (s & b & -> & H & Hb). apply chr_inv in Ha as ->. apply chr_inv in Hb as ->.
    exists s. split; [reflexivity|]. unfold LexModel.plus in H. apply seq_inv in H as (x & t & -> & Hx & Ht). unfold ncls in Hx. apply set_inv in Hx as (c & -> & Hc). unfold ncls in Ht. apply star_forall in Ht.
    split; [discriminate|]. constructor; [apply S; exact Hc|]. eapply Forall_impl; [|exact Ht]. cbv beta. intros d. apply S.
  - intros (s & -> & Hne & F). change (39 :: s ++ [39]) with ([39] ++ (s ++ [39])). constructor; [apply matches_chr|]. constructor; [|apply matches_chr].
    destruct s as [|c s]; [congruence|]. inversion F; subst. change (c :: s) with ([c] ++ s). unfold LexModel.plus, ncls. constructor; [constructor; apply S; assumption|]. apply star_forall.
    eapply Forall_impl; [|eassumption]. cbv beta. intros d. apply S.
Qed.
Lemma tilde_shape w : pmatches p_tilde w -> exists s, w = 39 :: s ++ [39] /\ quotable s.
Proof.
  unfold p_tilde. cbn [pmatches]. intros H. apply seq_inv in H as (a & v & -> & Ha & H). apply seq_inv in H as (b & v' & -> & Hb & H). apply seq_inv in H as (x & d & -> & Hx & Hd).
  apply chr_inv in Ha as ->. apply chr_inv in Hb as ->. apply chr_inv in Hd as ->. unfold cls in Hx. apply set_inv in Hx as (c & -> & Hc). rewrite in_set_pos in Hc. unfold in_ranges in Hc. cbn [existsb fst snd] in Hc.
  exists [126; c]. split; [reflexivity|]. split; [discriminate|]. repeat constructor; lia.
Qed.
Lemma quote_prefix u s t1 t2 : ~ In 39 u -> ~ In 39 s -> u ++ 39 :: t1 = s ++ 39 :: t2 -> u = s.
Proof.
  revert s. induction u as [|c u IH]; intros [|d s] Hu Hs E; cbn [app] in E; injection E; intros; subst.
  - reflexivity.
  - exfalso. apply Hs. left. reflexivity.
  - exfalso. apply Hu. left. reflexivity.
  - f_equal. apply IH; [intros X; apply Hu; right; exact X|intros X; apply Hs; right; exact X|assumption].
Qed.
Lemma quotable_39 s : quotable s -> ~ In 39 s.
Proof. intros [_ F] H. rewrite Forall_forall in F. specialize (F _ H). tauto. Qed.
Lemma inner_quoted s : inner (39 :: s ++ [39]) = s.
Proof. unfold inner. cbn [tl]. apply removelast_last. Qed.

Definition lit_quoted (p : pat) : bool :=
  match p with PLit l => str_eqb l (39 :: inner l ++ [39]) && negb (existsb (Z.eqb 39) (inner l)) | _ => false end.
(** the quoted operators *)
Definition qops : list str := flat_map (fun r => match r_pat r with PLit l => if active3 r && lit_quoted (r_pat r) then [inner l] else [] | _ => [] end) rules.
Definition k_quoted : nat := 154.
Lemma rule_quoted : nth_error rules k_quoted = Some (R CNorm p_quoted AQuoted).
Proof. vm_compute. reflexivity. Qed.
Lemma q_check : forallb (fun x => negb (active3 (snd x)) || dead (r_pat (snd x)) 39 || lit_quoted (r_pat (snd x))
    || (pat_eqb (r_pat (snd x)) p_quoted && match r_act (snd x) with AQuoted => true | _ => false end)
    || (pat_eqb (r_pat (snd x)) p_tilde && match r_act (snd x) with AIdentInner => true | _ => false end) || (pat_eqb (r_pat (snd x)) p_any && Nat.ltb k_quoted (fst x))) indexed = true.
Proof. vm_compute. reflexivity. Qed.

Lemma str_eqb_ok a b : str_eqb a b = true <-> a = b.
Proof. unfold str_eqb. destruct (list_eq_dec Z.eq_dec a b); split; congruence. Qed.
Lemma lit_quoted_ok l : lit_quoted (PLit l) = true -> l = 39 :: inner l ++ [39] /\ ~ In 39 (inner l).
Proof.
  cbn [lit_quoted]. intros H. apply andb_true_iff in H as [H1 H2]. apply str_eqb_ok in H1. split; [exact H1|]. intros X. apply negb_true_iff in H2.
  assert (existsb (Z.eqb 39) (inner l) = true) by (apply existsb_exists; exists 39; split; [exact X|reflexivity]). congruence.
Qed.

Lemma quoted_best s w rest : In s normals -> quotable w -> ~ In w qops ->
  exists a, best s rules ((39 :: w ++ [39]) ++ rest) = Some (List.length (39 :: w ++ [39]), a) /\ (a = AQuoted \/ a = AIdentInner).
Proof.
  intros Hs Hw Hq. set (m := 39 :: w ++ [39]). assert (Hcb : 0 <= 39 < 256) by lia.
  assert (Em : m ++ rest = 39 :: (w ++ 39 :: rest)) by (unfold m; cbn [app]; rewrite <- app_assoc; reflexivity).
  destruct (progress s 39 (w ++ 39 :: rest) Hcb) as (n & a & E). rewrite Em, E.
  destruct (best_inv _ _ _ _ _ Hcb E) as (i & r & Hi & Ai & Ei & Li & Mi & Di & X). rewrite <- Em in Mi, Li, X.
  assert (K : (List.length m <= S n)%nat /\ ((k_quoted < i)%nat -> (List.length m < S n)%nat)).
  { apply (X k_quoted _ (List.length m) rule_quoted); [destruct Hs as [<-|[<-|[<-|[]]]]; reflexivity|rewrite app_length; lia|].
    rewrite firstn_app_l. cbn [r_pat]. apply quoted_shape. exists w. split; [reflexivity|exact Hw]. }
  assert (B : forall u, firstn (S n) (m ++ rest) = 39 :: u ++ [39] -> ~ In 39 u -> u = w /\ S n = List.length m).
  { intros u Hu Hn. assert (Eu : u = w).
    { rewrite Em in Hu. assert (Et : 39 :: w ++ 39 :: rest = (39 :: u ++ [39]) ++ skipn (S n) (39 :: w ++ 39 :: rest)) by (rewrite <- Hu; symmetry; apply firstn_skipn).
      cbn [app] in Et. rewrite <- app_assoc in Et. cbn [app] in Et. injection Et as Et. symmetry in Et. eapply quote_prefix; [exact Hn|apply quotable_39; exact Hw|exact Et]. }
    split; [exact Eu|]. subst u. apply (f_equal (@List.length Z)) in Hu. rewrite firstn_length, Nat.min_l in Hu by lia. exact Hu. }
  pose proof (rule_forall (fun i r => negb (active3 r) || dead (r_pat r) 39 || lit_quoted (r_pat r)
    || (pat_eqb (r_pat r) p_quoted && match r_act r with AQuoted => true | _ => false end)
    || (pat_eqb (r_pat r) p_tilde && match r_act r with AIdentInner => true | _ => false end) || (pat_eqb (r_pat r) p_any && Nat.ltb k_quoted i)) q_check i r Hi) as Y. cbv beta in Y.
  rewrite (active3_ok r s Hs Ai), Di in Y. cbn [negb orb] in Y. unfold pat_eqb in Y.
  destruct (lit_quoted (r_pat r)) eqn:Lq.
  - exfalso. destruct (r_pat r) as [l|] eqn:El; [|discriminate]. pose proof (lit_quoted_ok _ Lq) as [Hl1 Hl2]. cbn [pmatches] in Mi.
    rewrite Hl1 in Mi. destruct (B _ Mi Hl2) as [Ew _]. apply Hq. unfold qops. apply in_flat_map. exists r. split; [eapply nth_error_In; exact Hi|].
    rewrite El, (active3_ok r s Hs Ai), Lq. cbn [andb]. left. exact Ew.
  - cbn [orb] in Y. destruct (pat_eq_dec (r_pat r) p_quoted) as [Ep|_].
    + rewrite Ep in Mi. apply quoted_shape in Mi as (u & Hu & Qu). destruct (B u Hu (quotable_39 _ Qu)) as [_ N]. rewrite N. exists a. split; [reflexivity|]. rewrite Ep in Y.
      destruct (pat_eq_dec p_quoted p_tilde) as [Z|_]; [vm_compute in Z; discriminate Z|]. destruct (pat_eq_dec p_quoted p_any) as [Z|_]; [vm_compute in Z; discriminate Z|].
      subst a. destruct (r_act r); try discriminate. left. reflexivity.
    + cbn [andb orb] in Y. destruct (pat_eq_dec (r_pat r) p_tilde) as [Ep|_].
      * rewrite Ep in Mi. apply tilde_shape in Mi as (u & Hu & Qu). destruct (B u Hu (quotable_39 _ Qu)) as [_ N]. rewrite N. exists a. split; [reflexivity|]. rewrite Ep in Y.
        destruct (pat_eq_dec p_tilde p_any) as [Z|_]; [vm_compute in Z; discriminate Z|]. subst a. destruct (r_act r); try discriminate. right. reflexivity.
      * cbn [andb orb] in Y. destruct (pat_eq_dec (r_pat r) p_any) as [Ep|_]; [|discriminate]. cbn [andb] in Y. apply Nat.ltb_lt in Y. exfalso.
        rewrite Ep in Mi. cbn [pmatches] in Mi. apply set_len in Mi. rewrite firstn_length in Mi. destruct K as [_ K]. specialize (K Y). unfold m in *. cbn [List.length] in *. rewrite app_length in *. cbn [List.length] in *. lia.
Qed.

(** ** Where identifiers come from *)
Definition ident_act (a : action) : bool := match a with AIdent | AIdentInner | AQuoted | AName _ => true | _ => false end.
Lemma ident_rules : forallb (fun x => negb (ident_act (r_act (snd x))) ||
   match r_cond (snd x) with CNorm => true | _ => false end &&
   match r_act (snd x), r_pat (snd x) with
   | AIdent, PLit l => str_eqb l (txt "_objective")
   | AIdent, p => pat_eqb p (PRe ident) && Nat.leb k_ident (fst x)
   | AQuoted, p => pat_eqb p p_quoted && Nat.leb 151 (fst x)
   | AIdentInner, p => pat_eqb p p_tilde && Nat.leb 151 (fst x)
   | AName s, _ => str_eqb s (txt "forall") || str_eqb s (txt "exists")
   | _, _ => false
   end) indexed = true.
Proof. vm_compute. reflexivity. Qed.
Lemma keyword_rules : forallb (fun x => match r_pat (snd x) with PLit l => negb (active3 (snd x) && negb (is_AIdent (r_act (snd x))) && forallb idcharb l) || Nat.ltb (fst x) k_ident | _ => true end) indexed = true.
Proof. vm_compute. reflexivity. Qed.
Lemma qop_rules : forallb (fun x => negb (active3 (snd x) && lit_quoted (r_pat (snd x))) || Nat.ltb (fst x) 151) indexed = true.
Proof. vm_compute. reflexivity. Qed.
Lemma norm_only : forallb (fun x => match r_pat (snd x) with PLit _ => negb (active3 (snd x)) || forallb (fun s => active (r_cond (snd x)) s || negb (lit_id (r_pat (snd x)) || lit_quoted (r_pat (snd x)))) normals | _ => true end) indexed = true.
Proof. vm_compute. reflexivity. Qed.

Inductive named (s : str) : Prop :=
| Nm_bare : matches ident s -> is_bytes s -> ~ In s keywords -> named s
| Nm_quoted : quotable s -> is_bytes s -> ~ In s qops -> named s
| Nm_symbol : s = txt "forall" \/ s = txt "exists" -> named s.

Lemma is_bytes_firstn n s : is_bytes s -> is_bytes (firstn n s).
Proof. revert s. induction n; intros [|c s] H; cbn [firstn]; try constructor; inversion H; subst; [assumption|apply IHn; assumption]. Qed.

Lemma origin sc0 c text n a s : is_bytes (c :: text) -> best sc0 rules (c :: text) = Some (n, a) -> ident_act a = true ->
  match a with AIdent => s = firstn n (c :: text) | AIdentInner | AQuoted => s = inner (firstn n (c :: text)) | AName s' => s = s' | _ => False end -> named s.
Proof.
  intros Hb B Ha Hs. assert (Hc : 0 <= c < 256) by (inversion Hb; assumption).
  destruct (best_inv _ _ _ _ _ Hc B) as (i & r & Hi & Ai & Ei & Li & Mi & Di & X).
  pose proof (rule_forall (fun i r => negb (ident_act (r_act r)) || match r_cond r with CNorm => true | _ => false end &&
   match r_act r, r_pat r with
   | AIdent, PLit l => str_eqb l (txt "_objective")
   | AIdent, p => pat_eqb p (PRe ident) && Nat.leb k_ident i
   | AQuoted, p => pat_eqb p p_quoted && Nat.leb 151 i
   | AIdentInner, p => pat_eqb p p_tilde && Nat.leb 151 i
   | AName s, _ => str_eqb s (txt "forall") || str_eqb s (txt "exists")
   | _, _ => false
   end) ident_rules i r Hi) as Y. cbv beta in Y. rewrite Ei, Ha in Y. cbn [negb orb] in Y. apply andb_true_iff in Y as [Y1 Y2].
  destruct (r_cond r) eqn:Ec; try discriminate. cbn [active] in Ai.
  assert (Hn : In sc0 normals) by (destruct sc0; try discriminate; cbn; tauto).
  assert (Hbw : is_bytes (firstn n (c :: text))) by (apply is_bytes_firstn; exact Hb).
  assert (PN : forall j q l, nth_error rules j = Some q -> r_pat q = PLit l -> active3 q = true -> lit_id (r_pat q) || lit_quoted (r_pat q) = true -> l = firstn n (c :: text) -> (j < i)%nat -> False).
  { intros j q l Hq El A3 Hl Ew J. pose proof (rule_forall (fun _ r => match r_pat r with PLit _ => negb (active3 r) || forallb (fun s => active (r_cond r) s || negb (lit_id (r_pat r) || lit_quoted (r_pat r))) normals | _ => true end) norm_only j q Hq) as Z. cbv beta in Z.
    rewrite El in Z. rewrite A3 in Z. cbn [negb orb] in Z. rewrite <- El in Z. rewrite forallb_forall in Z. specialize (Z sc0 Hn). rewrite Hl in Z. cbn [negb] in Z. rewrite orb_false_r in Z.
    destruct (X j q n Hq Z (proj2 Li)) as [_ W]; [rewrite El; cbn [pmatches]; symmetry; exact Ew|]. specialize (W J). lia. }
  destruct a; try discriminate Ha.
  - (* AIdent *) subst s. destruct (r_pat r) as [l|p] eqn:Ep.
    + apply str_eqb_ok in Y2. cbn [pmatches] in Mi. rewrite Y2 in Mi. rewrite Mi. apply Nm_bare.
      * apply ident_shape. exists [95], 111, (txt "bjective"). split; [reflexivity|]. split; [right; reflexivity|]. split; [reflexivity|]. apply Forall_forall. apply forallb_forall. reflexivity.
      * rewrite <- Mi. exact Hbw.
      * intros K. assert (existsb (str_eqb (txt "_objective")) keywords = false) by (vm_compute; reflexivity).
        assert (existsb (str_eqb (txt "_objective")) keywords = true) by (apply existsb_exists; eexists; split; [exact K|apply str_eqb_ok; reflexivity]). congruence.
    + apply andb_true_iff in Y2 as [Y2 Y3]. unfold pat_eqb in Y2. destruct (pat_eq_dec (PRe p) (PRe ident)) as [Q|_]; [|discriminate]. injection Q as ->. cbn [pmatches] in Mi. apply Nm_bare; [exact Mi|exact Hbw|].
      intros K. unfold keywords in K. apply in_flat_map in K as (q & Hq & K). destruct (r_pat q) as [l|] eqn:Eq; [|contradiction].
      destruct (active3 q && negb (is_AIdent (r_act q)) && forallb idcharb l) eqn:C; [|contradiction]. destruct K as [K|[]]. apply In_nth_error in Hq as (j & Hj).
      pose proof (rule_forall (fun i r => match r_pat r with PLit l => negb (active3 r && negb (is_AIdent (r_act r)) && forallb idcharb l) || Nat.ltb i k_ident | _ => true end) keyword_rules j q Hj) as Z. cbv beta in Z.
      rewrite Eq, C in Z. cbn [negb orb] in Z. apply Nat.ltb_lt in Z. apply Nat.leb_le in Y3. apply andb_true_iff in C as [C1 C2]. apply andb_true_iff in C1 as [C1 _].
      apply (PN j q l Hj Eq C1); [rewrite Eq; cbn [lit_id]; rewrite C2; reflexivity|exact K|lia].
  - (* AIdentInner *) apply andb_true_iff in Y2 as [Y2 Y3]. unfold pat_eqb in Y2. destruct (pat_eq_dec (r_pat r) p_tilde) as [Q|_]; [|discriminate]. rewrite Q in Mi. apply tilde_shape in Mi as (u & Hu & Qu).
    rewrite Hu, inner_quoted in Hs. subst u. apply Nm_quoted; [exact Qu| |].
    { rewrite Hu in Hbw. inversion Hbw; subst. apply Forall_app in H2. tauto. }
    intros K. unfold qops in K. apply in_flat_map in K as (q & Hq & K). destruct (r_pat q) as [l|] eqn:Eq; [|contradiction].
    destruct (active3 q && lit_quoted (PLit l)) eqn:C; [|contradiction]. destruct K as [K|[]]. apply In_nth_error in Hq as (j & Hj).
    pose proof (rule_forall (fun i r => negb (active3 r && lit_quoted (r_pat r)) || Nat.ltb i 151) qop_rules j q Hj) as Z. cbv beta in Z. rewrite Eq, C in Z. cbn [negb orb] in Z. apply Nat.ltb_lt in Z. apply Nat.leb_le in Y3.
    apply andb_true_iff in C as [C1 C2]. destruct (lit_quoted_ok _ C2) as [L1 _].
    apply (PN j q l Hj Eq C1); [rewrite Eq, C2; apply orb_true_r|rewrite L1, K; symmetry; exact Hu|lia].
  - (* AQuoted *) apply andb_true_iff in Y2 as [Y2 Y3]. unfold pat_eqb in Y2. destruct (pat_eq_dec (r_pat r) p_quoted) as [Q|_]; [|discriminate]. rewrite Q in Mi. apply quoted_shape in Mi as (u & Hu & Qu).
    rewrite Hu, inner_quoted in Hs. subst u. apply Nm_quoted; [exact Qu| |].
    { rewrite Hu in Hbw. inversion Hbw; subst. apply Forall_app in H2. tauto. }
    intros K. unfold qops in K. apply in_flat_map in K as (q & Hq & K). destruct (r_pat q) as [l|] eqn:Eq; [|contradiction].
    destruct (active3 q && lit_quoted (PLit l)) eqn:C; [|contradiction]. destruct K as [K|[]]. apply In_nth_error in Hq as (j & Hj).
    pose proof (rule_forall (fun i r => negb (active3 r && lit_quoted (r_pat r)) || Nat.ltb i 151) qop_rules j q Hj) as Z. cbv beta in Z. rewrite Eq, C in Z. cbn [negb orb] in Z. apply Nat.ltb_lt in Z. apply Nat.leb_le in Y3.
    apply andb_true_iff in C as [C1 C2]. destruct (lit_quoted_ok _ C2) as [L1 _].
    apply (PN j q l Hj Eq C1); [rewrite Eq, C2; apply orb_true_r|rewrite L1, K; symmetry; exact Hu|lia].
  - (* AName *) subst s0. apply Nm_symbol. apply orb_true_iff in Y2 as [Y2|Y2]; apply str_eqb_ok in Y2; tauto.
Qed.

Lemma admitted_named_scan s : forall fuel text st buf toks, is_bytes text -> scan fuel false st buf text = Ok toks -> In (TIdent s) toks -> named s.
Proof.
  induction fuel as [|fuel IH]; intros text st buf toks Hb H Hin; [discriminate|]. cbn [scan] in H.
  assert (T : forall t st' buf' text', is_bytes text' -> emit t (scan fuel false st' buf' text') = Ok toks -> t <> Some (TIdent s) -> named s).
  { intros t st' buf' text' Hb' E Ht. unfold emit in E. apply bind_ok in E as (l & E1 & E2). injection E2 as <-. destruct t as [t|]; [|eapply IH; eassumption].
    destruct Hin as [->|Hin]; [congruence|]. eapply IH; eassumption. }
  destruct text as [|c text].
  - assert (N : forall st', emit (Some (TSym "MZN_UNTERMINATED_STRING")) (scan fuel false st' buf []) = Ok toks -> named s) by (intros st' E; eapply T; [constructor|exact E|discriminate]).
    destruct st as [|sx st]; [|destruct sx]; try (injection H as <-; contradiction); apply bind_ok in H as (st' & _ & H); eapply N; exact H.
  - destruct (best (hd INITIAL st) rules (c :: text)) as [[n a]|] eqn:B; [|eapply T; [|exact H|discriminate]; inversion Hb; assumption].
    apply bind_ok in H as ([[t st'] buf'] & R & H). assert (Hb' : is_bytes (skipn n (c :: text))) by (apply is_bytes_skipn; exact Hb).
    assert (D : t = Some (TIdent s) \/ t <> Some (TIdent s)) by (destruct t as [[]|]; try (right; discriminate); destruct (list_eq_dec Z.eq_dec s0 s); [left; congruence|right; congruence]).
    destruct D as [->|D]; [|eapply T; eassumption].
    destruct a; cbn [run] in R; try (injection R; intros; discriminate);
      try (apply bind_ok in R as (x & _ & R); try (apply bind_ok in R as (x' & _ & R)); injection R; intros; discriminate).
    + eapply origin; [exact Hb|exact B|reflexivity|]. injection R; intros; subst; reflexivity.
    + eapply origin; [exact Hb|exact B|reflexivity|]. injection R; intros; subst; reflexivity.
    + eapply origin; [exact Hb|exact B|reflexivity|]. injection R; intros; subst; reflexivity.
    + eapply origin; [exact Hb|exact B|reflexivity|]. injection R; intros; subst; reflexivity.
    + destruct (fast_strtointval (ofZ 0) (firstn n (c :: text))) as [v|[]|]; try discriminate R; injection R; intros; discriminate.
    + cbv zeta in R. destruct (_ <=? LLONG_MAX); injection R; intros; discriminate.
    + cbv zeta in R. destruct (_ <=? LLONG_MAX); injection R; intros; discriminate.
Qed.
Lemma admitted_named s : admitted s -> named s.
Proof. intros (text & toks & Hb & H & Hin). eapply admitted_named_scan; [exact Hb|exact H|exact Hin]. Qed.
