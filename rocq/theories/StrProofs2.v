(** Proofs for C50 and C57: interning and comparison of strings. *)
Require Import ZArith List Bool Lia.
From Verif Require Import Base ArrModel DenseModel DenseProofs StrModel StrSpec StrProofs.
Import ListNotations.
Open Scope Z_scope.

Lemma nf_cons : forall c s, nul_free (c :: s) -> c <> 0 /\ nul_free s.
Proof. unfold nul_free. intros c s H. split; [intros ->; apply H; now left|intros Q; apply H; now right]. Qed.

Lemma strncmp_eq : forall n a b, nul_free a -> (n <= length a)%nat -> (n <= length b)%nat ->
  (strncmp n a b = 0 <-> firstn n a = firstn n b).
Proof.
  induction n as [|n IH]; intros a b NA LA LB; [cbn; tauto|].
  destruct a as [|x a]; [cbn in LA; lia|]. destruct b as [|y b]; [cbn in LB; lia|]. cbn [length] in LA, LB.
  apply nf_cons in NA. destruct NA as [Nx NA]. cbn [strncmp hd tl firstn]. destruct (Z.eqb_spec x y).
  - subst y. destruct (Z.eqb_spec x 0); [contradiction|]. rewrite IH by (auto; lia). split; [congruence|]. intros Q. now injection Q.
  - split; [lia|]. intros Q. injection Q as Q _. contradiction.
Qed.
Lemma len_eq : forall a b, (len a =? len b) = true <-> length a = length b.
Proof. intros. unfold len. rewrite Z.eqb_eq. lia. Qed.
Lemma len_zero : forall a, (len a =? 0) = true <-> a = [].
Proof. intros a. unfold len. rewrite Z.eqb_eq. destruct a; cbn [length]; split; intros; auto; try lia; discriminate. Qed.

Lemma strncmp_full : forall a b, nul_free a -> length a = length b -> (strncmp (length a) a b = 0 <-> a = b).
Proof. intros a b N L. rewrite strncmp_eq by (auto; lia). rewrite L at 2. rewrite !firstn_all. tauto. Qed.
Lemma cstr_eq_ok : forall a b, nul_free a -> (cstr_eq a b = true <-> a = b).
Proof.
  intros a b N. unfold cstr_eq. rewrite andb_true_iff, len_eq, Z.eqb_eq. split.
  - intros [L E]. now apply strncmp_full in E.
  - intros ->. split; [reflexivity|]. now apply strncmp_full.
Qed.
Lemma eq_string_ok : forall a b, nul_free a -> (eq_string a b = true <-> a = b).
Proof.
  intros a b N. unfold eq_string. rewrite andb_true_iff, orb_true_iff, len_eq, len_zero, Z.eqb_eq. split.
  - intros [L [-> |E]]; [destruct b; [auto|discriminate]|]. now apply strncmp_full in E.
  - intros ->. split; [reflexivity|]. right. now apply strncmp_full.
Qed.
Lemma ne_string_ok : forall a b, ne_string a b = negb (eq_string a b).
Proof. intros. unfold ne_string, eq_string. now rewrite negb_andb, negb_orb. Qed.
Lemma strlen_le : forall b, (strlen b <= length b)%nat.
Proof. induction b as [|c b IH]; cbn; [lia|]. destruct (c =? 0); lia. Qed.
Lemma strlen_nf : forall b, nul_free (firstn (strlen b) b).
Proof.
  induction b as [|c b IH]; cbn; [intros []|]. destruct (Z.eqb_spec c 0); cbn; [intros []|]. intros [->|Q]; [congruence|auto].
Qed.
Lemma strncmp_sym0 : forall n a b, strncmp n a b = 0 <-> strncmp n b a = 0.
Proof.
  induction n as [|n IH]; intros a b; [tauto|]. cbn [strncmp]. rewrite (Z.eqb_sym (hd 0 b)).
  destruct (Z.eqb_spec (hd 0 a) (hd 0 b)) as [E|E]; [rewrite E; destruct (hd 0 b =? 0); [tauto|apply IH]|lia].
Qed.
Lemma eq_cstr_ok : forall a b, eq_cstr a b = true <-> a = firstn (strlen b) b.
Proof.
  intros a b. pose proof (strlen_le b) as L. unfold eq_cstr. rewrite andb_true_iff, orb_true_iff, !Z.eqb_eq.
  assert (S : forall n b, strlen (firstn n b) = Nat.min n (strlen b)).
  { clear. induction n; intros [|c b]; cbn; auto. destruct (c =? 0); cbn; auto. }
  assert (X : length a = strlen b -> (strncmp (strlen b) a b = 0 <-> a = firstn (strlen b) b)).
  { intros E. assert (C : forall n u v, (n <= length v)%nat -> strncmp n u v = 0 <-> strncmp n u (firstn n v) = 0).
    { clear. induction n as [|n IH]; intros u v H; [cbn; tauto|]. destruct v as [|y v]; [cbn in H; lia|]. cbn [strncmp hd tl firstn].
      destruct (hd 0 u =? y); [|tauto]. destruct (hd 0 u =? 0); [tauto|]. apply IH. cbn in H. lia. }
    rewrite C by auto. rewrite strncmp_sym0, strncmp_eq; [|apply strlen_nf|rewrite firstn_length; lia|lia].
    rewrite firstn_firstn, Nat.min_id. rewrite <- E, firstn_all. split; congruence. }
  split.
  - intros [E1 [E2|E2]].
    + assert (E3 : strlen b = O) by lia. unfold len in E1. rewrite E3 in *. destruct a; [reflexivity|cbn in E1; lia].
    + apply X; [unfold len in E1; lia|auto].
  - intros E. assert (LA : length a = strlen b) by (rewrite E, firstn_length; lia). split; [unfold len; lia|]. right. now apply X.
Qed.

(** order *)
Lemma lt_loop : forall a b, nul_free a -> nul_free b ->
  let cmp := strncmp (Nat.min (length a) (length b)) a b in
  ((if cmp =? 0 then len a <? len b else cmp <? 0) = true <-> lex a b).
Proof.
  induction a as [|x a IH]; intros b NA NB; cbn zeta.
  - cbn [length Nat.min strncmp]. destruct b as [|y b].
    + split; [intros H; vm_compute in H; discriminate|intros H; inversion H].
    + split; [constructor|]. intros _. change (0 =? 0) with true. cbv iota. apply Z.ltb_lt. unfold len. cbn [length]. lia.
  - destruct b as [|y b].
    + cbn [length Nat.min strncmp]. change (0 =? 0) with true. cbv iota. split; [|intros H; inversion H].
      intros H. apply Z.ltb_lt in H. unfold len in H. cbn [length] in H. lia.
    + apply nf_cons in NA, NB. destruct NA as [Nx NA], NB as [Ny NB]. cbn [length Nat.min strncmp hd tl].
      destruct (Z.eqb_spec x y).
      * subst y. destruct (Z.eqb_spec x 0); [contradiction|]. rewrite !len_cons.
        assert ((len a + 1 <? len b + 1) = (len a <? len b)) as -> by (destruct (Z.ltb_spec (len a) (len b)); [apply Z.ltb_lt|apply Z.ltb_ge]; lia).
        pose proof (IH b NA NB) as HI. cbn zeta in HI. rewrite HI. split; [intros Q; now apply Lex_eq|]. intros Q. inversion Q; subst; [lia|auto].
      * destruct (Z.eqb_spec (x - y) 0); [lia|]. rewrite Z.ltb_lt. split; [intros; apply Lex_lt; lia|]. intros H. inversion H; subst; [lia|congruence].
Qed.
Lemma str_lt_ok : forall a b, nul_free a -> nul_free b -> (str_lt a b = true <-> lex a b).
Proof.
  intros a b NA NB. unfold str_lt. destruct (len a =? 0) eqn:E.
  - apply len_zero in E. subst a. rewrite negb_true_iff. destruct b as [|y b].
    + split; [discriminate|intros H; inversion H].
    + split; [constructor|reflexivity].
  - now apply lt_loop.
Qed.
Lemma lex_irrefl : forall a, ~ lex a a.
Proof. induction a; intros H; inversion H; subst; [lia|auto]. Qed.
Lemma lex_trans : forall a b c, lex a b -> lex b c -> lex a c.
Proof.
  intros a b c H. revert c. induction H as [x s|x y s s' L|x s s' H IH]; intros c H2; inversion H2; subst;
    first [apply Lex_nil | apply Lex_lt; lia | apply Lex_eq; auto].
Qed.
Lemma lex_total : forall a b, lex a b \/ a = b \/ lex b a.
Proof.
  induction a as [|x a IH]; intros [|y b]; [auto|left; constructor|right; right; constructor|].
  destruct (Z.lt_trichotomy x y) as [L|[->|L]]; [left; now apply Lex_lt| |right; right; now apply Lex_lt].
  destruct (IH b) as [H|[->|H]]; [left; now apply Lex_eq|auto|right; right; now apply Lex_eq].
Qed.

(** prefixes, suffixes, substrings *)
Lemma begins_ok : forall a b, nul_free b -> (begins_with a b = true <-> exists r, a = b ++ r).
Proof.
  intros a b N. unfold begins_with. rewrite andb_true_iff, orb_true_iff, len_zero, Z.eqb_eq, Z.leb_le, strncmp_sym0.
  split.
  - intros [L [-> |E]].
    + exists []. destruct b; [reflexivity|unfold len in L; cbn in L; lia].
    + unfold len in L. apply strncmp_eq in E; [|auto|lia|lia]. rewrite firstn_all in E. exists (skipn (length b) a).
      rewrite E at 1. symmetry. apply firstn_skipn.
  - intros [r ->]. unfold len. rewrite app_length. split; [lia|]. right. apply strncmp_eq; [auto|lia|rewrite app_length; lia|].
    rewrite firstn_all, firstn_app, firstn_all, Nat.sub_diag. cbn. now rewrite app_nil_r.
Qed.
Lemma ends_ok : forall a b, nul_free b -> (ends_with a b = true <-> exists r, a = r ++ b).
Proof.
  intros a b N. unfold ends_with. rewrite andb_true_iff, orb_true_iff, len_zero, Z.eqb_eq, Z.leb_le, strncmp_sym0.
  split.
  - intros [L [-> |E]].
    + exists []. destruct b; [reflexivity|unfold len in L; cbn in L; lia].
    + unfold len in L. set (k := (length a - length b)%nat) in *. assert (LS : length (skipn k a) = length b) by (rewrite skipn_length; lia).
      apply strncmp_full in E; [|auto|auto]. exists (firstn k a). rewrite E at 1. symmetry. apply firstn_skipn.
  - intros [r ->]. unfold len. rewrite app_length. split; [lia|]. right.
    replace (length r + length b - length b)%nat with (length r) by lia.
    rewrite skipn_app, skipn_all, Nat.sub_diag. cbn. apply strncmp_full; auto.
Qed.
Lemma substr_ok : forall a pos count r, 0 <= pos -> match count with Some c => 0 <= c | None => True end ->
  (substr a pos count = Ok r <->
   exists p q, a = p ++ r ++ q /\ len p = pos /\ match count with None => q = [] | Some c => len r = c \/ (len r < c /\ q = []) end).
Proof.
  intros a pos count r P0 C0. unfold substr. destruct (Z.ltb_spec (len a) pos).
  - split; [discriminate|]. intros (p & q & -> & L & _). unfold len in *. rewrite !app_length in H. lia.
  - set (k := Z.to_nat pos). assert (KL : (k <= length a)%nat) by (unfold k, len in *; lia).
    assert (SL : length (skipn k a) = (length a - k)%nat) by apply skipn_length.
    assert (LF : len (firstn k a) = pos) by (unfold len, k; rewrite firstn_length; unfold k in KL; lia).
    destruct count as [c|].
    + set (n := Z.to_nat (Z.min (len a - pos) c)). split.
      * intros [= <-]. exists (firstn k a), (skipn n (skipn k a)). split; [now rewrite !firstn_skipn|]. split; [auto|].
        unfold len at 1 2. rewrite firstn_length, SL. unfold n, len in *. destruct (Z.le_gt_cases c (Z.of_nat (length a) - pos)).
        -- left. lia.
        -- right. split; [lia|]. apply length_zero_iff_nil. rewrite skipn_length, SL. lia.
      * intros (p & q & E & L & Q). f_equal.
        assert (K : k = length p) by (unfold k, len in *; lia). subst a. rewrite K, skipn_app, skipn_all, Nat.sub_diag. cbn [app skipn].
        unfold n, len in *. rewrite !app_length in *. destruct Q as [Q|[Q1 Q2]].
        -- replace (Z.to_nat _) with (length r) by lia. rewrite firstn_app, firstn_all, Nat.sub_diag. cbn. now rewrite app_nil_r.
        -- subst q. rewrite app_nil_r. apply firstn_all2. cbn in *. lia.
    + split.
      * intros [= <-]. exists (firstn k a), []. rewrite app_nil_r. split; [|auto]. rewrite (firstn_all2 (skipn k a)); [now rewrite firstn_skipn|].
        rewrite SL. unfold len, k. lia.
      * intros (p & q & E & L & Q). subst q. rewrite app_nil_r in E. f_equal.
        assert (K : k = length p) by (unfold k, len in *; lia). subst a. rewrite K, skipn_app, skipn_all, Nat.sub_diag. cbn [app skipn].
        apply firstn_all2. unfold len in *. rewrite app_length. lia.
Qed.
Lemma find_from_ok : forall a ch i, match find_from a ch i with
    | Some k => exists p q, a = p ++ ch :: q /\ ~ In ch p /\ k = i + len p
    | None => ~ In ch a
    end.
Proof.
  induction a as [|c a IH]; intros ch i; cbn [find_from]; [intros []|]. destruct (Z.eqb_spec c ch).
  - subst. exists [], a. split; [reflexivity|]. split; [intros []|]. cbn. lia.
  - specialize (IH ch (i + 1)). destruct (find_from a ch (i + 1)) as [k|].
    + destruct IH as (p & q & -> & N & ->). exists (c :: p), q. split; [reflexivity|]. split; [intros [?|?]; auto|]. rewrite len_cons. lia.
    + intros [?|?]; auto.
Qed.
Lemma find_char_ok : forall a ch pos, 0 <= pos ->
  match find_char a ch pos with
  | Some k => pos <= k /\ nth_error a (Z.to_nat k) = Some ch /\ forall j, pos <= j < k -> nth_error a (Z.to_nat j) <> Some ch
  | None => forall j, pos <= j -> nth_error a (Z.to_nat j) <> Some ch
  end.
Proof.
  intros a ch pos P0. unfold find_char. destruct (Z.leb_spec (len a) pos).
  - intros j Hj E. assert (Z.to_nat j < length a)%nat by (apply nth_error_Some; congruence). unfold len in H. lia.
  - pose proof (find_from_ok (skipn (Z.to_nat pos) a) ch pos) as F.
    assert (SK : forall j, pos <= j -> nth_error a (Z.to_nat j) = nth_error (skipn (Z.to_nat pos) a) (Z.to_nat (j - pos))).
    { intros j Hj. rewrite nth_skipn. f_equal. lia. }
    destruct (find_from _ ch pos) as [k|].
    + destruct F as (p & q & E & N & ->). pose proof (len_nonneg p). split; [lia|]. split.
      * rewrite SK by lia. rewrite E. replace (Z.to_nat (pos + len p - pos)) with (length p) by (unfold len; lia).
        rewrite nth_error_app2, Nat.sub_diag by lia. reflexivity.
      * intros j Hj Q. rewrite SK in Q by lia. rewrite E in Q. rewrite nth_error_app1 in Q by (unfold len in Hj; lia).
        apply nth_error_In in Q. contradiction.
    + intros j Hj Q. rewrite SK in Q by lia. apply nth_error_In in Q. contradiction.
Qed.

Lemma last_loop_ok : forall a ch i, (i < length a)%nat ->
  match last_loop a ch i with
  | Ok k => 0 <= k <= Z.of_nat i /\ nth_error a (Z.to_nat k) = Some ch /\ forall j, k < j <= Z.of_nat i -> nth_error a (Z.to_nat j) <> Some ch
  | Err _ => False
  | UB => forall j, (j <= i)%nat -> nth_error a j <> Some ch
  end.
Proof.
  intros a ch. induction i as [|i IH]; intros L; cbn [last_loop].
  - destruct (nth_error a 0) as [c|] eqn:E; [|apply nth_error_None in E; lia].
    rewrite (at_some _ _ 0 c E). cbn [bind]. destruct (Z.eqb_spec c ch).
    + subst. split; [lia|]. split; [exact E|]. intros; lia.
    + intros j Hj. assert (j = O) by lia. subst. congruence.
  - destruct (nth_error a (S i)) as [c|] eqn:E; [|apply nth_error_None in E; lia].
    rewrite (at_some _ _ (S i) c E). cbn [bind]. destruct (Z.eqb_spec c ch).
    + subst. split; [lia|]. split; [rewrite Nat2Z.id; exact E|]. intros; lia.
    + specialize (IH ltac:(lia)). destruct (last_loop a ch i) as [k|e|]; [|auto|].
      * destruct IH as (A & B & C). split; [lia|]. split; [auto|]. intros j Hj. destruct (Z.eq_dec j (Z.of_nat (S i))).
        -- subst. rewrite Nat2Z.id. congruence.
        -- apply C. lia.
      * intros j Hj. destruct (Nat.eq_dec j (S i)); [subst; congruence|]. apply IH. lia.
Qed.

(** interning *)
Record iinv (i : interner) (h : handles) : Prop := mkInv {
  v_key : NoDup (map fst (i_map i));
  v_adr : NoDup (map fst (i_live i));
  v_ent : forall s a, In (s, a) (i_map i) <-> content a (i_live i) = Some s;
  v_nf  : forall s a, In (s, a) (i_map i) -> nul_free s /\ s <> [];
  v_han : forall s a, In (s, Some a) h -> content a (i_live i) = Some s /\ s <> [];
  v_nul : forall s, In (s, None) h -> s = []
}.

Lemma ifind_some : forall s m a, (forall k x, In (k, x) m -> nul_free k) -> ifind s m = Some a -> In (s, a) m.
Proof.
  induction m as [|[k x] m IH]; cbn; intros a N E; [discriminate|]. destruct (_ && _) eqn:C.
  - injection E as <-. apply andb_true_iff in C. destruct C as [_ C]. apply cstr_eq_ok in C; [|apply (N k x); now left]. subst. now left.
  - right. apply IH; auto. intros k' x' Q. eapply N. right; eauto.
Qed.
Lemma ifind_none : forall s m, (forall k x, In (k, x) m -> nul_free k) -> ifind s m = None -> ~ In s (map fst m).
Proof.
  induction m as [|[k x] m IH]; cbn; intros N E; [intros []|]. destruct (_ && _) eqn:C; [discriminate|]. intros [Q|Q].
  - subst. rewrite Z.eqb_refl in C. cbn in C. assert (cstr_eq s s = true) by (apply cstr_eq_ok; [apply (N s x); now left|auto]). congruence.
  - apply IH; auto. intros k' x' Q'. eapply N. right; eauto.
Qed.
Lemma ierase_in : forall s m, (forall k x, In (k, x) m -> nul_free k) -> NoDup (map fst m) ->
  NoDup (map fst (ierase s m)) /\ forall k a, In (k, a) (ierase s m) <-> In (k, a) m /\ k <> s.
Proof.
  induction m as [|[k x] m IH]; cbn [ierase map fst]; intros N D; [split; [constructor|cbn; tauto]|]. inversion D; subst.
  assert (N' : forall k x, In (k, x) m -> nul_free k) by (intros k' x' Q'; eapply N; right; eauto).
  destruct (_ && _) eqn:C.
  - apply andb_true_iff in C. destruct C as [_ C]. apply cstr_eq_ok in C; [|apply (N k x); now left]. subst k. split; [auto|].
    intros k a. split.
    + intros Q. split; [now right|]. intros ->. apply H1. now apply (in_map fst) in Q.
    + intros [[Q|Q] NE]; [injection Q as -> ->; congruence|auto].
  - destruct (IH N' H2) as [I1 I2]. split.
    + cbn. constructor; auto. intros Q. apply in_map_iff in Q. destruct Q as ([k' a] & Ek & Q). cbn in Ek. subst k'. apply I2 in Q.
      apply H1. destruct Q as [Q _]. now apply (in_map fst) in Q.
    + intros k' a. cbn [In]. rewrite I2. split.
      * intros [Q|[Q1 Q2]]; [|tauto]. injection Q as <- <-. split; [now left|]. intros ->.
        rewrite Z.eqb_refl in C. cbn in C. assert (cstr_eq s s = true) by (apply cstr_eq_ok; [apply (N s x); now left|auto]). congruence.
      * intros [[Q|Q] NE]; auto.
Qed.
Lemma content_in : forall a l s, NoDup (map fst l) -> (content a l = Some s <-> In (a, s) l).
Proof.
  induction l as [|[b t] l IH]; intros s D; cbn; [split; [discriminate|tauto]|]. cbn in D. inversion D; subst. destruct (Z.eqb_spec b a).
  - subst. split; [intros [= ->]; now left|]. intros [Q|Q]; [congruence|]. exfalso. apply H1. now apply (in_map fst) in Q.
  - rewrite IH by auto. split; [auto|]. intros [Q|Q]; [congruence|auto].
Qed.
Lemma content_none : forall a l, content a l = None -> ~ In a (map fst l).
Proof.
  induction l as [|[b t] l IH]; cbn; [intros _ []|]. destruct (Z.eqb_spec b a); [discriminate|]. intros E [Q|Q]; auto. now apply IH.
Qed.
Lemma content_drop : forall a b l, content b (drop a l) = if b =? a then None else content b l.
Proof.
  induction l as [|[c t] l IH]; cbn; [now destruct (b =? a)|]. destruct (Z.eqb_spec c a); cbn.
  - fold (drop a l). rewrite IH. subst c. destruct (Z.eqb_spec b a); [reflexivity|]. destruct (Z.eqb_spec a b); [congruence|reflexivity].
  - destruct (Z.eqb_spec c b); [|exact IH]. subst. destruct (Z.eqb_spec b a); [congruence|reflexivity].
Qed.
Lemma drop_nodup : forall a l, NoDup (map fst l) -> NoDup (map fst (drop a l)).
Proof.
  intros a l. induction l as [|[c t] l IH]; cbn; [auto|]. intros H. inversion H; subst. destruct (negb (c =? a)); cbn; auto.
  constructor; auto. intros Q. apply H2. clear - Q. apply in_map_iff in Q. destruct Q as (p & <- & Q). apply filter_In in Q. apply in_map. tauto.
Qed.

Lemma key_unique : forall (m : list (str * Z)) s a b, NoDup (map fst m) -> In (s, a) m -> In (s, b) m -> a = b.
Proof.
  induction m as [|[k x] m IH]; cbn; intros s a b D; [tauto|]. inversion D; subst. intros [Q|Q] [R|R]; try congruence.
  - injection Q as -> ->. exfalso. apply H1. now apply (in_map fst) in R.
  - injection R as -> ->. exfalso. apply H1. now apply (in_map fst) in Q.
  - eauto.
Qed.

Lemma history_inv : forall ops i h, history ops i h -> Forall op_nul_free ops -> iinv i h.
Proof.
  induction 1 as [|ops i h s fresh i' r H IH F M|ops i h a i' H IH L D]; intros N.
  - split; cbn; try constructor; try tauto; try discriminate.
  - apply Forall_app in N. destruct N as [N1 N2]. inversion N2 as [|? ? NS _]; subst. cbn in NS. destruct (IH N1) as [K A E NF HA NU].
    unfold make in M. destruct s as [|c s].
    + injection M as <- <-. split; auto.
      * intros s a [Q|Q]; [discriminate|auto].
      * intros s [Q|Q]; [injection Q as <-; auto|auto].
    + set (w := c :: s) in *. assert (NM : forall k x, In (k, x) (i_map i) -> nul_free k) by (intros k x Q; now apply (NF k x)).
      destruct (ifind w (i_map i)) as [a|] eqn:FI.
      * injection M as <- <-. apply ifind_some in FI; auto. split; auto.
        -- intros s' a' [Q|Q]; [|auto]. injection Q as <- <-. split; [now apply E|discriminate].
        -- intros s' [Q|Q]; [discriminate|auto].
      * injection M as <- <-. apply ifind_none in FI; auto. assert (FN := content_none _ _ F). split; cbn [i_map i_live map fst].
        -- constructor; auto.
        -- constructor; auto.
        -- intros s' a'. cbn [In content]. destruct (Z.eqb_spec fresh a').
           ++ subst a'. split.
              ** intros [Q|Q]; [congruence|]. apply E in Q. congruence.
              ** intros [= <-]. now left.
           ++ rewrite <- E. split; [intros [Q|Q]; [congruence|auto]|auto].
        -- intros s' a' [Q|Q]; [injection Q as <- <-; split; [auto|discriminate]|eauto].
        -- intros s' a'. cbn [In content]. intros [Q|Q].
           ++ injection Q as <- <-. rewrite Z.eqb_refl. split; [auto|discriminate].
           ++ destruct (HA s' a' Q) as [Q1 Q2]. destruct (Z.eqb_spec fresh a'); [subst; congruence|auto].
        -- intros s' [Q|Q]; [discriminate|auto].
  - apply Forall_app in N. destruct N as [N1 _]. destruct (IH N1) as [K A E NF HA NU].
    unfold destroy in D. destruct (content a (i_live i)) as [s|] eqn:C; [|congruence].
    destruct (ifind s (i_map i)) eqn:FI; [|discriminate]. injection D as <-.
    assert (NM : forall k x, In (k, x) (i_map i) -> nul_free k) by (intros k x Q; now apply (NF k x)).
    destruct (ierase_in s (i_map i) NM K) as [EK EI]. split; cbn [i_map i_live].
    + auto.
    + now apply drop_nodup.
    + intros s' a'. rewrite EI, content_drop. destruct (Z.eqb_spec a' a).
      * subst a'. split; [|discriminate]. intros [Q1 Q2]. apply E in Q1. congruence.
      * rewrite <- E. split; [tauto|]. intros Q. split; [auto|]. intros ->. apply n. eapply key_unique; [exact K|exact Q|]. now apply E.
    + intros s' a' Q. apply EI in Q. eapply NF. apply Q.
    + intros s' a' Q. apply filter_In in Q. destruct Q as [Q1 Q2]. cbn in Q2. rewrite content_drop. destruct (a' =? a); [discriminate|auto].
    + intros s' Q. apply filter_In in Q. apply NU. tauto.
Qed.

Lemma intern_ok : forall ops i h, history ops i h -> Forall op_nul_free ops ->
  forall s1 h1 s2 h2, In (s1, h1) h -> In (s2, h2) h ->
  chars i h1 = Ok s1 /\ (handle_eq h1 h2 = true <-> s1 = s2).
Proof.
  intros ops i h H N s1 h1 s2 h2 I1 I2. destruct (history_inv _ _ _ H N) as [K A E NF HA NU]. split.
  - destruct h1 as [a|]; cbn; [|now rewrite (NU s1 I1)]. destruct (HA _ _ I1) as [-> _]. reflexivity.
  - destruct h1 as [a|], h2 as [b|]; cbn.
    + rewrite Z.eqb_eq. destruct (HA _ _ I1) as [C1 _], (HA _ _ I2) as [C2 _]. split; [intros ->; congruence|]. intros ->.
      apply E in C1, C2. eapply key_unique; eauto.
    + destruct (HA _ _ I1) as [_ C1]. pose proof (NU _ I2). split; [discriminate|]. congruence.
    + destruct (HA _ _ I2) as [_ C1]. pose proof (NU _ I1). split; [discriminate|]. congruence.
    + rewrite (NU _ I1), (NU _ I2). tauto.
Qed.
Lemma destroy_ok : forall ops i h a, history ops i h -> Forall op_nul_free ops -> content a (i_live i) <> None -> exists i', destroy a i = Ok i'.
Proof.
  intros ops i h a H N C. destruct (history_inv _ _ _ H N) as [K A E NF HA NU]. unfold destroy.
  destruct (content a (i_live i)) as [s|] eqn:CE; [|congruence]. destruct (ifind s (i_map i)) eqn:F; [eauto|].
  apply ifind_none in F; [|intros k x Q; now apply (NF k x)]. exfalso. apply F. apply E in CE. now apply (in_map fst) in CE.
Qed.
