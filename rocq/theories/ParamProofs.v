(** Proofs for C88: replacing the references to parameter files. *)
Require Import ZArith List Bool Lia.
From Verif Require Import Base StrModel ParamModel ParamSpec.
Import ListNotations.
Open Scope Z_scope.

Lemma memb_ok : forall a l, memb a l = true <-> In a l.
Proof. intros a l. unfold memb. destruct (in_dec text_dec a l); intuition discriminate. Qed.
Lemma memb_no : forall a l, memb a l = false <-> ~ In a l.
Proof. intros a l. unfold memb. destruct (in_dec text_dec a l); intuition discriminate. Qed.

Lemma nodup_snoc : forall (l : list str) x, NoDup l -> ~ In x l -> NoDup (l ++ [x]).
Proof. induction l as [|a l IH]; intros x N I; cbn; [repeat constructor; auto|]. inversion N; subst. constructor; [rewrite in_app_iff; cbn in *; intuition|]. apply IH; auto. intros J. apply I. now right. Qed.

Section Inline.
Variable read : str -> perr + list str.
Variable path : str -> str -> str.
Variable dir : str -> str.
Notation expand := (expand read path dir).
Notation inlined := (inlined read path dir).

Ltac dec := repeat match goal with |- context [text_dec ?a ?b] => destruct (text_dec a b); try congruence end.
Lemma placed_push : forall d r dirs, placed (f_push :: d :: r) dirs = placed r (d :: dirs).
Proof using. intros. cbn [placed]. dec; reflexivity. Qed.
Lemma placed_pop : forall r dirs, placed (f_pop :: r) dirs = placed r (tl dirs).
Proof using. intros. cbn [placed]. destruct (text_dec f_pop f_push) as [E|_]; [discriminate E|]. dec; reflexivity. Qed.
Lemma placed_arg : forall a r d dirs, a <> f_push -> a <> f_pop -> placed (a :: r) (d :: dirs) = (d, a) :: placed r (d :: dirs).
Proof using. intros. cbn [placed]. dec; reflexivity. Qed.

(** the steps *)
Lemma step_ref : forall k done a f r d ds used, a = f_param \/ a = f_nopush ->
  expand (S k) done (a :: f :: r) (d :: ds) used =
  match insert_file read path dir (if text_dec a f_param then true else false) f (d :: ds) used r with inl e => inl e | inr (t, u) => expand k done t (d :: ds) u end.
Proof using. intros k done a f r d ds used [-> | ->]; cbn [ParamModel.expand]; dec; reflexivity. Qed.
Lemma step_push : forall k done x r ds used, expand (S k) done (f_push :: x :: r) ds used = expand k (done ++ [f_push; x]) r (x :: ds) used.
Proof using. intros. cbn [ParamModel.expand]. destruct (text_dec f_push f_param) as [E|_]; [discriminate E|]. destruct (text_dec f_push f_nopush) as [E|_]; [discriminate E|]. dec; reflexivity. Qed.
Lemma step_pop : forall k done r d ds used, expand (S k) done (f_pop :: r) (d :: ds) used = expand k (done ++ [f_pop]) r ds used.
Proof using.
  intros. cbn [ParamModel.expand]. destruct (text_dec f_pop f_param) as [E|_]; [discriminate E|]. destruct (text_dec f_pop f_nopush) as [E|_]; [discriminate E|].
  destruct (text_dec f_pop f_push) as [E|_]; [discriminate E|]. dec; reflexivity.
Qed.
Lemma step_arg : forall k done a r ds used, ordinary a -> expand (S k) done (a :: r) ds used = expand k (done ++ [a]) r ds used.
Proof using. intros k done a r ds used (A & B & C & D & E). cbn [ParamModel.expand]. dec. rewrite E. reflexivity. Qed.
Lemma step_mpc : forall k done a r d ds used, a <> f_param -> a <> f_nopush -> a <> f_push -> a <> f_pop -> is_mpc a = true ->
  expand (S k) done (a :: r) (d :: ds) used = match insert_file read path dir true a (d :: ds) used r with inl e => inl e | inr (t, u) => expand k done t (d :: ds) u end.
Proof using. intros. cbn [ParamModel.expand]. dec. rewrite H3. reflexivity. Qed.

(** * A successful run *)
Definition good (k : nat) (done vs K ds used out : list str) (d : str) : Prop :=
  exists o fs k' mid, inlined d vs o fs /\ (k' <= k)%nat /\ (vs <> [] -> (k' < k)%nat) /\ expand k' (done ++ mid) K (d :: ds) (used ++ fs) = inr out /\
    (NoDup used -> NoDup (used ++ fs)) /\ forall X, placed (mid ++ X) (d :: ds) = o ++ placed X (d :: ds).
Lemma file_step : forall push f ds used r res d, insert_file read path dir push f (d :: ds) used r = inr res ->
  exists vs, read (path f d) = inr vs /\ ~ In (path f d) used /\ res = (if push then f_push :: dir (path f d) :: vs ++ f_pop :: r else vs ++ r, used ++ [path f d]).
Proof using.
  intros push f ds used r res d H. unfold insert_file in H. destruct (memb (path f d) used) eqn:M; [discriminate|]. apply memb_no in M. destruct (read (path f d)) as [e|vs]; [discriminate|].
  injection H as <-. exists vs. auto.
Qed.
Lemma run_ok : complete_files read -> forall n k done vs K ds used out d, (k <= n)%nat -> complete vs -> expand k done (vs ++ K) (d :: ds) used = inr out -> good k done vs K ds used out d.
Proof using.
  intros CF. induction n as [|n IH]; intros k done vs K ds used out d Hk C E.
  { assert (k = O) by lia. subst k. discriminate E. }
  destruct C as [|a f r A NF1 NF2 C|a r A1 A2 A3 A4 C].
  - exists [], [], k, []. rewrite !app_nil_r. repeat split; auto; try congruence. constructor.
  - destruct k as [|k]; [discriminate E|]. cbn [app] in E. rewrite step_ref in E by auto.
    destruct (insert_file read path dir (if text_dec a f_param then true else false) f (d :: ds) used (r ++ K)) as [e|res] eqn:EI; [discriminate|].
    apply file_step in EI. destruct EI as (vs & R & NU & ->). destruct A as [-> | ->].
    + destruct (text_dec f_param f_param); [|congruence]. destruct k as [|k]; [discriminate E|]. rewrite step_push in E.
      apply IH in E; [|lia|eapply CF; eauto]. destruct E as (o1 & fs1 & k1 & m1 & I1 & L1 & _ & E1 & N1 & P1).
      destruct k1 as [|k1]; [discriminate E1|]. rewrite step_pop in E1. apply IH in E1; [|lia|auto]. destruct E1 as (o2 & fs2 & k2 & m2 & I2 & L2 & _ & E2 & N2 & P2).
      exists (o1 ++ o2), (path f d :: fs1 ++ fs2), k2, ([f_push; dir (path f d)] ++ m1 ++ [f_pop] ++ m2). split; [econstructor; eauto|]. split; [lia|]. split; [lia|].
      split. { rewrite <- E2. f_equal; repeat rewrite <- app_assoc; reflexivity. } split.
      * intros ND. replace (used ++ path f d :: fs1 ++ fs2) with (((used ++ [path f d]) ++ fs1) ++ fs2) by (repeat rewrite <- app_assoc; reflexivity). auto using nodup_snoc.
      * intros X. cbn [app]. rewrite placed_push. rewrite <- app_assoc. cbn [app]. rewrite P1, placed_pop. cbn [tl]. rewrite P2, app_assoc. reflexivity.
    + destruct (text_dec f_nopush f_param) as [Q|_]; [discriminate Q|].
      apply IH in E; [|lia|eapply CF; eauto]. destruct E as (o1 & fs1 & k1 & m1 & I1 & L1 & _ & E1 & N1 & P1).
      apply IH in E1; [|lia|auto]. destruct E1 as (o2 & fs2 & k2 & m2 & I2 & L2 & _ & E2 & N2 & P2).
      exists (o1 ++ o2), (path f d :: fs1 ++ fs2), k2, (m1 ++ m2). split; [econstructor; eauto|]. split; [lia|]. split; [lia|].
      split. { rewrite <- E2. f_equal; repeat rewrite <- app_assoc; reflexivity. } split.
      * intros ND. replace (used ++ path f d :: fs1 ++ fs2) with (((used ++ [path f d]) ++ fs1) ++ fs2) by (repeat rewrite <- app_assoc; reflexivity). auto using nodup_snoc.
      * intros X. rewrite <- app_assoc. rewrite P1, P2, app_assoc. reflexivity.
  - destruct k as [|k]; [discriminate E|]. cbn [app] in E. destruct (is_mpc a) eqn:M.
    + rewrite step_mpc in E by auto. destruct (insert_file read path dir true a (d :: ds) used (r ++ K)) as [e|res] eqn:EI; [discriminate|].
      apply file_step in EI. destruct EI as (vs & R & NU & ->). destruct k as [|k]; [discriminate E|]. rewrite step_push in E.
      apply IH in E; [|lia|eapply CF; eauto]. destruct E as (o1 & fs1 & k1 & m1 & I1 & L1 & _ & E1 & N1 & P1).
      destruct k1 as [|k1]; [discriminate E1|]. rewrite step_pop in E1. apply IH in E1; [|lia|auto]. destruct E1 as (o2 & fs2 & k2 & m2 & I2 & L2 & _ & E2 & N2 & P2).
      exists (o1 ++ o2), (path a d :: fs1 ++ fs2), k2, ([f_push; dir (path a d)] ++ m1 ++ [f_pop] ++ m2). split; [eapply in_mpc; eauto|]. split; [lia|]. split; [lia|].
      split. { rewrite <- E2. f_equal; repeat rewrite <- app_assoc; reflexivity. } split.
      * intros ND. replace (used ++ path a d :: fs1 ++ fs2) with (((used ++ [path a d]) ++ fs1) ++ fs2) by (repeat rewrite <- app_assoc; reflexivity). auto using nodup_snoc.
      * intros X. cbn [app]. rewrite placed_push. rewrite <- app_assoc. cbn [app]. rewrite P1, placed_pop. cbn [tl]. rewrite P2, app_assoc. reflexivity.
    + assert (O : ordinary a) by (repeat split; auto). rewrite step_arg in E by auto. apply IH in E; [|lia|auto]. destruct E as (o & fs & k1 & m & I1 & L1 & _ & E1 & N1 & P1).
      exists ((d, a) :: o), fs, k1, (a :: m). split; [constructor; auto|]. split; [lia|]. split; [lia|]. split; [rewrite <- E1; f_equal; rewrite <- app_assoc; reflexivity|]. split; auto.
      intros X. cbn [app]. rewrite placed_arg by auto. rewrite P1. reflexivity.
Qed.
(** * Every replacement that reads no file twice is found *)
Lemma replay : forall d vs o fs, inlined d vs o fs -> forall done K ds used, NoDup (used ++ fs) ->
  exists n mid, (forall k, expand (n + k) done (vs ++ K) (d :: ds) used = expand k (done ++ mid) K (d :: ds) (used ++ fs)) /\ forall X, placed (mid ++ X) (d :: ds) = o ++ placed X (d :: ds).
Proof using.
  assert (ND1 : forall (used : list str) p a b, NoDup (used ++ p :: a ++ b) -> ~ In p used /\ NoDup ((used ++ [p]) ++ a) /\ NoDup (((used ++ [p]) ++ a) ++ b)).
  { intros used p a b N. split; [apply NoDup_remove_2 in N; intros I; apply N, in_or_app; auto|].
    replace (used ++ p :: a ++ b) with (((used ++ [p]) ++ a) ++ b) in N by (repeat rewrite <- app_assoc; reflexivity). split; auto.
    clear - N. induction ((used ++ [p]) ++ a) as [|x l IH]; [constructor|]. inversion N; subst. constructor; [intros I; apply H1, in_or_app; auto|auto]. }
  intros d vs o fs H. induction H as [d|d a r o fs O H IH|d f r vs o1 o2 fs1 fs2 R H1 IH1 H2 IH2|d f r vs o1 o2 fs1 fs2 R H1 IH1 H2 IH2|d f r vs o1 o2 fs1 fs2 A1 A2 A3 A4 M R H1 IH1 H2 IH2]; intros done K ds used N.
  - exists O, []. rewrite !app_nil_r. split; auto.
  - destruct (IH (done ++ [a]) K ds used N) as (n & mid & E & P). exists (S n), (a :: mid). split.
    + intros k. cbn [Nat.add app]. rewrite step_arg by auto. rewrite E. f_equal. rewrite <- app_assoc. reflexivity.
    + intros X. cbn [app]. destruct O as (_ & _ & B & C & _). rewrite placed_arg by auto. rewrite P. reflexivity.
  - destruct (ND1 _ _ _ _ N) as (NI & N1 & N2).
    destruct (IH1 (done ++ [f_push; dir (path f d)]) (f_pop :: r ++ K) (d :: ds) (used ++ [path f d]) N1) as (n1 & m1 & E1 & P1).
    destruct (IH2 ((((done ++ [f_push; dir (path f d)])) ++ m1) ++ [f_pop]) K ds _ N2) as (n2 & m2 & E2 & P2).
    exists (S (S (n1 + S n2))), ([f_push; dir (path f d)] ++ m1 ++ [f_pop] ++ m2). split.
    + intros k. replace (S (S (n1 + S n2)) + k)%nat with (S (S (n1 + S (n2 + k)))) by lia. cbn [app]. rewrite step_ref by auto. destruct (text_dec f_param f_param); [|congruence].
      unfold insert_file. rewrite (proj2 (memb_no _ _) NI), R. rewrite step_push, E1, step_pop, E2. f_equal; repeat rewrite <- app_assoc; reflexivity.
    + intros X. cbn [app]. rewrite placed_push. rewrite <- app_assoc. cbn [app]. rewrite P1, placed_pop. cbn [tl]. rewrite P2, app_assoc. reflexivity.
  - destruct (ND1 _ _ _ _ N) as (NI & N1 & N2).
    destruct (IH1 done (r ++ K) ds (used ++ [path f d]) N1) as (n1 & m1 & E1 & P1).
    destruct (IH2 (done ++ m1) K ds _ N2) as (n2 & m2 & E2 & P2).
    exists (S (n1 + n2)), (m1 ++ m2). split.
    + intros k. replace (S (n1 + n2) + k)%nat with (S (n1 + (n2 + k))) by lia. cbn [app]. rewrite step_ref by auto. destruct (text_dec f_nopush f_param) as [Q|_]; [discriminate Q|].
      unfold insert_file. rewrite (proj2 (memb_no _ _) NI), R. rewrite E1, E2. f_equal; repeat rewrite <- app_assoc; reflexivity.
    + intros X. rewrite <- app_assoc. rewrite P1, P2, app_assoc. reflexivity.
  - destruct (ND1 _ _ _ _ N) as (NI & N1 & N2).
    destruct (IH1 (done ++ [f_push; dir (path f d)]) (f_pop :: r ++ K) (d :: ds) (used ++ [path f d]) N1) as (n1 & m1 & E1 & P1).
    destruct (IH2 ((((done ++ [f_push; dir (path f d)])) ++ m1) ++ [f_pop]) K ds _ N2) as (n2 & m2 & E2 & P2).
    exists (S (S (n1 + S n2))), ([f_push; dir (path f d)] ++ m1 ++ [f_pop] ++ m2). split.
    + intros k. replace (S (S (n1 + S n2)) + k)%nat with (S (S (n1 + S (n2 + k)))) by lia. cbn [app]. rewrite step_mpc by auto.
      unfold insert_file. rewrite (proj2 (memb_no _ _) NI), R. rewrite step_push, E1, step_pop, E2. f_equal; repeat rewrite <- app_assoc; reflexivity.
    + intros X. cbn [app]. rewrite placed_push. rewrite <- app_assoc. cbn [app]. rewrite P1, placed_pop. cbn [tl]. rewrite P2, app_assoc. reflexivity.
Qed.

Theorem expand_inlines : complete_files read -> forall k args out, complete args -> expand k [] args [[]] [] = inr out ->
  exists fs, NoDup fs /\ inlined [] args (placed out [[]]) fs.
Proof using.
  intros CF k args out C E. rewrite <- (app_nil_r args) in E. destruct (run_ok CF k k [] args [] [] [] out [] (le_n _) C E) as (o & fs & k' & mid & I & _ & _ & E' & N & P).
  cbn [app] in *. destruct k' as [|k']; [discriminate|]. cbn in E'. injection E' as <-. specialize (P []). rewrite app_nil_r in P. cbn [placed] in P. rewrite app_nil_r in P. exists fs. split; [apply N; constructor|]. rewrite <- P in I. exact I.
Qed.
Theorem inlined_expands : forall args o fs, NoDup fs -> inlined [] args o fs -> exists k out, expand k [] args [[]] [] = inr out /\ placed out [[]] = o.
Proof using.
  intros args o fs N I. destruct (replay _ _ _ _ I [] [] [] [] N) as (n & mid & E & P). exists (n + 1)%nat, mid. specialize (E 1%nat). rewrite app_nil_r in E. split; [exact E|].
  specialize (P []). rewrite app_nil_r in P. cbn [placed] in P. rewrite app_nil_r in P. exact P.
Qed.
(** * The loop ends *)
Definition left (files used : list str) : nat := length (filter (fun p => negb (memb p used)) files).
Lemma left_less : forall files used p, In p files -> ~ In p used -> (left files (used ++ [p]) < left files used)%nat.
Proof using.
  intros files used p. unfold left. induction files as [|q files IH]; intros I N; [destruct I|]. cbn [filter].
  assert (LE : forall l, (length (filter (fun p0 => negb (memb p0 (used ++ [p]))) l) <= length (filter (fun p0 => negb (memb p0 used)) l))%nat).
  { induction l as [|x l IHl]; cbn [filter]; auto. destruct (memb x used) eqn:M.
    - assert (M' : memb x (used ++ [p]) = true) by (apply memb_ok, in_or_app; left; now apply memb_ok). rewrite M'. exact IHl.
    - cbn [negb]. destruct (memb x (used ++ [p])); cbn [negb length]; lia. }
  destruct I as [-> | I].
  - assert (M : memb p used = false) by (now apply memb_no). assert (M' : memb p (used ++ [p]) = true) by (apply memb_ok, in_or_app; right; now left). rewrite M, M'. cbn [negb length]. specialize (LE files). lia.
  - specialize (IH I N). destruct (memb q used) eqn:M.
    + assert (M' : memb q (used ++ [p]) = true) by (apply memb_ok, in_or_app; left; now apply memb_ok). rewrite M'. exact IH.
    + cbn [negb]. destruct (memb q (used ++ [p])); cbn [negb length]; lia.
Qed.
Theorem expand_ends : finite_files read -> forall done todo dirs used, exists n, forall k, (n <= k)%nat -> expand k done todo dirs used <> inl NoFuel.
Proof using.
  intros (files & FF). assert (G : forall m l done todo dirs used, (left files used <= m)%nat -> (length todo <= l)%nat -> exists n, forall k, (n <= k)%nat -> expand k done todo dirs used <> inl NoFuel).
  { induction m as [m IHm] using lt_wf_ind. induction l as [|l IHl]; intros done todo dirs used Hm Hl.
    { destruct todo; [|cbn in Hl; lia]. exists 1%nat. intros [|k] Hk; [lia|]. discriminate. }
    destruct todo as [|a r]; [exists 1%nat; intros [|k] Hk; [lia|discriminate]|]. cbn [length] in Hl.
    assert (NF : forall push f r' , (length r' <= l)%nat -> exists n, forall k, (n <= k)%nat -> match insert_file read path dir push f dirs used r' with inl e => inl e | inr (t, u) => expand k done t dirs u end <> inl NoFuel).
    { intros push f r' _. destruct dirs as [|d ds]; [exists O; discriminate|]. destruct (insert_file read path dir push f (d :: ds) used r') as [e|[t u]] eqn:E.
      - exists O. intros k _ Q. injection Q as ->. unfold insert_file in E. destruct (memb (path f d) used); [discriminate|]. destruct (read (path f d)); discriminate.
      - apply file_step in E. destruct E as (vs & R & NU & Q). injection Q as -> ->. specialize (left_less files used (path f d) (FF _ _ R) NU) as LL.
        apply (IHm (left files (used ++ [path f d])) ltac:(lia) (length (if push then f_push :: dir (path f d) :: vs ++ f_pop :: r' else vs ++ r'))); lia. }
    assert (ST : forall n, (forall k, (n <= k)%nat -> expand (S k) done (a :: r) dirs used <> inl NoFuel) -> exists n, forall k, (n <= k)%nat -> expand k done (a :: r) dirs used <> inl NoFuel).
    { intros n H. exists (S n). intros [|k] Hk; [lia|]. apply H. lia. }
    assert (CH : exists n, forall k, (n <= k)%nat -> expand (S k) done (a :: r) dirs used <> inl NoFuel); [|destruct CH as (n & CH); eapply ST; eauto].
    cbn [ParamModel.expand]. destruct (text_dec a f_param).
    { destruct r as [|f r']; [exists O; discriminate|]. cbn in Hl. apply NF. lia. }
    destruct (text_dec a f_nopush).
    { destruct r as [|f r']; [exists O; discriminate|]. cbn in Hl. apply NF. lia. }
    destruct (text_dec a f_push).
    { destruct r as [|f r']; [exists O; discriminate|]. cbn in Hl. apply IHl; lia. }
    destruct (text_dec a f_pop).
    { destruct dirs; [exists O; discriminate|]. apply IHl; lia. }
    destruct (is_mpc a); [apply NF; lia|apply IHl; lia]. }
  intros done todo dirs used. apply (G (left files used) (length todo)); lia.
Qed.
End Inline.
