(** Proofs for C22, part 5: a whole collection. *)
Require Import ZArith List Bool Lia Permutation ZifyBool.
From Verif Require Import Base RootModel GcModel GcSpec GcProofs GcProofs2 GcProofs3 GcProofs4.
Import ListNotations.
Open Scope Z_scope.
#[local] Arguments Z.add : simpl never.
#[local] Arguments Z.mul : simpl never.
#[local] Arguments Z.sub : simpl never.

Lemma reset_ok : forall vds m, (forall x, In x vds -> m x <> None) ->
  exists m', reset_vds vds m = Ok m' /\ (forall x, ~ In x vds -> m' x = m x) /\ (forall x n, In x vds -> m x = Some n -> m' x = Some (mkN (n_kind n) (n_mark n) false)).
Proof.
  induction vds as [|a vds IH]; intros m H; [exists m; cbn; split; [reflexivity|]; split; [auto|]; intros x n []|].
  cbn [reset_vds]. unfold mget. destruct (m a) as [n|] eqn:En; [|exfalso; exact (H a (or_introl eq_refl) En)]. cbn [bind].
  set (mm := mput m a (mkN (n_kind n) (n_mark n) false)).
  destruct (IH mm) as (m' & E & A & B).
  { intros x Hx. unfold mm, mput. destruct (x =? a); [congruence|]. apply H. right. exact Hx. }
  exists m'. split; [exact E|]. split.
  - intros x Hx. rewrite A by (intros X; apply Hx; right; exact X). unfold mm, mput. destruct (x =? a) eqn:Ex; [|reflexivity]. apply Z.eqb_eq in Ex. exfalso. apply Hx. left. auto.
  - intros x nx Hx Ex. assert (mm x = Some (mkN (n_kind nx) (n_mark nx) (if x =? a then false else n_vd nx))) as Em.
    { unfold mm, mput. destruct (x =? a) eqn:Exa; [apply Z.eqb_eq in Exa; subst x; rewrite En in Ex; injection Ex as <-; reflexivity|]. rewrite Ex. destruct nx; reflexivity. }
    destruct (in_dec Z.eq_dec x vds) as [Hin|Hin]; [rewrite (B x _ Hin Em); reflexivity|]. rewrite A by exact Hin. rewrite Em. destruct Hx as [<-|Hx]; [rewrite Z.eqb_refl; reflexivity|contradiction].
Qed.

Lemma clean_list_ok : forall m l, (forall x, In x l -> m x <> None) -> clean_list m l = Ok (filter (at_node n_mark m) l).
Proof.
  intros m. induction l as [|a l IH]; intros H; [reflexivity|]. cbn [clean_list filter]. unfold mget, at_node at 1. destruct (m a) as [n|] eqn:En; [|exfalso; exact (H a (or_introl eq_refl) En)].
  cbn [bind]. rewrite IH by (intros x Hx; apply H; right; exact Hx). reflexivity.
Qed.
Lemma clean_lists_ok : forall m slots fl, NoDup slots -> (forall s x, In x (fl s) -> m x <> None) ->
  exists fl', clean_lists m slots fl = Ok fl' /\ (forall s, In s slots -> fl' s = filter (at_node n_mark m) (fl s)) /\ (forall s, ~ In s slots -> fl' s = fl s).
Proof.
  intros m. induction slots as [|s slots IH]; intros fl ND H; [exists fl; cbn; split; [reflexivity|]; split; [intros s []|auto]|].
  inversion ND as [|s' sl' Ns ND']; subst. cbn [clean_lists]. rewrite clean_list_ok by (apply H). cbn [bind].
  destruct (IH (flput fl s (filter (at_node n_mark m) (fl s))) ND') as (fl' & E & A & B).
  { intros t x. unfold flput. destruct (t =? s); [intros Hx; apply filter_In in Hx; apply (H s); tauto|apply H]. }
  exists fl'. split; [exact E|]. split.
  - intros t [<-|Ht]; [rewrite B by exact Ns; unfold flput; rewrite Z.eqb_refl; reflexivity|]. rewrite A by exact Ht. unfold flput. destruct (t =? s) eqn:Et; [|reflexivity].
    apply Z.eqb_eq in Et. subst t. contradiction.
  - intros t Ht. rewrite B by (intros X; apply Ht; right; exact X). unfold flput. destruct (t =? s) eqn:Et; [|reflexivity]. apply Z.eqb_eq in Et. subst t. exfalso. apply Ht. left. reflexivity.
Qed.

(** an address of a node lies in one page only *)
Lemma pl_sep : forall m ps Ls, Forall2 (page_ok m) ps Ls -> ForallOrdPairs disj ps ->
  forall p L q L' x, In (p, L) (combine ps Ls) -> In (q, L') (combine ps Ls) -> In x L -> in_page q x = true -> p = q /\ L = L'.
Proof.
  intros m ps Ls H. induction H as [|r M ps Ls Hr H IH]; intros Dj p L q L' x Hp Hq Hx Hin; [destruct Hp|].
  inversion Dj as [|r' ps' Dr Dps]; subst. rewrite Forall_forall in Dr. unfold in_page in Hin. cbn in Hp, Hq. destruct Hp as [Ep|Hp], Hq as [Eq|Hq].
  - injection Ep as <- <-. injection Eq as <- <-. auto.
  - injection Ep as <- <-. exfalso. destruct (combine_in _ _ _ _ _ H Hq) as (Hq' & _ & _). specialize (Dr q Hq'). pose proof (page_in _ _ _ _ Hr Hx). pose proof (pg_used _ _ _ Hr). unfold disj, apart in Dr. lia.
  - injection Eq as <- <-. exfalso. destruct (combine_in _ _ _ _ _ H Hp) as (Hp' & _ & Hok). specialize (Dr p Hp'). pose proof (page_in _ _ _ _ Hok Hx). pose proof (pg_used _ _ _ Hok). unfold disj, apart in Dr. lia.
  - apply (IH Dps p L q L' x); auto.
Qed.

Section Collect.
Variables (m0 m1 : mem) (ps : list page) (Ls : list (list ptr)) (fl : Z -> list ptr) (al fr : Z).
Hypothesis H0 : linv m0 ps Ls fl al fr.
Hypothesis Hr0 : rems_ok ps.
Hypothesis X : ext m0 m1.
Hypothesis Hflat0 : forall a n, m0 a = Some n -> flat_of (n_kind n) = 0 \/ m0 (flat_of (n_kind n)) <> None.

Lemma m1_nodes : forall a n, m1 a = Some n -> marked_node n.
Proof.
  intros a n E. pose proof (X a) as Xa. rewrite E in Xa. destruct (m0 a) as [n0|] eqn:E0; [|contradiction]. destruct Xa as (K & M & V).
  pose proof (l_node _ _ _ _ _ _ H0 a n0 E0) as Hn. unfold marked_node. rewrite <- K. destruct (free_kind (n_kind n0)).
  - destruct Hn as (s & Hs & ->). exists s. split; [exact Hs|]. cbn in *. specialize (M eq_refl). destruct n as [kn mn vn]. cbn in *. subst. reflexivity.
  - destruct Hn as [Hn1 Hn2]. rewrite V, Hn1, Hn2. reflexivity.
Qed.
Lemma m1_flat : forall a n, m1 a = Some n -> flat_of (n_kind n) = 0 \/ m1 (flat_of (n_kind n)) <> None.
Proof.
  intros a n E. destruct (ext_back _ _ _ _ X E) as (n0 & E0 & K). rewrite <- K. destruct (Hflat0 a n0 E0) as [F|F]; [left; exact F|right].
  destruct (m0 (flat_of (n_kind n0))) as [t|] eqn:Et; [|congruence]. destruct (ext_some _ _ _ _ X Et) as (t' & Et' & _). congruence.
Qed.
Lemma m1_nsz : forall x, nsz m1 x = nsz m0 x /\ fsz m1 x = fsz m0 x /\ (m0 x <> None <-> m1 x <> None).
Proof. intros x. unfold nsz, fsz. pose proof (X x) as Xa. destruct (m0 x), (m1 x); try contradiction; [|auto with *]. destruct Xa as (-> & _). split; [reflexivity|]. split; [reflexivity|]. split; congruence. Qed.
Lemma m1_lay : Forall2 (page_ok m1) ps Ls.
Proof.
  assert (forall qs Ms, Forall2 (page_ok m0) qs Ms -> Forall2 (page_ok m1) qs Ms) as HH; [|exact (HH _ _ (l_lay _ _ _ _ _ _ H0))].
  intros qs Ms H. induction H as [|p L qs Ms Hp H IH]; constructor; auto. apply (page_ext m0); auto. intros x Hx. destruct (m1_nsz x) as (E & _ & N). split; [exact E|]. apply N. apply (page_in _ _ _ _ Hp Hx).
Qed.
Lemma m1_dom : forall a, m1 a <> None <-> In a (concat Ls).
Proof. intros a. rewrite <- (l_dom _ _ _ _ _ _ H0). destruct (m1_nsz a) as (_ & _ & N). symmetry. exact N. Qed.
Lemma m1_fl : forall s a, In a (fl s) <-> 0 <= s <= 9 /\ m1 a = Some (mkN (KFree (24 + 8 * s)) true false).
Proof.
  intros s a. rewrite (l_fl _ _ _ _ _ _ H0). split; intros [Hs E]; (split; [exact Hs|]).
  - destruct (ext_some _ _ _ _ X E) as (n' & E' & K & M). rewrite E'. pose proof (X a) as Xa. rewrite E, E' in Xa. destruct Xa as (_ & _ & V). cbn in *. specialize (M eq_refl). destruct n' as [kn mn vn]. cbn in *. subst. reflexivity.
  - destruct (ext_back _ _ _ _ X E) as (n' & E' & K). rewrite E'. pose proof (l_node _ _ _ _ _ _ H0 a n' E') as Hn. rewrite K in Hn. cbn in Hn. destruct Hn as (t & Ht & ->). cbn in K. apply kfree_inj in K. rewrite K. reflexivity.
Qed.

Definition clr (n : node) : node := mkN (n_kind n) (n_mark n) false.
Notation pl := (combine ps Ls).
Notation keepLs := (map snd (filter (kept m1) pl)).

Lemma filter_f2 : forall (P : page -> list ptr -> Prop) (f : page * list ptr -> bool) qs Ms, Forall2 (page_ok m1) qs Ms ->
  (forall p L, In (p, L) (combine qs Ms) -> f (p, L) = true -> page_ok m1 p L -> P p L) ->
  Forall2 P (map fst (filter f (combine qs Ms))) (map snd (filter f (combine qs Ms))).
Proof.
  intros P f qs Ms H. induction H as [|p L qs Ms Hp H IH]; intros HP; cbn; [constructor|]. destruct (f (p, L)) eqn:E; cbn.
  - constructor; [apply HP; auto; left; reflexivity|]. apply IH. intros. apply HP; auto. right. assumption.
  - apply IH. intros. apply HP; auto. right. assumption.
Qed.
Lemma filter_fop : forall (f : page * list ptr -> bool) qs (Ms : list (list ptr)), ForallOrdPairs disj qs -> ForallOrdPairs disj (map fst (filter f (combine qs Ms))).
Proof.
  intros f. induction qs as [|q qs IH]; intros Ms H; [constructor|]. destruct Ms as [|M Ms]; [constructor|]. inversion H as [|q' qs' Hq Hqs]; subst. cbn. destruct (f (q, M)); [|apply IH; auto].
  cbn. constructor; [|apply IH; auto]. rewrite Forall_forall in *. intros r Hr. apply in_map_iff in Hr. destruct Hr as ([r' M'] & <- & Hr). apply filter_In in Hr. destruct Hr as [Hr _]. apply Hq. cbn. eapply in_combine_l; eauto.
Qed.
Lemma split_sum : forall (f : page * list ptr -> bool) (g : page * list ptr -> Z) l, sum (map g l) = sum (map g (filter f l)) + sum (map g (filter (fun x => negb (f x)) l)).
Proof. intros f g. induction l as [|x l IH]; [reflexivity|]. cbn [map filter]. rewrite sum_cons, IH. destruct (f x); cbn [negb map]; rewrite ?sum_cons; lia. Qed.

Lemma sweep_ok : forall fuel, (forall L, In L Ls -> (length L < fuel)%nat) ->
  exists h', sweep fuel (mkHp m1 ps fl al fr) = Ok h' /\ hinv h' keepLs /\
    (forall a n, m1 a = Some n -> live_node n = true -> hp_mem h' a = Some (mkN (n_kind (swp m1 n)) false false)) /\
    (forall a n', hp_mem h' a = Some n' -> free_kind (n_kind n') = false -> exists n, m1 a = Some n /\ live_node n = true).
Proof.
  intros fuel Hfuel. unfold sweep. cbn [hp_mem hp_pages hp_fl hp_alloced hp_free].
  pose proof m1_lay as Lay. pose proof (l_disj _ _ _ _ _ _ H0) as Dj.
  assert (sum (map (fsz m1) (concat Ls)) = sum (map (fsz m0) (concat Ls))) as Hfsz by (apply sum_ext; intros x _; apply m1_nsz).
  assert (sum (map (osz m1) (concat Ls)) = al - fr) as Hacc.
  { rewrite (linv_acc _ _ _ _ _ _ H0). apply sum_ext. intros x _. unfold osz. destruct (m1_nsz x) as (-> & -> & _). reflexivity. }
  destruct (sweep_pages_ok m1 m1_nodes m1_flat fuel ps Ls Lay Dj Hfuel) with (m := m1) (fl := fl) (al := al) (fr := fr) as (m2 & fl2 & E & A1 & A2 & A3 & A4 & A5).
  { destruct ps as [|p r]; [constructor|]. destruct Hr0 as [Hp Hr]. constructor; [exact Hp|]. eapply Forall_impl; [|exact Hr]. intros q Hq. left. exact Hq. }
  { reflexivity. }
  { reflexivity. }
  { exact (l_nd _ _ _ _ _ _ H0). }
  { intros s x Hx _. apply m1_fl in Hx. destruct Hx as [_ Hx]. unfold at_node. rewrite Hx. reflexivity. }
  { lia. }
  cbv zeta in *. rewrite E. cbn [bind].
  assert (forall x, In x (concat Ls) -> exists p L, In (p, L) pl /\ page_ok m1 p L /\ In x L) as Hloc.
  { intros x Hx. destruct (lay_in _ _ _ _ Lay Hx) as (p & L & _ & Hp & HL & Hc). exists p, L. auto. }
  assert (forall x, In x (concat Ls) -> m2 x <> None) as Hm2.
  { intros x Hx. destruct (Hloc x Hx) as (p & L & Hc & Hp & HL). pose proof (page_in _ _ _ _ Hp HL) as (_ & _ & _ & Hn). destruct (m1 x) as [n|] eqn:En; [|congruence].
    specialize (A3 p L x n Hc HL En). destruct (whole m1 L); [destruct A3 as (n' & -> & _); congruence|rewrite A3; congruence]. }
  destruct (reset_ok (filter (live_vd m1) (concat Ls)) m2) as (m3 & E3 & B1 & B2). { intros x Hx. apply filter_In in Hx. apply Hm2. tauto. }
  rewrite E3. cbn [bind].
  assert (forall p L x n, In (p, L) pl -> In x L -> m1 x = Some n -> if whole m1 L then exists n', m3 x = Some n' /\ n_mark n' = false else m3 x = Some (clr (fin m1 n))) as A3'.
  { intros p L x n Hc HL En. specialize (A3 p L x n Hc HL En). destruct (in_dec Z.eq_dec x (filter (live_vd m1) (concat Ls))) as [Hv|Hv].
    - destruct (whole m1 L); [|exact (B2 x _ Hv A3)]. destruct A3 as (n' & E' & M'). eexists. split; [exact (B2 x _ Hv E')|]. exact M'.
    - rewrite (B1 x Hv). destruct (whole m1 L); [exact A3|]. rewrite A3. f_equal.
      assert (In x (concat Ls)) as Hx by (apply m1_dom; congruence).
      assert (live_vd m1 x = false) as Hlv. { destruct (live_vd m1 x) eqn:Elv; [|reflexivity]. exfalso. apply Hv. apply filter_In. auto. }
      unfold live_vd, at_node in Hlv. rewrite En in Hlv. pose proof (m1_nodes x n En) as Hn. unfold marked_node in Hn. unfold fin, dead_node, live_node, swp, clr in *.
      destruct (free_kind (n_kind n)) eqn:Ef; cbn [negb andb] in *; [destruct Hn as (s & _ & ->); reflexivity|]. destruct (n_mark n) eqn:Em; cbn [negb andb] in *; [|reflexivity]. cbn. rewrite Hn. cbn. rewrite Hlv. reflexivity. }
  assert (forall x, ~ In x (concat Ls) -> m3 x = None) as Hout.
  { intros x Hx. rewrite B1 by (rewrite filter_In; tauto). rewrite A1 by exact Hx. destruct (m1 x) eqn:En; [|reflexivity]. exfalso. apply Hx. apply m1_dom. congruence. }
  (* the free lists *)
  assert (forall s x, In x (fl2 s) -> In x (concat Ls)) as Hfl2.
  { intros s x Hx. apply A4 in Hx. destruct Hx as [Hx|(_ & _ & _ & p & L & Hc & _ & HL)].
    - apply m1_fl in Hx. destruct Hx as [_ Hx]. apply m1_dom. congruence.
    - apply m1_dom. pose proof (combine_in _ _ _ _ _ Lay Hc) as (_ & _ & Hp). apply (page_in _ _ _ _ Hp HL). }
  assert (forall s x, In x (fl2 s) -> m3 x <> None) as Hfl3.
  { intros s x Hx. apply Hfl2 in Hx. destruct (in_dec Z.eq_dec x (filter (live_vd m1) (concat Ls))) as [Hv|Hv]; [|rewrite B1 by exact Hv; auto].
    pose proof (Hm2 x Hx) as Hn. destruct (m2 x) as [n|] eqn:En; [|congruence]. rewrite (B2 x n Hv En). congruence. }
  assert (forall p L x, In (p, L) pl -> In x L -> at_node n_mark m3 x = true -> whole m1 L = false) as Hmarked.
  { intros p L x Hc HL Hmk. destruct (whole m1 L) eqn:Ew; [|reflexivity]. exfalso. assert (m1 x <> None) as Hn by (pose proof (combine_in _ _ _ _ _ Lay Hc) as (_ & _ & Hp); apply (page_in _ _ _ _ Hp HL)).
    destruct (m1 x) as [n|] eqn:En; [|congruence]. specialize (A3' p L x n Hc HL En). rewrite Ew in A3'. destruct A3' as (n' & E' & M'). unfold at_node in Hmk. rewrite E' in Hmk. congruence. }
  assert (exists fl3, (match map fst (filter (gone_ m1) pl) with [] => Ok fl2 | _ => clean_lists m3 all_slots fl2 end) = Ok fl3 /\
     (forall s x, In x (fl3 s) <-> In x (fl2 s) /\ at_node n_mark m3 x = true) /\ (forall s, NoDup (fl3 s))) as (fl3 & E4 & C1 & C2).
  { destruct (map fst (filter (gone_ m1) pl)) as [|g gs] eqn:Eg.
    - exists fl2. split; [reflexivity|]. split; [|exact A5]. intros s x. split; [|tauto]. intros Hx. split; [exact Hx|].
      destruct (Hloc x (Hfl2 s x Hx)) as (p & L & Hc & Hp & HL). assert (whole m1 L = false) as Ew.
      { destruct (whole m1 L) eqn:Ew; [|reflexivity]. exfalso. assert (In (p, L) (filter (gone_ m1) pl)) as Y by (apply filter_In; split; [exact Hc|exact Ew]). apply (in_map fst) in Y. rewrite Eg in Y. destruct Y. }
      pose proof (page_in _ _ _ _ Hp HL) as (_ & _ & _ & Hn). destruct (m1 x) as [n|] eqn:En; [|congruence]. pose proof (A3' p L x n Hc HL En) as Y. rewrite Ew in Y. unfold at_node. rewrite Y. cbn.
      apply A4 in Hx. destruct Hx as [Hx|(_ & _ & Hd & _)].
      + apply m1_fl in Hx. destruct Hx as [_ Hx]. rewrite En in Hx. injection Hx as ->. reflexivity.
      + unfold at_node in Hd. rewrite En in Hd. unfold fin. rewrite Hd. reflexivity.
    - assert (NoDup all_slots) as NDs by (unfold all_slots; repeat constructor; cbn; intuition lia).
      destruct (clean_lists_ok m3 all_slots fl2 NDs Hfl3) as (fl3 & Ec & D1 & D2). exists fl3. split; [exact Ec|].
      assert (forall s, fl3 s = filter (at_node n_mark m3) (fl2 s)) as D3.
      { intros s. destruct (in_dec Z.eq_dec s all_slots) as [Hs|Hs]; [apply D1; exact Hs|]. rewrite (D2 s Hs). destruct (fl2 s) as [|x l] eqn:El; [reflexivity|]. exfalso.
        assert (In x (fl2 s)) as Hx by (rewrite El; left; reflexivity). apply Hs. assert (0 <= s <= 9) as Hr. { apply A4 in Hx. destruct Hx as [Hx|(Hr & _)]; [|exact Hr]. apply m1_fl in Hx. tauto. }
        unfold all_slots. cbn. lia. }
      split; [intros s x; rewrite D3; apply filter_In|]. intros s. rewrite D3. apply NoDup_filter, A5. }
  rewrite E4. cbn [bind]. eexists. split; [reflexivity|].
  (* the final memory *)
  set (mf := free_pages (map fst (filter (gone_ m1) pl)) m3).
  assert (forall p L x n, In (p, L) pl -> In x L -> m1 x = Some n -> mf x = if whole m1 L then None else Some (clr (fin m1 n))) as Hmf.
  { intros p L x n Hc HL En. unfold mf, free_pages. destruct (existsb (fun q => in_page q x) (map fst (filter (gone_ m1) pl))) eqn:Ex.
    - apply existsb_exists in Ex. destruct Ex as (q & Hq & Hin). apply in_map_iff in Hq. destruct Hq as ([q' L'] & <- & Hq). apply filter_In in Hq. destruct Hq as [Hq Hg]. cbn in Hin.
      destruct (pl_sep _ _ _ Lay Dj p L q' L' x Hc Hq HL Hin) as [-> ->]. change (whole m1 L' = true) in Hg. rewrite Hg. reflexivity.
    - pose proof (A3' p L x n Hc HL En) as Y. destruct (whole m1 L) eqn:Ew; [|exact Y]. exfalso. assert (existsb (fun q => in_page q x) (map fst (filter (gone_ m1) pl)) = true) as Z; [|congruence].
      apply existsb_exists. exists p. split; [change p with (fst (p, L)); apply in_map; apply filter_In; split; [exact Hc|exact Ew]|].
      pose proof (combine_in _ _ _ _ _ Lay Hc) as (_ & _ & Hp). pose proof (page_in _ _ _ _ Hp HL). pose proof (pg_used _ _ _ Hp). unfold in_page. lia. }
  assert (forall x, ~ In x (concat Ls) -> mf x = None) as Hmf0.
  { intros x Hx. unfold mf, free_pages. destruct (existsb (fun q => in_page q x) (map fst (filter (gone_ m1) pl))); [reflexivity|]. apply Hout. exact Hx. }
  assert (forall x, In x (concat keepLs) <-> exists p L, In (p, L) pl /\ whole m1 L = false /\ In x L) as HkL.
  { intros x. rewrite in_concat. split.
    - intros (L & HL & Hx). apply in_map_iff in HL. destruct HL as ([p L'] & <- & HL). apply filter_In in HL. destruct HL as [HL Hk]. exists p, L'. change (negb (whole m1 L') = true) in Hk. cbn [snd] in Hx. destruct (whole m1 L'); [discriminate|auto].
    - intros (p & L & Hc & Hw & Hx). exists L. split; [|exact Hx]. change L with (snd (p, L)). apply in_map. apply filter_In. split; [exact Hc|]. change (negb (whole m1 L) = true). rewrite Hw. reflexivity. }
  assert (forall x, mf x <> None <-> In x (concat keepLs)) as Hdom.
  { intros x. rewrite HkL. split.
    - intros Hn. destruct (in_dec Z.eq_dec x (concat Ls)) as [Hx|Hx]; [|exfalso; apply Hn, Hmf0, Hx]. destruct (Hloc x Hx) as (p & L & Hc & Hp & HL). exists p, L. split; [exact Hc|].
      pose proof (page_in _ _ _ _ Hp HL) as (_ & _ & _ & Hn1). destruct (m1 x) as [n|] eqn:En; [|congruence]. rewrite (Hmf p L x n Hc HL En) in Hn. destruct (whole m1 L); [congruence|auto].
    - intros (p & L & Hc & Hw & HL). pose proof (combine_in _ _ _ _ _ Lay Hc) as (_ & _ & Hp). pose proof (page_in _ _ _ _ Hp HL) as (_ & _ & _ & Hn1). destruct (m1 x) as [n|] eqn:En; [|congruence].
      rewrite (Hmf p L x n Hc HL En), Hw. congruence. }
  assert (forall n, nodesize (n_kind (clr (fin m1 n))) = nodesize (n_kind n)) as Hsz.
  { intros n. unfold clr, fin. cbn [n_kind]. destruct (dead_node n); [|apply swp_size]. cbn [n_kind]. unfold nodesize at 1. apply nodesize_align. }
  assert (forall p L, In (p, L) pl -> whole m1 L = false -> forall x, In x L -> nsz mf x = nsz m1 x /\ mf x <> None) as Hnsz.
  { intros p L Hc Hw x HL. pose proof (combine_in _ _ _ _ _ Lay Hc) as (_ & _ & Hp). pose proof (page_in _ _ _ _ Hp HL) as (_ & _ & _ & Hn1). destruct (m1 x) as [n|] eqn:En; [|congruence].
    unfold nsz. rewrite (Hmf p L x n Hc HL En), Hw, En. rewrite Hsz. split; [reflexivity|congruence]. }
  assert (forall p L, In (p, L) pl -> whole m1 L = false -> sum (map (fsz mf) L) = sum (map (fsz m1) L) + sum (map (dsz m1) L)) as Hfs.
  { intros p L Hc Hw. assert (forall x, In x L -> fsz mf x = fsz m1 x + dsz m1 x) as Hx.
    { intros x HL. pose proof (combine_in _ _ _ _ _ Lay Hc) as (_ & _ & Hp). pose proof (page_in _ _ _ _ Hp HL) as (_ & _ & _ & Hn1). destruct (m1 x) as [n|] eqn:En; [|congruence].
      unfold fsz, dsz, nsz, at_node. rewrite (Hmf p L x n Hc HL En), Hw, En, Hsz. unfold clr, fin. cbn [n_kind]. destruct (dead_node n) eqn:Ed; cbn [n_kind free_kind].
      - unfold dead_node in Ed. destruct (free_kind (n_kind n)); [discriminate|lia].
      - rewrite swp_free. lia. }
    clear - Hx. induction L as [|x L IH]; [reflexivity|]. cbn [map]. rewrite !sum_cons, IH by (intros; apply Hx; right; auto). rewrite (Hx x (or_introl eq_refl)). lia. }
  split; [split|].
  - constructor; cbn [hp_mem hp_pages hp_fl hp_alloced hp_free]; fold mf.
    + apply filter_f2; [exact Lay|]. intros p L Hc Hk Hp. apply (page_ext m1); [exact Hp|]. apply (Hnsz p L Hc). change (negb (whole m1 L) = true) in Hk. destruct (whole m1 L); [discriminate|reflexivity].
    + exact Hdom.
    + apply filter_fop. exact Dj.
    + intros s x. rewrite C1. split.
      * intros [Hx Hmk]. pose proof (Hfl2 s x Hx) as Hin. destruct (Hloc x Hin) as (p & L & Hc & Hp & HL). pose proof (Hmarked p L x Hc HL Hmk) as Hw.
        pose proof (page_in _ _ _ _ Hp HL) as (_ & _ & _ & Hn1). destruct (m1 x) as [n|] eqn:En; [|congruence]. rewrite (Hmf p L x n Hc HL En), Hw.
        apply A4 in Hx. destruct Hx as [Hx|(Hs & Hsz' & Hd & _)].
        -- apply m1_fl in Hx. destruct Hx as [Hs Hx]. split; [exact Hs|]. rewrite En in Hx. injection Hx as ->. reflexivity.
        -- split; [exact Hs|]. unfold at_node in Hd. rewrite En in Hd. unfold clr, fin. rewrite Hd. cbn. unfold nsz in Hsz'. rewrite En in Hsz'. rewrite Hsz'. reflexivity.
      * intros [Hs Hx]. assert (In x (concat keepLs)) as Hin by (apply Hdom; congruence). apply HkL in Hin. destruct Hin as (p & L & Hc & Hw & HL).
        pose proof (combine_in _ _ _ _ _ Lay Hc) as (_ & _ & Hp). pose proof (page_in _ _ _ _ Hp HL) as (_ & _ & _ & Hn1). destruct (m1 x) as [n|] eqn:En; [|congruence].
        pose proof (A3' p L x n Hc HL En) as Y. rewrite Hw in Y. pose proof (Hmf p L x n Hc HL En) as Hx'. rewrite Hw in Hx'. rewrite Hx' in Hx.
        assert (Hx2 : clr (fin m1 n) = mkN (KFree (24 + 8 * s)) true false) by (injection Hx; intros; unfold clr; congruence).
        split; [|unfold at_node; rewrite Y, Hx2; reflexivity]. apply A4.
        assert (n_kind (fin m1 n) = KFree (24 + 8 * s)) as Hk by (apply (f_equal n_kind) in Hx2; exact Hx2).
        unfold fin in Hk. destruct (dead_node n) eqn:Ed.
        -- right. cbn in Hk. apply kfree_inj in Hk. split; [exact Hs|]. split; [unfold nsz; rewrite En; exact Hk|]. split; [unfold at_node; rewrite En; exact Ed|]. exists p, L. auto.
        -- left. apply m1_fl. split; [exact Hs|]. assert (free_kind (n_kind n) = true) as Ef by (rewrite <- (swp_free m1 n), Hk; reflexivity).
           pose proof (m1_nodes x n En) as Hn. unfold marked_node in Hn. rewrite Ef in Hn. destruct Hn as (t & Ht & ->). unfold swp in Hk. cbn in Hk. apply kfree_inj in Hk. rewrite <- Hk. exact En.
    + exact C2.
    + intros x nf Enf. assert (In x (concat keepLs)) as Hin by (apply Hdom; congruence). apply HkL in Hin. destruct Hin as (p & L & Hc & Hw & HL).
      pose proof (combine_in _ _ _ _ _ Lay Hc) as (_ & _ & Hp). pose proof (page_in _ _ _ _ Hp HL) as (_ & _ & _ & Hn1). destruct (m1 x) as [n|] eqn:En; [|congruence].
      rewrite (Hmf p L x n Hc HL En), Hw in Enf. injection Enf as <-. pose proof (m1_nodes x n En) as Hn. unfold marked_node in Hn. unfold clr, fin. cbn [n_kind n_mark n_vd]. destruct (dead_node n) eqn:Ed.
      * cbn [n_kind n_mark free_kind]. assert (at_node dead_node m1 x = true) as Hd by (unfold at_node; rewrite En; exact Ed). apply (kept_dead_in m1 p L x Hp Hw HL) in Hd. pose proof (filter_small m1 L) as Hs.
        rewrite Forall_forall in Hs. apply Hs in Hd. unfold small, nsz in Hd. rewrite En in Hd. destruct (slot_ok _ Hd (nodesize_mod (n_kind n))) as (i & _ & Hi & Ei). exists i. split; [exact Hi|]. rewrite <- Ei. reflexivity.
      * rewrite swp_free. unfold dead_node in Ed. unfold swp. destruct (free_kind (n_kind n)) eqn:Ef; [destruct Hn as (s & Hs & ->); exists s; auto|]. destruct (n_mark n); [|discriminate]. auto.
    + rewrite (l_al _ _ _ _ _ _ H0). clear - Lay. assert (map p_size ps = map (fun q => p_size (fst q)) pl) as ->.
      { induction Lay as [|p L qs Ms Hp H IH]; [reflexivity|]. cbn. rewrite IH. reflexivity. }
      rewrite (split_sum (gone_ m1)). rewrite map_map. unfold kept, gone_. lia.
    + rewrite (l_fr _ _ _ _ _ _ H0). rewrite <- Hfsz. assert (sum (map (fsz m1) (concat Ls)) + sum (map rem ps) = sum (map (fun q => rem (fst q) + sum (map (fsz m1) (snd q))) pl)) as ->.
      { clear - Lay. induction Lay as [|p L qs Ms Hp H IH]; [reflexivity|]. cbn [concat map combine]. rewrite map_app, sum_app, !sum_cons. cbn [fst snd]. lia. }
      rewrite (split_sum (gone_ m1)).
      assert (sum (map (fsz mf) (concat keepLs)) + sum (map rem (map fst (filter (kept m1) pl))) =
        sum (map (fun q => rem (fst q) + sum (map (fsz m1) (snd q))) (filter (kept m1) pl)) + sum (map (fun q => sum (map (dsz m1) (snd q))) (filter (kept m1) pl))) as Hk.
      { assert (forall q, In q (filter (kept m1) pl) -> sum (map (fsz mf) (snd q)) = sum (map (fsz m1) (snd q)) + sum (map (dsz m1) (snd q))) as Hq.
        { intros [p L] Hq. apply filter_In in Hq. destruct Hq as [Hc Hk]. apply (Hfs p L Hc). change (negb (whole m1 L) = true) in Hk. destruct (whole m1 L); [discriminate|reflexivity]. }
        clear - Hq. induction (filter (kept m1) pl) as [|[p L] l IH]; [reflexivity|]. cbn [map concat fst snd]. rewrite map_app, sum_app, !sum_cons. cbn [fst snd].
        pose proof (Hq (p, L) (or_introl eq_refl)) as Hpl. cbn [snd] in Hpl. specialize (IH (fun q H => Hq q (or_intror H))). lia. }
      rewrite Hk. unfold kept, gone_. lia.
  - cbn [hp_pages]. clear - Hr0 Lay. inversion Lay as [|p L qs Ms Hp H]; subst; [exact I|]. destruct Hr0 as [Hr Hrs]. cbn [combine filter].
    assert (Forall (fun q => rem q = 0) (map fst (filter (kept m1) (combine qs Ms)))) as Hall.
    { rewrite Forall_forall in *. intros q Hq. apply in_map_iff in Hq. destruct Hq as ([q' L'] & <- & Hq). apply filter_In in Hq. destruct Hq as [Hq _]. apply Hrs. eapply in_combine_l; eauto. }
    destruct (kept m1 (p, L)); cbn [map fst].
    + split; [exact Hr|exact Hall].
    + destruct (map fst (filter (kept m1) (combine qs Ms))) as [|q r]; [exact I|]. inversion Hall; subst. split; [left; assumption|assumption].
  - split.
    + intros a n En Hl. cbn [hp_mem]. fold mf. assert (In a (concat Ls)) as Hin by (apply m1_dom; congruence). destruct (Hloc a Hin) as (p & L & Hc & Hp & HL).
      rewrite (Hmf p L a n Hc HL En). assert (whole m1 L = false) as ->.
      { destruct (whole m1 L) eqn:Ew; [|reflexivity]. unfold whole in Ew. rewrite forallb_forall in Ew. specialize (Ew a HL). unfold at_node in Ew. rewrite En, Hl in Ew. discriminate. }
      unfold clr, fin. rewrite (live_not_dead _ Hl). f_equal. unfold swp. unfold live_node in Hl. destruct (free_kind (n_kind n)); [discriminate|]. destruct (n_mark n); [|discriminate]. reflexivity.
    + intros a nf Enf Hf. cbn [hp_mem] in Enf. fold mf in Enf. assert (In a (concat keepLs)) as Hin by (apply Hdom; congruence). apply HkL in Hin. destruct Hin as (p & L & Hc & Hw & HL).
      pose proof (combine_in _ _ _ _ _ Lay Hc) as (_ & _ & Hp). pose proof (page_in _ _ _ _ Hp HL) as (_ & _ & _ & Hn1). destruct (m1 a) as [n|] eqn:En; [|congruence].
      exists n. split; [reflexivity|]. rewrite (Hmf p L a n Hc HL En), Hw in Enf. injection Enf as <-. unfold clr, fin in Hf. cbn [n_kind] in Hf. destruct (dead_node n) eqn:Ed; [discriminate|]. rewrite swp_free in Hf.
      unfold dead_node, live_node in *. rewrite Hf in *. cbn in *. destruct (n_mark n); [reflexivity|discriminate].
Qed.
End Collect.
