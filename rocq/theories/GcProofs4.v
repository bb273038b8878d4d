(** Proofs for C22, part 4: sweeping. *)
Require Import ZArith List Bool Lia Permutation ZifyBool.
From Verif Require Import Base RootModel GcModel GcSpec GcProofs GcProofs2 GcProofs3.
Import ListNotations.
Open Scope Z_scope.
#[local] Arguments Z.add : simpl never.
#[local] Arguments Z.mul : simpl never.
#[local] Arguments Z.sub : simpl never.

(** ** The memory after marking *)
Definition marked_node (n : node) : Prop :=
  if free_kind (n_kind n) then exists s, 0 <= s <= 9 /\ n = mkN (KFree (24 + 8 * s)) true false
  else n_vd n = n_mark n && is_vardecl (n_kind n).
Definition live_node (n : node) : bool := negb (free_kind (n_kind n)) && n_mark n.
Definition dead_node (n : node) : bool := negb (free_kind (n_kind n)) && negb (n_mark n).
Definition at_node (f : node -> bool) (m : mem) (a : ptr) : bool := match m a with Some n => f n | None => false end.

Section Sweep.
Variable m1 : mem.
Hypothesis Hm1 : forall a n, m1 a = Some n -> marked_node n.
Hypothesis Hflat : forall a n, m1 a = Some n -> flat_of (n_kind n) = 0 \/ m1 (flat_of (n_kind n)) <> None.

Definition flat_live (k : kind) : bool := (flat_of k =? 0) || at_node n_vd m1 (flat_of k).
Definition swp (n : node) : node :=
  if free_kind (n_kind n) then n
  else if n_mark n then mkN (if flat_live (n_kind n) then n_kind n else set_flat 0 (n_kind n)) false (n_vd n)
  else mkN (set_flat 0 (n_kind n)) false false.
Definition fin (n : node) : node := if dead_node n then mkN (KFree (nodesize (n_kind n))) true false else swp n.

Definition vdof (m : mem) (x : ptr) : option bool := option_map n_vd (m x).
Lemma vdof_at : forall m x, (forall y, vdof m y = vdof m1 y) -> at_node n_vd m x = at_node n_vd m1 x.
Proof. intros m x H. specialize (H x). unfold vdof, at_node in *. destruct (m x), (m1 x); cbn in H; congruence. Qed.

Lemma set_flat_id : forall f k, is_vardecl k = false -> set_flat f k = k.
Proof. intros f [| | | | |loc ann e|loc i]; auto. destruct e; auto; discriminate. Qed.
Lemma free_set_flat : forall f k, free_kind (set_flat f k) = free_kind k.
Proof. intros f [| | | | |loc ann e|loc i]; auto. destruct e; auto. Qed.
Lemma vd_flat : forall k, is_vardecl k = false -> flat_of k = 0.
Proof. intros [| | | | |loc ann e|loc i]; auto. destruct e; auto; discriminate. Qed.
Lemma vd_free : forall k, is_vardecl k = true -> free_kind k = false.
Proof. intros []; auto; discriminate. Qed.

Definition dead_small (a : ptr) : bool := at_node dead_node m1 a && (24 <=? nsz m1 a) && (nsz m1 a <=? 96).
Definition live_vd (a : ptr) : bool := at_node (fun n => live_node n && is_vardecl (n_kind n)) m1 a.
Definition whole (L : list ptr) : bool := forallb (fun a => negb (at_node live_node m1 a)) L.

Lemma sweep_node_ok : forall p off st a n, a = p_base p + off -> m1 a = Some n -> s_mem st a = m1 a -> (forall y, vdof (s_mem st) y = vdof m1 y) ->
  0 < nodesize (n_kind n) -> (24 <= nodesize (n_kind n) <= 96 \/ off = 0 /\ p_used p = p_size p) ->
  exists st', sweep_node p off st = Ok (st', nodesize (n_kind n)) /\ s_mem st' a = Some (swp n) /\ (forall x, x <> a -> s_mem st' x = s_mem st x) /\
    s_free st' = s_free st ++ (if dead_small a then [(a, nsz m1 a)] else []) /\
    s_whole st' = s_whole st && negb (at_node live_node m1 a) /\ s_vds st' = s_vds st ++ (if live_vd a then [a] else []).
Proof.
  intros p off st a n Ea En Es Hv Hpos Hsm. unfold sweep_node. rewrite <- Ea. unfold mget at 1. rewrite Es, En. cbn [bind].
  assert (nodesize (n_kind n) =? 0 = false) as -> by lia. pose proof (Hm1 a n En) as Hn.
  unfold dead_small, live_vd, at_node, nsz. rewrite En. unfold dead_node, live_node, swp, marked_node in *.
  destruct (n_mark n) eqn:Em; cbn [negb].
  - destruct (free_kind (n_kind n)) eqn:Ef; cbn [negb andb].
    + eexists. split; [reflexivity|]. rewrite !app_nil_r, andb_true_r. split; [rewrite Es; exact En|]. auto.
    + rewrite app_nil_r, andb_false_r. destruct (is_vardecl (n_kind n)) eqn:Ev.
      * cbn in Hn. set (m' := mput (s_mem st) a (mkN (n_kind n) false (n_vd n))).
        assert (forall y, vdof m' y = vdof m1 y) as Hv'.
        { intros y. unfold vdof, m', mput. destruct (y =? a) eqn:Ey; [|apply Hv]. apply Z.eqb_eq in Ey. subst y. rewrite En. reflexivity. }
        assert (exists k', (if flat_of (n_kind n) =? 0 then Ok (n_kind n) else do t <- mget m' (flat_of (n_kind n)); Ok (if n_vd t then n_kind n else set_flat 0 (n_kind n))) = Ok k' /\
                  k' = if flat_live (n_kind n) then n_kind n else set_flat 0 (n_kind n)) as (k' & -> & ->).
        { unfold flat_live. destruct (flat_of (n_kind n) =? 0) eqn:E0; [eauto|]. cbn [orb]. rewrite <- (vdof_at m' _ Hv'). unfold mget, at_node.
          destruct (m' (flat_of (n_kind n))) as [t|] eqn:Et; [cbn [bind]; eauto|]. exfalso.
          specialize (Hv' (flat_of (n_kind n))). unfold vdof in Hv'. rewrite Et in Hv'. cbn in Hv'. destruct (Hflat a n En) as [X|X]; [lia|]. destruct (m1 (flat_of (n_kind n))); [discriminate|congruence]. }
        cbn [bind]. eexists. split; [reflexivity|]. cbn [s_mem s_free s_whole s_vds]. unfold mput at 1. rewrite Z.eqb_refl. split; [reflexivity|]. split; [|auto].
        intros x Hx. unfold m', mput. apply Z.eqb_neq in Hx. rewrite Hx. reflexivity.
      * eexists. split; [reflexivity|]. cbn [s_mem s_free s_whole s_vds]. unfold mput at 1. rewrite Z.eqb_refl.
        unfold flat_live. rewrite (vd_flat _ Ev). cbn. rewrite app_nil_r. split; [reflexivity|]. split; [|auto].
        intros x Hx. unfold mput. apply Z.eqb_neq in Hx. rewrite Hx. reflexivity.
  - destruct (free_kind (n_kind n)) eqn:Ef; [destruct Hn as (s & _ & ->); discriminate|]. cbn [negb andb]. cbn in Hn. rewrite !app_nil_r, andb_true_r.
    set (m' := if is_vardecl (n_kind n) then mput (s_mem st) a (mkN (set_flat 0 (n_kind n)) false false) else s_mem st).
    assert (m' a = Some (mkN (set_flat 0 (n_kind n)) false false)) as Ha.
    { unfold m'. destruct (is_vardecl (n_kind n)) eqn:Ev; [unfold mput; rewrite Z.eqb_refl; reflexivity|]. rewrite Es, En, set_flat_id by exact Ev. destruct n; cbn in *. congruence. }
    assert (forall x, x <> a -> m' x = s_mem st x) as Hx.
    { intros x Hx. unfold m'. destruct (is_vardecl (n_kind n)); [|reflexivity]. unfold mput. apply Z.eqb_neq in Hx. rewrite Hx. reflexivity. }
    unfold fl_min, fl_max. destruct ((24 <=? nodesize (n_kind n)) && (nodesize (n_kind n) <=? 96)) eqn:Er.
    + eexists. split; [reflexivity|]. cbn [s_mem s_free s_whole s_vds]. cbn [app]. rewrite ?app_nil_r. auto.
    + destruct Hsm as [|[-> Hu]]; [lia|]. rewrite Hu, !Z.eqb_refl. cbn [andb]. eexists. split; [reflexivity|]. cbn [s_mem s_free s_whole s_vds]. rewrite ?app_nil_r. auto.
Qed.

Lemma vdof_swp : forall n a, m1 a = Some n -> n_vd (swp n) = n_vd n.
Proof.
  intros n a E. pose proof (Hm1 a n E) as H. unfold swp, marked_node in *. destruct (free_kind (n_kind n)); [reflexivity|].
  destruct (n_mark n); [reflexivity|]. cbn in *. congruence.
Qed.

Lemma sweep_nodes_ok : forall L p off st fuel, tiled m1 (p_base p + off) (p_base p + p_used p) L -> (length L < fuel)%nat ->
  (forall x, In x L -> s_mem st x = m1 x) -> (forall y, vdof (s_mem st) y = vdof m1 y) ->
  (Forall (small m1) L \/ (length L <= 1)%nat /\ (L <> [] -> off = 0) /\ p_used p = p_size p) ->
  exists st', sweep_nodes fuel p off st = Ok st' /\
    (forall x, In x L -> s_mem st' x = option_map swp (m1 x)) /\ (forall x, ~ In x L -> s_mem st' x = s_mem st x) /\ (forall y, vdof (s_mem st') y = vdof m1 y) /\
    s_free st' = s_free st ++ map (fun a => (a, nsz m1 a)) (filter dead_small L) /\
    s_whole st' = s_whole st && whole L /\ s_vds st' = s_vds st ++ filter live_vd L.
Proof.
  induction L as [|a L IH]; intros p off st fuel T Hf Hx Hv Hsm.
  - cbn in T. destruct fuel as [|f]; [cbn in Hf; lia|]. cbn [sweep_nodes]. assert (off <? p_used p = false) as -> by lia. exists st. cbn. rewrite !app_nil_r, andb_true_r. split; [reflexivity|]. split; [intros x []|]. auto 8.
  - cbn in T. destruct T as (Ea & Hm & Hp & T). destruct fuel as [|f]; [cbn in Hf; lia|]. cbn [sweep_nodes].
    pose proof (tiled_le _ _ _ _ T) as Hle. assert (off <? p_used p = true) as -> by lia.
    rewrite <- Ea in Hm, Hp, T, Hle.
    destruct (m1 a) as [n|] eqn:En; [|congruence]. assert (nsz m1 a = nodesize (n_kind n)) as Ens by (unfold nsz; rewrite En; reflexivity).
    destruct (sweep_node_ok p off st a n Ea En) as (st1 & E1 & A1 & A2 & A3 & A4 & A5).
    + rewrite (Hx a (or_introl eq_refl)). reflexivity.
    + exact Hv.
    + lia.
    + destruct Hsm as [Hsm|(_ & Ho & Hu)]; [left|right; split; [apply Ho; discriminate|exact Hu]]. inversion Hsm as [|a' L' Ha _]; subst. unfold small in Ha. lia.
    + rewrite E1. cbn [bind]. assert (~ In a L) as Na. { intros Hin. destruct (tiled_in _ _ _ _ _ T Hin). lia. }
      destruct (IH p (off + nodesize (n_kind n)) st1 f) as (st2 & E2 & B1 & B2 & B3 & B4 & B5 & B6).
      * rewrite Ea in T. rewrite <- Ens, Ea. replace (p_base p + (off + nsz m1 (p_base p + off))) with (p_base p + off + nsz m1 (p_base p + off)) by lia. exact T.
      * cbn in Hf. lia.
      * intros x Hin. rewrite A2 by (intros ->; contradiction). apply Hx. right. exact Hin.
      * intros y. destruct (Z.eq_dec y a) as [->|Hy]; [|unfold vdof; rewrite A2 by auto; apply Hv]. unfold vdof. rewrite A1, En. cbn. f_equal. eapply vdof_swp; eauto.
      * destruct Hsm as [Hsm|(Hl & Ho & Hu)]; [left; inversion Hsm; auto|right]. cbn in Hl. destruct L; [|cbn in Hl; lia]. split; [cbn; lia|]. split; [congruence|exact Hu].
      * exists st2. split; [exact E2|]. split; [|split; [|split; [exact B3|]]].
        -- intros x [<-|Hin]; [|apply B1; exact Hin]. rewrite B2 by exact Na. rewrite A1, En. reflexivity.
        -- intros x Hin. rewrite B2 by (intros X; apply Hin; right; exact X). apply A2. intros ->. apply Hin. left. reflexivity.
        -- rewrite B4, B5, B6, A3, A4, A5. cbn [filter whole forallb]. rewrite <- !app_assoc, <- andb_assoc. split; [|split].
           ++ f_equal. destruct (dead_small a); reflexivity.
           ++ reflexivity.
           ++ f_equal. destruct (live_vd a); reflexivity.
Qed.

(** ** Pages that are given back *)
Lemma unlink_ok : forall L p off m fr fuel, tiled m (p_base p + off) (p_base p + p_used p) L -> (length L < fuel)%nat ->
  exists m', unlink_nodes fuel p off m fr = Ok (m', fr - sum (map (fsz m) L)) /\ (forall x, ~ In x L -> m' x = m x) /\
    (forall x n, In x L -> m x = Some n -> m' x = Some (if free_kind (n_kind n) then mkN (n_kind n) false (n_vd n) else n)).
Proof.
  induction L as [|a L IH]; intros p off m fr fuel T Hf.
  - cbn in T. destruct fuel as [|f]; [cbn in Hf; lia|]. cbn [unlink_nodes]. assert (off <? p_used p = false) as -> by lia. exists m. cbn. rewrite Z.sub_0_r. split; [reflexivity|]. split; [auto|]. intros x n [].
  - cbn in T. destruct T as (Ea & Hm & Hp & T). destruct fuel as [|f]; [cbn in Hf; lia|]. cbn [unlink_nodes].
    pose proof (tiled_le _ _ _ _ T) as Hle. assert (off <? p_used p = true) as -> by lia.
    rewrite <- Ea in *. assert (~ In a L) as Na. { intros Hin. destruct (tiled_in _ _ _ _ _ T Hin). lia. }
    unfold mget. destruct (m a) as [n|] eqn:En; [|congruence]. cbn [bind].
    assert (nsz m a = nodesize (n_kind n)) as Ens by (unfold nsz; rewrite En; reflexivity).
    assert (forall mm, (forall x, x <> a -> mm x = m x) -> tiled mm (p_base p + (off + nodesize (n_kind n))) (p_base p + p_used p) L) as HT.
    { intros mm Hmm. apply (tiled_ext m).
      - rewrite <- Ens. replace (p_base p + (off + nsz m a)) with (a + nsz m a) by lia. exact T.
      - intros x Hx. assert (x <> a) by (intros ->; contradiction). unfold nsz. rewrite Hmm by auto. split; [reflexivity|]. apply (tiled_in _ _ _ _ _ T Hx). }
    cbn [map]. rewrite sum_cons. assert (fsz m a = if free_kind (n_kind n) then nodesize (n_kind n) else 0) as -> by (unfold fsz; rewrite En; reflexivity).
    destruct (free_kind (n_kind n)) eqn:Ef.
    + set (mm := mput m a (mkN (n_kind n) false (n_vd n))). assert (forall x, x <> a -> mm x = m x) as Hmm. { intros x Hx. unfold mm, mput. apply Z.eqb_neq in Hx. rewrite Hx. reflexivity. }
      destruct (IH p (off + nodesize (n_kind n)) mm (fr - nodesize (n_kind n)) f (HT mm Hmm)) as (m' & E' & A & B); [cbn in Hf; lia|].
      assert (sum (map (fsz mm) L) = sum (map (fsz m) L)) as Hs. { apply sum_ext. intros x Hx. unfold fsz. rewrite Hmm by (intros ->; contradiction). reflexivity. }
      exists m'. split; [|split].
      * fold mm. rewrite E', Hs. do 2 f_equal. lia.
      * intros x Hx. rewrite A by (intros X; apply Hx; right; exact X). apply Hmm. intros ->. apply Hx. left. reflexivity.
      * intros x nx [<-|Hx] Ex; [|apply (B x nx Hx); rewrite Hmm by (intros ->; contradiction); exact Ex].
        rewrite A by exact Na. unfold mm, mput. rewrite Z.eqb_refl. rewrite En in Ex. injection Ex as <-. rewrite Ef. reflexivity.
    + destruct (IH p (off + nodesize (n_kind n)) m fr f (HT m (fun x _ => eq_refl))) as (m' & E' & A & B); [cbn in Hf; lia|].
      exists m'. split; [|split].
      * rewrite E'. do 2 f_equal; lia.
      * intros x Hx. apply A. intros X. apply Hx. right. exact X.
      * intros x nx [<-|Hx] Ex; [|apply (B x nx Hx); exact Ex]. rewrite A by exact Na. rewrite En in Ex. injection Ex as <-. rewrite Ef. exact En.
Qed.

(** ** Nodes that go to the free lists *)
Lemma free_nodes_ok : forall D m fl fr, NoDup D -> Forall (small m1) D ->
  exists m' fl', free_nodes (map (fun a => (a, nsz m1 a)) D) m fl fr = Ok (m', fl', fr + sum (map (nsz m1) D)) /\
    (forall x, In x D -> m' x = Some (mkN (KFree (nsz m1 x)) true false)) /\ (forall x, ~ In x D -> m' x = m x) /\
    (forall s x, In x (fl' s) <-> In x (fl s) \/ (0 <= s <= 9 /\ In x D /\ nsz m1 x = 24 + 8 * s)) /\
    ((forall s, NoDup (fl s)) -> (forall s x, In x (fl s) -> ~ In x D) -> forall s, NoDup (fl' s)).
Proof.
  induction D as [|a D IH]; intros m fl fr ND Hs.
  - exists m, fl. cbn. rewrite Z.add_0_r. split; [reflexivity|]. split; [intros x []|]. split; [auto|]. split; [|auto]. intros s x. tauto.
  - inversion ND as [|a' D' Na ND']; subst. inversion Hs as [|a' D' Ha Hs']; subst. cbn [map free_nodes].
    assert (nsz m1 a mod 8 = 0) as Hmod. { unfold nsz. destruct (m1 a); [apply nodesize_mod|reflexivity]. }
    destruct (slot_ok (nsz m1 a) Ha Hmod) as (i & Ei & Hi & Hsi). rewrite Ei. cbn [bind].
    destruct (IH (mput m a (mkN (KFree (nsz m1 a)) true false)) (flput fl i (a :: fl i)) (fr + nsz m1 a) ND' Hs') as (m' & fl' & E' & A & B & C & D0).
    exists m', fl'. rewrite E'. rewrite sum_cons. split; [do 2 f_equal; lia|]. split; [|split; [|split]].
    + intros x [<-|Hx]; [|apply A; exact Hx]. rewrite B by exact Na. unfold mput. rewrite Z.eqb_refl. reflexivity.
    + intros x Hx. rewrite B by (intros X; apply Hx; right; exact X). unfold mput. destruct (x =? a) eqn:E; [|reflexivity]. apply Z.eqb_eq in E. exfalso. apply Hx. left. auto.
    + intros s x. rewrite C. unfold flput. cbn [In]. destruct (s =? i) eqn:E.
      * apply Z.eqb_eq in E. subst s. cbn [In]. split; [intros [[<-|?]|?]; [right; auto|auto|tauto]|intros [?|(? & [<-|?] & ?)]; auto].
      * apply Z.eqb_neq in E. split; [tauto|]. intros [?|(? & [<-|?] & ?)]; auto. exfalso. lia.
    + intros Hnd Hdis. apply D0.
      * intros s. unfold flput. destruct (s =? i); [|apply Hnd]. constructor; [|apply Hnd]. intros Hin. apply (Hdis i a Hin). left. reflexivity.
      * intros s x. unfold flput. destruct (s =? i); cbn [In].
        -- intros [<-|Hin]; [exact Na|]. intros Hx. apply (Hdis i x Hin). right. exact Hx.
        -- intros Hin Hx. apply (Hdis s x Hin). right. exact Hx.
Qed.

Ltac gc_arith := match goal with |- Ok (_, _, ?a, ?b, _, _, _) = Ok (_, _, ?c, ?d, _, _, _) => replace c with a by lia; replace d with b by lia; reflexivity end.
(** ** All pages *)
Definition dsz (a : ptr) : Z := if at_node dead_node m1 a then nsz m1 a else 0.
Definition kept (pl : page * list ptr) : bool := negb (whole (snd pl)).
Definition gone_ (pl : page * list ptr) : bool := whole (snd pl).

Lemma swp_size : forall n, nodesize (n_kind (swp n)) = nodesize (n_kind n).
Proof. intros n. unfold swp. destruct (free_kind (n_kind n)); [reflexivity|]. destruct (n_mark n); cbn [n_kind]; [destruct (flat_live (n_kind n)); [reflexivity|]|]; apply nodesize_flat. Qed.
Lemma swp_free : forall n, free_kind (n_kind (swp n)) = free_kind (n_kind n).
Proof. intros n. unfold swp. destruct (free_kind (n_kind n)) eqn:E; [exact E|]. destruct (n_mark n); cbn [n_kind]; [destruct (flat_live (n_kind n)); [exact E|]|]; rewrite free_set_flat; exact E. Qed.
Lemma live_not_dead : forall n, live_node n = true -> dead_node n = false.
Proof. intros n. unfold live_node, dead_node. destruct (free_kind (n_kind n)), (n_mark n); cbn; congruence. Qed.

Lemma filter_dead_sum : forall L, Forall (small m1) L -> sum (map (nsz m1) (filter dead_small L)) = sum (map dsz L).
Proof.
  induction L as [|a L IH]; intros H; [reflexivity|]. inversion H as [|a' L' Ha HL]; subst. cbn [filter map]. rewrite sum_cons. unfold dsz at 1.
  unfold small in Ha. assert (dead_small a = at_node dead_node m1 a) as -> by (unfold dead_small; destruct (at_node dead_node m1 a); cbn; lia).
  destruct (at_node dead_node m1 a); cbn [map]; rewrite ?sum_cons, IH by auto; lia.
Qed.
Lemma dsz_le : forall L p, page_ok m1 p L -> 0 <= sum (map dsz L) <= sum (map (osz m1) L).
Proof.
  intros L p Hp. assert (forall a, In a L -> 0 <= dsz a <= osz m1 a) as H.
  { intros a Ha. pose proof (page_in _ _ _ _ Hp Ha) as (_ & _ & H1 & H2). unfold dsz, osz, fsz, nsz, at_node, dead_node in *.
    destruct (m1 a) as [n|]; [|congruence]. destruct (free_kind (n_kind n)), (n_mark n); cbn; lia. }
  clear Hp. induction L as [|a L IH]; [cbn; lia|]. cbn [map]. rewrite !sum_cons. pose proof (H a (or_introl eq_refl)). assert (0 <= sum (map dsz L) <= sum (map (osz m1) L)) by (apply IH; intros; apply H; right; auto). lia.
Qed.
(** a page that is kept and has a node of a large size consists of a live object only *)
Lemma kept_small : forall p L, page_ok m1 p L -> whole L = false -> Forall (small m1) L \/ filter dead_small L = [] /\ forall a, In a L -> at_node live_node m1 a = true.
Proof.
  intros p L Hp Hw. destruct (pg_small _ _ _ Hp) as [H|[[a ->] _]]; [left; exact H|right]. unfold whole in Hw. cbn in Hw.
  assert (at_node live_node m1 a = true) as Ha by (destruct (at_node live_node m1 a); [reflexivity|discriminate]). split.
  - cbn. unfold dead_small. assert (at_node dead_node m1 a = false) as ->; [|reflexivity]. unfold at_node in *. destruct (m1 a); [apply live_not_dead; exact Ha|reflexivity].
  - intros x [<-|[]]. exact Ha.
Qed.
Lemma kept_dead_sum : forall p L, page_ok m1 p L -> whole L = false -> sum (map (nsz m1) (filter dead_small L)) = sum (map dsz L).
Proof.
  intros p L Hp Hw. destruct (kept_small p L Hp Hw) as [H|[-> H]]; [apply filter_dead_sum; exact H|]. cbn [map]. change (sum []) with 0. symmetry.
  clear Hp Hw. induction L as [|a L IH]; [reflexivity|]. cbn [map]. rewrite sum_cons, IH by (intros; apply H; right; auto). unfold dsz.
  pose proof (H a (or_introl eq_refl)) as Ha. unfold at_node in *. destruct (m1 a); [|lia]. rewrite (live_not_dead _ Ha). lia.
Qed.
Lemma kept_dead_in : forall p L x, page_ok m1 p L -> whole L = false -> In x L -> (In x (filter dead_small L) <-> at_node dead_node m1 x = true).
Proof.
  intros p L x Hp Hw Hx. rewrite filter_In. destruct (kept_small p L Hp Hw) as [H|[H0 H]].
  - rewrite Forall_forall in H. specialize (H x Hx). unfold small in H. unfold dead_small. destruct (at_node dead_node m1 x); cbn; intuition lia.
  - specialize (H x Hx). unfold dead_small, at_node in *. destruct (m1 x); [|intuition discriminate]. rewrite (live_not_dead _ H). cbn. intuition discriminate.
Qed.
Lemma filter_small : forall L, Forall (small m1) (filter dead_small L).
Proof. intros L. apply Forall_forall. intros x Hx. apply filter_In in Hx. destruct Hx as [_ Hx]. unfold dead_small in Hx. unfold small. lia. Qed.

Lemma sweep_pages_ok : forall fuel ps Ls, Forall2 (page_ok m1) ps Ls -> ForallOrdPairs disj ps -> (forall L, In L Ls -> (length L < fuel)%nat) ->
  Forall (fun p => rem p = 0 \/ 24 <= rem p) ps ->
  forall m fl al fr, (forall x, In x (concat Ls) -> m x = m1 x) -> (forall y, vdof m y = vdof m1 y) ->
  (forall s, NoDup (fl s)) -> (forall s x, In x (fl s) -> In x (concat Ls) -> at_node dead_node m1 x = false) ->
  sum (map (osz m1) (concat Ls)) <= al - fr ->
  exists m2 fl2, let pl := combine ps Ls in
    sweep_pages fuel ps m fl al fr =
      Ok (m2, fl2, al - sum (map (fun q => p_size (fst q)) (filter gone_ pl)),
          fr - sum (map (fun q => rem (fst q) + sum (map (fsz m1) (snd q))) (filter gone_ pl)) + sum (map (fun q => sum (map dsz (snd q))) (filter kept pl)),
          map fst (filter kept pl), map fst (filter gone_ pl), filter live_vd (concat Ls)) /\
    (forall x, ~ In x (concat Ls) -> m2 x = m x) /\ (forall y, vdof m2 y = vdof m1 y) /\
    (forall p L x n, In (p, L) pl -> In x L -> m1 x = Some n -> if whole L then exists n', m2 x = Some n' /\ n_mark n' = false else m2 x = Some (fin n)) /\
    (forall s x, In x (fl2 s) <-> In x (fl s) \/ (0 <= s <= 9 /\ nsz m1 x = 24 + 8 * s /\ at_node dead_node m1 x = true /\ exists p L, In (p, L) pl /\ whole L = false /\ In x L)) /\
    (forall s, NoDup (fl2 s)).
Proof.
  intros fuel ps Ls H. induction H as [|p L ps Ls Hp H IH]; intros Dj Hfuel Hrem m fl al fr Hm Hv Nd Hfl Hal.
  - exists m, fl. cbn. rewrite !Z.sub_0_r, Z.add_0_r. split; [reflexivity|]. split; [auto|]. split; [auto|]. split; [intros p L x n []|]. split; [|auto].
    intros s x. split; [auto|]. intros [?|(_ & _ & _ & p & L & [] & _)]. assumption.
  - inversion Dj as [|p' ps' Dp Dps]; subst. inversion Hrem as [|p' ps' Hr Hrs]; subst. cbn [concat] in *.
    assert (NoDup L) as NL by exact (tiled_nodup _ _ _ _ (pg_tiled _ _ _ Hp)).
    assert (forall x, In x L -> ~ In x (concat Ls)) as Hdis.
    { intros x Hx. eapply lay_apart; eauto. pose proof (page_in _ _ _ _ Hp Hx). pose proof (pg_used _ _ _ Hp). lia. }
    cbn [sweep_pages].
    destruct (sweep_nodes_ok L p 0 (mkS m [] true []) fuel) as (st & E1 & A1 & A2 & A3 & A4 & A5 & A6).
    { rewrite Z.add_0_r. exact (pg_tiled _ _ _ Hp). }
    { apply Hfuel. left. reflexivity. }
    { intros x Hx. cbn. apply Hm. apply in_or_app. auto. }
    { exact Hv. }
    { destruct (pg_small _ _ _ Hp) as [Hs|[[a ->] Hu]]; [left; exact Hs|right]. cbn. auto. }
    cbn [s_mem s_free s_whole s_vds app andb] in *. rewrite E1. cbn [bind].
    rewrite map_app, sum_app in Hal. cbn [combine filter]. change (gone_ (p, L)) with (whole L). change (kept (p, L)) with (negb (whole L)). rewrite A5. rewrite filter_app.
    pose proof (dsz_le L p Hp) as Hdsz.
    assert (used_eq : p_used p = sum (map (osz m1) L) + sum (map (fsz m1) L)).
    { pose proof (tiled_sum _ _ _ _ (pg_tiled _ _ _ Hp)) as Hs. unfold osz. rewrite !(sum_sub ptr (nsz m1) (fsz m1)). lia. }
    pose proof (osz_sum_nonneg _ _ _ H) as Hpos.
    destruct (whole L) eqn:Ew.
    + (* the page is given back *)
      assert ((if fl_min <=? p_size p - p_used p then fr - (p_size p - p_used p) else fr) = fr - rem p) as ->.
      { unfold fl_min, rem in *. destruct (24 <=? p_size p - p_used p) eqn:E; lia. }
      destruct (unlink_ok L p 0 (s_mem st) (fr - rem p) fuel) as (m' & E2 & B1 & B2).
      { rewrite Z.add_0_r. apply (tiled_ext m1); [exact (pg_tiled _ _ _ Hp)|]. intros x Hx. unfold nsz. rewrite (A1 x Hx). pose proof (page_in _ _ _ _ Hp Hx) as (_ & _ & _ & Hn).
        destruct (m1 x); [|congruence]. cbn. split; [apply swp_size|congruence]. }
      { apply Hfuel. left. reflexivity. }
      rewrite E2. cbn [bind].
      assert (sum (map (fsz (s_mem st)) L) = sum (map (fsz m1) L)) as ->.
      { apply sum_ext. intros x Hx. unfold fsz. rewrite (A1 x Hx). destruct (m1 x); [|reflexivity]. cbn. rewrite swp_free, swp_size. reflexivity. }
      destruct (al - p_size p <? fr - rem p - sum (map (fsz m1) L)) eqn:Elt; [unfold rem in *; lia|].
      destruct (IH Dps (fun L' Hl => Hfuel L' (or_intror Hl)) Hrs m' fl (al - p_size p) (fr - rem p - sum (map (fsz m1) L))) as (m2 & fl2 & E3 & C1 & C2 & C3 & C4 & C5).
      { intros x Hx. assert (~ In x L) as Hn by (intros X; exact (Hdis x X Hx)). rewrite B1, A2 by exact Hn. apply Hm. apply in_or_app. auto. }
      { intros y. rewrite <- (A3 y). unfold vdof. destruct (in_dec Z.eq_dec y L) as [Hy|Hy]; [|rewrite B1 by exact Hy; reflexivity].
        pose proof (A1 y Hy) as E. pose proof (page_in _ _ _ _ Hp Hy) as (_ & _ & _ & Hn). destruct (m1 y) as [n|] eqn:En; [|congruence]. cbn in E. rewrite (B2 y _ Hy E), E. cbn.
        destruct (free_kind (n_kind (swp n))); reflexivity. }
      { exact Nd. }
      { intros s x Hx Hin. apply (Hfl s x Hx). apply in_or_app. auto. }
      { unfold rem. lia. }
      cbv zeta in E3. rewrite E3. cbn [bind]. exists m2, fl2. cbv zeta. cbn [map negb fst snd]. rewrite !sum_cons. rewrite A6.
      split; [gc_arith|]. split; [|split; [exact C2|split; [|split; [|exact C5]]]].
      * intros x Hx. rewrite in_app_iff in Hx. rewrite C1 by tauto. rewrite B1, A2 by tauto. reflexivity.
      * intros q L' x n Hin Hx En. destruct Hin as [Eq|Hin]; [|apply (C3 q L' x n Hin Hx En)]. injection Eq as <- <-. rewrite Ew.
        assert (s_mem st x = Some (swp n)) as Es by (rewrite (A1 x Hx), En; reflexivity).
        exists (if free_kind (n_kind (swp n)) then mkN (n_kind (swp n)) false (n_vd (swp n)) else swp n). rewrite C1 by (apply Hdis; exact Hx). rewrite (B2 x _ Hx Es). split; [reflexivity|].
        rewrite swp_free. destruct (free_kind (n_kind n)) eqn:Ef; [reflexivity|]. unfold swp. rewrite Ef. destruct (n_mark n); reflexivity.
      * intros s x. rewrite C4. split; (intros [?|(Hs & H1 & H2 & q & L' & H3 & H4 & H5)]; [auto|right; split; [exact Hs|]; split; [exact H1|]; split; [exact H2|]]).
        -- exists q, L'. cbn. auto.
        -- destruct H3 as [Eq|H3]; [injection Eq as <- <-; congruence|]. exists q, L'. auto.
    + (* the page stays *)
      rewrite A4. destruct (free_nodes_ok (filter dead_small L) (s_mem st) fl fr) as (m' & fl' & E2 & B1 & B2 & B3 & B4); [apply NoDup_filter; exact NL|apply filter_small|].
      rewrite E2. cbn [bind]. rewrite (kept_dead_sum p L Hp Ew).
      destruct (al <? fr + sum (map dsz L)) eqn:Elt; [lia|].
      destruct (IH Dps (fun L' Hl => Hfuel L' (or_intror Hl)) Hrs m' fl' al (fr + sum (map dsz L))) as (m2 & fl2 & E3 & C1 & C2 & C3 & C4 & C5).
      { intros x Hx. assert (~ In x L) as Hn by (intros X; exact (Hdis x X Hx)). rewrite B2 by (rewrite filter_In; tauto). rewrite A2 by exact Hn. apply Hm. apply in_or_app. auto. }
      { intros y. rewrite <- (A3 y). unfold vdof. destruct (in_dec Z.eq_dec y (filter dead_small L)) as [Hy|Hy]; [|rewrite B2 by exact Hy; reflexivity].
        rewrite (B1 y Hy). apply filter_In in Hy. destruct Hy as [Hy Hd]. rewrite (A1 y Hy). unfold dead_small, at_node in Hd. destruct (m1 y) as [n|] eqn:En; [|discriminate]. cbn.
        f_equal. rewrite (vdof_swp n y En). pose proof (Hm1 y n En) as Hn. unfold marked_node in Hn. unfold dead_node in Hd. destruct (free_kind (n_kind n)); [discriminate|]. destruct (n_mark n); [discriminate|]. symmetry. exact Hn. }
      { apply B4; [exact Nd|]. intros s x Hx Hin. apply filter_In in Hin. destruct Hin as [Hin Hd].
        unfold dead_small in Hd. rewrite (Hfl s x Hx) in Hd by (apply in_or_app; auto). discriminate. }
      { intros s x Hx Hin. apply B3 in Hx. destruct Hx as [Hx|(_ & Hx & _)]; [apply (Hfl s x Hx); apply in_or_app; auto|]. apply filter_In in Hx. exfalso. exact (Hdis x (proj1 Hx) Hin). }
      { lia. }
      cbv zeta in E3. rewrite E3. cbn [bind]. exists m2, fl2. cbv zeta. cbn [map negb fst snd]. rewrite !sum_cons. rewrite A6.
      split; [gc_arith|]. split; [|split; [exact C2|split; [|split; [|exact C5]]]].
      * intros x Hx. rewrite in_app_iff in Hx. rewrite C1 by tauto. rewrite B2 by (rewrite filter_In; tauto). rewrite A2 by tauto. reflexivity.
      * intros q L' x n Hin Hx En. destruct Hin as [Eq|Hin]; [|apply (C3 q L' x n Hin Hx En)]. injection Eq as <- <-. rewrite Ew.
        rewrite C1 by (apply Hdis; exact Hx). unfold fin. pose proof (kept_dead_in p L x Hp Ew Hx) as Hk. unfold at_node in Hk. rewrite En in Hk. destruct (dead_node n) eqn:Ed.
        -- rewrite B1 by (apply Hk; reflexivity). unfold nsz. rewrite En. reflexivity.
        -- rewrite B2 by (rewrite Hk; discriminate). rewrite (A1 x Hx), En. reflexivity.
      * intros s x. rewrite C4, B3. split.
        -- intros [[?|(H1 & H2 & H3)]|(Hs & H1 & H2 & q & L' & H3 & H4 & H5)]; [auto| |].
           ++ right. split; [exact H1|]. split; [exact H3|]. pose proof H2 as H2'. apply filter_In in H2'. destruct H2' as [H2' H2'']. split; [unfold dead_small in H2''; destruct (at_node dead_node m1 x); [reflexivity|discriminate]|].
              exists p, L. cbn. auto.
           ++ right. split; [exact Hs|]. split; [exact H1|]. split; [exact H2|]. exists q, L'. cbn. auto.
        -- intros [?|(Hs & H1 & H2 & q & L' & H3 & H4 & H5)]; [auto|]. destruct H3 as [Eq|H3].
           ++ injection Eq as <- <-. left. right. split; [exact Hs|]. split; [|exact H1]. apply (kept_dead_in p L x Hp Ew H5). exact H2.
           ++ right. split; [exact Hs|]. split; [exact H1|]. split; [exact H2|]. exists q, L'. auto.
Qed.
End Sweep.
