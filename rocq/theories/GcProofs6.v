(** Proofs for C22, part 6: typed memory is preserved, and the invariant of all histories. *)
Require Import ZArith List Bool Lia Permutation ZifyBool.
From Verif Require Import Base RootModel GcModel GcSpec GcProofs GcProofs2 GcProofs3 GcProofs4 GcProofs5.
Import ListNotations.
Open Scope Z_scope.
#[local] Arguments Z.add : simpl never.
#[local] Arguments Z.mul : simpl never.
#[local] Arguments Z.sub : simpl never.

(** ** More fuel does not change a result *)
Definition le_res {A : Type} (r r' : res A) : Prop := forall x, r = Ok x -> r' = Ok x.
Lemma le_refl_res : forall (A : Type) (r : res A), le_res r r.
Proof. intros A r x H. exact H. Qed.
Lemma le_bind : forall (A B : Type) (r r' : res A) (f f' : A -> res B), le_res r r' -> (forall x, le_res (f x) (f' x)) -> le_res (bind r f) (bind r' f').
Proof. intros A B r r' f f' H1 H2 x E. apply bind_ok in E. destruct E as (a & Ea & Ef). rewrite (H1 a Ea). cbn. apply H2. exact Ef. Qed.
Lemma le_fold : forall (f f' : val -> mem -> res mem), (forall v m, le_res (f v m) (f' v m)) -> forall vs r r', le_res r r' ->
  le_res (fold_left (fun r v => do m' <- r; f v m') vs r) (fold_left (fun r v => do m' <- r; f' v m') vs r').
Proof.
  intros f f' H. induction vs as [|v vs IH]; intros r r' Hr; [exact Hr|]. cbn [fold_left]. apply IH. apply le_bind; auto.
Qed.
Lemma mark_mono1 : forall f, (forall s m, le_res (mark_loop f s m) (mark_loop (S f) s m)) /\ (forall a m, le_res (mark_item f a m) (mark_item (S f) a m)).
Proof.
  induction f as [|f [IHl IHi]]; [split; intros ? ? ? H; discriminate H|]. split.
  - intros s m. destruct s as [|v s]; [apply le_refl_res|]. destruct v as [|z|a].
    + exact (IHl s m).
    + exact (IHl s m).
    + change (le_res (do n <- mget m a; if n_mark n then mark_loop f s m else match n_kind n with KExpr loc ann e =>
         (do m1 <- mark_loc loc (mput m a (mkN (n_kind n) true (n_vd n || is_vardecl (n_kind n)))); do ' (ps, l, fi) <- parts m1 e; do m2 <- mark_ptrs ps m1;
          do m3 <- (if fi =? 0 then Ok m2 else mark_item f fi m2); mark_loop f (nonnull (rev l) ++ nonnull (rev ann) ++ s) m3) | _ => UB end)
       (do n <- mget m a; if n_mark n then mark_loop (S f) s m else match n_kind n with KExpr loc ann e =>
         (do m1 <- mark_loc loc (mput m a (mkN (n_kind n) true (n_vd n || is_vardecl (n_kind n)))); do ' (ps, l, fi) <- parts m1 e; do m2 <- mark_ptrs ps m1;
          do m3 <- (if fi =? 0 then Ok m2 else mark_item (S f) fi m2); mark_loop (S f) (nonnull (rev l) ++ nonnull (rev ann) ++ s) m3) | _ => UB end)).
      apply le_bind; [apply le_refl_res|]. intros n. destruct (n_mark n); [apply IHl|]. destruct (n_kind n); try apply le_refl_res.
      apply le_bind; [apply le_refl_res|]. intros m1. apply le_bind; [apply le_refl_res|]. intros [[ps l] fi]. apply le_bind; [apply le_refl_res|]. intros m2.
      apply le_bind; [destruct (fi =? 0); [apply le_refl_res|apply IHi]|]. intros m3. apply IHl.
  - intros a m. cbn [mark_item]. apply le_bind; [apply le_refl_res|]. intros n. destruct (n_mark n); [apply le_refl_res|]. destruct (n_kind n) as [| | | | |loc ann e|loc i]; try apply le_refl_res.
    + destruct e; try apply le_refl_res. apply le_bind; [apply le_refl_res|]. intros m1. apply IHl.
    + apply le_bind; [apply le_refl_res|]. intros m0. apply le_bind; [apply le_refl_res|]. intros m1.
      assert (forall vs m, le_res (fold_left (fun r v => do m' <- r; mark_loop f (nonnull [v]) m') vs (Ok m)) (fold_left (fun r v => do m' <- r; mark_loop (S f) (nonnull [v]) m') vs (Ok m))) as Hm.
      { intros vs mm. apply (le_fold (fun v m' => mark_loop f (nonnull [v]) m') (fun v m' => mark_loop (S f) (nonnull [v]) m')); [intros; apply IHl|apply le_refl_res]. }
      destruct i; cbv zeta; try apply le_refl_res; try apply Hm.
      * apply le_bind; [apply le_refl_res|]. intros m2. apply Hm.
      * apply le_bind; [apply le_refl_res|]. intros m2. apply le_bind; [apply Hm|]. intros m3. apply le_bind; [apply le_refl_res|]. intros m4. apply le_bind; [apply le_refl_res|]. intros l. apply Hm.
Qed.
Lemma mono_le : forall (A : Type) (F : nat -> res A), (forall f, le_res (F f) (F (S f))) -> forall f g, (f <= g)%nat -> le_res (F f) (F g).
Proof. intros A F H f g Hfg. induction Hfg as [|g Hg IH]; [apply le_refl_res|]. intros x E. apply H, IH, E. Qed.
Lemma mark_roots_mono : forall f l m, le_res (mark_roots f l m) (mark_roots (S f) l m).
Proof.
  intros f. induction l as [|r l IH]; intros m; cbn [mark_roots]; [apply le_refl_res|]. apply le_bind; [|intros; apply IH]. destruct r; cbn [mark_root]; try apply le_refl_res; apply mark_mono1.
Qed.
Lemma sweep_nodes_mono : forall f p off st, le_res (sweep_nodes f p off st) (sweep_nodes (S f) p off st).
Proof.
  induction f as [|f IH]; intros p off st; [intros x H; discriminate H|]. cbn [sweep_nodes]. destruct (off <? p_used p); [|apply le_refl_res].
  apply le_bind; [apply le_refl_res|]. intros [st' ns]. exact (IH p (off + ns) st').
Qed.
Lemma unlink_mono : forall f p off m fr, le_res (unlink_nodes f p off m fr) (unlink_nodes (S f) p off m fr).
Proof.
  induction f as [|f IH]; intros p off m fr; [intros x H; discriminate H|]. change (unlink_nodes (S (S f)) p off m fr) with
   (if off <? p_used p then (do n <- mget m (p_base p + off); if free_kind (n_kind n) then unlink_nodes (S f) p (off + nodesize (n_kind n)) (mput m (p_base p + off) (mkN (n_kind n) false (n_vd n))) (fr - nodesize (n_kind n))
     else unlink_nodes (S f) p (off + nodesize (n_kind n)) m fr) else Ok (m, fr)).
  change (unlink_nodes (S f) p off m fr) with
   (if off <? p_used p then (do n <- mget m (p_base p + off); if free_kind (n_kind n) then unlink_nodes f p (off + nodesize (n_kind n)) (mput m (p_base p + off) (mkN (n_kind n) false (n_vd n))) (fr - nodesize (n_kind n))
     else unlink_nodes f p (off + nodesize (n_kind n)) m fr) else Ok (m, fr)).
  destruct (off <? p_used p); [|apply le_refl_res]. apply le_bind; [apply le_refl_res|]. intros n. destruct (free_kind (n_kind n)); apply IH.
Qed.
Lemma sweep_pages_mono : forall f ps m fl al fr, le_res (sweep_pages f ps m fl al fr) (sweep_pages (S f) ps m fl al fr).
Proof.
  intros f. induction ps as [|p ps IH]; intros m fl al fr; cbn [sweep_pages]; [apply le_refl_res|].
  apply le_bind; [apply sweep_nodes_mono|]. intros st. destruct (s_whole st).
  - cbv zeta. apply le_bind; [apply unlink_mono|]. intros [m1 fr2]. destruct (al - p_size p <? fr2); [apply le_refl_res|]. apply le_bind; [apply IH|]. intros [[[[[[? ?] ?] ?] ?] ?] ?]. apply le_refl_res.
  - apply le_bind; [apply le_refl_res|]. intros [[m1 fl1] fr1]. destruct (al <? fr1); [apply le_refl_res|]. apply le_bind; [apply IH|]. intros [[[[[[? ?] ?] ?] ?] ?] ?]. apply le_refl_res.
Qed.
Lemma trigger_mono : forall f g keep markers trail h, (f <= g)%nat -> le_res (trigger f keep markers trail h) (trigger g keep markers trail h).
Proof.
  intros f g keep markers trail h Hfg. apply (mono_le _ (fun f => trigger f keep markers trail h)); [|exact Hfg]. intros f'. unfold trigger. apply le_bind.
  - unfold heap_mark. apply le_bind; [apply mark_roots_mono|]. intros m1. destruct markers; [apply le_refl_res|]. apply le_bind; [apply mark_roots_mono|]. intros m2. apply mark_roots_mono.
  - intros m. unfold sweep. apply le_bind; [apply sweep_pages_mono|]. intros [[[[[[? ?] ?] ?] ?] ?] ?]. apply le_refl_res.
Qed.

(** ** Typed memory carries over *)
Definition shape (k : kind) : Z :=
  match k with KFree _ => 0 | KChunk _ => 1 | KStr _ => 2 | KVec _ => 3 | KLoc _ _ => 4 | KExpr _ _ (EVarDecl _ _ _ _) => 5 | KExpr _ _ _ => 6
             | KItem _ (IFun _ _ _ _ _) => 7 | KItem _ _ => 8 end.
Definition class (P : kind -> bool) : Prop := (forall s, P (KFree s) = false) /\ forall k k', shape k = shape k' -> P k = P k'.
Lemma class_flat : forall P k, class P -> P (set_flat 0 k) = P k.
Proof. intros P k [_ H]. apply H. destruct k as [| | | | |loc ann e|loc i]; try reflexivity. destruct e; reflexivity. Qed.
Definition carries (m m' : mem) (K : ptr -> Prop) : Prop :=
  forall a n, K a -> m a = Some n -> free_kind (n_kind n) = false -> exists n', m' a = Some n' /\ forall P, class P -> P (n_kind n) = true -> P (n_kind n') = true.
Lemma class_nonfree : forall P k, class P -> P k = true -> free_kind k = false.
Proof. intros P k [H _] E. destruct k; auto. rewrite H in E. discriminate. Qed.
Ltac cls := split; [reflexivity|]; intros k k'; destruct k as [| | | | |loc ann e|loc i]; destruct k' as [| | | | |loc' ann' e'|loc' i']; cbn; try reflexivity; try destruct e; try destruct e'; try destruct i; try destruct i'; cbn; congruence.
Lemma c_str : class kstr. Proof. cls. Qed.
Lemma c_chunk : class kchunk. Proof. cls. Qed.
Lemma c_vec : class kvec. Proof. cls. Qed.
Lemma c_loc : class kloc. Proof. cls. Qed.
Lemma c_expr : class kexpr. Proof. cls. Qed.
Lemma c_fun : class kfun. Proof. cls. Qed.
Lemma c_item : class kitem. Proof. cls. Qed.
Lemma c_vd : class is_vardecl. Proof. cls. Qed.
#[local] Hint Resolve c_str c_chunk c_vec c_loc c_expr c_fun c_item c_vd : gcc.

Section Carry.
Variables (m m' : mem) (K : ptr -> Prop).
Hypothesis HC : carries m m' K.
Lemma points_c : forall P a, class P -> K a -> points P m a -> points P m' a.
Proof.
  intros P a C Ka (n & E & H). destruct (HC a n Ka E (class_nonfree _ _ C H)) as (n' & E' & Hk). exists n'. split; [exact E'|]. apply Hk; auto.
Qed.
Lemma isp_c : forall P a, class P -> (forall r, In r (opt a) -> K r) -> isp P m a -> isp P m' a.
Proof. intros P a C Ka [H|H]; [left; exact H|]. unfold isp. destruct (Z.eq_dec a 0) as [->|Hn]; [auto|right]. apply points_c; auto. apply Ka. unfold opt. apply Z.eqb_neq in Hn. rewrite Hn. left. reflexivity. Qed.
Lemma isv_c : forall v, (forall r, In r (vnode v) -> K r) -> isv m v -> isv m' v.
Proof. intros [|z|a] Ka H; cbn in *; auto. apply points_c; auto with gcc. Qed.
Lemma isvs_c : forall l, (forall r, In r (vnodes l) -> K r) -> Forall (isv m) l -> Forall (isv m') l.
Proof.
  intros l Ka H. rewrite Forall_forall in *. intros v Hv. apply isv_c; [|auto]. intros r Hr. apply Ka. unfold vnodes. apply in_flat_map. eauto.
Qed.
Ltac side HK := let r := fresh "r" in let Hr := fresh "Hr" in intros r Hr; apply HK; cbn; rewrite ?in_app_iff; tauto.
Ltac one HK := match goal with
  | |- isp _ _ _ => apply isp_c; [auto with gcc|side HK|assumption]
  | |- isv _ _ => apply isv_c; [side HK|assumption]
  | |- Forall _ _ => apply isvs_c; [side HK|assumption]
  | _ => assumption
  end.
Lemma typed_c : m 0 = None -> forall k, (forall r, In r (refs k) -> K r) -> (flat_of k = 0 \/ K (flat_of k)) -> typed_kind m k -> typed_kind m' k.
Proof.
  intros M0 k HK HF T. destruct k as [| | | | |loc ann e|loc i]; cbn in T |- *; auto.
  - apply isvs_c; auto.
  - destruct T. split; one HK.
  - destruct T as (Tl & Ta & Te). split; [one HK|]. split; [one HK|]. destruct e; cbn in Te |- *; auto; try solve [decompose [and] Te; repeat split; one HK | one HK].
    + destruct Te as [Ts Td]. split; [|one HK]. intros ->. specialize (Ts eq_refl). apply isp_c; [auto with gcc| |exact Ts]. intros r Hr. apply HK. cbn. rewrite !in_app_iff. tauto.
    + destruct Te as [Tu Td]. split; [|one HK]. destruct slice; [|one HK]. apply points_c; auto with gcc. apply HK. cbn. rewrite !in_app_iff. right. right. left. unfold opt.
      destruct (u =? 0) eqn:E0; [|left; reflexivity]. apply Z.eqb_eq in E0. subst u. destruct Tu as (n & En & _). congruence.
    + destruct Te as (Tu & Tc & Td). split; [|split; [exact Tc|]].
      * destruct hasDecl; [|one HK]. apply points_c; auto with gcc. apply HK. cbn. rewrite !in_app_iff. right. right. left. unfold opt.
        destruct (u =? 0) eqn:E0; [|left; reflexivity]. apply Z.eqb_eq in E0. subst u. destruct Tu as (n & En & _). congruence.
      * cbn in HK. destruct (5 <=? ck).
        -- apply points_c; auto with gcc. apply HK. rewrite !in_app_iff. right. right. right. unfold opt. destruct (args =? 0) eqn:E0; [|left; reflexivity]. apply Z.eqb_eq in E0. subst args. destruct Td as (n & En & _). congruence.
        -- destruct Td as [Tl' Td]. split; [exact Tl'|]. apply isvs_c; [|exact Td]. intros r Hr. apply HK. rewrite !in_app_iff. tauto.
    + destruct Te as (T1 & T2 & T3 & T4). split; [one HK|]. split; [one HK|]. split; [one HK|]. cbn in HF. destruct T4 as [T4|T4]; [left; exact T4|]. destruct HF as [HF|HF]; [left; exact HF|]. right. apply points_c; auto with gcc.
  - destruct T as (Tl & Ti). split; [one HK|]. destruct i; cbn in Ti |- *; decompose [and] Ti; repeat split; one HK.
Qed.
End Carry.

(** ** A collection *)
Lemma hinv_pos : forall h Ls a, hinv h Ls -> hp_mem h a <> None -> 0 < a.
Proof.
  intros h Ls a [H _] Hn. apply (l_dom _ _ _ _ _ _ H) in Hn. destruct (lay_in _ _ _ _ (l_lay _ _ _ _ _ _ H) Hn) as (p & L & _ & Hp & HL & _).
  pose proof (page_in _ _ _ _ Hp HL). pose proof (pg_base _ _ _ Hp). lia.
Qed.
Lemma hinv_null : forall h Ls, hinv h Ls -> hp_mem h 0 = None.
Proof. intros h Ls H. destruct (hp_mem h 0) eqn:E; [|reflexivity]. pose proof (hinv_pos h Ls 0 H ltac:(congruence)). lia. Qed.
Lemma contents_node : forall h a k, contents h a = Some k <-> exists n, hp_mem h a = Some n /\ n_kind n = k /\ free_kind k = false.
Proof.
  intros h a k. unfold contents. destruct (hp_mem h a) as [n|] eqn:E; [|split; [discriminate|intros (n & Hn & _); discriminate]]. destruct (free_kind (n_kind n)) eqn:Ef.
  - split; [discriminate|]. intros (n' & Hn & Hk & Hf). injection Hn as <-. congruence.
  - split; [intros H; injection H as <-; eauto|]. intros (n' & Hn & Hk & Hf). injection Hn as <-. congruence.
Qed.
Lemma refs_set_flat : forall k, refs (set_flat 0 k) = refs k.
Proof. intros [| | | | |loc ann e|loc i]; try reflexivity. destruct e; reflexivity. Qed.
Lemma typed_set_flat : forall m k, typed_kind m k -> typed_kind m (set_flat 0 k).
Proof. intros m [| | | | |loc ann e|loc i]; auto. destruct e; auto. cbn. unfold isp. intuition auto. Qed.
Lemma flat_set_flat : forall k, flat_of (set_flat 0 k) = 0.
Proof. intros [| | | | |loc ann e|loc i]; auto. destruct e; auto. Qed.
Lemma flat_typed : forall m k, typed_kind m k -> flat_of k = 0 \/ points is_vardecl m (flat_of k).
Proof. intros m [| | | | |loc ann e|loc i]; cbn; auto. destruct e; cbn; auto. intros (_ & _ & _ & _ & _ & [H|H]); auto. Qed.
Lemma live_step : forall m roots a n r, live m roots a -> m a = Some n -> In r (refs (n_kind n)) -> live m roots r.
Proof. intros m roots a n r (x & Hx & R) E Hr. exists x. split; [exact Hx|]. eapply reach_trans; [exact R|]. eapply reach_step; [exact E|exact Hr|constructor]. Qed.
Lemma live_points : forall m a P, points P m a -> class P -> forall n, m a = Some n -> free_kind (n_kind n) = false.
Proof. intros m a P (n & E & H) C n' E'. rewrite E in E'. injection E' as <-. eapply class_nonfree; eauto. Qed.

Theorem collect_ok : forall h Ls keep markers trail, hinv h Ls -> typed (hp_mem h) -> typed_roots (hp_mem h) keep markers trail -> markers <> [] ->
  let lv := live (hp_mem h) (root_refs keep markers trail) in
  exists N, forall fuel, (N <= fuel)%nat -> exists h' Ls', trigger fuel keep markers trail h = Ok h' /\ hinv h' Ls' /\ typed (hp_mem h') /\
    forall a k', contents h' a = Some k' <-> exists k, contents h a = Some k /\ lv a /\ survives lv k k'.
Proof.
  intros [m ps fl al fr] Ls keep markers trail [H R] T Tr Hm lv. cbn [hp_mem hp_pages hp_fl hp_alloced hp_free] in *.
  exists (domain_fuel (concat Ls) m + length (concat Ls) + 1)%nat. intros fuel Hf. unfold trigger. cbn [hp_mem hp_pages hp_fl hp_alloced hp_free].
  destruct (heap_mark_exact (concat Ls) fuel keep markers trail m T) as (m1 & E1 & X & Hlive).
  { intros a Ha. apply (l_dom _ _ _ _ _ _ H). exact Ha. }
  { intros a n En. pose proof (l_node _ _ _ _ _ _ H a n En) as Hn. destruct (free_kind (n_kind n)); [right; reflexivity|left; tauto]. }
  { exact Tr. } { exact Hm. } { lia. }
  rewrite E1. cbn [bind].
  assert (forall a n, m a = Some n -> flat_of (n_kind n) = 0 \/ m (flat_of (n_kind n)) <> None) as Hfl.
  { intros a n En. destruct T as [T0 T]. destruct (flat_typed m (n_kind n) (T a n En)) as [F|(t & Et & _)]; [left; exact F|right; congruence]. }
  destruct (sweep_ok m m1 ps Ls fl al fr H R X Hfl fuel) as (h' & E2 & Hinv & Hkeep & Honly).
  { intros L HL. assert (length L <= length (concat Ls))%nat as Hle; [|lia]. clear - HL. induction Ls as [|M Ms IH]; [destruct HL|]. cbn. rewrite app_length. destruct HL as [<-|HL]; [lia|]. specialize (IH HL). lia. }
  exists h'. eexists. split; [exact E2|]. split; [exact Hinv|].
  (* the weak pointer *)
  assert (forall k, typed_kind m k -> flat_of k <> 0 -> (at_node n_vd m1 (flat_of k) = true <-> lv (flat_of k))) as Hflat.
  { intros k Tk Hne. destruct (flat_typed m k Tk) as [F|(t & Et & Ht)]; [contradiction|]. destruct (ext_some _ _ _ _ X Et) as (t' & Et' & Kt & _).
    pose proof (m1_nodes m m1 ps Ls fl al fr H X _ _ Et') as Hn. unfold marked_node in Hn. rewrite <- Kt in Hn. rewrite (vd_free _ Ht) in Hn. rewrite Ht, andb_true_r in Hn.
    unfold at_node. rewrite Et', Hn. apply Hlive; [exact Et'|]. rewrite <- Kt. apply vd_free. exact Ht. }
  assert (forall k, typed_kind m k -> survives lv k (if flat_live m1 k then k else set_flat 0 k)) as Hsurv.
  { intros k Tk. unfold flat_live, survives. destruct (flat_of k =? 0) eqn:E0; cbn [orb]; [apply Z.eqb_eq in E0; split; [auto|congruence]|]. apply Z.eqb_neq in E0.
    pose proof (Hflat k Tk E0) as Hfk. destruct (at_node n_vd m1 (flat_of k)); split; intros; try reflexivity; [exfalso; tauto|]. exfalso. assert (false = true) by tauto. discriminate. }
  assert (forall a k', contents h' a = Some k' <-> exists k, contents (mkHp m ps fl al fr) a = Some k /\ lv a /\ survives lv k k') as Hcont.
  { intros a k'. split.
    - intros Hc. apply contents_node in Hc. destruct Hc as (n' & En' & <- & Hf'). destruct (Honly a n' En' Hf') as (n & En & Hl). rewrite (Hkeep a n En Hl) in En'. injection En' as <-.
      destruct (ext_back _ _ _ _ X En) as (n0 & En0 & K). unfold live_node in Hl. apply andb_prop in Hl. destruct Hl as [Hl1 Hl2]. apply negb_true_iff in Hl1.
      exists (n_kind n). split; [apply contents_node; exists n0; rewrite K; auto|]. split; [apply (Hlive a n En Hl1); exact Hl2|]. cbn [n_kind]. unfold swp. rewrite Hl1, Hl2. cbn [n_kind]. apply Hsurv. rewrite <- K. destruct T as [_ T]. apply (T a n0 En0).
    - intros (k & Hc & Hl & Hs). apply contents_node in Hc. cbn [hp_mem] in Hc. destruct Hc as (n0 & En0 & <- & Hf0). destruct (ext_some _ _ _ _ X En0) as (n & En & K & _).
      assert (live_node n = true) as Hln. { unfold live_node. rewrite <- K, Hf0. cbn. apply (Hlive a n En); [rewrite <- K; exact Hf0|exact Hl]. }
      apply contents_node. eexists. split; [exact (Hkeep a n En Hln)|]. cbn [n_kind].
      assert (swp m1 n = mkN (if flat_live m1 (n_kind n) then n_kind n else set_flat 0 (n_kind n)) false (n_vd n)) as ->.
      { unfold swp. unfold live_node in Hln. apply andb_prop in Hln. destruct Hln as [H1 H2]. apply negb_true_iff in H1. rewrite H1, H2. reflexivity. }
      cbn [n_kind]. rewrite <- K. destruct T as [T0 T]. pose proof (T a n0 En0) as Tk.
      assert ((if flat_live m1 (n_kind n0) then n_kind n0 else set_flat 0 (n_kind n0)) = k') as Hk.
      { unfold flat_live. destruct Hs as [Hs1 Hs2]. destruct (flat_of (n_kind n0) =? 0) eqn:E0; cbn [orb]; [apply Z.eqb_eq in E0; symmetry; apply Hs1; auto|]. apply Z.eqb_neq in E0. pose proof (Hflat _ Tk E0) as Hfk.
        destruct (at_node n_vd m1 (flat_of (n_kind n0))); symmetry; [apply Hs1; right; tauto|apply Hs2; [exact E0|]]. intros Hx. apply Hfk in Hx. discriminate. }
      split; [exact Hk|]. rewrite <- Hk. destruct (flat_live m1 (n_kind n0)); [exact Hf0|]. rewrite free_set_flat. exact Hf0. }
  split; [|exact Hcont]. split; [apply (hinv_null _ _ Hinv)|]. intros a n' En'. destruct (free_kind (n_kind n')) eqn:Hf'; [destruct (n_kind n'); try discriminate; exact I|].
  assert (contents h' a = Some (n_kind n')) as Hc by (apply contents_node; eauto). apply Hcont in Hc. destruct Hc as (k & Hc & Hl & Hs). apply contents_node in Hc. cbn [hp_mem] in Hc. destruct Hc as (n0 & En0 & <- & Hf0).
  destruct T as [T0 T]. pose proof (T a n0 En0) as Tk.
  assert (carries m (hp_mem h') lv) as HC.
  { intros b nb Hlb Enb Hfb. destruct (ext_some _ _ _ _ X Enb) as (nb1 & Enb1 & Kb & _).
    assert (live_node nb1 = true) as Hln. { unfold live_node. rewrite <- Kb, Hfb. cbn. apply (Hlive b nb1 Enb1); [rewrite <- Kb; exact Hfb|exact Hlb]. }
    eexists. split; [exact (Hkeep b nb1 Enb1 Hln)|]. cbn [n_kind]. unfold swp. unfold live_node in Hln. apply andb_prop in Hln. destruct Hln as [H1 H2]. apply negb_true_iff in H1. rewrite H1, H2, <- Kb. cbn [n_kind]. intros P CP. destruct (flat_live m1 (n_kind nb)); [auto|]. rewrite (class_flat P _ CP). auto. }
  assert (flat_of (n_kind n0) = 0 \/ lv (flat_of (n_kind n0)) \/ (flat_of (n_kind n0) <> 0 /\ ~ lv (flat_of (n_kind n0)))) as [F|[F|[F1 F2]]].
  { destruct (Z.eq_dec (flat_of (n_kind n0)) 0) as [F|F]; [auto|right]. pose proof (Hflat _ Tk F) as Hfk. destruct (at_node n_vd m1 (flat_of (n_kind n0))); [left; tauto|right]. split; [exact F|]. intros Hx. apply Hfk in Hx. discriminate. }
  - destruct Hs as [-> _]; [|auto]. apply (typed_c m (hp_mem h') lv HC T0); auto. intros r Hr. exact (live_step _ _ _ _ _ Hl En0 Hr).
  - destruct Hs as [-> _]; [|auto]. apply (typed_c m (hp_mem h') lv HC T0); auto. intros r Hr. exact (live_step _ _ _ _ _ Hl En0 Hr).
  - destruct Hs as [_ Hs]. rewrite (Hs F1 F2). apply (typed_c m (hp_mem h') lv HC T0).
    + rewrite refs_set_flat. intros r Hr. exact (live_step _ _ _ _ _ Hl En0 Hr).
    + left. apply flat_set_flat.
    + apply typed_set_flat. exact Tk.
Qed.

(** ** Creating an object *)
Lemma new_typed : forall h h' Ls' a k, hinv h' Ls' -> adds h h' a k -> typed (hp_mem h) -> typed_kind (hp_mem h) k -> typed (hp_mem h').
Proof.
  intros h h' Ls' a k Hi [Ha Hx] [T0 T] Tk. split; [apply (hinv_null _ _ Hi)|].
  assert (carries (hp_mem h) (hp_mem h') (fun _ => True)) as HC.
  { intros b n _ En Hf. assert (contents h b = Some (n_kind n)) as Hc by (apply contents_node; eauto). assert (contents h' b = Some (n_kind n)) as Hc'. { rewrite Hx. destruct (b =? a) eqn:Eb; [|exact Hc]. apply Z.eqb_eq in Eb. subst b. congruence. }
    apply contents_node in Hc'. destruct Hc' as (n' & En' & Hk & _). exists n'. split; [exact En'|]. rewrite Hk. auto. }
  intros b n En. destruct (free_kind (n_kind n)) eqn:Hf; [destruct (n_kind n); try discriminate; exact I|].
  assert (contents h' b = Some (n_kind n)) as Hc by (apply contents_node; eauto). rewrite Hx in Hc. destruct (b =? a).
  - injection Hc as <-. apply (typed_c _ _ _ HC T0); auto.
  - apply contents_node in Hc. destruct Hc as (n0 & En0 & Hk & _). apply (typed_c _ _ _ HC T0); auto. rewrite <- Hk. apply (T b n0 En0).
Qed.

(** ** The invariant *)
Lemma init_inv : hinv heap_init [].
Proof.
  split; [|exact I]. constructor; cbn; try constructor; auto; try congruence; try contradiction; try (intros s; constructor).
  - intros [_ H]. discriminate.
Qed.
Lemma write_inv : forall h Ls a k k', hinv h Ls -> contents h a = Some k -> free_kind k' = false -> nodesize k' = nodesize k -> hinv (store_at h a k') Ls.
Proof.
  intros [m ps fl al fr] Ls a k k' [H R] Hc Hf Hs. apply contents_node in Hc. destruct Hc as (n0 & En0 & <- & Hf0). split; [|exact R]. unfold store_at. cbn [hp_mem hp_pages hp_fl hp_alloced hp_free] in *.
  pose proof (linv_replace m (mput m a (mkN k' false false)) ps Ls fl al fr a n0 (mkN k' false false) H En0) as L. rewrite Hf0 in L. apply L; auto.
  split; [unfold mput; rewrite Z.eqb_refl; reflexivity|]. intros x Hx. unfold mput. apply Z.eqb_neq in Hx. rewrite Hx. reflexivity.
Qed.
Theorem state_inv : forall h, heap_state h -> exists Ls, hinv h Ls /\ typed (hp_mem h).
Proof.
  intros h H. induction H as [|h k base h' a Hh [Ls [IH T]] Hf Tk Hm E|h a k k' Hh [Ls [IH T]] Hc Hf Hs Tk|h fuel keep markers trail h' Hh [Ls [IH T]] Tr Hm E].
  - exists []. split; [apply init_inv|]. split; [reflexivity|]. intros a n En. discriminate.
  - destruct (gc_new_ok h Ls k base IH Hf Hm) as (h2 & a2 & Ls2 & E2 & Hi & Ha). rewrite E in E2. injection E2 as <- <-. exists Ls2. split; [exact Hi|]. exact (new_typed _ _ _ _ _ Hi Ha T Tk).
  - exists Ls. split; [eapply write_inv; eauto|]. exact Tk.
  - destruct (collect_ok h Ls keep markers trail IH T Tr Hm) as (N & HN). destruct (HN (N + fuel)%nat ltac:(lia)) as (h2 & Ls2 & E2 & Hi & T2 & _).
    rewrite (trigger_mono fuel (N + fuel) keep markers trail h ltac:(lia) h' E) in E2. injection E2 as <-. eauto.
Qed.
