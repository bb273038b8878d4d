(** Proofs for C22, part 2: the marking loop reaches everything reachable, and nothing else. *)
Require Import ZArith List Bool Lia.
From Verif Require Import Base RootModel GcModel GcSpec GcProofs.
Import ListNotations.
Open Scope Z_scope.

Definition prefs (m : mem) (p : ptr) : list ptr := match m p with Some n => refs (n_kind n) | None => [] end.
Lemma prefs_ext : forall m m' p, ext m m' -> prefs m p = prefs m' p.
Proof.
  intros m m' p H. specialize (H p). unfold prefs. destruct (m p), (m' p); try contradiction; auto. destruct H as (K & _). rewrite K. reflexivity.
Qed.
Lemma mark_ptr_step : forall m p, m 0 = None -> isp leaf m p -> exists m', mark_ptr p m = Ok m' /\ step m m' (opt p) (prefs m p).
Proof.
  intros m p T0 H. unfold mark_ptr, opt, prefs. destruct (p =? 0) eqn:E.
  - apply Z.eqb_eq in E. subst p. rewrite T0. exists m. split; [reflexivity|apply step_refl].
  - destruct H as [->|(n & En & K)]; [discriminate|]. rewrite En. apply set_mark_step; [exact En|]. destruct (n_kind n); cbn in *; congruence.
Qed.
Lemma ext_null : forall m m', ext m m' -> m 0 = None -> m' 0 = None.
Proof. intros m m' H E. specialize (H 0). rewrite E in H. destruct (m' 0); [contradiction|reflexivity]. Qed.
Lemma step_app : forall m m1 m2 S1 T1 S2 T2, step m m1 S1 T1 -> step m1 m2 S2 T2 -> step m m2 (S1 ++ S2) (T1 ++ T2).
Proof.
  intros m m1 m2 S1 T1 S2 T2 H1 H2. eapply step_trans; [apply step_frame; exact H1|].
  apply (step_adjust m1 m2 (S2 ++ T1) (T2 ++ T1) (T1 ++ S2) (T1 ++ T2)).
  - apply step_frame. exact H2.
  - intros x Hx. apply in_app_or in Hx. apply in_or_app. tauto.
  - intros x Hx. left. apply in_app_or in Hx. apply in_or_app. tauto.
  - intros x Hx. left. apply in_app_or in Hx. apply in_or_app. tauto.
  - intros x Hx. apply in_app_or in Hx. destruct Hx as [Hx|Hx].
    + apply from_in. apply in_or_app. auto.
    + eapply from_incl; [|exact (st_pend _ _ _ _ H2 x Hx)]. apply incl_appr, incl_refl.
Qed.
Lemma mark_ptrs_step : forall ps m, m 0 = None -> (forall p, In p ps -> isp leaf m p) ->
  exists m', mark_ptrs ps m = Ok m' /\ step m m' (flat_map opt ps) (flat_map (prefs m) ps).
Proof.
  induction ps as [|p ps IH]; intros m T0 H; [exists m; split; [reflexivity|apply step_refl]|].
  cbn [mark_ptrs flat_map]. destruct (mark_ptr_step m p T0) as (m1 & E1 & S1); [apply H; left; reflexivity|]. rewrite E1. cbn [bind].
  pose proof (st_ext _ _ _ _ S1) as X1.
  destruct (IH m1) as (m2 & E2 & S2); [eapply ext_null; eauto|intros q Hq; eapply ext_isp; [exact X1|apply H; right; exact Hq]|].
  exists m2. split; [exact E2|]. replace (flat_map (prefs m) ps) with (flat_map (prefs m1) ps); [eapply step_app; eauto|].
  apply flat_map_ext. intros q. symmetry. apply prefs_ext. exact X1.
Qed.

(** in a well-typed memory no reference dangles *)
Lemma isp_exist : forall P m p r, isp P m p -> In r (opt p) -> m r <> None.
Proof. intros P m p r H Hr. apply opt_in in Hr. destruct Hr as [-> Hp]. destruct H as [->|(n & E & _)]; congruence. Qed.
Lemma points_exist : forall P m p r, points P m p -> In r (opt p) -> m r <> None.
Proof. intros P m p r H. apply (isp_exist P). right. exact H. Qed.
Lemma isv_exist : forall m v r, isv m v -> In r (vnode v) -> m r <> None.
Proof. intros m v r H Hr. apply vnode_in in Hr. subst v. destruct H as (n & E & _). congruence. Qed.
Lemma isvs_exist : forall m l r, Forall (isv m) l -> In r (vnodes l) -> m r <> None.
Proof. intros m l r H Hr. apply vnodes_in in Hr. rewrite Forall_forall in H. apply H in Hr. destruct Hr as (n & E & _). congruence. Qed.
#[local] Hint Resolve isp_exist points_exist isv_exist isvs_exist : gc.
Lemma refs_exist : forall m k r, typed_kind m k -> In r (refs k) -> m r <> None.
Proof.
  intros m k r T Hr. destruct k as [| | | | |loc ann e|loc i]; cbn in T, Hr; try contradiction.
  - eauto with gc.
  - destruct T. eauto with gc.
  - destruct T as (Tl & Ta & Te). rewrite !in_app_iff in Hr. destruct Hr as [Hr|[Hr|Hr]]; eauto with gc.
    destruct e; cbn in Te, Hr; rewrite ?in_app_iff in Hr; try tauto;
      repeat match goal with H : _ /\ _ |- _ => destruct H | H : _ \/ _ |- _ => destruct H end; eauto with gc; try tauto.
    + destruct named; cbn in *; [eauto with gc|tauto].
    + destruct slice; eauto with gc.
    + destruct hasDecl; eauto with gc.
    + destruct (5 <=? ck); [eauto with gc|]. destruct H1 as [_ F]. eapply isvs_exist; eauto.
  - destruct T as (Tl & Te). rewrite !in_app_iff in Hr. destruct Hr as [Hr|Hr]; eauto with gc.
    destruct i; cbn in Te, Hr; rewrite ?in_app_iff in Hr; try tauto;
      repeat match goal with H : _ /\ _ |- _ => destruct H | H : _ \/ _ |- _ => destruct H end; eauto with gc; try tauto.
Qed.

(** ** The measure *)
Lemma elements_ext : forall m m' v, ext m m' -> elements m v = elements m' v.
Proof.
  intros m m' v H. unfold elements. destruct (v =? 0); auto. unfold mget. specialize (H v). destruct (m v), (m' v); try contradiction; auto.
  cbn. destruct H as (K & _). rewrite K. reflexivity.
Qed.
Lemma parts_ext : forall m m' e, ext m m' -> parts m e = parts m' e.
Proof.
  intros m m' e H. destruct e; cbn [parts]; rewrite ?(elements_ext m m' _ H); auto.
  unfold mget. specialize (H u). destruct (m u), (m' u); try contradiction; auto. cbn [bind]. destruct H as (K & _). rewrite K. reflexivity.
Qed.

Definition weight (m : mem) (k : kind) : nat :=
  match k with
  | KExpr _ ann e => match parts m e with Ok (_, l, _) => 4 + length l + length ann | _ => 4 end
  | _ => 4
  end.
Definition mu1 (m : mem) (a : ptr) : nat := match m a with Some n => if n_mark n then 0 else weight m (n_kind n) | None => 0 end.
Definition mu (D : list ptr) (m : mem) : nat := list_sum (map (mu1 m) D).
Definition covers (D : list ptr) (m : mem) : Prop := forall a, m a <> None -> In a D.

Lemma weight_ext : forall m m' k, ext m m' -> weight m k = weight m' k.
Proof. intros m m' k H. destruct k; cbn; auto. rewrite (parts_ext m m' _ H). reflexivity. Qed.
Lemma mu1_le : forall m m' a, ext m m' -> (mu1 m' a <= mu1 m a)%nat.
Proof.
  intros m m' a H. unfold mu1. pose proof (H a) as Ha. destruct (m a) as [n|], (m' a) as [n'|]; try contradiction; auto.
  destruct Ha as (K & M & _). rewrite <- K, (weight_ext m m' _ H). destruct (n_mark n) eqn:E; [rewrite M by reflexivity; lia|]. destruct (n_mark n'); lia.
Qed.
Lemma mu_le : forall D m m', ext m m' -> (mu D m' <= mu D m)%nat.
Proof.
  intros D m m' H. unfold mu. induction D as [|a D IH]; cbn [map list_sum fold_right]; [lia|]. pose proof (mu1_le m m' a H).
  change (fold_right Nat.add 0%nat) with list_sum in *. cbn in *. unfold list_sum in *. cbn. lia.
Qed.
Lemma mu_mark : forall D m m' a n, ext m m' -> In a D -> m a = Some n -> n_mark n = false -> marked m' a -> (mu D m' + weight m (n_kind n) <= mu D m)%nat.
Proof.
  intros D m m' a n H Hin E M (n' & E' & M'). unfold mu. induction D as [|b D IH]; [destruct Hin|]. cbn.
  pose proof (mu_le D m m' H) as Hle. unfold mu, list_sum in *. destruct Hin as [->|Hin].
  - unfold mu1 at 1 3. rewrite E, E', M, M'. lia.
  - specialize (IH Hin). pose proof (mu1_le m m' b H). lia.
Qed.
Lemma covers_ext : forall D m m', ext m m' -> covers D m -> covers D m'.
Proof. intros D m m' H C a Ha. apply C. specialize (H a). destruct (m' a); [|congruence]. destruct (m a); [congruence|contradiction]. Qed.

(** ** The loop *)
Section Loop.
Variable D : list ptr.
Definition loop_ok (fuel : nat) : Prop := forall stack m, typed m -> covers D m -> Forall (isv m) stack -> (mu D m + length stack < fuel)%nat ->
  exists m', mark_loop fuel stack m = Ok m' /\ step m m' (vnodes stack) [].
Definition item_ok (fuel : nat) : Prop := forall a m, typed m -> covers D m -> points kitem m a -> (mu D m + 3 < fuel)%nat ->
  exists m', mark_item fuel a m = Ok m' /\ step m m' [a] [].

Definition marks (f : nat) (vs : list val) (m : mem) : res mem := fold_left (fun r v => do m' <- r; mark_loop f (nonnull [v]) m') vs (Ok m).
Lemma vnodes_nonnull : forall l, vnodes (nonnull l) = vnodes l.
Proof. induction l as [|v l IH]; [reflexivity|]. destruct v; cbn; unfold vnodes in *; cbn; try rewrite IH; auto. f_equal. auto. Qed.
Lemma marks_ok : forall f, loop_ok f -> forall vs m, typed m -> covers D m -> Forall (isv m) vs -> (mu D m + 1 < f)%nat ->
  exists m', marks f vs m = Ok m' /\ step m m' (vnodes vs) [].
Proof.
  intros f IH. induction vs as [|v vs IHv]; intros m T C F Hm; [exists m; split; [reflexivity|apply step_refl]|].
  inversion F as [|v' vs' Fv Fvs]; subst. unfold marks. cbn [fold_left bind].
  destruct (IH (nonnull [v]) m T C) as (m1 & E1 & S1); [apply nonnull_forall; auto|pose proof (nonnull_len [v]); cbn [length] in *; lia|].
  rewrite E1. pose proof (st_ext _ _ _ _ S1) as X1. pose proof (mu_le D _ _ X1).
  destruct (IHv m1) as (m2 & E2 & S2); [eapply ext_typed; eauto|eapply covers_ext; eauto|eapply ext_isvs; eauto|lia|].
  exists m2. split; [exact E2|]. rewrite vnodes_nonnull in S1. change (vnodes (v :: vs)) with (vnode v ++ vnodes vs).
  replace (vnodes [v]) with (vnode v) in S1 by (unfold vnodes; cbn; rewrite app_nil_r; reflexivity).
  change (@nil ptr) with (@nil ptr ++ []). eapply step_app; eauto.
Qed.

Lemma points_expr_vd : forall m a, points kexpr m a -> exists n loc ann e, m a = Some n /\ n_kind n = KExpr loc ann e.
Proof. intros m a (n & E & K). destruct (n_kind n) eqn:Ek; try discriminate. eauto 8. Qed.

(** nodes marked already are no longer pending *)
Lemma step_skip : forall m S F, (forall r, In r S -> In r F \/ marked m r) -> incl F S -> step m m S F.
Proof.
  intros m S F H Hi. apply (step_adjust m m F F S F); [apply step_refl|exact Hi| |tauto|].
  - intros r Hr. destruct (H r Hr); auto.
  - intros t Ht. apply from_in. auto.
Qed.

Lemma from_step : forall m a n q r, m a = Some n -> In q (refs (n_kind n)) -> reach m q r -> from m [a] r.
Proof. intros m a n q r E Hq R. exists a. split; [left; reflexivity|]. eapply reach_step; eauto. Qed.

Lemma loop_step : forall f, loop_ok f -> item_ok f -> loop_ok (S f).
Proof.
  intros f IHl IHi stack m T C F Hm. destruct stack as [|v s]; [cbn; exists m; split; [reflexivity|apply step_refl]|].
  inversion F as [|v' s' Fv Fs]; subst. destruct v as [|z|a].
  - cbn [mark_loop]. apply (IHl s m); auto. cbn [length] in Hm. lia.
  - cbn [mark_loop]. apply (IHl s m); auto. cbn [length] in Hm. lia.
  - cbn [mark_loop]. cbn in Fv. destruct (points_expr_vd m a Fv) as (n & loc & ann & e & En & Ek). unfold mget at 1. rewrite En. cbn [bind].
    change (vnodes (VNode a :: s)) with ([a] ++ vnodes s). destruct (n_mark n) eqn:Em.
    + destruct (IHl s m T C Fs) as (m' & E' & S'); [cbn [length] in Hm; lia|]. exists m'. split; [exact E'|].
      eapply step_trans; [|exact S']. apply step_skip; [|apply incl_appr, incl_refl].
      intros r Hr. apply in_app_or in Hr. destruct Hr as [[<-|[]]|Hr]; auto. right. exists n. auto.
    + rewrite Ek.
      set (m0 := mput m a (mkN (KExpr loc ann e) true (n_vd n || is_vardecl (KExpr loc ann e)))).
      assert (step m m0 [a] (refs (KExpr loc ann e))) as S0.
      { unfold m0. rewrite <- Ek. apply step_mark; [exact En|]. rewrite Em. reflexivity. }
      pose proof (st_ext _ _ _ _ S0) as X0. destruct T as [T0 T]. pose proof (T a n En) as Ta. rewrite Ek in Ta. cbn in Ta. destruct Ta as (Tl & Tan & Te).
      assert (typed m) as TT by (split; auto). pose proof (ext_typed _ _ X0 TT) as TT0.
      destruct (mark_loc_step m0 loc TT0 (ext_isp _ _ _ _ X0 Tl)) as (m1 & E1 & S1). rewrite E1. cbn [bind].
      pose proof (st_ext _ _ _ _ S1) as X1. pose proof (ext_typed _ _ X1 TT0) as TT1. pose proof (ext_trans _ _ _ X0 X1) as X01.
      destruct (parts_spec m1 e TT1 (ext_typed_expr _ _ _ X01 Te)) as (ps & l & fi & Ep & Po). rewrite Ep. cbn [bind].
      destruct (mark_ptrs_step ps m1) as (m2 & E2 & S2); [apply TT1|apply (po_leaf _ _ _ _ _ Po)|]. rewrite E2. cbn [bind].
      pose proof (st_ext _ _ _ _ S2) as X2. pose proof (ext_typed _ _ X2 TT1) as TT2. pose proof (ext_trans _ _ _ X01 X2) as X02.
      assert (marked m2 a) as Ma. { eapply ext_marked; [exact X2|]. eapply ext_marked; [exact X1|]. exists (mkN (KExpr loc ann e) true (n_vd n || is_vardecl (KExpr loc ann e))). unfold m0, mput. rewrite Z.eqb_refl. auto. }
      assert (In a D) as HaD by (apply C; congruence).
      pose proof (mu_mark D m m2 a n X02 HaD En Em Ma) as Hmu. rewrite Ek in Hmu. cbn [weight] in Hmu. rewrite (parts_ext m m1 e X01), Ep in Hmu.
      assert (exists m3, (if fi =? 0 then Ok m2 else mark_item f fi m2) = Ok m3 /\ step m2 m3 (opt fi) []) as (m3 & E3 & S3).
      { unfold opt. destruct (fi =? 0) eqn:Ef; [exists m2; split; [reflexivity|apply step_refl]|]. apply Z.eqb_neq in Ef.
        apply IHi; auto; [eapply covers_ext; eauto| |cbn [length] in Hm; lia].
        destruct (po_fi _ _ _ _ _ Po Ef) as (_ & Hp). apply (ext_points _ _ _ _ X2) in Hp. destruct Hp as (nf & Enf & Kf). exists nf. split; [exact Enf|].
        destruct (n_kind nf); try discriminate. reflexivity. }
      rewrite E3. cbn [bind]. pose proof (st_ext _ _ _ _ S3) as X3. pose proof (ext_trans _ _ _ X02 X3) as X03. pose proof (mu_le D _ _ X3) as Hmu3.
      destruct (IHl (nonnull (rev l) ++ nonnull (rev ann) ++ s) m3) as (m4 & E4 & S4).
      * eapply ext_typed; [exact X3|exact TT2].
      * eapply covers_ext; eauto.
      * rewrite !Forall_app. split; [|split].
        -- apply nonnull_forall, Forall_rev. eapply ext_isvs; [exact (ext_trans _ _ _ X2 X3)|]. exact (po_isv _ _ _ _ _ Po).
        -- apply nonnull_forall, Forall_rev. eapply ext_isvs; [exact X03|exact Tan].
        -- eapply ext_isvs; [exact X03|exact Fs].
      * rewrite !app_length. pose proof (nonnull_len (rev l)). pose proof (nonnull_len (rev ann)). rewrite rev_length in *. cbn [length] in Hm. lia.
      * exists m4. split; [exact E4|].
        assert (forall r, In r (expr_refs e) -> In r (refs (n_kind n))) as Hre.
        { intros r Hr. rewrite Ek. cbn. apply in_or_app. right. apply in_or_app. auto. }
        assert (forall p, In p ps -> p <> 0 -> from m [a] p) as Hps.
        { intros p Hp H0. destruct (po_near _ _ _ _ _ Po p Hp H0) as [Hr|(q & nq & Hq & Enq & Hr)].
          - eapply from_step; [exact En|apply Hre; exact Hr|constructor].
          - eapply from_step; [exact En|apply Hre; exact Hq|]. eapply ext_reach_back; [exact X01|]. eapply reach_step; [exact Enq|exact Hr|constructor]. }
        assert (forall r, In (VNode r) l -> from m [a] r) as Hpl.
        { intros r Hr. destruct (po_push _ _ _ _ _ Po r Hr) as [Hr'|(q & nq & Hq & Enq & Hr')].
          - eapply from_step; [exact En|apply Hre; exact Hr'|constructor].
          - eapply from_step; [exact En|apply Hre; exact Hq|]. eapply ext_reach_back; [exact X01|]. eapply reach_step; [exact Enq|exact Hr'|constructor]. }
        (* from a to what remains after the location, the leaves and the function have been marked *)
        assert (step m m3 [a] (vnodes ann ++ vnodes l)) as S03.
        { apply (step_adjust m m3 [a] (([] ++ vnodes ann ++ expr_refs e ++ flat_map opt ps ++ opt fi) ++ flat_map (prefs m1) ps ++ [])).
          - assert (step m m1 [a] ([] ++ vnodes ann ++ expr_refs e)) as S01.
            { eapply step_trans; [exact S0|]. apply (step_frame m0 m1 (opt loc) []). exact S1. }
            assert (step m m1 [a] (flat_map opt ps ++ opt fi ++ vnodes ann ++ expr_refs e)) as S01'.
            { apply (step_adjust _ _ _ _ [a] (flat_map opt ps ++ opt fi ++ vnodes ann ++ expr_refs e) S01); [apply incl_refl|tauto| |].
              - intros t Ht. left. cbn in Ht. rewrite !in_app_iff in *. tauto.
              - intros t Ht. rewrite !in_app_iff in Ht. destruct Ht as [Ht|[Ht|[Ht|Ht]]].
                + apply in_flat_map in Ht. destruct Ht as (p & Hp & Ht). apply opt_in in Ht. destruct Ht as (-> & Ht). auto.
                + apply opt_in in Ht. destruct Ht as (-> & Ht). destruct (po_fi _ _ _ _ _ Po Ht) as (Hr & _). eapply from_step; [exact En|apply Hre; exact Hr|constructor].
                + eapply from_step; [exact En| |constructor]. rewrite Ek. cbn. rewrite !in_app_iff. auto.
                + eapply from_step; [exact En|apply Hre; exact Ht|constructor]. }
            assert (step m m2 [a] (flat_map (prefs m1) ps ++ opt fi ++ vnodes ann ++ expr_refs e)) as S02.
            { eapply step_trans; [exact S01'|]. apply step_frame. exact S2. }
            assert (step m m3 [a] (vnodes ann ++ expr_refs e ++ flat_map (prefs m1) ps)) as S03.
            { apply (step_trans m m2 m3 [a] (opt fi ++ vnodes ann ++ expr_refs e ++ flat_map (prefs m1) ps)).
              - apply (step_adjust _ _ _ _ [a] (opt fi ++ vnodes ann ++ expr_refs e ++ flat_map (prefs m1) ps) S02); [apply incl_refl|tauto| |].
                + intros t Ht. left. rewrite !in_app_iff in *. tauto.
                + intros t Ht. apply (st_pend _ _ _ _ S02). rewrite !in_app_iff in *. tauto.
              - apply (step_frame m2 m3 (opt fi) []). exact S3. }
            apply (step_adjust _ _ _ _ [a] (([] ++ vnodes ann ++ expr_refs e ++ flat_map opt ps ++ opt fi) ++ flat_map (prefs m1) ps ++ []) S03); [apply incl_refl|tauto| |].
            + intros t Ht. left. cbn. rewrite !in_app_iff in *. tauto.
            + intros t Ht. cbn in Ht. rewrite !in_app_iff in Ht.
              destruct Ht as [[Ht|[Ht|[Ht|Ht]]]|[Ht|[]]].
              * apply (st_pend _ _ _ _ S03). rewrite !in_app_iff. auto.
              * apply (st_pend _ _ _ _ S03). rewrite !in_app_iff. auto.
              * apply in_flat_map in Ht. destruct Ht as (p & Hp & Ht). apply opt_in in Ht. destruct Ht as (-> & Ht). auto.
              * apply opt_in in Ht. destruct Ht as (-> & Ht). destruct (po_fi _ _ _ _ _ Po Ht) as (Hr & _). eapply from_step; [exact En|apply Hre; exact Hr|constructor].
              * apply (st_pend _ _ _ _ S03). rewrite !in_app_iff. auto.
          - apply incl_refl.
          - tauto.
          - assert (forall p, In p ps -> p <> 0 -> marked m3 p) as Mps.
            { intros p Hp H0. eapply ext_marked; [exact X3|]. destruct (st_done _ _ _ _ S2 p) as [Y|Y]; [|exact Y|].
              - apply in_flat_map. exists p. split; [exact Hp|]. apply opt_in. auto.
              - exfalso. apply in_flat_map in Y. destruct Y as (q & Hq & Hpq). unfold prefs in Hpq. destruct (m1 q) as [nq|] eqn:Enq; [|destruct Hpq].
                destruct (po_leaf _ _ _ _ _ Po q Hq) as [->|(k & Ek' & Kl)]; [destruct TT1; congruence|]. rewrite Enq in Ek'. injection Ek' as <-.
                destruct (n_kind nq) as [| | |w| | |] eqn:Ekq; try discriminate; try destruct Hpq. cbn in Hpq.
                (* p would be both a leaf and an element of a vector, hence an expression *)
                apply vnodes_in in Hpq. destruct TT1 as [_ TT1']. pose proof (TT1' q nq Enq) as Tq. rewrite Ekq in Tq. cbn in Tq. rewrite Forall_forall in Tq.
                apply Tq in Hpq. cbn in Hpq. destruct Hpq as (np & Enp & Kp). destruct (po_leaf _ _ _ _ _ Po p Hp) as [->|(np' & Enp' & Kp')]; [contradiction|].
                rewrite Enp in Enp'. injection Enp' as <-. destruct (n_kind np); discriminate. }
            intros t Ht. cbn in Ht. rewrite !in_app_iff in Ht. rewrite in_app_iff.
            destruct Ht as [[Ht|[Ht|[Ht|Ht]]]|[Ht|[]]].
            + auto.
            + destruct (po_refs _ _ _ _ _ Po t Ht) as [Y|[(-> & Y)|Y]].
              * destruct (Z.eq_dec t 0) as [->|]; [|right; auto].
                (* null is not a reference *)
                exfalso. apply (refs_exist m (n_kind n) 0 (T a n En)); [|exact T0]. apply Hre. exact Ht.
              * right. destruct (st_done _ _ _ _ S3 fi) as [Z|[]]; auto. apply opt_in. auto.
              * left. right. apply vnodes_in. exact Y.
            + apply in_flat_map in Ht. destruct Ht as (p & Hp & Ht). apply opt_in in Ht. destruct Ht as (-> & Ht). auto.
            + apply opt_in in Ht. destruct Ht as (-> & Ht). right. destruct (st_done _ _ _ _ S3 fi) as [Z|[]]; auto. apply opt_in. auto.
            + apply in_flat_map in Ht. destruct Ht as (p & Hp & Ht). unfold prefs in Ht. destruct (m1 p) as [np|] eqn:Enp; [|destruct Ht].
              destruct (po_leaf _ _ _ _ _ Po p Hp) as [->|(k & Ek' & Kl)]; [destruct TT1; congruence|]. rewrite Enp in Ek'. injection Ek' as <-.
              destruct (n_kind np) as [| | |w| | |] eqn:Ekp; try discriminate; try destruct Ht. cbn in Ht. left. right. apply vnodes_in.
              apply (po_vec _ _ _ _ _ Po p np w Hp Enp Ekp). apply vnodes_in. exact Ht.
          - intros t Ht. apply in_app_or in Ht. destruct Ht as [Ht|Ht].
            + eapply from_step; [exact En| |constructor]. rewrite Ek. cbn. rewrite !in_app_iff. auto.
            + apply Hpl. apply vnodes_in. exact Ht. }
        eapply step_trans; [apply step_frame; exact S03|].
        assert (forall r, In r ((vnodes ann ++ vnodes l) ++ vnodes s) <-> In r (vnodes (nonnull (rev l) ++ nonnull (rev ann) ++ s))) as Heq.
        { intros r. rewrite !in_app_iff, !vnodes_in, !in_app_iff, !nonnull_in, <- !in_rev. tauto. }
        apply (step_adjust m3 m4 (vnodes (nonnull (rev l) ++ nonnull (rev ann) ++ s)) []); auto.
        -- intros r Hr. apply Heq. exact Hr.
        -- intros r Hr. left. apply Heq. exact Hr.
        -- intros t [].
Qed.

Lemma step_mono : forall m m' S T T', step m m' S T -> incl T T' -> (forall t, In t T' -> from m S t) -> step m m' S T'.
Proof. intros m m' S T T' H Hi Hf. apply (step_adjust m m' S T S T' H); auto using incl_refl. Qed.
Lemma step_swap : forall m m' S S', step m m' S [] -> (forall r, In r S <-> In r S') -> step m m' S' [].
Proof.
  intros m m' S S' H Hi. apply (step_adjust m m' S [] S' [] H).
  - intros r. apply Hi.
  - intros r Hr. left. apply Hi. exact Hr.
  - intros t [].
  - intros t [].
Qed.

Lemma item_step : forall f, loop_ok f -> item_ok (S f).
Proof.
  intros f IHl a m T C (n & En & Kn) Hm. cbn [mark_item]. unfold mget at 1. rewrite En. cbn [bind]. destruct (n_mark n) eqn:Em.
  - exists m. split; [reflexivity|]. apply step_skip; [|intros x []]. intros r [<-|[]]. right. exists n. auto.
  - destruct T as [T0 T]. assert (typed m) as TT by (split; auto). pose proof (T a n En) as Ta.
    destruct (n_kind n) as [| | | | |loc ann e|loc i] eqn:Ek; try discriminate.
    + destruct e; try discriminate. cbn in Ta. destruct Ta as (Tl & Tan & Te).
      destruct (mark_loc_step m loc TT Tl) as (m1 & E1 & S1). rewrite E1. cbn [bind]. pose proof (st_ext _ _ _ _ S1) as X1.
      destruct (IHl [VNode a] m1) as (m2 & E2 & S2).
      * eapply ext_typed; eauto.
      * eapply covers_ext; eauto.
      * constructor; [|constructor]. cbn. apply (ext_points _ _ _ _ X1). exists n. rewrite Ek. auto.
      * pose proof (mu_le D _ _ X1). cbn. lia.
      * exists m2. split; [exact E2|]. change (vnodes [VNode a]) with [a] in S2.
        apply (step_trans m m1 m2 [a] [a]); [|exact S2].
        apply (step_trans m m m1 [a] (opt loc ++ [a])); [|apply (step_frame m m1 (opt loc) []); exact S1].
        apply (step_mono m m [a] [a]); [apply step_refl|apply incl_appr, incl_refl|].
        intros t Ht. apply in_app_or in Ht. destruct Ht as [Ht|Ht]; [|apply from_in; exact Ht].
        eapply from_step; [exact En| |constructor]. rewrite Ek. cbn. apply in_or_app. auto.
    + cbn in Ta. destruct Ta as (Tl & Ti).
      destruct (set_mark_step m a n En) as (m0 & E0 & S0); [rewrite Ek; reflexivity|]. rewrite E0. cbn [bind].
      pose proof (st_ext _ _ _ _ S0) as X0. pose proof (ext_typed _ _ X0 TT) as TT0.
      destruct (mark_loc_step m0 loc TT0 (ext_isp _ _ _ _ X0 Tl)) as (m1 & E1 & S1). rewrite E1. cbn [bind].
      pose proof (st_ext _ _ _ _ S1) as X1. pose proof (ext_trans _ _ _ X0 X1) as X01. pose proof (ext_typed _ _ X01 TT) as TT1.
      assert (step m m1 [a] (item_refs i)) as S01.
      { eapply step_trans; [exact S0|]. rewrite Ek. apply (step_frame m0 m1 (opt loc) []). exact S1. }
      pose proof (mu_le D _ _ X1) as Hle1.
      assert (mu D m1 + 4 <= mu D m)%nat as Hmu.
      { assert (marked m1 a) as Ma.
        { eapply ext_marked; [exact X1|]. unfold set_mark, mget in E0. rewrite En in E0. cbn [bind] in E0. injection E0 as E0. rewrite <- E0.
          eexists. unfold mput. rewrite Z.eqb_refl. split; reflexivity. }
        pose proof (mu_mark D m m1 a n X01 (C a ltac:(congruence)) En Em Ma) as H. rewrite Ek in H. cbn [weight] in H. lia. }
      assert (covers D m1) as C1 by (eapply covers_ext; eauto).
      assert (exists m', match i with
               | IInc s => mark_ptr s m1
               | IAsn id e d => do m2 <- mark_ptr id m1; marks f [e; d] m2
               | ICon e => marks f [e] m1
               | ISol ann e => marks f (ann ++ [e]) m1
               | IOut e ann => marks f (e :: ann) m1
               | IFun id ti ann e params =>
                   do m2 <- mark_ptr id m1;
                   do m3 <- marks f (ti :: ann ++ [e]) m2;
                   do m4 <- mark_ptr params m3;
                   do l <- elements m4 params;
                   marks f l m4
               end = Ok m' /\ step m1 m' (item_refs i) []) as (m' & E' & S').
      { destruct i; cbn in Ti; cbn [item_refs].
        - apply (mark_leaf_step kstr); [eapply ext_isp; eauto|apply kstr_leaf].
        - destruct Ti as (T1 & T2 & T3). destruct (mark_leaf_step kstr m1 id) as (m2 & E2 & S2); [eapply ext_isp; eauto|apply kstr_leaf|]. rewrite E2. cbn [bind].
          pose proof (st_ext _ _ _ _ S2) as X2. pose proof (mu_le D _ _ X2).
          destruct (marks_ok f IHl [e; decl] m2) as (m3 & E3 & S3).
          + eapply ext_typed; eauto.
          + eapply covers_ext; eauto.
          + pose proof (ext_trans _ _ _ X01 X2). repeat constructor; eapply ext_isv; eauto.
          + lia.
          + exists m3. split; [exact E3|]. replace (vnode e ++ vnode decl) with (vnodes [e; decl]) by (unfold vnodes; cbn; rewrite app_nil_r; reflexivity).
            apply (step_app m1 m2 m3 (opt id) [] (vnodes [e; decl]) []); auto.
        - destruct (marks_ok f IHl [e] m1) as (m3 & E3 & S3); auto; [repeat constructor; eapply ext_isv; eauto|lia|].
          exists m3. split; [exact E3|]. replace (vnodes [e]) with (vnode e) in S3 by (unfold vnodes; cbn; rewrite app_nil_r; reflexivity). exact S3.
        - destruct Ti as (T1 & T2). destruct (marks_ok f IHl (ann ++ [e]) m1) as (m3 & E3 & S3); auto.
          + apply Forall_app. split; [eapply ext_isvs; eauto|]. repeat constructor; eapply ext_isv; eauto.
          + lia.
          + exists m3. split; [exact E3|]. unfold vnodes in *. rewrite flat_map_app in S3. cbn in S3. rewrite app_nil_r in S3. exact S3.
        - destruct Ti as (T1 & T2). destruct (marks_ok f IHl (e :: ann) m1) as (m3 & E3 & S3); auto.
          + constructor; [eapply ext_isv; eauto|eapply ext_isvs; eauto].
          + lia.
          + exists m3. split; [exact E3|]. exact S3.
        - destruct Ti as (T1 & T2 & T3 & T4 & T5). destruct (mark_leaf_step kstr m1 id) as (m2 & E2 & S2); [eapply ext_isp; eauto|apply kstr_leaf|]. rewrite E2. cbn [bind].
          pose proof (st_ext _ _ _ _ S2) as X2. pose proof (mu_le D _ _ X2). pose proof (ext_trans _ _ _ X01 X2) as X02.
          destruct (marks_ok f IHl (ti :: ann ++ [e]) m2) as (m3 & E3 & S3).
          + eapply ext_typed; eauto.
          + eapply covers_ext; eauto.
          + constructor; [eapply ext_isv; eauto|]. apply Forall_app. split; [eapply ext_isvs; eauto|]. repeat constructor; eapply ext_isv; eauto.
          + lia.
          + rewrite E3. cbn [bind]. pose proof (st_ext _ _ _ _ S3) as X3. pose proof (mu_le D _ _ X3). pose proof (ext_trans _ _ _ X02 X3) as X03.
            assert (isp kvec m3 params) as P3 by (eapply ext_isp; eauto). pose proof (ext_typed _ _ X03 TT) as TT3.
            destruct (mark_ptr_step m3 params) as (m4 & E4 & S4); [apply TT3|eapply isp_leaf; [exact P3|apply kvec_l]|]. rewrite E4. cbn [bind].
            pose proof (st_ext _ _ _ _ S4) as X4. pose proof (mu_le D _ _ X4). pose proof (ext_trans _ _ _ X03 X4) as X04. pose proof (ext_typed _ _ X04 TT) as TT4.
            destruct (elements_ok m4 params TT4 (ext_isp _ _ _ _ X4 P3)) as (l & El & Fl & Hl). rewrite El. cbn [bind].
            destruct (marks_ok f IHl l m4) as (m5 & E5 & S5); auto; [eapply covers_ext; eauto|lia|].
            exists m5. split; [exact E5|].
            assert (prefs m3 params = vnodes l) as Hpr.
            { rewrite (prefs_ext m3 m4 params X4). unfold prefs. destruct Hl as [[-> ->]|(_ & np & Enp & Knp)]; [destruct TT4 as [-> _]; reflexivity|]. rewrite Enp, Knp. reflexivity. }
            rewrite Hpr in S4. pose proof (step_trans _ _ _ _ _ _ S4 S5) as S45.
            pose proof (step_app _ _ _ _ _ _ _ S3 S45) as S35. pose proof (step_app _ _ _ _ _ _ _ S2 S35) as S25.
            replace (opt id ++ vnode ti ++ vnodes ann ++ vnode e ++ opt params) with (opt id ++ vnodes (ti :: ann ++ [e]) ++ opt params); [exact S25|].
            unfold vnodes. cbn. rewrite flat_map_app. cbn. rewrite app_nil_r, <- !app_assoc. reflexivity. }
      exists m'. split; [exact E'|]. eapply step_trans; eauto.
Qed.

Lemma mark_ok : forall fuel, loop_ok fuel /\ item_ok fuel.
Proof.
  induction fuel as [|f [IHl IHi]].
  - split; [intros stack m _ _ _ H|intros a m _ _ _ H]; lia.
  - split; [apply loop_step; assumption|apply item_step; assumption].
Qed.
Lemma mark_root_ok : forall fuel r m, typed m -> covers D m -> typed_root m r -> (mu D m + 3 < fuel)%nat ->
  exists m', mark_root fuel r m = Ok m' /\ step m m' (root_ref r) [].
Proof.
  intros fuel r m T C Tr Hf. destruct (mark_ok fuel) as [Hl Hi]. destruct r; cbn in *.
  - destruct (Hl (nonnull [v]) m T C) as (m' & E & S); [apply nonnull_forall; auto|pose proof (nonnull_len [v]); cbn [length] in *; lia|].
    exists m'. split; [exact E|]. rewrite vnodes_nonnull in S. replace (vnodes [v]) with (vnode v) in S by (unfold vnodes; cbn; rewrite app_nil_r; reflexivity). exact S.
  - apply Hi; auto.
  - apply (mark_leaf_step kstr); [exact Tr|apply kstr_leaf].
  - apply mark_loc_step; auto.
Qed.
Lemma ext_typed_root : forall m m' r, ext m m' -> typed_root m r -> typed_root m' r.
Proof. intros m m' r X. destruct r; cbn; [apply ext_isv|apply ext_points|apply ext_isp|apply ext_isp]; auto. Qed.
Lemma mark_roots_ok : forall fuel l m, typed m -> covers D m -> Forall (typed_root m) l -> (mu D m + 3 < fuel)%nat ->
  exists m', mark_roots fuel l m = Ok m' /\ step m m' (flat_map root_ref l) [].
Proof.
  intros fuel. induction l as [|r l IH]; intros m T C F Hf; [exists m; split; [reflexivity|apply step_refl]|].
  inversion F as [|r' l' Fr Fl]; subst. cbn [mark_roots flat_map]. destruct (mark_root_ok fuel r m T C Fr Hf) as (m1 & E1 & S1). rewrite E1. cbn [bind].
  pose proof (st_ext _ _ _ _ S1) as X1. pose proof (mu_le D _ _ X1).
  destruct (IH m1) as (m2 & E2 & S2); [eapply ext_typed; eauto|eapply covers_ext; eauto|eapply Forall_impl; [|exact Fl]; intros q; apply ext_typed_root; auto|lia|].
  exists m2. split; [exact E2|]. apply (step_app m m1 m2 (root_ref r) [] (flat_map root_ref l) []); auto.
Qed.
Lemma heap_mark_ok : forall fuel keep markers trail m, typed m -> covers D m -> typed_roots m keep markers trail -> markers <> [] -> (mu D m + 3 < fuel)%nat ->
  exists m', heap_mark fuel keep markers trail m = Ok m' /\ step m m' (root_refs keep markers trail) [].
Proof.
  intros fuel keep markers trail m T C (Tk & Tm & Tt) Hm Hf. unfold heap_mark.
  destruct (mark_roots_ok fuel (map RExpr keep) m T C) as (m1 & E1 & S1); [|lia|].
  { rewrite Forall_map. exact Tk. }
  rewrite E1. cbn [bind]. destruct markers as [|mk mks]; [contradiction|].
  pose proof (st_ext _ _ _ _ S1) as X1. pose proof (mu_le D _ _ X1).
  destruct (mark_roots_ok fuel (concat (mk :: mks)) m1) as (m2 & E2 & S2); [eapply ext_typed; eauto|eapply covers_ext; eauto|eapply Forall_impl; [|exact Tm]; intros q; apply ext_typed_root; auto|lia|].
  rewrite E2. cbn [bind]. pose proof (st_ext _ _ _ _ S2) as X2. pose proof (mu_le D _ _ X2). pose proof (ext_trans _ _ _ X1 X2) as X12.
  destruct (mark_roots_ok fuel (map RExpr trail) m2) as (m3 & E3 & S3); [eapply ext_typed; eauto|eapply covers_ext; eauto| |lia|].
  { rewrite Forall_map. eapply Forall_impl; [|exact Tt]. intros v. apply ext_isv; auto. }
  exists m3. split; [exact E3|]. unfold root_refs.
  assert (forall l, flat_map root_ref (map RExpr l) = vnodes l) as Hfm by (induction l as [|v l IH]; cbn; [reflexivity|rewrite IH; reflexivity]).
  rewrite Hfm in S1, S3. change (@nil ptr) with (@nil ptr ++ ([] ++ [])). eapply step_app; [exact S1|]. eapply step_app; eauto.
Qed.
End Loop.

(** ** Marking: exactly the reachable nodes are marked *)
Definition unmarked (m : mem) : Prop := forall a n, m a = Some n -> n_mark n = false \/ free_kind (n_kind n) = true.
Definition domain_fuel (D : list ptr) (m : mem) : nat := mu D m + 4.

Lemma reach_free : forall m x y, reach m x y -> (forall n, m x = Some n -> free_kind (n_kind n) = true) -> x = y.
Proof.
  intros m x y R H. destruct R as [|x n y z E Hin R]; [reflexivity|]. specialize (H n E). destruct (n_kind n); try discriminate. destruct Hin.
Qed.

Theorem heap_mark_exact : forall D fuel keep markers trail m, typed m -> covers D m -> unmarked m ->
  typed_roots m keep markers trail -> markers <> [] -> (domain_fuel D m <= fuel)%nat ->
  exists m', heap_mark fuel keep markers trail m = Ok m' /\ ext m m' /\
    forall a n, m' a = Some n -> free_kind (n_kind n) = false -> (n_mark n = true <-> live m (root_refs keep markers trail) a).
Proof.
  intros D fuel keep markers trail m T C U Tr Hm Hf. unfold domain_fuel in Hf.
  destruct (heap_mark_ok D fuel keep markers trail m T C Tr Hm ltac:(lia)) as (m' & E & S). exists m'. split; [exact E|].
  pose proof (st_ext _ _ _ _ S) as X. split; [exact X|]. intros a n En Kn. split.
  - intros Mn. destruct (st_sound _ _ _ _ S a) as [(n0 & E0 & M0)|Y]; [exists n; auto| |exact Y].
    destruct (ext_some _ _ _ _ X E0) as (n1 & E1 & K1 & _). rewrite En in E1. injection E1 as <-. destruct (U a n0 E0) as [Y|Y]; congruence.
  - intros (r & Hr & R). assert (closed m' []) as Hc.
    { apply (st_closed _ _ _ _ S []). rewrite app_nil_r. intros b k q Eb Mb Hq. destruct (U b k Eb) as [Y|Y]; [congruence|]. destruct (n_kind k); try discriminate. destruct Hq. }
    assert (marked m' a) as (n' & E' & M').
    { pose proof (ext_reach _ _ _ _ X R) as R'. clear R. destruct (st_done _ _ _ _ S r Hr) as [Y|[]]. clear - Y R' Hc.
      induction R' as [|x k y z Ex Hin R IH]; [exact Y|]. apply IH. destruct Y as (k' & Ek' & Mk'). rewrite Ex in Ek'. injection Ek' as <-.
      destruct (Hc x k y Ex Mk' Hin) as [Z|[]]. exact Z. }
    congruence.
Qed.
