(** Proofs for BoptModel, part 2: unification. *)
From Coq Require Import List Bool Arith Lia.
From Verif Require Import BoptModel BoptSpec BoptProofs1.
Import ListNotations.

Definition nonalias (s : state) (v : nat) : Prop := forall z, rh s v <> Some (EId z).
Definition known (s : state) (v : nat) : Prop := gone s v = false \/ dm s v <> None.

Lemma alias_of_nonalias s v v0 v1 : nonalias s v -> alias_of s v v0 v1 = false.
Proof.
  unfold alias_of, nonalias. destruct (rh s v) as [[]|]; intros H; try reflexivity. now destruct (H x).
Qed.

(** The right hand side moves *)
Lemma unify_rhs_shape s v0 v1 :
  v0 <> v1 -> nonalias s v0 -> nonalias s v1 ->
  exists d o, unify_rhs s v0 v1 = with_decls (with_occ s o) d /\
    (forall u, u <> v0 -> u <> v1 -> d u = decls s u) /\
    d v0 = mkD (dm s v0) (cmp s v0) None (gone s v0) /\
    d v1 = mkD (dm s v1) (cmp s v1) (match rh s v0 with Some e => Some e | None => rh s v1 end) (gone s v1) /\
    (forall u j, In j (occ s u) -> j <> IV v0 -> In j (o u)) /\
    (forall e z, rh s v0 = Some e -> In z (ids e) -> In (IV v1) (o (rd s z))).
Proof.
  intros N A0 A1. unfold unify_rhs. rewrite (alias_of_nonalias _ _ _ _ A0).
  destruct (rh s v0) as [e|] eqn:E.
  - destruct (collect_occ_spec s (IV v1) e) as (o1 & E1 & H1). rewrite E1.
    set (s1 := set_rhs (set_rhs (with_occ s o1) v1 (Some e)) v0 None).
    destruct (collect_decls_spec s1 (IV v0) e) as (o2 & E2 & H2). rewrite E2.
    assert (R1 : rh (with_occ s1 o2) v1 = Some e).
    { unfold rh, s1. cbn. rewrite upd_other by congruence. now rewrite upd_same. }
    rewrite alias_of_nonalias. 2:{ intros z. rewrite R1, <- E. apply A0. }
    exists (decls s1), o2. split; [reflexivity|].
    split; [|split; [|split; [|split]]].
    + intros u N0 N1. cbn. rewrite !upd_other by congruence. reflexivity.
    + cbn. rewrite upd_same. rewrite upd_other by congruence. reflexivity.
    + cbn. rewrite upd_other by congruence. rewrite upd_same. reflexivity.
    + intros u j Hj Nj. apply H2. split.
      * change (In j (o1 u)). apply H1. now left.
      * intros [-> _]. congruence.
    + intros e' z Hz1 Hz2. inversion Hz1; subst e'. apply H2. split.
      * change (In (IV v1) (o1 (rd s z))). apply H1. right. eauto.
      * intros [H _]. inversion H. congruence.
  - assert (Z : rh s v0 = None) by assumption. rewrite alias_of_nonalias by assumption.
    exists (decls s), (occ s). split; [destruct s; reflexivity|].
    split; [auto|]. split; [|split; [|split; [auto|discriminate]]].
    + unfold dm, cmp, gone. rewrite <- Z. unfold rh. now destruct (decls s v0).
    + unfold dm, cmp, gone, rh. now destruct (decls s v1).
Qed.

Section Unify.
Variable output : nat -> bool.

Lemma unify_shape s x y s' :
  let a := rd s x in
  let b := rd s y in
  let v0 := if output a then b else a in
  let v1 := if output a then a else b in
  a <> b -> nonalias s v0 -> nonalias s v1 ->
  unify output s x y = Some s' ->
  cons s' = cons s /\ vq s' = vq s /\ cq s' = cq s /\
  (forall u, rd s' u = if rd s u =? v0 then v1 else rd s u) /\
  (forall u, gone s' u = if u =? v0 then true else gone s u) /\
  (forall u, dm s' u = if u =? v1 then match dm s v1 with Some d => Some d | None => dm s v0 end else dm s u) /\
  (forall u, rh s' u = if u =? v0 then None else
                       if u =? v1 then match rh s v0 with Some e => Some e | None => rh s v1 end else rh s u) /\
  (forall u, cmp s' u = cmp s u) /\
  (forall u, out s' u = if (u =? v0) && output v0 then match out s v0 with OVar => OAlias v1 | o => o end else out s u) /\
  (forall u j, In j (occ s u) -> j <> IV v0 -> In j (occ s' (if u =? v0 then v1 else u))) /\
  (forall e z, rh s v0 = Some e -> In z (ids e) -> In (IV v1) (occ s' (rd s' z))) /\
  (forall p q, dm s v0 = Some p -> dm s v1 = Some q -> p = q).
Proof.
  intros a b v0 v1 N A0 A1 H.
  assert (N01 : v0 <> v1) by (unfold v0, v1; destruct (output a); congruence).
  unfold unify in H. fold a b in H. destruct (Nat.eqb_spec a b); [congruence|]. fold v0 v1 in H.
  destruct (unify_rhs_shape s v0 v1 N01 A0 A1) as (d & o & E & D1 & D2 & D3 & O1 & O2). rewrite E in H.
  set (s1 := with_decls (with_occ s o) d) in H.
  assert (Dm0 : dm s1 v0 = dm s v0) by (unfold dm at 1, s1; cbn; now rewrite D2).
  assert (Dm1 : dm s1 v1 = dm s v1) by (unfold dm at 1, s1; cbn; now rewrite D3).
  assert (E2 : exists s2, unify_dom s1 v0 v1 = Some s2 /\ (s2 = s1 /\ (dm s v0 = None \/ dm s v0 = dm s v1) \/
                 exists p, dm s v0 = Some p /\ dm s v1 = None /\ s2 = set_dom s1 v1 p)).
  { unfold unify_dom in H |- *. rewrite Dm0, Dm1 in *. destruct (dm s v0) as [p|]; [|eauto 6].
    destruct (dm s v1) as [q|]; [|eauto 8]. destruct (Bool.eqb_spec p q); [subst; eauto 6|discriminate]. }
  destruct E2 as (s2 & E2 & S2). rewrite E2 in H. inversion H; subst s'. clear H E2.
  assert (F2 : cons s2 = cons s /\ vq s2 = vq s /\ cq s2 = cq s /\ rd s2 = rd s /\ out s2 = out s /\ occ s2 = o /\
               (forall u, u <> v1 -> decls s2 u = d u) /\
               decls s2 v1 = mkD (match dm s v1 with Some d => Some d | None => dm s v0 end) (computed (d v1)) (rhs (d v1)) (vgone (d v1))).
  { destruct S2 as [[-> Hd]|(p & P1 & P2 & ->)].
    - repeat (split; [reflexivity|]). cbn. rewrite D3. cbn. f_equal.
      destruct Hd as [Hd|Hd]; rewrite Hd; destruct (dm s v1); reflexivity.
    - repeat (split; [reflexivity|]). cbn. split.
      + intros u Hu. now rewrite upd_other.
      + rewrite upd_same. rewrite P1, P2. reflexivity. }
  destruct F2 as (F2c & F2v & F2q & F2r & F2o & F2occ & F2d & F2d1).
  set (s3 := unify_out output s2 v0 v1).
  assert (F3 : cons s3 = cons s /\ vq s3 = vq s /\ cq s3 = cq s /\ rd s3 = rd s /\ occ s3 = o /\ decls s3 = decls s2 /\
               (forall u, out s3 u = if (u =? v0) && output v0 then match out s v0 with OVar => OAlias v1 | o => o end else out s u)).
  { unfold s3, unify_out. destruct (output v0) eqn:Eo.
    - rewrite F2o. destruct (out s v0) eqn:Eov; cbn; repeat (split; [assumption|]); (split; [reflexivity|]); intros u;
        rewrite ?F2o, ?andb_true_r; unfold upd; destruct (Nat.eqb_spec u v0); subst; auto.
    - repeat (split; [assumption|]). split; [reflexivity|]. intros u. rewrite andb_false_r, F2o. reflexivity. }
  destruct F3 as (F3c & F3v & F3q & F3r & F3occ & F3d & F3o).
  unfold unify_redirect. cbn.
  split; [exact F3c|]. split; [exact F3v|]. split; [exact F3q|].
  split; [intros u; now rewrite F3r|].
  split.
  { intros u. unfold gone. cbn. unfold upd. rewrite F3d. destruct (Nat.eqb_spec u v0); [reflexivity|].
    destruct (Nat.eq_dec u v1) as [->|N1]; [rewrite F2d1, D3; reflexivity|]. now rewrite F2d, D1. }
  split.
  { intros u. unfold dm at 1. cbn. unfold upd. rewrite F3d. destruct (Nat.eqb_spec u v0) as [->|N0].
    - cbn. rewrite F2d, D2 by assumption. destruct (Nat.eqb_spec v0 v1); [congruence|reflexivity].
    - destruct (Nat.eqb_spec u v1) as [->|N1]; [now rewrite F2d1|]. rewrite F2d, D1 by assumption. reflexivity. }
  split.
  { intros u. unfold rh at 1. cbn. unfold upd. rewrite F3d. destruct (Nat.eqb_spec u v0) as [->|N0].
    - cbn. now rewrite F2d, D2 by assumption.
    - destruct (Nat.eqb_spec u v1) as [->|N1]; [now rewrite F2d1, D3|]. rewrite F2d, D1 by assumption. reflexivity. }
  split.
  { intros u. unfold cmp at 1. cbn. unfold upd. rewrite F3d. destruct (Nat.eqb_spec u v0) as [->|N0].
    - cbn. now rewrite F2d, D2 by assumption.
    - destruct (Nat.eq_dec u v1) as [->|N1]; [now rewrite F2d1, D3|]. rewrite F2d, D1 by assumption. reflexivity. }
  split; [exact F3o|].
  assert (Oc : forall u j, In j (o u) ->
     In j (upd (upd (occ s3) v1 (occ s3 v0 ++ occ s3 v1)) v0 [] (if u =? v0 then v1 else u))).
  { intros u j Hj. rewrite F3occ. destruct (Nat.eqb_spec u v0) as [->|N0].
    - rewrite upd_other by congruence. rewrite upd_same. apply in_or_app. now left.
    - rewrite upd_other by assumption. unfold upd. destruct (Nat.eqb_spec u v1) as [->|N1]; [|assumption].
      apply in_or_app. now right. }
  split.
  { intros u j Hj Nj. apply Oc. auto. }
  split.
  { intros e z Hz1 Hz2. rewrite F3r. apply Oc. eauto. }
  intros p q P1 P2. destruct S2 as [[_ [Hd|Hd]]|(p' & P3 & P4 & _)]; congruence.
Qed.

Lemma unify_none s x y :
  let a := rd s x in
  let b := rd s y in
  nonalias s a -> nonalias s b ->
  unify output s x y = None -> exists p q, dm s a = Some p /\ dm s b = Some q /\ p <> q.
Proof.
  intros a b Aa Ab H. unfold unify in H. fold a b in H. destruct (Nat.eqb_spec a b) as [|N]; [discriminate|].
  set (v0 := if output a then b else a) in *. set (v1 := if output a then a else b) in *.
  assert (N01 : v0 <> v1) by (unfold v0, v1; destruct (output a); congruence).
  assert (A0 : nonalias s v0) by (unfold v0; destruct (output a); assumption).
  assert (A1 : nonalias s v1) by (unfold v1; destruct (output a); assumption).
  destruct (unify_rhs_shape s v0 v1 N01 A0 A1) as (d & o & E & D1 & D2 & D3 & O1 & O2). rewrite E in H.
  unfold unify_dom in H.
  assert (Dm0 : dm (with_decls (with_occ s o) d) v0 = dm s v0) by (unfold dm at 1; cbn; now rewrite D2).
  assert (Dm1 : dm (with_decls (with_occ s o) d) v1 = dm s v1) by (unfold dm at 1; cbn; now rewrite D3).
  rewrite Dm0, Dm1 in H.
  destruct (dm s v0) as [p|] eqn:P0; [|discriminate]. destruct (dm s v1) as [q|] eqn:P1; [|discriminate].
  destruct (Bool.eqb_spec p q); [discriminate|].
  unfold v0, v1 in *. destruct (output a); [exists q, p|exists p, q]; auto.
Qed.

Variable other : nat -> list bool -> bool.
Notation truth := (truth other).
Notation inv := (inv other output).
Notation sat := (sat other).
Notation good := (good other output).
Notation okay := (okay other output).

(** The state after the unification, with more in the queues *)
Lemma unify_merge s x y s' s2 :
  let a := rd s x in
  let b := rd s y in
  inv s -> a <> b -> nonalias s a -> nonalias s b -> known s a -> known s b ->
  (rh s a = None \/ rh s b = None) ->
  unify output s x y = Some s' ->
  (exists v c, s2 = with_cq (with_vq s' v) c /\ incl (vq s') v /\ incl (cq s') c /\
     (gone s a = true \/ gone s b = true -> forall i j, In i (occ s' (rd s' x)) -> stands s' i j -> In j c)) ->
  inv s2 /\ (forall sg, sat s sg /\ sg a = sg b <-> sat s2 sg) /\ grow s s2.
Proof.
  intros a b I Nab Aa Ab Ka Kb Hrh HU (qv & qc & E2 & Iv & Ic & Hpush).
  pose (v0 := if output a then b else a). pose (v1 := if output a then a else b).
  assert (N01 : v0 <> v1) by (unfold v0, v1; destruct (output a); congruence).
  assert (A0 : nonalias s v0) by (unfold v0; destruct (output a); assumption).
  assert (A1 : nonalias s v1) by (unfold v1; destruct (output a); assumption).
  assert (K0 : known s v0) by (unfold v0; destruct (output a); assumption).
  assert (K1 : known s v1) by (unfold v1; destruct (output a); assumption).
  assert (Hrh01 : rh s v0 = None \/ rh s v1 = None) by (unfold v0, v1; destruct (output a); tauto).
  assert (Hsat01 : forall sg : nat -> bool, sg a = sg b <-> sg v0 = sg v1).
  { intros sg. unfold v0, v1. destruct (output a); split; congruence. }
  assert (Hg01 : gone s v0 = true \/ gone s v1 = true -> gone s a = true \/ gone s b = true).
  { unfold v0, v1. destruct (output a); tauto. }
  assert (Ox : output v0 = true -> output v1 = true).
  { unfold v0, v1. destruct (output a) eqn:Ea; congruence. }
  destruct (unify_shape s x y s' Nab A0 A1 HU) as (Uc & Uv & Uq & Ur & Ug & Ud & Uh & Um & Uo & Uocc & Uocc2 & Ucons).
  fold a b in Ur, Ug, Ud, Uh, Uo, Uocc, Uocc2, Ucons. fold v0 v1 in Ur, Ug, Ud, Uh, Uo, Uocc, Uocc2, Ucons.
  destruct I as (G & [B1 B2] & [C1 C2 C3 C4]).
  assert (R0 : rd s v0 = v0) by (unfold v0, a, b; destruct (output (rd s x)); apply (g_idem _ _ G)).
  assert (R1 : rd s v1 = v1) by (unfold v1, a, b; destruct (output (rd s x)); apply (g_idem _ _ G)).
  assert (Rx : rd s' x = v1).
  { rewrite Ur. fold a. destruct (Nat.eqb_spec a v0) as [_|N0]; [reflexivity|].
    unfold v0 in N0. unfold v1. destruct (output a); [reflexivity|congruence]. }
  clearbody v0 v1.
  assert (Live1 : gone s v1 = true -> dm s v1 <> None /\ rh s v1 <> None /\ rh s v0 = None).
  { intros Hg. destruct K1 as [K1|K1]; [congruence|]. specialize (C4 v1 Hg R1 K1). split; [assumption|].
    split; [assumption|]. destruct Hrh01; [assumption|contradiction]. }
  assert (Nv : v1 =? v0 = false) by (apply Nat.eqb_neq; congruence).
  assert (Dm0 : forall p, dm s v0 = Some p -> dm s' v1 = Some p).
  { intros p Hp. rewrite Ud, Nat.eqb_refl. destruct (dm s v1) as [q|] eqn:Hq; [|assumption].
    f_equal. symmetry. eauto. }
  assert (Dmo : forall u p, dm s u = Some p -> dm s' u = Some p).
  { intros u p Hp. rewrite Ud. destruct (Nat.eqb_spec u v1) as [->|N]; [|assumption]. now rewrite Hp. }
  assert (Dmn : forall u, dm s u <> None -> dm s' u <> None).
  { intros u H. destruct (dm s u) eqn:E; [|congruence]. apply Dmo in E. congruence. }
  assert (Dr : forall u p, dm s (rd s u) = Some p -> dm s' (rd s' u) = Some p).
  { intros u p Hp. rewrite Ur. destruct (Nat.eqb_spec (rd s u) v0) as [E|N]; [|auto]. rewrite E in Hp. auto. }
  assert (Drn : forall u, dm s (rd s u) <> None -> dm s' (rd s' u) <> None).
  { intros u H. destruct (dm s (rd s u)) eqn:E; [|congruence]. apply Dr in E. congruence. }
  assert (Fx : forall sg, fixed s' sg -> fixed s sg /\ sg v0 = sg v1).
  { intros sg [F1 F2]. assert (E : sg v0 = sg v1).
    { rewrite (F2 v0), Ur, R0, Nat.eqb_refl. reflexivity. }
    split; [|assumption]. split; [eauto|]. intros u. rewrite (F2 u), Ur.
    destruct (Nat.eqb_spec (rd s u) v0) as [E'|N]; [|reflexivity]. rewrite E'. now symmetry. }
  subst s2. cut (inv (with_cq s' qc) /\ (forall sg, sat s sg /\ sg a = sg b <-> sat (with_cq s' qc) sg) /\ grow s (with_cq s' qc)).
  { intros (X1 & X2 & X3).
    replace (with_cq (with_vq s' qv) qc) with (with_cq (with_vq (with_cq s' qc) qv) qc) by (destruct s'; reflexivity).
    destruct (queues_good other output (with_cq s' qc) qv qc X1 Iv (incl_refl _)) as (Y1 & Y2 & Y3).
    split; [exact Y1|]. split; [|exact (grow_trans _ _ _ X3 Y3)]. intros sg. rewrite X2. apply Y2. }
  assert (Pe : forall j e, call_item s' j e -> pend s j -> pend (with_cq s' qc) j).
  { intros j e Hj [H|(w & H1 & H2 & ->)].
    - left. apply Ic. now rewrite Uq.
    - right. exists w. cbn. split; [apply Ic; now rewrite Uq|].
      assert (Hne : rd s w <> v0).
      { intros E. destruct Hj as [Hj _]. rewrite E in Hj. cbn [item_expr] in Hj.
        rewrite Ug, Nat.eqb_refl in Hj. discriminate. }
      change (gone s' w = true /\ IV (rd s w) = IV (rd s' w)).
      rewrite Ug, Ur. split; [destruct (w =? v0); auto|].
      destruct (Nat.eqb_spec (rd s w) v0); [contradiction|reflexivity]. }
  assert (Hinv : inv (with_cq s' qc)).
  { split; [|split].
    - split.
      + intros u. cbn. rewrite !Ur. destruct (Nat.eqb_spec (rd s u) v0) as [E|N].
        * rewrite R1, Nv. reflexivity.
        * rewrite (g_idem _ _ G). destruct (Nat.eqb_spec (rd s u) v0); congruence.
      + intros u H. change (gone s' u = false) in H. cbn. rewrite Ug in H. rewrite Ur.
        destruct (Nat.eqb_spec u v0) as [E|N]; [discriminate|]. rewrite (g_live _ _ G u H).
        destruct (Nat.eqb_spec u v0); congruence.
      + intros u p H. change (dm s' u = Some p) in H. change (dm s' (rd s' u) = Some p).
        rewrite Ud in H. destruct (Nat.eqb_spec u v1) as [->|N].
        * rewrite Ur, R1, Nv, Ud, Nat.eqb_refl. exact H.
        * apply Dr. now apply (g_dom _ _ G).
      + intros u H1 H2. cbn in H2. change (gone s' u = false). rewrite Uo in H2. rewrite Ug.
        destruct (Nat.eqb_spec u v0) as [->|N].
        * rewrite H1 in H2. cbn in H2. destruct (out s v0) eqn:Eo; discriminate.
        * now apply (g_out _ _ G).
      + intros u w H. cbn in H |- *. rewrite Uo in H.
        assert (Hold : out s u = OAlias w -> output w = true /\ rd s' u <> u).
        { intros H'. destruct (g_oalias _ _ G u w H') as [H1 H2]. split; [assumption|]. rewrite Ur.
          destruct (Nat.eqb_spec (rd s u) v0) as [E|N]; [|assumption]. congruence. }
        destruct (Nat.eqb_spec u v0) as [->|N]; cbn in H; [|auto].
        destruct (output v0) eqn:Eo; [|auto]. destruct (out s v0) eqn:E0; [|discriminate|auto].
        inversion H; subst w. split; [auto|]. rewrite Ur, R0, Nat.eqb_refl. congruence.
      + intros u H. cbn. rewrite Ur. assert (H' := g_orep _ _ G u H).
        destruct (Nat.eqb_spec (rd s u) v0) as [E|N]; [rewrite E in H'; auto|assumption].
      + intros u sg Hu Hf. destruct (Fx sg) as [Hf' E01]; [exact Hf|].
        assert (S1 : output v0 = true -> shown (with_cq s' qc) sg v1 (sg v1)).
        { intros Ho. assert (H := g_shown _ _ G v1 sg (Ox Ho) Hf'). inversion H as [w H1 H2 H3 H4|w p H1 H2 H3|w w' p H1 H2 H3 H4].
          - apply shown_var; [cbn; rewrite Uo, Nv; assumption|]. change (gone s' v1 = false). rewrite Ug, Nv. assumption.
          - apply shown_fix. cbn. rewrite Uo, Nv. assumption.
          - destruct (g_oalias _ _ G _ _ H1). congruence. }
        assert (H := g_shown _ _ G u sg Hu Hf'). revert Hu. induction H as [w H1 H2|w p H1|w w' p H1 H2 IH]; intros Hu.
        * destruct (Nat.eq_dec w v0) as [->|N].
          -- rewrite E01. apply shown_alias with v1; [|auto]. cbn. rewrite Uo, Nat.eqb_refl, Hu, H1. reflexivity.
          -- apply shown_var.
             ++ cbn. rewrite Uo. destruct (Nat.eqb_spec w v0); [contradiction|assumption].
             ++ change (gone s' w = false). rewrite Ug. destruct (Nat.eqb_spec w v0); [contradiction|assumption].
        * apply shown_fix. cbn. rewrite Uo. destruct (Nat.eqb_spec w v0) as [->|N]; cbn; [|assumption].
          destruct (output v0); [rewrite H1|]; auto.
        * apply shown_alias with w'.
          -- cbn. rewrite Uo. destruct (Nat.eqb_spec w v0) as [->|N]; cbn; [|assumption].
             destruct (output v0); [rewrite H1|]; auto.
          -- apply IH. apply (g_oalias _ _ G w w' H1).
    - (* references *)
      assert (Old : forall j e, call_item s' j e ->
                (j = IV v1 /\ rh s v0 = Some e) \/ (call_item s j e /\ (forall w, j = IV w -> rh s' w = rh s w))).
      { intros j e [H1 H2]. destruct j as [w|k|]; cbn [item_expr] in H1.
        - rewrite Ug, Uh in H1. destruct (Nat.eqb_spec w v0) as [->|N]; [discriminate|].
          destruct (gone s w) eqn:Gw; [discriminate|]. destruct (Nat.eqb_spec w v1) as [->|N1].
          + destruct (rh s v0) as [e0|] eqn:E0; [left; split; congruence|right].
            split; [split; [cbn [item_expr]; now rewrite Gw|assumption]|].
            intros w' Ew. injection Ew as <-. rewrite Uh, Nv, Nat.eqb_refl. reflexivity.
          + right. split; [split; [cbn [item_expr]; now rewrite Gw|assumption]|].
            intros w' Ew. injection Ew as <-. rewrite Uh.
            destruct (Nat.eqb_spec w v0); [contradiction|]. destruct (Nat.eqb_spec w v1); [contradiction|reflexivity].
        - right. rewrite Uc in H1. split; [split; assumption|discriminate].
        - discriminate. }
      assert (NotV0 : forall j e, call_item s' j e -> j <> IV v0).
      { intros j e [H1 _] ->. cbn [item_expr] in H1. rewrite Ug, Nat.eqb_refl in H1. discriminate. }
      assert (Har : forall j, (forall w, j = IV w -> rh s' w = rh s w) -> harmless s j -> harmless s' j).
      { intros j Hw (w & e & z & p & -> & H1 & H2 & H3 & H4). exists w, e, z, p. rewrite (Hw w eq_refl). auto 8. }
      split; intros j e z Hj Hz; change (call_item s' j e) in Hj.
      + change (In j (occ s' (rd s' z)) \/ dm s' (rd s' z) <> None /\ pend (with_cq s' qc) j).
        destruct (Old j e Hj) as [[-> E]|[Hj' _]].
        * left. eauto.
        * destruct (B1 j e z Hj' Hz) as [H|[H H']].
          -- left. rewrite Ur. apply Uocc; [assumption|]. eauto.
          -- right. split; [auto|]. eauto.
      + change (gone s' (rd s' z) = false \/ dm s' (rd s' z) <> None /\ (pend (with_cq s' qc) j \/ harmless s' j)).
        destruct (Old j e Hj) as [[-> E]|[Hj' Hw]].
        * (* the right hand side that moved *)
          assert (L1 : gone s v1 = false).
          { destruct (gone s v1) eqn:L; [|reflexivity]. destruct (Live1 eq_refl) as (_ & _ & H). congruence. }
          assert (Hm : eq_lit e z true \/ eq_lit e z false \/ True) by auto. clear Hm.
          destruct (gone s v0) eqn:L0.
          -- destruct (C3 v0 e L0 E) as [_ [(p & ->)|(w & p & H1 & H2 & H3)]].
             ++ destruct Hj as [_ Hj]. discriminate.
             ++ right. assert (z = w) as ->.
                { destruct H1 as [-> | ->]; cbn in Hz; destruct Hz as [<-|[]]; reflexivity. }
                split; [apply Drn; congruence|]. right. exists v1, e, w, p. split; [reflexivity|].
                rewrite Uh, Nv, Nat.eqb_refl, E. split; [reflexivity|]. split; [assumption|]. auto.
          -- assert (Hj0 : call_item s (IV v0) e).
             { split; [cbn [item_expr]; now rewrite L0|]. apply Hj. }
             destruct (B2 _ e z Hj0 Hz) as [H|[H [H'|H']]].
             ++ left. rewrite Ug, Ur. destruct (Nat.eqb_spec (rd s z) v0) as [_|N].
                ** now rewrite Nv.
                ** destruct (Nat.eqb_spec (rd s z) v0); [contradiction|assumption].
             ++ right. split; [auto|]. left.
                destruct H' as [H'|(w & K2 & K3 & K4)].
                ** right. exists v0. cbn. split; [apply Ic; now rewrite Uq|].
                   change (gone s' v0 = true /\ IV v1 = IV (rd s' v0)).
                   rewrite Ug, Ur, R0, Nat.eqb_refl. auto.
                ** right. exists w. cbn. split; [apply Ic; now rewrite Uq|].
                   change (gone s' w = true /\ IV v1 = IV (rd s' w)). inversion K4 as [K5].
                   rewrite Ug, Ur, <- K5, Nat.eqb_refl. rewrite K3. split; [destruct (w =? v0); auto|reflexivity].
             ++ right. split; [auto|]. right. destruct H' as (w & e' & z' & p & K2 & K3 & K4 & K5 & K6).
                inversion K2; subst w. exists v1, e', z', p. split; [reflexivity|].
                rewrite Uh, Nv, Nat.eqb_refl, E. split; [congruence|]. auto.
        * destruct (B2 j e z Hj' Hz) as [H|[H [H'|H']]].
          -- destruct (Nat.eq_dec (rd s z) v0) as [E|N].
             ++ assert (Rz : rd s' z = v1) by (rewrite Ur, E, Nat.eqb_refl; reflexivity).
                rewrite Rz. destruct (gone s v1) eqn:L1.
                ** right. split; [apply Dmn; now apply Live1|]. left.
                   destruct (B1 j e z Hj' Hz) as [K|[_ K]]; [left|eauto].
                   apply (Hpush (Hg01 (or_intror eq_refl)) j j).
                   --- rewrite Rx. rewrite E in K. specialize (Uocc v0 j K (NotV0 _ _ Hj)).
                       now rewrite Nat.eqb_refl in Uocc.
                   --- destruct Hj as [Hj _]. destruct j as [w|k|]; cbn [item_expr stands] in *.
                       +++ destruct (gone s' w) eqn:Gw; [discriminate|]. rewrite Ug in Gw.
                           destruct (Nat.eqb_spec w v0) as [|Nw]; [discriminate|].
                           assert (Rw : rd s' w = w).
                           { rewrite Ur, (g_live _ _ G w Gw). destruct (Nat.eqb_spec w v0); congruence. }
                           rewrite Rw. split; [reflexivity|]. split; [|congruence].
                           rewrite Ug. destruct (Nat.eqb_spec w v0); [contradiction|assumption].
                       +++ split; [reflexivity|congruence].
                       +++ discriminate.
                ** left. rewrite Ug, Nv. assumption.
             ++ left. rewrite Ug, Ur. destruct (Nat.eqb_spec (rd s z) v0); [contradiction|].
                destruct (Nat.eqb_spec (rd s z) v0); [contradiction|assumption].
          -- right. split; [auto|]. left. eauto.
          -- right. split; [auto|]. right. auto.
    - split.
      + intros u p H. change (rh s' u = Some (ELit p)) in H. change (dm s' u = Some p). rewrite Uh in H.
        destruct (Nat.eqb_spec u v0); [discriminate|]. destruct (Nat.eqb_spec u v1) as [->|N].
        * destruct (rh s v0) as [e|] eqn:E; [inversion H; subst e; auto|auto].
        * auto.
      + intros u H1 H2. change (gone s' u = false) in H1. change (cmp s' u = true) in H2.
        change (exists b, rh s' u = Some (ELit b)). rewrite Ug in H1. rewrite Um in H2. rewrite Uh.
        destruct (Nat.eqb_spec u v0); [discriminate|]. destruct (C2 u H1 H2) as (p & Hp). exists p.
        destruct (Nat.eqb_spec u v1) as [->|N]; [|assumption].
        destruct (rh s v0) eqn:E; [destruct Hrh01; congruence|assumption].
      + intros u e H1 H2. change (gone s' u = true) in H1. change (rh s' u = Some e) in H2.
        rewrite Ug in H1. rewrite Uh in H2. destruct (Nat.eqb_spec u v0); [discriminate|].
        assert (Hu : rh s u = Some e).
        { destruct (Nat.eqb_spec u v1) as [->|N]; [|assumption]. destruct (Live1 H1) as (_ & _ & E).
          now rewrite E in H2. }
        destruct (C3 u e H1 Hu) as [H3 H4]. split.
        * intros sg F. apply H3. now apply Fx.
        * destruct H4 as [H4|(z & p & H4 & H5 & H6)]; [now left|right]. exists z, p.
          split; [assumption|]. split; [exact (Dmo _ _ H5)|exact (Dr _ _ H6)].
      + intros u H1 H2 H3. change (gone s' u = true) in H1. change (rd s' u = u) in H2.
        change (dm s' u <> None) in H3. change (rh s' u <> None).
        rewrite Ur in H2. destruct (Nat.eqb_spec (rd s u) v0) as [E|N]; [congruence|].
        rewrite Ug in H1. rewrite Uh. rewrite Ud in H3. destruct (Nat.eqb_spec u v0) as [E0|N0]; [congruence|].
        destruct (Nat.eqb_spec u v1) as [->|N1].
        * destruct (Live1 H1) as (_ & K2 & K3). now rewrite K3.
        * now apply C4. }
  split; [exact Hinv|]. split.
  - intros sg. split.
    + intros [Hs E01]. apply Hsat01 in E01. destruct Hs as ([F1 F2] & S1 & S2). split; [|split].
      * split.
        -- intros u p H. change (dm s' u = Some p) in H. rewrite Ud in H. destruct (Nat.eqb_spec u v1) as [->|N]; [|auto].
           destruct (dm s v1) as [q|] eqn:E; [inversion H; subst; auto|]. rewrite <- E01. auto.
        -- intros u. cbn. rewrite Ur. destruct (Nat.eqb_spec (rd s u) v0) as [E|N]; [|auto].
           rewrite <- E01, <- E. auto.
      * intros u e H1 H2. change (gone s' u = false) in H1. change (rh s' u = Some e) in H2.
        rewrite Ug in H1. rewrite Uh in H2. destruct (Nat.eqb_spec u v0); [discriminate|].
        destruct (Nat.eqb_spec u v1) as [->|N]; [|auto]. destruct (rh s v0) as [e0|] eqn:E; [|auto].
        inversion H2; subst e0. rewrite <- E01. destruct (gone s v0) eqn:L0; [|auto].
        destruct (C3 v0 e L0 E) as [H3 _]. apply H3. split; assumption.
      * intros c e H. cbn in H. rewrite Uc in H. eauto.
    + intros (F & S1 & S2). destruct (Fx sg F) as [F' E01]. split; [|now apply Hsat01]. split; [assumption|]. split.
      * intros u e H1 H2. destruct (Nat.eq_dec u v0) as [->|N0].
        -- assert (L1 : gone s v1 = false).
           { destruct (gone s v1) eqn:L; [|reflexivity]. destruct (Live1 eq_refl) as (_ & _ & H). congruence. }
           rewrite E01. apply S1.
           ++ change (gone s' v1 = false). now rewrite Ug, Nv.
           ++ change (rh s' v1 = Some e). now rewrite Uh, Nv, Nat.eqb_refl, H2.
        -- apply S1.
           ++ change (gone s' u = false). rewrite Ug. destruct (Nat.eqb_spec u v0); [contradiction|assumption].
           ++ change (rh s' u = Some e). rewrite Uh. destruct (Nat.eqb_spec u v0); [contradiction|].
              destruct (Nat.eqb_spec u v1) as [->|N1]; [|assumption].
              destruct (rh s v0) eqn:E; [destruct Hrh01; congruence|assumption].
      * intros c e H. apply (S2 c). cbn. now rewrite Uc.
  - split.
    + intros u w H. cbn. rewrite !Ur, H. reflexivity.
    + exact Dmo.
    + intros c e H. cbn in H. now rewrite Uc in H.
    + cbn. rewrite Uv. apply incl_refl.
    + cbn. rewrite <- Uq. exact Ic.
    + intros u H. change (gone s' u = true). rewrite Ug. destruct (u =? v0); auto.
    + intros u z H. change (rh s' u = Some (EId z)) in H. rewrite Uh in H.
      destruct (Nat.eqb_spec u v0); [discriminate|]. destruct (Nat.eqb_spec u v1) as [->|N]; [|assumption].
      destruct (rh s v0) as [e|] eqn:E; [|assumption]. inversion H; subst. now destruct (A0 z).
Qed.
Lemma fixed_eq s sg x y : fixed s sg -> (sg (rd s x) = sg (rd s y) <-> sg x = sg y).
Proof. intros [_ F]. rewrite (F x), (F y). rewrite <- (F x), <- (F y). now rewrite (F x), (F y). Qed.

(** Unification, followed by pushing what depends on the two variables *)
Definition merged (s : state) (x y : nat) (r : option state) (s2 : state -> state) : Prop :=
  match r with
  | Some s' => inv (s2 s') /\ (forall sg, sat s sg /\ sg x = sg y <-> sat (s2 s') sg) /\ grow s (s2 s')
  | None => forall sg, sat s sg -> sg x <> sg y
  end.
Definition pushes (s : state) (x : nat) (s2 : state) : Prop :=
  exists v c, s2 = with_cq (with_vq s v) c /\ incl (vq s) v /\ incl (cq s) c /\
    (forall i j, In i (occ s (rd s x)) -> stands s i j -> In j c).
Lemma push_dep_pushes s x : pushes s x (push_dep s x).
Proof.
  destruct (push_dep_spec s x) as (q & -> & H1 & H2). exists (vq s), q. rewrite with_vq_id.
  split; [reflexivity|]. split; [apply incl_refl|]. auto.
Qed.
Lemma push_both_pushes s v x : pushes s x (push_dep (push_var s v) x).
Proof.
  destruct (push_var_spec s v) as (q1 & -> & H1 & _). destruct (push_dep_spec (with_vq s q1) x) as (q & -> & H3 & H4).
  exists q1, q. auto.
Qed.
Lemma pushes_good s x s2 : inv s -> pushes s x s2 -> good s s2.
Proof. intros I (v & c & -> & H1 & H2 & _). now apply queues_good. Qed.

Lemma unify_merged s x y f :
  inv s -> nonalias s (rd s x) -> nonalias s (rd s y) -> known s (rd s x) -> known s (rd s y) ->
  (rh s (rd s x) = None \/ rh s (rd s y) = None) ->
  (forall s', pushes s' x (f s')) ->
  merged s x y (unify output s x y) f.
Proof.
  intros I Ax Ay Kx Ky Hr Hf. destruct (unify output s x y) as [s'|] eqn:E; cbn [merged].
  - destruct (Hf s') as (qv & q & Eq & Iv & Iq & Hq).
    destruct (Nat.eq_dec (rd s x) (rd s y)) as [Exy|N].
    + unfold unify in E. destruct (Nat.eqb_spec (rd s x) (rd s y)); [|contradiction]. inversion E; subst s'.
      destruct (pushes_good s x (f s) I) as (X1 & X2 & X3); [eauto|]. split; [assumption|]. split; [|assumption].
      intros sg. rewrite <- X2. split; [tauto|]. intros Hs. split; [assumption|].
      destruct Hs as (F & _). apply (fixed_eq s sg x y F). now rewrite Exy.
    + rewrite Eq. destruct (unify_merge s x y s' (with_cq (with_vq s' qv) q)) as (X1 & X2 & X3); try assumption.
      { exists qv, q. split; [reflexivity|]. split; [assumption|]. split; [assumption|].
        intros _. exact Hq. }
      split; [assumption|]. split; [|assumption]. intros sg. rewrite <- X2. split; intros [Hs He]; (split; [assumption|]);
        destruct Hs as (F & _); now apply (fixed_eq s sg x y F).
  - intros sg Hs He. destruct (unify_none _ _ _ Ax Ay E) as (p & q & H1 & H2 & N).
    destruct Hs as (F & _). apply (fixed_value s sg x p F) in H1. apply (fixed_value s sg y q F) in H2. congruence.
Qed.
(** The same when the model already says that the two are equal *)
Lemma unify_okay s x y f :
  inv s -> nonalias s (rd s x) -> nonalias s (rd s y) -> known s (rd s x) -> known s (rd s y) ->
  (rh s (rd s x) = None \/ rh s (rd s y) = None) ->
  (forall s', pushes s' x (f s')) ->
  (forall sg, sat s sg -> sg x = sg y) ->
  okay s (match unify output s x y with Some s' => Some (f s') | None => None end).
Proof.
  intros I Ax Ay Kx Ky Hr Hf Hs. assert (H := unify_merged s x y f I Ax Ay Kx Ky Hr Hf).
  destruct (unify output s x y) as [s'|]; cbn [merged okay] in *.
  - destruct H as (X1 & X2 & X3). split; [assumption|]. split; [|assumption]. intros sg. rewrite <- X2.
    split; [auto|tauto].
  - intros sg H1. apply (H sg H1). auto.
Qed.

(** The right hand side of a variable that is in the model is dropped *)
Lemma forget_inv s v e :
  inv s -> gone s v = false -> rh s v = Some e -> (forall b, e <> ELit b) ->
  inv (set_rhs s v None) /\ grow s (set_rhs s v None) /\
  (forall sg, sat s sg <-> sat (set_rhs s v None) sg /\ sg v = truth sg e).
Proof.
  intros (G & [B1 B2] & [C1 C2 C3 C4]) Hg He Hl. set (s' := set_rhs s v None).
  assert (Dm : forall u, dm s' u = dm s u).
  { intros u. unfold s', dm. cbn; unfold upd. destruct (Nat.eqb_spec u v); subst; reflexivity. }
  assert (Go : forall u, gone s' u = gone s u).
  { intros u. unfold s', gone. cbn; unfold upd. destruct (Nat.eqb_spec u v); subst; reflexivity. }
  assert (Cm : forall u, cmp s' u = cmp s u).
  { intros u. unfold s', cmp. cbn; unfold upd. destruct (Nat.eqb_spec u v); subst; reflexivity. }
  assert (Rh : forall u, rh s' u = if u =? v then None else rh s u).
  { intros u. unfold s', rh. cbn; unfold upd. destruct (Nat.eqb_spec u v); subst; reflexivity. }
  assert (Fx : forall sg, fixed s' sg <-> fixed s sg).
  { intros sg. unfold fixed. change (rd s') with (rd s). split; intros [F1 F2]; (split; [|assumption]); intros w b H; apply F1;
    [rewrite Dm|rewrite Dm in H]; assumption. }
  assert (Oc : forall j e', call_item s' j e' -> call_item s j e' /\ j <> IV v).
  { intros j e' [H1 H2]. destruct j as [u|k|]; cbn [item_expr] in H1.
    - rewrite Go, Rh in H1. destruct (Nat.eqb_spec u v); [destruct (gone s u); discriminate|].
      split; [split; assumption|congruence].
    - split; [split; assumption|discriminate].
    - discriminate. }
  assert (Pe : forall j, pend s j -> pend s' j).
  { intros j. apply pend_same; [apply incl_refl|reflexivity|intros u; now rewrite Go]. }
  split; [split; [|split]|split].
  - apply (G1_same output s); try reflexivity; try assumption.
    + intros u b. now rewrite Dm.
    + intros u b. rewrite Dm. auto.
  - split; intros j e' z Hj Hz; destruct (Oc _ _ Hj) as [Hj' N]; change (rd s') with (rd s); rewrite Dm.
    + destruct (B1 j e' z Hj' Hz) as [H|[H H']]; [now left|right]. auto.
    + rewrite Go. destruct (B2 j e' z Hj' Hz) as [H|[H [H'|H']]]; [now left|right..]; (split; [assumption|]); [left; auto|].
      right. destruct H' as (w & e1 & z1 & b & -> & H1 & H2 & H3 & H4). exists w, e1, z1, b.
      rewrite Rh, !Dm. change (rd s') with (rd s). destruct (Nat.eqb_spec w v); [congruence|auto 6].
  - split.
    + intros u b. rewrite Rh, Dm. destruct (Nat.eqb_spec u v); [discriminate|apply C1].
    + intros u. rewrite Go, Cm, Rh. intros H1 H2. destruct (Nat.eqb_spec u v) as [->|N]; [|auto].
      destruct (C2 v H1 H2) as (b & Hb). rewrite He in Hb. inversion Hb. now destruct (Hl b).
    + intros u e'. rewrite Go, Rh. destruct (Nat.eqb_spec u v); [discriminate|]. intros H1 H2.
      destruct (C3 u e' H1 H2) as [H3 H4]. split.
      * intros sg F. apply H3. now apply Fx.
      * destruct H4 as [H4|(z & b & H4 & H5 & H6)]; [now left|right]. exists z, b. rewrite !Dm.
        change (rd s') with (rd s). auto.
    + intros u. rewrite Go, Rh, Dm. change (rd s') with (rd s). intros H1 H2 H3.
      destruct (Nat.eqb_spec u v) as [->|N]; [congruence|auto].
  - split; try apply incl_refl; try (intros; assumption).
    + intros u b. now rewrite Dm.
    + intros u. now rewrite Go.
    + intros u z. rewrite Rh. destruct (Nat.eqb_spec u v); [discriminate|auto].
  - intros sg. split.
    + intros (F & S1 & S2). split; [|auto]. split; [now apply Fx|]. split; [|assumption].
      intros u e'. rewrite Go, Rh. destruct (Nat.eqb_spec u v); [discriminate|apply S1].
    + intros ((F & S1 & S2) & Hv). split; [now apply Fx|]. split; [|assumption].
      intros u e' H1 H2. destruct (Nat.eq_dec u v) as [->|N]; [congruence|]. apply S1; [now rewrite Go|].
      rewrite Rh. destruct (Nat.eqb_spec u v); [contradiction|assumption].
Qed.
Lemma unify_rd s x y s' :
  nonalias s (rd s x) -> nonalias s (rd s y) -> unify output s x y = Some s' -> rd s' x = rd s' y.
Proof.
  intros Ax Ay H. destruct (Nat.eq_dec (rd s x) (rd s y)) as [E|N].
  - unfold unify in H. destruct (Nat.eqb_spec (rd s x) (rd s y)); [|contradiction]. inversion H; now subst.
  - apply unify_shape in H; [|assumption|destruct (output (rd s x)); assumption..].
    destruct H as (_ & _ & _ & R & _). rewrite !R. destruct (output (rd s x)).
    + rewrite Nat.eqb_refl. destruct (Nat.eqb_spec (rd s x) (rd s y)); congruence.
    + rewrite Nat.eqb_refl. destruct (Nat.eqb_spec (rd s y) (rd s x)); congruence.
Qed.
(** A variable that equals another by its right hand side is unified with it *)
Lemma replace_okay s v e x :
  inv s -> gone s v = false -> rh s v = Some e -> (forall b, e <> ELit b) ->
  (forall sg, fixed s sg -> truth sg e = sg x) ->
  (rd s x = v \/ nonalias s (rd s x)) -> known s (rd s x) ->
  okay s (match unify output (set_rhs s v None) v x with Some s' => Some (push_dep s' x) | None => None end).
Proof.
  intros I Hg He Hl Ht Ax Kx. destruct (forget_inv s v e I Hg He Hl) as (I1 & R1 & S1).
  set (s1 := set_rhs s v None) in *. assert (Rv : rd s1 v = v) by (apply (g_live output s); [apply I|assumption]).
  assert (Dm : forall u, dm s1 u = dm s u).
  { intros u. unfold s1, dm. cbn; unfold upd. destruct (Nat.eqb_spec u v); subst; reflexivity. }
  assert (Go : forall u, gone s1 u = gone s u).
  { intros u. unfold s1, gone. cbn; unfold upd. destruct (Nat.eqb_spec u v); subst; reflexivity. }
  assert (Rh : forall u, rh s1 u = if u =? v then None else rh s u).
  { intros u. unfold s1, rh. cbn; unfold upd. destruct (Nat.eqb_spec u v); subst; reflexivity. }
  assert (Av : nonalias s1 (rd s1 v)) by (intros z; rewrite Rv, Rh, Nat.eqb_refl; discriminate).
  assert (Ax1 : nonalias s1 (rd s1 x)).
  { intros z. rewrite Rh. change (rd s1 x) with (rd s x). destruct (Nat.eqb_spec (rd s x) v); [discriminate|].
    destruct Ax as [Ax|Ax]; [congruence|apply Ax]. }
  assert (Kv : known s1 (rd s1 v)) by (left; rewrite Rv, Go; assumption).
  assert (Kx1 : known s1 (rd s1 x)) by (destruct Kx as [K|K]; [left; now rewrite Go|right; now rewrite Dm]).
  assert (Hr : rh s1 (rd s1 v) = None \/ rh s1 (rd s1 x) = None) by (left; now rewrite Rv, Rh, Nat.eqb_refl).
  assert (M := unify_merged s1 v x (fun s' => push_dep s' v) I1 Av Ax1 Kv Kx1 Hr (fun s' => push_dep_pushes s' v)).
  destruct (unify output s1 v x) as [s'|] eqn:E; cbn [merged okay] in *.
  - apply unify_rd in E; [|assumption..]. unfold push_dep in M |- *. rewrite <- E. destruct M as (M1 & M2 & M3).
    split; [assumption|]. split; [|exact (grow_trans _ _ _ R1 M3)].
    intros sg. rewrite S1, <- M2. split; intros [H1 H2]; (split; [assumption|]).
    + rewrite H2. apply Ht. eapply grow_fixed; [apply I|exact R1|apply H1].
    + rewrite H2. symmetry. apply Ht. eapply grow_fixed; [apply I|exact R1|apply H1].
  - intros sg H. apply S1 in H. destruct H as [H1 H2]. apply (M sg H1). rewrite H2. apply Ht.
    eapply grow_fixed; [apply I|exact R1|apply H1].
Qed.
End Unify.
