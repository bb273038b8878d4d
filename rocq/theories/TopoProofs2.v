(** Proofs for C49: items, sorting and the property itself. *)
Require Import ZArith List Bool Lia Relations Permutation.
From Verif Require Import Base TopoModel TopoSpec TopoProofs.
Import ListNotations.
Open Scope Z_scope.

Lemma flat_nodup_eq : forall A (f : A -> list Z) l a b x, NoDup (flat_map f l) -> In a l -> In b l -> In x (f a) -> In x (f b) -> a = b.
Proof.
  induction l as [|c l IH]; cbn; intros a b x N Ha Hb Xa Xb; [tauto|].
  assert (D : NoDup (flat_map f l) /\ forall y, In y (f c) -> ~ In y (flat_map f l)).
  { clear - N. induction (f c) as [|y r IHr]; cbn in N; [split; [auto|intros y []]|]. inversion N; subst. destruct (IHr H2) as [A1 A2].
    split; [auto|]. intros z [<-|Hz]; [intros Q; apply H1; apply in_or_app; auto|auto]. }
  destruct D as [D1 D2]. destruct Ha as [->|Ha], Hb as [->|Hb]; auto.
  - exfalso. apply (D2 x Xa). apply in_flat_map. eauto.
  - exfalso. apply (D2 x Xb). apply in_flat_map. eauto.
  - eapply IH; eauto.
Qed.
Lemma flat_nodup_sub : forall A (f g : A -> list Z) l, (forall a, g a = f a \/ g a = []) -> NoDup (flat_map f l) -> NoDup (flat_map g l).
Proof.
  intros A f g l H. assert (S : forall l x, In x (flat_map g l) -> In x (flat_map f l)).
  { intros m x. rewrite !in_flat_map. intros (a & Ha & Hx). exists a. split; auto. destruct (H a) as [E|E]; rewrite E in Hx; [auto|destruct Hx]. }
  induction l as [|c l IH]; cbn; [auto|]. intros N.
  assert (D : NoDup (f c) /\ NoDup (flat_map f l) /\ forall y, In y (f c) -> ~ In y (flat_map f l)).
  { clear - N. induction (f c) as [|y r IHr]; cbn in N; [split; [constructor|split; [auto|intros y []]]|]. inversion N; subst. destruct (IHr H2) as (A1 & A2 & A3).
    split; [constructor; auto; intros Q; apply H1; apply in_or_app; auto|]. split; [auto|]. intros z [<-|Hz]; [intros Q; apply H1; apply in_or_app; auto|auto]. }
  destruct D as (D1 & D2 & D3). destruct (H c) as [E|E]; rewrite E; [|cbn; auto].
  specialize (IH D2). clear - D1 D3 IH S. induction (f c) as [|y r IHr]; cbn; [auto|]. inversion D1; subst. constructor.
  - intros Q. apply in_app_or in Q. destruct Q as [Q|Q]; [auto|]. apply (D3 y); [now left|auto].
  - apply IHr; auto. intros z Hz. apply D3. now right.
Qed.
Lemma flat_nodup_one : forall A (f : A -> list Z) l a, NoDup (flat_map f l) -> In a l -> NoDup (f a).
Proof.
  induction l as [|c l IH]; cbn; intros a N H; [tauto|].
  assert (D : NoDup (f c) /\ NoDup (flat_map f l)).
  { clear - N. induction (f c) as [|y r IHr]; cbn in N; [split; [constructor|auto]|]. inversion N; subst. destruct (IHr H2) as (A1 & A2).
    split; [constructor; auto; intros Q; apply H1; apply in_or_app; auto|auto]. }
  destruct H as [->|H]; [tauto|]. apply IH; tauto.
Qed.

Lemma add_fold : forall l m,
  (exists m', foldM add m l = Ok m' /\ NoDup (names l) /\ (forall n, In n (names l) -> lookup n m = None) /\
     (forall n d, lookup n m' = Some d -> lookup n m = Some d \/ (In d l /\ binds d = Some n)) /\
     (forall n, lookup n m' = None <-> lookup n m = None /\ ~ In n (names l)) /\
     (forall n d, In d l -> binds d = Some n -> lookup n m' = Some d)) \/
  (foldM add m l = Err TypeError /\ ~ (NoDup (names l) /\ (forall n, In n (names l) -> lookup n m = None))).
Proof.
  induction l as [|d l IH]; intros m.
  - left. exists m. cbn. split; [reflexivity|]. split; [constructor|]. split; [intros n []|]. split; [auto|]. split; [tauto|intros n d []].
  - cbn [foldM]. assert (ADD : (exists m', add m d = Ok m' /\ (forall n, binds d = Some n -> lookup n m = None) /\
             (forall n, lookup n m' = match binds d with Some x => if x =? n then Some d else lookup n m | None => lookup n m end))
          \/ (add m d = Err TypeError /\ exists n, binds d = Some n /\ lookup n m <> None)).
    { destruct d as [|? ?|? ? ?|v [x|] ps a]; cbn; try (left; eexists; split; [reflexivity|split; [discriminate|auto]]; fail).
      destruct (lookup x m) eqn:L.
      - right. split; [reflexivity|]. exists x. split; [reflexivity|congruence].
      - left. eexists; split; [reflexivity|]. split; [|intros n; reflexivity]. intros n [= <-]. auto. }
    destruct ADD as [(m1 & -> & B & L1)|(-> & n & Bn & Ln)]; cbn [bind].
    2:{ right. split; [reflexivity|]. intros [_ H]. apply Ln. apply H. cbn. rewrite Bn. now left. }
    destruct (IH m1) as [(m' & -> & ND & NL & H1 & H2 & H3)|(-> & H)].
    + left. exists m'. split; [reflexivity|]. cbn [names flat_map]. change (flat_map _ l) with (names l).
      destruct (binds d) as [x|] eqn:Bd; cbn [app].
      * assert (NX : ~ In x (names l)). { intros Q. apply NL in Q. rewrite L1, Z.eqb_refl in Q. discriminate. }
        split; [constructor; auto|]. split.
        { intros n [<-|Hn]; [now apply B|]. apply NL in Hn. rewrite L1 in Hn. destruct (x =? n); [discriminate|auto]. }
        split.
        { intros n e E. destruct (H1 n e E) as [Q|[Q1 Q2]]; [|right; split; [now right|auto]]. rewrite L1 in Q.
          destruct (Z.eqb_spec x n); [|auto]. injection Q as <-. subst. right. split; [now left|auto]. }
        split.
        { intros n. rewrite H2, L1. destruct (Z.eqb_spec x n).
          - split; [intros [Q _]; discriminate|]. intros [_ Q]. exfalso. apply Q. now left.
          - split; [intros [Q1 Q2]; split; [auto|intros [Q|Q]; auto]|]. intros [Q1 Q2]. split; [auto|]. intros Q. apply Q2. now right. }
        intros n e [<-|He] Be; [|now apply H3]. rewrite Bd in Be. injection Be as <-.
        destruct (lookup x m') as [e|] eqn:E.
        -- destruct (H1 x e E) as [Q|[Q1 Q2]]; [rewrite L1, Z.eqb_refl in Q; congruence|]. exfalso. apply NX. eapply names_in; eauto.
        -- apply H2 in E. rewrite L1, Z.eqb_refl in E. destruct E; discriminate.
      * split; [auto|]. split; [intros n Hn; apply NL in Hn; now rewrite L1 in Hn|]. split.
        { intros n e E. destruct (H1 n e E) as [Q|[Q1 Q2]]; [rewrite L1 in Q; auto|right; split; [now right|auto]]. }
        split; [intros n; rewrite H2, L1; tauto|].
        intros n e [<-|He] Be; [congruence|now apply H3].
    + right. split; [reflexivity|]. intros [Q1 Q2]. apply H. cbn [names flat_map] in Q1, Q2. change (flat_map _ l) with (names l) in Q1, Q2.
      destruct (binds d) as [x|] eqn:Bd; cbn [app] in *.
      * inversion Q1; subst. split; [auto|]. intros n Hn. rewrite L1. destruct (Z.eqb_spec x n); [subst; contradiction|]. apply Q2. now right.
      * split; [auto|]. intros n Hn. rewrite L1. apply Q2; auto.
Qed.

Lemma top_in : forall is_ d, In d (top_decls is_) <-> In (IDecl d) is_.
Proof.
  intros is_ d. unfold top_decls. rewrite in_flat_map. split.
  - intros (i & Hi & Hd). destruct i; cbn in Hd; try tauto. destruct Hd as [->|[]]. auto.
  - intros H. exists (IDecl d). split; [auto|now left].
Qed.

Section Items.
Variable is_ : list item.
Variable G : table.
Let tops := top_decls is_.
Hypothesis tops_decl : forall d, In d tops -> is_decl d.
Hypothesis tops_disj : forall d d' v, In d tops -> In d' tops -> In v (ids d) -> In v (ids d') -> d = d'.
Hypothesis tops_nodup : forall d, In d tops -> NoDup (ids d).
Hypothesis G_top : forall n d, lookup n G = Some d -> In d tops /\ binds d = Some n.

Let sc0 := [(true, G)].
Definition inv (st : state) : Prop := env_ok is_ G sc0 st /\ forall v, ~ busy st v.
Definition niids (i : item) : list Z := match i with IDecl _ => [] | _ => iids i end.
Definition ipost (st : state) (i : item) (st' : state) : Prop :=
  ext st st' /\ inv st' /\ frame is_ st st' (niids i) /\ (forall n, ifree i n -> lookup n G <> None) /\ inames i /\
  (forall d, i = IDecl d -> done st' (vid d)).

Lemma cyc_none : forall F sc st, (forall v, ~ busy st v) -> cyc_ok is_ F sc st.
Proof. intros F sc st H d' n d _ B. exfalso. eapply H; eauto. Qed.
Lemma ext_nobusy : forall st st', ext st st' -> (forall v, ~ busy st v) -> forall v, ~ busy st' v.
Proof. intros st st' (E & _) H v B. apply (H v). now apply E. Qed.
Lemma find0 : forall n, find sc0 n = lookup n G.
Proof. intros. apply find_bot. Qed.

Lemma lfree_in : forall l n, lfree l n <-> exists e, In e l /\ free e n.
Proof. intros. reflexivity. Qed.

Lemma item_outcome : forall f st i, inv st -> (forall d, i = IDecl d -> In d tops) -> ids_ok is_ (niids i) st ->
  (isize i + mu is_ st <= f)%nat ->
  (exists st', runItem f G st i = Ok st' /\ ipost st i st') \/
  (runItem f G st i = Err TypeError /\ (WD is_ G -> (forall n, ifree i n -> lookup n G <> None) -> inames i -> False)).
Proof.
  intros f st i (EN & NB) TI ID FU.
  assert (RO : forall sc st e, ready is_ G f sc st e -> outcome is_ G f sc st e) by (intros; apply run_outcome; auto).
  destruct i as [d|ti params an body|es|]; cbn [runItem]; fold sc0.
  - assert (T : In d tops) by auto. destruct (tops_decl d T) as (v & nm & ps & an & ED). cbn [isize] in FU.
    destruct (pfind v (pos st)) as [[p|]|] eqn:P.
    + left. exists st. pose proof EN as ((C1 & C2 & C3) & O & (T1 & T2) & G1 & G2 & G3).
      assert (DD : done st (vid d)) by (subst d; exists p; auto).
      destruct (T2 d T DD) as [I1 I2].
      assert (FDD : forall n, free d n -> exists d', lookup n G = Some d' /\ done st (vid d')).
      { intros n Hn. destruct (C2 _ _ P) as [_ Q]. apply nth_error_In in Q. apply in_rev in Q.
        apply in_split in Q. destruct Q as (l1 & l2 & L). destruct (O l1 v l2 L d T) with (n := n) as (d' & Q1 & Q2); [subst d; reflexivity|auto|].
        exists d'. split; [auto|]. apply C3. rewrite L. apply in_or_app. right. now right. }
      split.
      * apply run_settled; [auto|lia|]. split; [|auto]. intros n Hn. destruct (FDD n Hn) as (d' & Q1 & Q2).
        exists d'. split; [|split; [now rewrite find0|auto]]. apply tops_decl. now apply (G_top n).
      * split; [apply ext_refl|]. split; [split; auto|]. split; [apply frame_refl|]. split; [|split; [auto|]].
        -- intros n Hn. destruct (FDD n Hn) as (d' & Q1 & Q2). congruence.
        -- intros d' [= <-]. auto.
    + exfalso. apply (NB v). exact P.
    + assert (NSd : ~ seen st v) by (unfold seen; congruence). pose proof EN as (C0 & O0 & T0 & G0).
      assert (SS : forall x, seen (mkS ((v, None) :: pos st) (decls st)) x <-> x = v \/ seen st x).
      { intros x. unfold seen. cbn. destruct (Z.eqb_spec v x); [split; [auto|discriminate]|]. split; [auto|]. intros [->|H]; [congruence|auto]. }
      assert (IDd : forall x, In x (ids d) -> ~ seen st x) by (apply (proj1 T0 d T); subst d; exact NSd).
      assert (UNIQ : forall d', In d' tops -> vid d' = v -> d' = d).
      { intros d' T' E'. eapply (tops_disj d' d v); auto.
        - destruct (tops_decl d' T') as (v2 & ? & ? & ? & ->). cbn in E'. subst. cbn. now left.
        - subst d. cbn. now left. }
      destruct f as [|f]; [lia|].
      subst d.
      destruct (decl_outcome is_ G f sc0 (fun st e => run_outcome is_ G tops_decl tops_disj tops_nodup G_top f sc0 st e) st v nm ps an)
        as [(st' & E' & P' & N')|(E' & B')]; auto.
      * intros d2 Hd2 N2 x Hx Hx2. assert (d2 = EDecl v nm ps an) by (eapply tops_disj; eauto). subst d2. apply N2. apply SS. left. reflexivity.
      * intros d2 Hd2 V2. split; [now apply UNIQ|apply find0].
      * intros d' n d2 T' B' Hn L ND. rewrite find0 in L.
        assert (d' = EDecl v nm ps an).
        { apply UNIQ; auto. unfold busy in B'. cbn in B'. destruct (Z.eqb_spec v (vid d')); auto. exfalso. apply (NB (vid d')). exact B'. }
        subst d'. apply t_step. destruct (G_top n d2 L) as [Q1 Q2]. split; [auto|]. split; [auto|]. exists n. auto.
      * assert (mu is_ (mkS ((v, None) :: pos st) (decls st)) <= mu is_ st)%nat by (apply mu_mono; intros; apply SS; auto). lia.
      * left. exists st'. split; [exact E'|]. destruct P' as (X' & EN' & FR' & FD' & DI').
        split; [auto|]. split; [split; [auto|]; now apply (ext_nobusy st)|]. split; [|split; [|split]].
        -- intros x Sx. destruct (FR' x Sx) as [?|[Hx|?]]; auto. right. right. exists (EDecl v nm ps an).
           split; [auto|]. split; [auto|]. split; [|auto]. apply done_seen. apply DI'. cbn. now left.
        -- intros n Hn. destruct (FD' n Hn) as (d' & _ & Q & _). rewrite find0 in Q. congruence.
        -- auto.
        -- intros d' [= <-]. apply DI'. cbn. now left.
      * right. split; [exact E'|]. intros W Fn Dn. apply B'; auto. intros n Hn. rewrite find0. apply Fn. auto.
  - cbn [niids iids] in ID. destruct (ids_ok_sub _ _ _ _ ID) as (ID1 & ID2 & DJ). cbn [isize] in FU.
    set (l := ti ++ params ++ an) in *.
    destruct (fold_outcome is_ G f sc0 (RO sc0) l st) as [(st1 & E1 & P1 & N1)|(E1 & B1)]; auto.
    { now apply cyc_none. }
    { lia. }
    2:{ right. rewrite E1. split; [reflexivity|]. intros W Fn Dn. apply B1; auto.
        - intros n Hn. rewrite find0. apply Fn. left. exact Hn.
        - apply Dn. }
    rewrite E1. cbn [bind]. pose proof P1 as (X1 & EN1 & FR1 & FD1 & DI1).
    assert (M1 : (mu is_ st1 <= mu is_ st)%nat) by (apply mu_mono; intros; eapply ext_seen; eauto).
    destruct (add_fold params []) as [(m & -> & ND & _ & L1 & L2 & L3)|(-> & BD)]; cbn [bind].
    2:{ right. split; [reflexivity|]. intros _ _ (Dn & _). apply BD. auto. }
    assert (NB1 : forall v, ~ busy st1 v) by now apply (ext_nobusy st).
    assert (FM : forall n, find ((false, m) :: sc0) n = match lookup n m with Some d => Some d | None => lookup n G end).
    { intros n. rewrite find_in by discriminate. now rewrite find0. }
    destruct (RO ((false, m) :: sc0) st1 body) as [(st2 & E2 & P2 & N2)|(E2 & B2)].
    { split; [|split; [eapply ids_ok_next; eauto|split; [now apply cyc_none|lia]]].
      destruct EN1 as (A & B & C & D1 & D2 & D3). split; [auto|]. split; [auto|]. split; [auto|]. split; [discriminate|]. split; [reflexivity|].
      intros n d. rewrite FM. destruct (lookup n m) as [e|] eqn:L.
      - intros [= <-]. destruct (L1 n e L) as [Q|[Q1 Q2]]; [discriminate|]. destruct e as [|? ?|? ? ?|v nm ps a]; try discriminate.
        split; [do 4 eexists; reflexivity|]. left. apply DI1. apply (flat_in _ (EDecl v nm ps a)); [|cbn; now left].
        unfold l. apply in_or_app. right. apply in_or_app. left. exact Q1.
      - intros Q. apply D3. now rewrite find0. }
    + left. exists st2. split; [exact E2|]. pose proof P2 as (X2 & EN2 & FR2 & FD2 & DI2).
      assert (X : ext st st2) by (eapply ext_trans; [exact X1|exact X2]).
      split; [auto|]. split; [split; [|now apply (ext_nobusy st)]|].
      { eapply env_next; [exact EN|exact EN2|exact X]. }
      split; [|split; [|split]].
      * cbn. eapply frame_trans; [exact X1|exact X2|exact FR1|exact FR2|]. intros v Hv. apply in_or_app. auto.
      * intros n [Hn|[Hn NI]].
        -- destruct (FD1 n Hn) as (d' & _ & Q & _). rewrite find0 in Q. congruence.
        -- destruct (FD2 n Hn) as (d' & _ & Q & _). rewrite FM in Q.
           assert (Z0 : lookup n m = None) by (apply L2; auto). rewrite Z0 in Q. congruence.
      * split; [auto|]. split; [auto|auto].
      * discriminate.
    + right. split; [exact E2|]. intros W Fn (_ & _ & Dn). apply B2; auto. intros n Hn. rewrite FM.
      destruct (lookup n m) eqn:L; [discriminate|]. apply Fn. right. split; [auto|]. now apply L2 in L.
  - cbn [niids iids] in ID. cbn [isize] in FU.
    destruct (fold_outcome is_ G f sc0 (RO sc0) es st) as [(st1 & E1 & P1 & N1)|(E1 & B1)]; auto.
    { now apply cyc_none. }
    2:{ right. rewrite E1. split; [reflexivity|]. intros W Fn Dn. apply B1; auto.
        intros n Hn. rewrite find0. apply Fn. exact Hn. }
    left. exists st1. split; [auto|]. pose proof P1 as (X1 & EN1 & FR1 & FD1 & DI1).
    split; [auto|]. split; [split; [auto|now apply (ext_nobusy st)]|]. split; [auto|]. split; [|split; [auto|discriminate]].
    intros n Hn. destruct (FD1 n Hn) as (d' & _ & Q & _). rewrite find0 in Q. congruence.
  - left. exists st. split; [reflexivity|]. split; [apply ext_refl|]. split; [split; auto|]. split; [apply frame_refl|]. cbn. split; [tauto|]. split; [auto|discriminate].
Qed.

Lemma items_all : forall f r st, inv st -> (forall d, In (IDecl d) r -> In d tops) -> ids_ok is_ (flat_map niids r) st ->
  (list_sum (map isize r) + mu is_ st <= f)%nat ->
  (exists st', foldM (runItem f G) st r = Ok st' /\ ext st st' /\ inv st' /\
     (forall i, In i r -> (forall n, ifree i n -> lookup n G <> None) /\ inames i) /\
     (forall d, In (IDecl d) r -> done st' (vid d))) \/
  (foldM (runItem f G) st r = Err TypeError /\
     (WD is_ G -> (forall i, In i r -> (forall n, ifree i n -> lookup n G <> None) /\ inames i) -> False)).
Proof.
  intros f. induction r as [|i r IH]; intros st IN TI ID FU.
  - left. exists st. cbn. split; [reflexivity|]. split; [apply ext_refl|]. split; [auto|]. split; [intros i []|intros d []].
  - cbn [foldM]. cbn [flat_map] in ID. destruct (ids_ok_sub _ _ _ _ ID) as (ID1 & ID2 & DJ). cbn [map] in FU. rewrite lsum_cons in FU.
    destruct (item_outcome f st i IN) as [(st1 & -> & X1 & IN1 & FR1 & F1 & N1 & D1)|(-> & B)]; auto.
    { intros d ->. apply TI. now left. }
    { lia. }
    2:{ right. split; [reflexivity|]. intros W H. destruct (H i (or_introl eq_refl)) as [H1 H2]. apply B; auto. }
    cbn [bind]. assert (M1 : (mu is_ st1 <= mu is_ st)%nat) by (apply mu_mono; intros; eapply ext_seen; eauto).
    destruct (IH st1 IN1) as [(st2 & -> & X2 & IN2 & F2 & D2)|(-> & B)].
    { intros d Hd. apply TI. now right. }
    { eapply ids_ok_next; eauto. }
    { lia. }
    + left. exists st2. split; [reflexivity|]. split; [eapply ext_trans; eauto|]. split; [auto|]. split.
      * intros j [<-|Hj]; auto.
      * intros d [->|Hd]; auto. eapply ext_done_; [apply D1; reflexivity|exact X2].
    + right. split; [reflexivity|]. intros W H. apply B; auto. intros j Hj. apply H. now right.
Qed.
End Items.

Lemma mu0_le : forall is_ st, (mu is_ st <= list_sum (map isize is_))%nat.
Proof.
  intros is_ st. unfold mu, top_decls. induction is_ as [|i l IH]; [cbn; lia|]. cbn [flat_map]. rewrite map_app.
  cbn [map]. rewrite lsum_cons. assert (forall a b, list_sum (a ++ b) = (list_sum a + list_sum b)%nat) as -> by (apply list_sum_app).
  destruct i; cbn [app map isize]; try (cbn [list_sum fold_right]; unfold list_sum in *; cbn [fold_right]; lia).
  rewrite lsum_cons. assert (wt st d <= S (size d))%nat by (unfold wt; destruct (pfind (vid d) (pos st)); lia).
  unfold list_sum in *. cbn [fold_right]. lia.
Qed.

Lemma topo_outcome : forall is_, tree is_ ->
  (exists st, topo_state is_ = Ok st /\ well_defined is_ /\ cons_ st /\
     (forall d, In (IDecl d) is_ -> done st (vid d)) /\
     (forall l1 v l2, decls st = l1 ++ v :: l2 -> forall d d', vid d = v -> dep is_ d d' -> In (vid d') l2)) \/
  (topo_state is_ = Err TypeError /\ ~ (well_defined is_ /\ acyclic is_)).
Proof.
  intros is_ (ND & TD). unfold topo_state.
  assert (tops_decl : forall d, In d (top_decls is_) -> is_decl d) by (intros d Hd; apply top_in in Hd; destruct (TD d Hd) as (v & nm & ps & an & ->); do 4 eexists; reflexivity).
  assert (tops_disj : forall d d' v, In d (top_decls is_) -> In d' (top_decls is_) -> In v (ids d) -> In v (ids d') -> d = d').
  { intros d d' v H1 H2 V1 V2. apply top_in in H1, H2. assert (E : IDecl d = IDecl d') by (eapply flat_nodup_eq; eauto). now injection E. }
  assert (tops_nodup : forall d, In d (top_decls is_) -> NoDup (ids d)).
  { intros d H. apply top_in in H. eapply (flat_nodup_one _ iids _ (IDecl d)); eauto. }
  destruct (add_fold (top_decls is_) []) as [(G & -> & NN & _ & G1 & G2 & G3)|(-> & BD)]; cbn [bind].
  2:{ right. split; [reflexivity|]. intros [(W & _) _]. apply BD. auto. }
  assert (G_top : forall n d, lookup n G = Some d -> In d (top_decls is_) /\ binds d = Some n).
  { intros n d E. destruct (G1 n d E) as [Q|Q]; [discriminate|auto]. }
  assert (GN : forall n, lookup n G <> None <-> In n (names (top_decls is_))).
  { intros n. rewrite G2. split.
    - intros H. destruct (in_dec Z.eq_dec n (names (top_decls is_))); auto. exfalso. apply H. auto.
    - intros H [_ Q]. auto. }
  destruct (items_all is_ G tops_decl tops_disj tops_nodup G_top (enough is_) is_ (mkS [] [])) as [(st & E & X & IN & F & D)|(E & B)].
  - split; [|intros v; discriminate]. split; [|split; [|split]].
    + split; [constructor|]. split; [discriminate|intros v []].
    + intros [|? l1] v l2 L; discriminate.
    + split; [intros d Hd H v Hv S; apply S; reflexivity|intros d Hd [p Q]; discriminate].
    + split; [discriminate|]. split; [reflexivity|]. intros n d E. rewrite find_bot in E. split; [|auto]. apply tops_decl. now apply (G_top n).
  - intros d Hd. now apply top_in.
  - split; [|split].
    + eapply flat_nodup_sub; [|exact ND]. intros [d|? ? ? ?|?|]; cbn; auto.
    + intros v Hv S. apply S. reflexivity.
    + intros d Hd _ v Hv Q. apply in_flat_map in Q. destruct Q as (i & Hi & Q). apply top_in in Hd.
      assert (E : IDecl d = i). { eapply (flat_nodup_eq _ iids); eauto. destruct i; cbn in *; auto. destruct Q. }
      subst i. destruct Q.
  - unfold enough. pose proof (mu0_le is_ (mkS [] [])). lia.
  - left. exists st. destruct IN as ((C & O & _) & NB). split; [exact E|]. split; [|split; [auto|split; [auto|]]].
    + split; [auto|]. intros i Hi. destruct (F i Hi) as [F1 F2]. split; [auto|]. intros n Hn. apply GN. auto.
    + intros l1 v l2 L d d' V (T1 & T2 & n & B & Fn). destruct (O l1 v l2 L d T1 V n Fn) as (d2 & Q1 & Q2).
      rewrite (G3 n d' T2 B) in Q1. injection Q1 as <-. auto.
  - right. split; [exact E|]. intros [(W1 & W2) AC]. apply B.
    + split; [auto|]. intros d Hd. apply top_in in Hd. destruct (W2 _ Hd) as [Q1 Q2]. split; [|exact Q1].
      intros n Hn. apply GN. apply Q2. exact Hn.
    + intros i Hi. destruct (W2 _ Hi) as [Q1 Q2]. split; [|exact Q1]. intros n Hn. apply GN. apply Q2. exact Hn.
Qed.

(** sorting *)
Definition key (st : state) (i : item) : Z := match i with IDecl d => payload st d | _ => 0 end.
Lemma item_lt_key : forall st i j, item_lt st i j = true <-> rank i < rank j \/ (rank i = rank j /\ key st i < key st j).
Proof.
  intros st i j. destruct i, j; cbn; try (rewrite Z.ltb_lt); split; intros H; try discriminate; try reflexivity; try lia;
    try (left; lia); try (right; lia); try (destruct H as [H|[H1 H2]]; lia).
Qed.
Definition leq (st : state) (i j : item) : Prop := item_lt st j i = false.
Lemma leq_trans : forall st a b c, leq st a b -> leq st b c -> leq st a c.
Proof.
  unfold leq. intros st a b c H1 H2. apply not_true_is_false. intros H. rewrite item_lt_key in H.
  apply not_true_iff_false in H1, H2. rewrite item_lt_key in H1, H2. lia.
Qed.
Lemma lt_leq : forall st a b, item_lt st a b = true -> leq st a b.
Proof. unfold leq. intros st a b H. apply not_true_is_false. intros Q. rewrite item_lt_key in *. lia. Qed.

Require Import Sorted.
Lemma insert_perm : forall st i l, Permutation (i :: l) (insert_item st i l).
Proof.
  induction l as [|j l IH]; cbn; [auto|]. destruct (item_lt st j i); [|auto].
  eapply perm_trans; [apply perm_swap|]. now apply perm_skip.
Qed.
Lemma sort_perm : forall st l, Permutation l (stable_sort st l).
Proof. induction l; cbn; [auto|]. eapply perm_trans; [apply perm_skip, IHl|]. apply insert_perm. Qed.
Lemma insert_sorted : forall st i l, StronglySorted (leq st) l -> StronglySorted (leq st) (insert_item st i l).
Proof.
  induction l as [|j l IH]; cbn; intros H; [repeat constructor|]. inversion H; subst. destruct (item_lt st j i) eqn:E.
  - constructor; [auto|]. apply (Permutation_Forall (insert_perm st i l)). constructor; [now apply lt_leq|auto].
  - constructor; [auto|]. constructor; [exact E|]. eapply Forall_impl; [|exact H3]. intros a Ha. eapply leq_trans; [exact E|exact Ha].
Qed.
Lemma sort_sorted : forall st l, StronglySorted (leq st) (stable_sort st l).
Proof. induction l; cbn; [constructor|]. now apply insert_sorted. Qed.

Lemma sorted_split : forall st l1 i l2, StronglySorted (leq st) (l1 ++ i :: l2) -> forall j, In j l2 -> leq st i j.
Proof.
  induction l1; cbn; intros i l2 H j Hj; inversion H; subst.
  - now apply (proj1 (Forall_forall _ _) H3).
  - eapply IHl1; eauto.
Qed.

(* stability: items for which [p] holds and that are pairwise equivalent keep their order *)
Lemma insert_filter : forall st p i l, (forall a b, p a = true -> p b = true -> item_lt st a b = false) ->
  filter p (insert_item st i l) = filter p (i :: l).
Proof.
  intros st p i l H. induction l as [|j l IH]; [reflexivity|]. cbn [insert_item]. destruct (item_lt st j i) eqn:E; [|reflexivity].
  cbn [filter] in *. rewrite IH. destruct (p i) eqn:Pi; [|reflexivity]. destruct (p j) eqn:Pj; [|reflexivity].
  rewrite H in E by auto. discriminate.
Qed.
Lemma sort_filter : forall st p l, (forall a b, p a = true -> p b = true -> item_lt st a b = false) -> filter p (stable_sort st l) = filter p l.
Proof. intros st p l H. induction l as [|i l IH]; [reflexivity|]. cbn [stable_sort]. rewrite insert_filter by auto. cbn. now rewrite IH. Qed.

Lemma payload_lt : forall is_ st d d', cons_ st -> (forall d, In (IDecl d) is_ -> done st (vid d)) -> (forall d, In (IDecl d) is_ -> is_decl d) ->
  (forall l1 v l2, decls st = l1 ++ v :: l2 -> forall d d', vid d = v -> dep is_ d d' -> In (vid d') l2) ->
  dep is_ d d' -> payload st d' < payload st d.
Proof.
  intros is_ st d d' (N & P & I) D TD O DP. pose proof DP as (T1 & T2 & _). apply top_in in T1, T2.
  destruct (D d T1) as [p E]. destruct (D d' T2) as [p' E'].
  assert (PL : payload st d = p) by (destruct (TD d T1) as (v & nm & ps & an & ->); cbn in *; now rewrite E).
  assert (PL' : payload st d' = p') by (destruct (TD d' T2) as (v & nm & ps & an & ->); cbn in *; now rewrite E').
  rewrite PL, PL'. destruct (P _ _ E) as [P0 Q]. destruct (P _ _ E') as [P0' Q'].
  assert (IN : In (vid d) (decls st)) by (apply in_rev; eapply nth_error_In; eauto).
  apply in_split in IN. destruct IN as (l1 & l2 & L). pose proof (O l1 _ l2 L d d' eq_refl DP) as H2.
  assert (RL : rev (decls st) = rev l2 ++ vid d :: rev l1) by (rewrite L, rev_app_distr; cbn; now rewrite <- app_assoc).
  assert (ND : NoDup (rev (decls st))) by now apply NoDup_rev.
  assert (A : Z.to_nat p = length l2).
  { apply (proj1 (NoDup_nth_error (rev (decls st))) ND); [apply nth_error_Some; congruence|]. rewrite Q, RL.
    rewrite nth_error_app2 by (rewrite rev_length; lia). rewrite rev_length, Nat.sub_diag. reflexivity. }
  apply in_rev in H2. apply In_nth_error in H2. destruct H2 as [k K].
  assert (KL : (k < length l2)%nat) by (rewrite <- rev_length; apply nth_error_Some; congruence).
  assert (A' : Z.to_nat p' = k).
  { apply (proj1 (NoDup_nth_error (rev (decls st))) ND); [apply nth_error_Some; congruence|]. rewrite Q', RL.
    rewrite nth_error_app1 by (rewrite rev_length; lia). auto. }
  lia.
Qed.

Lemma order_ok : forall is_ out, tree is_ -> toposort is_ = Ok out ->
  Permutation is_ out /\
  (forall l1 d l2, out = l1 ++ IDecl d :: l2 -> forall d', dep is_ d d' -> In (IDecl d') l1).
Proof.
  intros is_ out T E. unfold toposort in E. destruct (topo_outcome is_ T) as [(st & ES & W & C & D & O)|(ES & _)]; rewrite ES in E; [|discriminate].
  injection E as <-. split; [apply sort_perm|]. intros l1 d l2 L d' DP.
  assert (TD : forall d, In (IDecl d) is_ -> is_decl d) by (intros x Hx; destruct T as [_ T]; destruct (T x Hx) as (v & nm & ps & an & ->); do 4 eexists; reflexivity).
  pose proof (payload_lt is_ st d d' C D TD O DP) as PL. pose proof DP as (_ & T2 & _). apply top_in in T2.
  apply (Permutation_in _ (sort_perm st is_)) in T2. rewrite L in T2. apply in_app_or in T2. destruct T2 as [|[T2|T2]]; auto; exfalso.
  - injection T2 as <-. lia.
  - pose proof (sort_sorted st is_) as S. rewrite L in S. pose proof (sorted_split _ _ _ _ S _ T2) as Q. unfold leq in Q. cbn in Q.
    apply Z.ltb_ge in Q. lia.
Qed.

Lemma shape_ok : forall is_ out, tree is_ -> toposort is_ = Ok out ->
  exists ds, Permutation ds (filter (fun i => rank i =? 1) is_) /\
    out = filter (fun i => rank i =? 0) is_ ++ ds ++ filter (fun i => rank i =? 2) is_.
Proof.
  intros is_ out T E. unfold toposort in E. destruct (topo_outcome is_ T) as [(st & ES & _)|(ES & _)]; rewrite ES in E; [|discriminate].
  injection E as <-. exists (filter (fun i => rank i =? 1) (stable_sort st is_)). split.
  { pose proof (sort_perm st is_) as P. clear T ES. induction P; cbn; auto.
    - destruct (rank x =? 1); auto.
    - destruct (rank x =? 1), (rank y =? 1); try apply perm_swap; apply Permutation_refl.
    - eapply perm_trans; eauto. }
  rewrite <- (sort_filter st (fun i => rank i =? 0) is_), <- (sort_filter st (fun i => rank i =? 2) is_).
  - pose proof (sort_sorted st is_) as S. induction S as [|i l S IH H]; [reflexivity|]. cbn [filter].
    assert (R : rank i = 0 \/ rank i = 1 \/ rank i = 2) by (destruct i; cbn; auto).
    assert (FL : forall k, k < rank i -> filter (fun i => rank i =? k) l = []).
    { intros k Hk. clear - H Hk. induction H as [|j l Hj _ IHl]; [reflexivity|]. cbn [filter]. destruct (Z.eqb_spec (rank j) k); [|auto].
      unfold leq in Hj. apply not_true_iff_false in Hj. rewrite item_lt_key in Hj. lia. }
    destruct R as [R|[R|R]]; rewrite R in *; cbn [Z.eqb Pos.eqb].
    + cbn. now rewrite <- IH.
    + rewrite (FL 0) in * by lia. cbn in *. now rewrite <- IH.
    + rewrite (FL 0), (FL 1) in * by lia. cbn in *. now rewrite <- IH.
  - intros a b Ha Hb. apply Z.eqb_eq in Ha, Hb. destruct a, b; cbn in *; try discriminate; reflexivity.
  - intros a b Ha Hb. apply Z.eqb_eq in Ha, Hb. destruct a, b; cbn in *; try discriminate; reflexivity.
Qed.

Lemma acyclic_payload : forall is_ (f : ex -> Z), (forall d d', dep is_ d d' -> f d' < f d) -> acyclic is_.
Proof.
  intros is_ f H d C. assert (X : forall a b, clos_trans ex (dep is_) a b -> f b < f a).
  { induction 1; [auto|lia]. }
  specialize (X d d C). lia.
Qed.
Lemma accepts_ok : forall is_, tree is_ -> ((exists out, toposort is_ = Ok out) <-> well_defined is_ /\ acyclic is_).
Proof.
  intros is_ T. unfold toposort. destruct (topo_outcome is_ T) as [(st & ES & W & C & D & O)|(ES & N)]; rewrite ES; cbn.
  - split; [|eauto]. intros _. split; [auto|]. apply (acyclic_payload is_ (payload st)). intros d d'. apply payload_lt; auto.
    intros x Hx; destruct T as [_ T]; destruct (T x Hx) as (v & nm & ps & an & ->); do 4 eexists; reflexivity.
  - split; [intros [out Q]; discriminate|]. intros H. contradiction.
Qed.
Lemma total_ok : forall is_, tree is_ -> (exists out, toposort is_ = Ok out) \/ toposort is_ = Err TypeError.
Proof.
  intros is_ T. unfold toposort. destruct (topo_outcome is_ T) as [(st & ES & _)|(ES & _)]; rewrite ES; cbn; eauto.
Qed.
