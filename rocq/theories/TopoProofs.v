(** Proofs for C49: the traversal. *)
Require Import ZArith List Bool Lia Relations.
From Verif Require Import Base TopoModel TopoSpec.
Import ListNotations.
Open Scope Z_scope.

Lemma lsum_cons : forall a l, list_sum (a :: l) = (a + list_sum l)%nat.
Proof. reflexivity. Qed.

Definition vid (d : ex) : Z := match d with EDecl v _ _ _ => v | _ => 0 end.
Definition is_decl (d : ex) : Prop := exists v nm ps an, d = EDecl v nm ps an.
Definition seen (st : state) (v : Z) : Prop := pfind v (pos st) <> None.
Definition done (st : state) (v : Z) : Prop := exists p, pfind v (pos st) = Some (Some p).
Definition busy (st : state) (v : Z) : Prop := pfind v (pos st) = Some None.

Lemma done_seen : forall st v, done st v -> seen st v.
Proof. intros st v [p E]. unfold seen. congruence. Qed.

(* pos and decls agree *)
Definition cons_ (st : state) : Prop :=
  NoDup (decls st) /\
  (forall v p, pfind v (pos st) = Some (Some p) -> 0 <= p /\ nth_error (rev (decls st)) (Z.to_nat p) = Some v) /\
  (forall v, In v (decls st) -> done st v).

Definition ext (st st' : state) : Prop :=
  (forall v, busy st v <-> busy st' v) /\
  (forall v p, pfind v (pos st) = Some (Some p) -> pfind v (pos st') = Some (Some p)) /\
  (exists l, decls st' = l ++ decls st).

Lemma ext_refl : forall st, ext st st.
Proof. intros st. split; [tauto|]. split; [auto|]. exists []. reflexivity. Qed.
Lemma ext_trans : forall a b c, ext a b -> ext b c -> ext a c.
Proof.
  intros a b c (A1 & A2 & l & A3) (B1 & B2 & l' & B3). split; [|split].
  - intros v. rewrite A1. apply B1.
  - auto.
  - exists (l' ++ l). rewrite B3, A3. apply app_assoc.
Qed.
Lemma ext_done : forall a b v, ext a b -> done a v -> done b v.
Proof. intros a b v (_ & H & _) [p E]. exists p. auto. Qed.
Lemma ext_done_ : forall a b v, done a v -> ext a b -> done b v.
Proof. intros. eapply ext_done; eassumption. Qed.
Ltac ed := first [eapply ext_done_; [eassumption|eassumption] | eapply ext_done_; [solve [eauto]|eassumption] | solve [eapply ext_done; eauto]].
Lemma ext_seen : forall a b v, ext a b -> seen a v -> seen b v.
Proof.
  intros a b v E S. unfold seen in *. destruct (pfind v (pos a)) as [[p|]|] eqn:X; [| |congruence].
  - destruct E as (_ & E & _). rewrite (E _ _ X). discriminate.
  - destruct E as (E & _). assert (B : busy b v) by (apply E; exact X). unfold busy in B. rewrite B. discriminate.
Qed.

Lemma lookup_cons : forall n n' d m, lookup n ((n', d) :: m) = if n' =? n then Some d else lookup n m.
Proof. reflexivity. Qed.

Lemma find_top : forall sc n, sc <> [] -> find ((true, []) :: sc) n = lookup n (last_table sc).
Proof. intros sc n H. unfold find, last_table. cbn. destruct sc; [congruence|reflexivity]. Qed.
Lemma find_in : forall sc m n, sc <> [] -> find ((false, m) :: sc) n = match lookup n m with Some d => Some d | None => find sc n end.
Proof.
  intros sc m n H. unfold find. assert (last_table ((false, m) :: sc) = last_table sc) as -> by (destruct sc; [congruence|reflexivity]).
  cbn. destruct (lookup n m); auto. destruct sc; [congruence|reflexivity].
Qed.
Lemma last_in : forall sc x, sc <> [] -> last_table (x :: sc) = last_table sc.
Proof. intros [|a sc] x H; [congruence|reflexivity]. Qed.
Lemma find_bot : forall G n, find [(true, G)] n = lookup n G.
Proof. intros. unfold find, last_table. cbn. destruct (lookup n G); reflexivity. Qed.

Lemma sum_in : forall l (e : ex), In e l -> (size e <= list_sum (map size l))%nat.
Proof. induction l; cbn; intros e H; [tauto|]. unfold list_sum in *. destruct H as [->|H]; [lia|]. apply IHl in H. lia. Qed.

(** running an expression that is settled changes nothing *)
Definition settled (sc : list scope) (st : state) (e : ex) : Prop :=
  (forall n, free e n -> exists d, is_decl d /\ find sc n = Some d /\ done st (vid d)) /\
  (forall v, In v (ids e) -> done st v) /\ distinct_names e.

Lemma flat_in : forall (l : list ex) e v, In e l -> In v (ids e) -> In v (flat_map ids l).
Proof. intros. apply in_flat_map. eauto. Qed.

Lemma names_in : forall l e n, In e l -> binds e = Some n -> In n (names l).
Proof. intros l e n H B. unfold names. apply in_flat_map. exists e. rewrite B. split; auto. now left. Qed.

Lemma fold_id : forall (r : state -> ex -> res state) st l, (forall e, In e l -> r st e = Ok st) -> foldM r st l = Ok st.
Proof. induction l; intros H; cbn; auto. rewrite (H a) by now left. cbn. apply IHl. intros. apply H. now right. Qed.

Lemma run_settled : forall f sc st e, sc <> [] -> (size e <= f)%nat -> settled sc st e -> run f sc st e = Ok st.
Proof.
  induction f as [f IH] using lt_wf_ind. intros sc st e NE SZ (S1 & S2 & S3).
  destruct f as [|f]; [destruct e; cbn in SZ; lia|].
  destruct e as [n|an ps|an items b|v nm ps an]; cbn [run]; cbn [size] in SZ.
  - destruct (S1 n (F_id n)) as (d & (v & nm & ps & an & ->) & E & [p D]). rewrite E. cbn in D. now rewrite D.
  - assert (H : forall e, In e an \/ In e ps -> run f sc st e = Ok st).
    { intros e He. apply IH; [lia|auto| |].
      - destruct He as [He|He]; apply sum_in in He; lia.
      - split; [|split].
        + intros n Fn. apply S1. eapply F_node; eauto.
        + intros v Hv. apply S2. cbn. apply in_or_app. destruct He; [left|right]; eapply flat_in; eauto.
        + inversion S3; auto. }
    rewrite fold_id by auto. cbn. rewrite fold_id by auto. cbn. apply fold_id. auto.
  - inversion S3 as [| |? ? ? ND DN|]; subst.
    assert (HA : forall e, In e an -> run f sc st e = Ok st).
    { intros e He. apply IH; [lia|auto| |].
      - apply sum_in in He; lia.
      - split; [|split].
        + intros n Fn. apply S1. eapply F_ann; eauto.
        + intros v Hv. apply S2. cbn. apply in_or_app. left. eapply flat_in; eauto.
        + auto. }
    rewrite fold_id by auto. cbn.
    assert (HI : forall its m, (forall e, In e its -> In e items) -> NoDup (names its) ->
         (forall n, In n (names its) -> lookup n m = None) ->
         (forall n d, lookup n m = Some d -> is_decl d /\ done st (vid d)) ->
         (forall n, free_in its b n -> exists d, is_decl d /\ find ((false, m) :: sc) n = Some d /\ done st (vid d)) ->
         exists m', runItems (fun m => run f ((false, m) :: sc)) m st its = Ok (m', st) /\
           (forall n d, lookup n m' = Some d -> is_decl d /\ done st (vid d)) /\
           (forall n, free b n -> exists d, is_decl d /\ find ((false, m') :: sc) n = Some d /\ done st (vid d))).
    { induction its as [|i its IHi]; intros m Hin Hnd Hl Hm Hf; cbn [runItems].
      - exists m. split; [reflexivity|]. split; [auto|]. intros n Hn. apply Hf. now constructor.
      - assert (Ii : In i items) by (apply Hin; now left).
        assert (Dv : forall v, In v (ids i) -> done st v) by (intros v Hv; apply S2; cbn; apply in_or_app; right; apply in_or_app; left; eapply flat_in; eauto).
        rewrite (IH f) ; [|lia|discriminate|apply sum_in in Ii; lia|].
        2:{ split; [|split; [exact Dv|apply DN; auto]].
            intros n Hn. apply Hf. now constructor. }
        cbn [bind].
        assert (ADD : exists m', add m i = Ok m' /\ (forall n, lookup n m' = match binds i with Some x => if x =? n then Some i else lookup n m | None => lookup n m end)).
        { destruct i as [|? ?|? ? ?|v [x|] ps a]; cbn; try (eexists; split; [reflexivity|auto]; fail).
          rewrite (Hl x).
          - eexists; split; [reflexivity|]. intros n. cbn. reflexivity.
          - cbn. now left. }
        destruct ADD as (m' & -> & Lm'). cbn [bind]. apply IHi.
        + intros e He. apply Hin. now right.
        + cbn in Hnd. destruct (binds i); [inversion Hnd|]; auto.
        + intros n Hn. rewrite Lm'. cbn in Hnd. destruct (binds i) as [x|] eqn:Bi; [|apply Hl; cbn; rewrite Bi; auto].
          inversion Hnd; subst. destruct (Z.eqb_spec x n); [subst; contradiction|]. apply Hl. cbn. rewrite Bi. now right.
        + intros n d. rewrite Lm'. destruct (binds i) as [x|] eqn:Bi; [|apply Hm].
          destruct (x =? n); [|apply Hm]. intros [= <-]. destruct i as [|? ?|? ? ?|v nm ps a]; try discriminate.
          split; [do 4 eexists; reflexivity|]. apply Dv. cbn. now left.
        + intros n Hn. rewrite find_in by auto. rewrite Lm'.
          destruct (binds i) as [x|] eqn:Bi.
          * destruct (Z.eqb_spec x n).
            -- exists i. destruct i as [|? ?|? ? ?|v nm ps a]; try discriminate.
               split; [do 4 eexists; reflexivity|]. split; [reflexivity|]. apply Dv. cbn. now left.
            -- rewrite <- find_in by auto. apply Hf. apply FS_later; auto. rewrite Bi. congruence.
          * rewrite <- find_in by auto. apply Hf. apply FS_later; auto. rewrite Bi. congruence. }
    destruct (HI items []) as (m' & E & Dm & Fb); auto.
    { intros n d H; discriminate. }
    { intros n Hn. rewrite find_in by auto. cbn. apply S1. now apply F_scope. }
    rewrite E. cbn [bind]. rewrite (IH f); [|lia|discriminate|lia|].
    + cbn. apply fold_id. auto.
    + split; [exact Fb|split; [|auto]]. intros v Hv. apply S2. cbn. apply in_or_app; right; apply in_or_app; now right.
  - destruct (S2 v) as [p D]; [cbn; now left|]. rewrite D. apply fold_id. intros e He. apply IH; [lia|auto| |].
    + apply sum_in in He; lia.
    + split; [|split].
      * intros n Fn. apply S1. eapply F_decl; eauto.
      * intros x Hx. apply S2. cbn. right. apply in_or_app. right. eapply flat_in; eauto.
      * inversion S3; subst. auto.
Qed.

Lemma fold_settled : forall f sc st l, sc <> [] -> (list_sum (map size l) <= f)%nat -> (forall e, In e l -> settled sc st e) ->
  foldM (run f sc) st l = Ok st.
Proof. intros. apply fold_id. intros e He. apply run_settled; auto. apply sum_in in He. lia. Qed.

Section Main.
Variable is_ : list item.
Variable G : table.
Let tops := top_decls is_.
Hypothesis tops_decl : forall d, In d tops -> is_decl d.
Hypothesis tops_disj : forall d d' v, In d tops -> In d' tops -> In v (ids d) -> In v (ids d') -> d = d'.
Hypothesis tops_nodup : forall d, In d tops -> NoDup (ids d).
Hypothesis G_top : forall n d, lookup n G = Some d -> In d tops /\ binds d = Some n.

Definition ordered (st : state) : Prop :=
  forall l1 v l2, decls st = l1 ++ v :: l2 -> forall d, In d tops -> vid d = v ->
    forall n, free d n -> exists d', lookup n G = Some d' /\ In (vid d') l2.
Definition topsok (st : state) : Prop :=
  (forall d, In d tops -> ~ seen st (vid d) -> forall v, In v (ids d) -> ~ seen st v) /\
  (forall d, In d tops -> done st (vid d) -> (forall v, In v (ids d) -> done st v) /\ distinct_names d).
Definition goodsc (sc : list scope) (st : state) : Prop :=
  sc <> [] /\ last_table sc = G /\
  forall n d, find sc n = Some d -> is_decl d /\ (done st (vid d) \/ lookup n G = Some d).
Definition env_ok (sc : list scope) (st : state) : Prop :=
  cons_ st /\ ordered st /\ topsok st /\ goodsc sc st.
Definition ids_ok (I : list Z) (st : state) : Prop :=
  NoDup I /\ (forall v, In v I -> ~ seen st v) /\
  (forall d, In d tops -> ~ seen st (vid d) -> forall v, In v (ids d) -> ~ In v I).
Definition cyc_ok (F : Z -> Prop) (sc : list scope) (st : state) : Prop :=
  forall d' n d, In d' tops -> busy st (vid d') -> F n -> find sc n = Some d -> ~ done st (vid d) ->
    clos_trans ex (dep is_) d' d.
Definition frame (st st' : state) (I : list Z) : Prop :=
  forall v, seen st' v -> seen st v \/ In v I \/
    exists d, In d tops /\ ~ seen st (vid d) /\ seen st' (vid d) /\ In v (ids d).
Definition post (sc : list scope) (st : state) (I : list Z) (F : Z -> Prop) (st' : state) : Prop :=
  ext st st' /\ env_ok sc st' /\ frame st st' I /\
  (forall n, F n -> exists d, is_decl d /\ find sc n = Some d /\ done st' (vid d)) /\
  (forall v, In v I -> done st' v).
Definition WD : Prop :=
  acyclic is_ /\ forall d, In d tops -> (forall n, free d n -> lookup n G <> None) /\ distinct_names d.
Definition wt (st : state) (d : ex) : nat := match pfind (vid d) (pos st) with None => S (size d) | Some _ => O end.
Definition mu (st : state) : nat := list_sum (map (wt st) tops).

Lemma wt_mono : forall st st' d, (forall v, seen st v -> seen st' v) -> (wt st' d <= wt st d)%nat.
Proof.
  intros st st' d H. specialize (H (vid d)). unfold wt, seen in *.
  destruct (pfind (vid d) (pos st)); destruct (pfind (vid d) (pos st')); try lia. exfalso. apply H; congruence.
Qed.
Lemma wsum_mono : forall st st' l, (forall v, seen st v -> seen st' v) -> (list_sum (map (wt st') l) <= list_sum (map (wt st) l))%nat.
Proof.
  intros st st' l H. induction l as [|d l IH]; [auto|]. cbn [map]. pose proof (wt_mono st st' d H).
  unfold list_sum in *. cbn [fold_right]. lia.
Qed.
Lemma mu_mono : forall st st', (forall v, seen st v -> seen st' v) -> (mu st' <= mu st)%nat.
Proof. intros. now apply wsum_mono. Qed.
Lemma mu_enter : forall st st' d, In d tops -> ~ seen st (vid d) -> (forall v, seen st v -> seen st' v) -> seen st' (vid d) ->
  (S (size d) + mu st' <= mu st)%nat.
Proof.
  intros st st' d HI NS HM HS. unfold mu.
  assert (W : wt st d = S (size d) /\ wt st' d = O).
  { unfold wt, seen in *. destruct (pfind (vid d) (pos st)); [exfalso; apply NS; discriminate|].
    destruct (pfind (vid d) (pos st')); [auto|congruence]. }
  clearbody tops. clear tops_decl tops_disj tops_nodup G_top. induction tops as [|a l IH]; [destruct HI|]. cbn [map]. pose proof (wt_mono st st' a HM). pose proof (wsum_mono st st' l HM).
  destruct HI as [->|HI].
  - unfold list_sum in *. cbn [fold_right]. lia.
  - specialize (IH HI). unfold list_sum in *. cbn [fold_right]. lia.
Qed.

Lemma ids_ok_sub : forall I J st, ids_ok (I ++ J) st -> ids_ok I st /\ ids_ok J st /\ (forall v, In v I -> ~ In v J).
Proof.
  intros I J st (N & F & D). assert (N' : NoDup I /\ NoDup J /\ forall v, In v I -> ~ In v J).
  { clear - N. induction I as [|a I IH]; cbn in *.
    - split; [constructor|]. split; auto.
    - inversion N; subst. destruct (IH H2) as (A & B & C). split; [constructor; auto; intros X; apply H1; apply in_or_app; auto|].
      split; auto. intros v [->|Hv]; auto. intros X. apply H1. apply in_or_app; auto. }
  destruct N' as (N1 & N2 & N3). split; [|split; [|auto]]; (split; [assumption|split]).
  - intros v Hv. apply F. apply in_or_app. auto.
  - intros d Hd Hs v Hv X. apply (D d Hd Hs v Hv). apply in_or_app. auto.
  - intros v Hv. apply F. apply in_or_app. auto.
  - intros d Hd Hs v Hv X. apply (D d Hd Hs v Hv). apply in_or_app. auto.
Qed.

(* after running something with ids I, ids J are still fresh *)
Lemma ids_ok_next : forall I J st st', ids_ok J st -> (forall v, In v I -> ~ In v J) -> frame st st' I -> ext st st' -> ids_ok J st'.
Proof.
  intros I J st st' (N & F & D) DJ FR EX. split; [auto|]. split.
  - intros v Hv S'. destruct (FR v S') as [H|[H|(d & Hd & H1 & H2 & H3)]].
    + apply (F v Hv H).
    + apply (DJ v H Hv).
    + apply (D d Hd H1 v H3 Hv).
  - intros d Hd NS. apply D; auto. intros S. apply NS. eapply ext_seen; eauto.
Qed.

Lemma cyc_next : forall F sc st st', cyc_ok F sc st -> ext st st' -> cyc_ok F sc st'.
Proof.
  intros F sc st st' C EX d' n d T B HF E ND. apply (C d' n d); auto.
  - destruct EX as (EX & _). now apply EX.
  - intros D. apply ND. ed.
Qed.
Lemma cyc_sub : forall (F F' : Z -> Prop) sc st, (forall n, F' n -> F n) -> cyc_ok F sc st -> cyc_ok F' sc st.
Proof. intros F F' sc st H C d' n d T B HF E ND. apply (C d' n d); auto. Qed.

Lemma frame_refl : forall st I, frame st st I.
Proof. intros st I v H. auto. Qed.
Lemma frame_trans : forall a b c I J K, ext a b -> ext b c -> frame a b I -> frame b c J ->
  (forall v, In v I \/ In v J -> In v K) -> frame a c K.
Proof.
  intros a b c I J K E1 E2 F1 F2 H v S. destruct (F2 v S) as [S'|[S'|(d & Hd & H1 & H2 & H3)]].
  - destruct (F1 v S') as [?|[?|(d & Hd & H1 & H2 & H3)]]; auto.
    right. right. exists d. repeat split; auto. eapply ext_seen; eauto.
  - auto.
  - right. right. exists d. repeat split; auto. intros X. apply H1. eapply ext_seen; eauto.
Qed.

Lemma topsok_next : forall st st' I, topsok st -> ids_ok I st -> frame st st' I ->
  ext st st' -> forall d, In d tops -> ~ seen st' (vid d) -> forall v, In v (ids d) -> ~ seen st' v.
Proof.
  intros st st' I (T1 & _) (_ & _ & D) FR EX d Hd NS v Hv S.
  assert (NS' : ~ seen st (vid d)) by (intros X; apply NS; eapply ext_seen; eauto).
  destruct (FR v S) as [H|[H|(d2 & Hd2 & H1 & H2 & H3)]].
  - apply (T1 d Hd NS' v Hv H).
  - apply (D d Hd NS' v Hv H).
  - rewrite (tops_disj d d2 v Hd Hd2 Hv H3) in NS. auto.
Qed.

Definition outcome (f : nat) (sc : list scope) (st : state) (e : ex) : Prop :=
  (exists st', run f sc st e = Ok st' /\ post sc st (ids e) (free e) st' /\ distinct_names e) \/
  (run f sc st e = Err TypeError /\ (WD -> (forall n, free e n -> find sc n <> None) -> distinct_names e -> False)).

Definition ready (f : nat) (sc : list scope) (st : state) (e : ex) : Prop :=
  env_ok sc st /\ ids_ok (ids e) st /\ cyc_ok (free e) sc st /\ (size e + mu st <= f)%nat.

Definition lfree (l : list ex) (n : Z) : Prop := exists e, In e l /\ free e n.

Lemma env_next : forall sc sc' st st', env_ok sc st -> env_ok sc' st' -> ext st st' -> env_ok sc st'.
Proof.
  intros sc sc' st st' (_ & _ & _ & G1 & G2 & G3) (A & B & C & _) EX. split; [auto|]. split; [auto|]. split; [auto|].
  split; [auto|]. split; [auto|]. intros n d E. destruct (G3 n d E) as [X [Y|Y]]; split; auto. left. ed.
Qed.

Lemma fold_outcome : forall f sc, (forall st e, ready f sc st e -> outcome f sc st e) ->
  forall l st, env_ok sc st -> ids_ok (flat_map ids l) st -> cyc_ok (lfree l) sc st ->
  (list_sum (map size l) + mu st <= f)%nat ->
  (exists st', foldM (run f sc) st l = Ok st' /\ post sc st (flat_map ids l) (lfree l) st' /\ (forall e, In e l -> distinct_names e)) \/
  (foldM (run f sc) st l = Err TypeError /\ (WD -> (forall n, lfree l n -> find sc n <> None) -> (forall e, In e l -> distinct_names e) -> False)).
Proof.
  intros f sc IH. induction l as [|e l IHl]; intros st EN ID CY FU; cbn [foldM].
  - left. exists st. split; [reflexivity|]. split; [|intros e []]. split; [apply ext_refl|]. split; [auto|]. split; [apply frame_refl|].
    split; [intros n (e & [] & _)|intros v []].
  - cbn [flat_map] in ID. destruct (ids_ok_sub _ _ _ ID) as (ID1 & ID2 & DJ). cbn [map] in FU. rewrite lsum_cons in FU.
    destruct (IH st e) as [(st1 & E1 & P1 & N1)|(E1 & B1)].
    + split; [auto|]. split; [auto|]. split; [|lia]. eapply cyc_sub; [|exact CY]. intros n Hn. exists e. split; [now left|auto].
    + rewrite E1. cbn [bind]. destruct P1 as (X1 & EN1 & FR1 & FD1 & ID1').
      destruct (IHl st1) as [(st2 & E2 & P2 & N2)|(E2 & B2)].
      * auto.
      * eapply ids_ok_next; eauto.
      * eapply cyc_next; [|exact X1]. eapply cyc_sub; [|exact CY]. intros n (e' & He & Hn). exists e'. split; [now right|auto].
      * assert (mu st1 <= mu st)%nat by (apply mu_mono; intros; eapply ext_seen; eauto). lia.
      * left. exists st2. split; [exact E2|]. destruct P2 as (X2 & EN2 & FR2 & FD2 & ID2').
        split; [|intros e' [<-|He]; auto]. split; [eapply ext_trans; eauto|]. split; [auto|]. split.
        { eapply frame_trans; eauto. intros v H. cbn. apply in_or_app. auto. }
        split.
        -- intros n (e' & [<-|He] & Hn).
           ++ destruct (FD1 n Hn) as (d & D1 & D2 & D3). exists d. split; [auto|]. split; [auto|]. ed.
           ++ apply FD2. exists e'. auto.
        -- intros v Hv. cbn in Hv. apply in_app_or in Hv. destruct Hv; auto. ed.
      * right. split; [exact E2|]. intros W Fn Dn. apply B2; auto.
        -- intros n (e' & He & Hn). apply Fn. exists e'. split; [now right|auto].
        -- intros e' He. apply Dn. now right.
    + right. rewrite E1. split; [reflexivity|]. intros W Fn Dn. apply B1; auto.
      * intros n Hn. apply Fn. exists e. split; [now left|auto].
      * apply Dn. now left.
Qed.

Lemma post_settled : forall sc st I F st' st'' l, post sc st I F st' -> ext st' st'' ->
  (forall e n, In e l -> free e n -> F n) -> (forall e v, In e l -> In v (ids e) -> In v I) -> (forall e, In e l -> distinct_names e) ->
  forall e, In e l -> settled sc st'' e.
Proof.
  intros sc st I F st' st'' l (_ & _ & _ & FD & DI) EX H1 H2 H3 e He. split; [|split].
  - intros n Hn. destruct (FD n (H1 e n He Hn)) as (d & D1 & D2 & D3). exists d. split; [auto|]. split; [auto|]. ed.
  - intros v Hv. ed.
  - auto.
Qed.

(* a declaration that has not been seen yet *)
Lemma decl_outcome : forall f sc, (forall st e, ready f sc st e -> outcome f sc st e) ->
  forall st v nm ps an,
  let e := EDecl v nm ps an in
  let st0 := mkS ((v, None) :: pos st) (decls st) in
  env_ok sc st -> ~ seen st v -> NoDup (ids e) -> (forall x, In x (ids e) -> ~ seen st x) ->
  (forall d, In d tops -> ~ seen st0 (vid d) -> forall x, In x (ids d) -> ~ In x (ids e)) ->
  (forall d, In d tops -> vid d = v -> d = e /\ forall n, find sc n = lookup n G) ->
  cyc_ok (free e) sc st0 ->
  (size e + mu st0 <= S f)%nat ->
  (exists st', run (S f) sc st e = Ok st' /\ post sc st (ids e) (free e) st' /\ distinct_names e) \/
  (run (S f) sc st e = Err TypeError /\ (WD -> (forall n, free e n -> find sc n <> None) -> distinct_names e -> False)).
Proof.
  intros f sc IH st v nm ps an e st0 EN NS NDI FR0 DJ TOP CY FU.
  assert (NSv : pfind v (pos st) = None) by (unfold seen in NS; destruct (pfind v (pos st)); [exfalso; apply NS; discriminate|auto]).
  destruct EN as (C0 & O0 & T0 & G0).
  assert (S0 : forall x, seen st0 x <-> x = v \/ seen st x).
  { intros x. unfold seen, st0. cbn. destruct (Z.eqb_spec v x); [split; [auto|discriminate]|]. split; [auto|]. intros [->|H]; [congruence|auto]. }
  assert (D0 : forall x p, pfind x (pos st0) = Some (Some p) <-> pfind x (pos st) = Some (Some p)).
  { intros x p. unfold st0. cbn. destruct (Z.eqb_spec v x); [subst; rewrite NSv; split; discriminate|tauto]. }
  assert (C1 : cons_ st0).
  { destruct C0 as (N & A & B). split; [exact N|]. split.
    - intros x p E. apply D0 in E. apply A. exact E.
    - intros x Hx. destruct (B x Hx) as [p E]. exists p. apply D0. exact E. }
  assert (T1 : topsok st0).
  { destruct T0 as (A & B). split.
    - intros d Hd Nd x Hx Sx. apply S0 in Sx. destruct Sx as [->|Sx].
      + apply (DJ d Hd Nd v Hx). cbn. now left.
      + apply (A d Hd) with x; auto. intros Y. apply Nd. apply S0. auto.
    - intros d Hd [p E]. apply D0 in E. destruct (B d Hd) as [B1 B2]; [exists p; auto|]. split; auto.
      intros x Hx. destruct (B1 x Hx) as [q Q]. exists q. apply D0. auto. }
  assert (G1 : goodsc sc st0).
  { destruct G0 as (A & B & C). split; [auto|]. split; [auto|]. intros n d E. destruct (C n d E) as [X [[p Y]|Y]]; split; auto.
    left. exists p. apply D0. auto. }
  assert (EN1 : env_ok sc st0) by (split; [auto|split; [exact O0|split; auto]]).
  change (ids e) with (v :: flat_map ids ps ++ flat_map ids an) in *. inversion NDI as [|? ? NV NDR]; subst.
  assert (ID1 : ids_ok (flat_map ids ps ++ flat_map ids an) st0).
  { split; [auto|]. split.
    - intros x Hx Sx. apply S0 in Sx. destruct Sx as [->|Sx]; [contradiction|]. apply (FR0 x); auto. now right.
    - intros d Hd Nd x Hx X. apply (DJ d Hd Nd x Hx). now right. }
  destruct (ids_ok_sub _ _ _ ID1) as (IDp & IDa & DJpa).
  assert (RE : run (S f) sc st e = do st1 <- foldM (run f sc) st0 ps; do st2 <- foldM (run f sc) st1 an;
    foldM (run f sc) (mkS ((v, Some (Z.of_nat (length (decls st2)))) :: pos st2) (v :: decls st2)) an).
  { unfold e. cbn [run]. rewrite NSv. reflexivity. }
  rewrite RE. clear RE. change (size e) with (S (list_sum (map size ps) + list_sum (map size an))) in FU.
  destruct (fold_outcome f sc IH ps st0 EN1 IDp) as [(st1 & E1 & P1 & N1)|(E1 & B1)].
  { eapply cyc_sub; [|exact CY]. intros n (x & Hx & Hn). eapply F_decl; eauto. }
  { lia. }
  2:{ right. rewrite E1. split; [reflexivity|]. intros W Fn Dn. apply B1; auto.
      - intros n (x & Hx & Hn). apply Fn. eapply F_decl; eauto.
      - inversion Dn; subst; auto. }
  rewrite E1. cbn [bind]. pose proof P1 as (X1 & EN1' & FR1 & FD1 & DI1).
  assert (M1 : (mu st1 <= mu st0)%nat) by (apply mu_mono; intros; eapply ext_seen; eauto).
  destruct (fold_outcome f sc IH an st1 EN1') as [(st2 & E2 & P2 & N2)|(E2 & B2)].
  { eapply ids_ok_next; eauto. }
  { eapply cyc_next; [|exact X1]. eapply cyc_sub; [|exact CY]. intros n (x & Hx & Hn). eapply F_decl; eauto. }
  { lia. }
  2:{ right. rewrite E2. split; [reflexivity|]. intros W Fn Dn. apply B2; auto.
      - intros n (x & Hx & Hn). apply Fn. eapply F_decl; eauto.
      - inversion Dn; subst; auto. }
  rewrite E2. cbn [bind]. pose proof P2 as (X2 & EN2' & FR2 & FD2 & DI2).
  assert (X02 : ext st0 st2) by (eapply ext_trans; eauto).
  set (st3 := mkS ((v, Some (Z.of_nat (length (decls st2)))) :: pos st2) (v :: decls st2)).
  assert (BV : busy st2 v). { destruct X02 as (X & _). apply X. unfold busy, st0. cbn. now rewrite Z.eqb_refl. }
  destruct EN2' as (C2 & O2 & T2 & G2).
  assert (S3 : forall x, seen st3 x <-> x = v \/ seen st2 x).
  { intros x. unfold seen, st3. cbn. destruct (Z.eqb_spec v x); [split; [auto|discriminate]|]. split; [auto|]. intros [->|H]; [congruence|auto]. }
  assert (D3 : forall x p, x <> v -> (pfind x (pos st3) = Some p <-> pfind x (pos st2) = Some p)).
  { intros x p Nx. unfold st3. cbn. destruct (Z.eqb_spec v x); [congruence|tauto]. }
  assert (DV : done st3 v). { exists (Z.of_nat (length (decls st2))). unfold st3. cbn. now rewrite Z.eqb_refl. }
  assert (D3' : forall x, done st2 x -> done st3 x).
  { intros x [p Q]. destruct (Z.eq_dec x v) as [->|]; auto. exists p. apply D3; auto. }
  assert (X3 : ext st st3).
  { destruct X02 as (A & B & l & L). split; [|split].
    - intros x. destruct (Z.eq_dec x v) as [->|Nx].
      + unfold busy, st3. cbn. rewrite Z.eqb_refl, NSv. split; discriminate.
      + unfold busy. rewrite (D3 x None Nx). specialize (A x). unfold busy in A. rewrite <- A. unfold st0. cbn.
        destruct (Z.eqb_spec v x); [congruence|tauto].
    - intros x p Q. assert (Nx : x <> v) by congruence. apply D3; auto. apply B. apply D0. auto.
    - exists (v :: l). cbn. now rewrite L. }
  assert (FRs : frame st st3 (v :: flat_map ids ps ++ flat_map ids an)).
  { intros x Sx. apply S3 in Sx. destruct Sx as [->|Sx]; [right; left; now left|].
    assert (FR02 : frame st0 st2 (flat_map ids ps ++ flat_map ids an)).
    { eapply frame_trans; [exact X1|exact X2|exact FR1|exact FR2|]. intros y Hy. apply in_or_app. auto. }
    destruct (FR02 x Sx) as [H|[H|(d & Hd & H1 & H2 & H3)]].
    - apply S0 in H. destruct H as [->|H]; auto. right. left. now left.
    - right. left. now right.
    - right. right. exists d. split; [auto|]. split; [intros Y; apply H1; apply S0; auto|]. split; [apply S3; auto|auto]. }
  assert (FD : forall n, free e n -> exists d, is_decl d /\ find sc n = Some d /\ done st2 (vid d)).
  { intros n Hn. unfold e in Hn. inversion Hn as [| | | |? ? ? ? x ? Hx Hf]; subst. destruct Hx as [Hx|Hx].
    - destruct (FD1 n) as (d & Q1 & Q2 & Q3); [exists x; auto|]. exists d. split; [auto|]. split; [auto|]. ed.
    - apply FD2. exists x; auto. }
  assert (DIe : forall x, In x (v :: flat_map ids ps ++ flat_map ids an) -> done st3 x).
  { intros x [<-|Hx]; auto. apply D3'. apply in_app_or in Hx. destruct Hx; auto. ed. }
  assert (DNe : distinct_names e). { constructor. intros x [Hx|Hx]; auto. }
  assert (C3 : cons_ st3).
  { destruct C2 as (N & A & B). assert (NI : ~ In v (decls st2)).
    { intros X. destruct (B v X) as [p Q]. unfold busy in BV. congruence. }
    split; [constructor; auto|]. split.
    - intros x p Q. cbn [decls st3 rev]. destruct (Z.eq_dec x v) as [->|Nx].
      + unfold st3 in Q. cbn in Q. rewrite Z.eqb_refl in Q. injection Q as <-. split; [lia|].
        rewrite Nat2Z.id. rewrite nth_error_app2 by (rewrite rev_length; lia). rewrite rev_length. now rewrite Nat.sub_diag.
      + apply D3 in Q; auto. destruct (A x p Q) as [Q1 Q2]. split; auto. rewrite nth_error_app1; auto.
        apply nth_error_Some. congruence.
    - intros x [<-|Hx]; auto. }
  assert (O3 : ordered st3).
  { intros l1 x l2 L d Hd Vd n Fn. cbn [decls st3] in L. destruct l1 as [|y l1].
    - injection L as <- <-. destruct (TOP d Hd Vd) as [-> FE]. destruct (FD n Fn) as (d' & Q1 & Q2 & [p Q3]).
      rewrite FE in Q2. exists d'. split; [auto|]. destruct C2 as (N & A & B).
      destruct (A _ _ Q3) as [_ Q]. apply nth_error_In in Q. now apply in_rev in Q.
    - injection L as <- L. eapply O2; eauto. }
  assert (T3 : topsok st3).
  { destruct T2 as (A & B). split.
    - intros d Hd Nd x Hx Sx. apply S3 in Sx. destruct Sx as [->|Sx].
      + apply (DJ d Hd) with v; auto. intros Y. apply Nd. apply S3. right. eapply ext_seen; eauto. now left.
      + apply (A d Hd) with x; auto. intros Y. apply Nd. apply S3. auto.
    - intros d Hd Dd. destruct (Z.eq_dec (vid d) v) as [Ev|Nv].
      + destruct (TOP d Hd Ev) as [-> _]. split; [exact DIe|exact DNe].
      + destruct Dd as [p Q]. apply D3 in Q; auto. destruct (B d Hd) as [B1 B2]; [exists p; auto|]. split; auto. }
  assert (G3 : goodsc sc st3).
  { destruct G2 as (A & B & C). split; [auto|]. split; [auto|]. intros n d E. destruct (C n d E) as [X [Y|Y]]; auto. }
  left. exists st3. split.
  - apply fold_settled; [apply G0|lia|]. intros x Hx. split; [|split].
    + intros n Hn. destruct (FD n) as (d & Q1 & Q2 & Q3); [eapply F_decl; eauto|]. exists d. auto.
    + intros y Hy. apply DIe. right. apply in_or_app. right. eapply flat_in; eauto.
    + auto.
  - split; [|auto]. split; [auto|]. split; [split; auto|]. split; [auto|]. split; [|exact DIe].
    intros n Hn. destruct (FD n Hn) as (d & Q1 & Q2 & Q3). exists d. auto.
Qed.

Lemma items_outcome : forall f sc b, sc <> [] -> (forall m st e, ready f ((false, m) :: sc) st e -> outcome f ((false, m) :: sc) st e) ->
  forall its m st, env_ok ((false, m) :: sc) st -> ids_ok (flat_map ids its) st ->
  (forall n d, lookup n m = Some d -> done st (vid d)) ->
  cyc_ok (free_in its b) ((false, m) :: sc) st ->
  (list_sum (map size its) + mu st <= f)%nat ->
  (exists m' st', runItems (fun m => run f ((false, m) :: sc)) m st its = Ok (m', st') /\
     ext st st' /\ env_ok ((false, m') :: sc) st' /\ frame st st' (flat_map ids its) /\ (forall v, In v (flat_map ids its) -> done st' v) /\
     (forall n d, lookup n m' = Some d -> done st' (vid d)) /\
     cyc_ok (free b) ((false, m') :: sc) st' /\
     (forall e, In e its -> distinct_names e) /\ NoDup (names its) /\ (forall n, In n (names its) -> lookup n m = None) /\
     (forall n, lookup n m = None -> free_in its b n -> (exists d, is_decl d /\ find sc n = Some d /\ done st' (vid d)) \/ (free b n /\ lookup n m' = None)) /\
     ((forall n, free_in its b n -> find ((false, m) :: sc) n <> None) -> forall n, free b n -> find ((false, m') :: sc) n <> None)) \/
  (runItems (fun m => run f ((false, m) :: sc)) m st its = Err TypeError /\
     (WD -> (forall n, free_in its b n -> find ((false, m) :: sc) n <> None) -> (forall e, In e its -> distinct_names e) ->
      NoDup (names its) -> (forall n, In n (names its) -> lookup n m = None) -> False)).
Proof.
  intros f sc b NE IH. induction its as [|i its IHi]; intros m st EN ID DM CY FU; cbn [runItems].
  - left. exists m, st. split; [reflexivity|]. split; [apply ext_refl|]. split; [auto|]. split; [apply frame_refl|].
    split; [intros v []|]. split; [auto|]. split; [eapply cyc_sub; [|exact CY]; intros; now constructor|].
    split; [intros e []|]. split; [constructor|]. split; [intros n []|]. split.
    + intros n L Hn. inversion Hn; subst. auto.
    + intros H n Hn. apply H. now constructor.
  - cbn [flat_map] in ID. destruct (ids_ok_sub _ _ _ ID) as (ID1 & ID2 & DJ). cbn [map] in FU. rewrite lsum_cons in FU.
    destruct (IH m st i) as [(st1 & E1 & P1 & N1)|(E1 & B1)].
    { split; [auto|]. split; [auto|]. split; [|lia]. eapply cyc_sub; [|exact CY]. intros n Hn. now constructor. }
    2:{ right. rewrite E1. split; [reflexivity|]. intros W Fn Dn _ _. apply B1; auto.
        - intros n Hn. apply Fn. now constructor.
        - apply Dn. now left. }
    rewrite E1. cbn [bind]. pose proof P1 as (X1 & EN1 & FR1 & FD1 & DI1).
    assert (M1 : (mu st1 <= mu st)%nat) by (apply mu_mono; intros; eapply ext_seen; eauto).
    assert (DM1 : forall n d, lookup n m = Some d -> done st1 (vid d)) by (intros; ed).
    assert (ADD : (exists m', add m i = Ok m' /\ (forall n, binds i = Some n -> lookup n m = None /\ is_decl i) /\
             (forall n, lookup n m' = match binds i with Some x => if x =? n then Some i else lookup n m | None => lookup n m end))
          \/ (add m i = Err TypeError /\ exists n, binds i = Some n /\ lookup n m <> None)).
    { destruct i as [|? ?|? ? ?|v [x|] ps a]; cbn; try (left; eexists; split; [reflexivity|split; [discriminate|auto]]; fail).
      destruct (lookup x m) eqn:L.
      - right. split; [reflexivity|]. exists x. split; [reflexivity|congruence].
      - left. eexists; split; [reflexivity|]. split; [|intros n; reflexivity]. intros n [= <-]. split; [auto|]. do 4 eexists; reflexivity. }
    destruct ADD as [(m' & -> & BI & Lm')|(-> & n & Bn & Ln)]; cbn [bind].
    2:{ right. split; [reflexivity|]. intros _ _ _ _ H. apply Ln. apply H. cbn. rewrite Bn. now left. }
    assert (DIi : is_decl i -> done st1 (vid i)).
    { intros (v & nm & ps & an & ->). apply DI1. cbn. now left. }
    assert (DM' : forall n d, lookup n m' = Some d -> done st1 (vid d)).
    { intros n d. rewrite Lm'. destruct (binds i) as [x|] eqn:Bi; [|apply DM1].
      destruct (x =? n); [|apply DM1]. intros [= <-]. apply DIi. now apply (BI x). }
    assert (Fm' : forall n, find ((false, m') :: sc) n = match binds i with Some x => if x =? n then Some i else find ((false, m) :: sc) n | None => find ((false, m) :: sc) n end).
    { intros n. rewrite !find_in by auto. rewrite Lm'. destruct (binds i) as [x|]; auto. destruct (x =? n); auto. }
    assert (EN1' : env_ok ((false, m') :: sc) st1).
    { destruct EN1 as (A & B & C & D1 & D2 & D3). split; [auto|]. split; [auto|]. split; [auto|]. split; [discriminate|].
      split; [rewrite last_in in * by auto; auto|]. intros n d. rewrite Fm'. destruct (binds i) as [x|] eqn:Bi; [|apply D3].
      destruct (x =? n); [|apply D3]. intros [= <-]. destruct (BI x eq_refl) as [_ Q]. auto. }
    destruct (IHi m' st1 EN1') as [(m2 & st2 & E2 & X2 & EN2 & FR2 & DI2 & DM2 & CY2 & N2 & ND2 & NL2 & FB2 & GB2)|(E2 & B2)].
    { eapply ids_ok_next; eauto. }
    { auto. }
    { intros d' n d T B Hn E ND. rewrite Fm' in E.
      assert (HN : (exists x, binds i = Some x /\ x = n) \/ binds i <> Some n).
      { destruct (binds i) as [x|]; [|right; discriminate]. destruct (Z.eq_dec x n); [left; eauto|right; congruence]. }
      destruct HN as [(x & Bi & ->)|HN].
      - rewrite Bi, Z.eqb_refl in E. injection E as <-. exfalso. apply ND. apply DIi. now apply (BI n).
      - assert (E' : find ((false, m) :: sc) n = Some d).
        { destruct (binds i) as [x|]; auto. destruct (Z.eqb_spec x n); auto. congruence. }
        apply (CY d' n d); auto.
        + destruct X1 as (X1 & _). now apply X1.
        + now apply FS_later.
        + intros D. apply ND. ed. }
    { lia. }
    + left. exists m2, st2. split; [exact E2|]. split; [eapply ext_trans; eauto|]. split; [auto|]. split.
      { eapply frame_trans; eauto. intros v Hv. cbn. apply in_or_app. auto. }
      split.
      { intros v Hv. cbn in Hv. apply in_app_or in Hv. destruct Hv; auto. ed. }
      split; [auto|]. split; [auto|]. split; [intros e [<-|He]; auto|].
      split.
      { cbn. destruct (binds i) as [x|] eqn:Bi; [|auto]. constructor; auto. intros Hx. apply NL2 in Hx. rewrite Lm' in Hx.
        rewrite Z.eqb_refl in Hx. discriminate. }
      split.
      { intros n. cbn. destruct (binds i) as [x|] eqn:Bi.
        - intros [<-|Hn]; [now apply (BI x)|]. apply NL2 in Hn. rewrite Lm' in Hn. destruct (x =? n); [discriminate|auto].
        - intros Hn. apply NL2 in Hn. rewrite Lm' in Hn. auto. }
      split.
      * intros n L Hn. inversion Hn as [? ? ? ? Hi|? ? ? ? NB Hr|]; subst.
        -- left. destruct (FD1 n Hi) as (d & Q1 & Q2 & Q3). rewrite find_in in Q2 by auto. rewrite L in Q2.
           exists d. split; [auto|]. split; [auto|]. ed.
        -- apply FB2; auto. rewrite Lm'. destruct (binds i) as [x|]; auto. destruct (Z.eqb_spec x n); auto. congruence.
      * intros H. apply GB2. intros n Hn. rewrite Fm'. destruct (binds i) as [x|] eqn:Bi.
        -- destruct (Z.eqb_spec x n); [discriminate|]. apply H. apply FS_later; auto. rewrite Bi. congruence.
        -- apply H. apply FS_later; auto. rewrite Bi. discriminate.
    + right. split; [exact E2|]. intros W Fn Dn ND NL. apply B2; auto.
      * intros n Hn. rewrite Fm'. destruct (binds i) as [x|] eqn:Bi.
        -- destruct (Z.eqb_spec x n); [discriminate|]. apply Fn. apply FS_later; auto. rewrite Bi. congruence.
        -- apply Fn. apply FS_later; auto. rewrite Bi. discriminate.
      * intros e He. apply Dn. now right.
      * cbn in ND. destruct (binds i); [inversion ND|]; auto.
      * intros n Hn. rewrite Lm'. cbn in ND, NL. destruct (binds i) as [x|].
        -- inversion ND; subst. destruct (Z.eqb_spec x n); [subst; contradiction|]. apply NL. now right.
        -- apply NL. auto.
Qed.

Lemma run_outcome : forall f sc st e, ready f sc st e -> outcome f sc st e.
Proof.
  induction f as [f IH] using lt_wf_ind. intros sc st e (EN & ID & CY & FU). unfold outcome.
  destruct f as [|f]; [destruct e; cbn in FU; lia|].
  assert (IHf : forall sc st e, ready f sc st e -> outcome f sc st e) by (intros; apply IH; auto).
  destruct EN as (C0 & O0 & T0 & G0). pose proof G0 as (NE & LT & GS).
  destruct e as [n|an ps|an items b|v nm ps an].
  - (* identifier *)
    cbn [run]. destruct (find sc n) as [d|] eqn:E.
    2:{ right. split; [reflexivity|]. intros _ H _. apply (H n); [constructor|auto]. }
    destruct (GS n d E) as [(v & nm & ps & an & ->) DN]. cbn [vid] in DN.
    destruct (pfind v (pos st)) as [[p|]|] eqn:P.
    + left. exists st. split; [reflexivity|]. split; [|constructor]. split; [apply ext_refl|].
      split; [split; auto|]. split; [apply frame_refl|]. split; [|intros x []].
      intros n' Hn. inversion Hn; subst. eexists. split; [do 4 eexists; reflexivity|]. split; [exact E|]. exists p. exact P.
    + right. split; [reflexivity|]. intros (AC & _) _ _. destruct DN as [[p D]|GL]; [congruence|].
      destruct (G_top n _ GL) as [T _]. apply (AC (EDecl v nm ps an)). eapply CY; eauto.
      * constructor.
      * intros [p D]. cbn in D. congruence.
    + destruct DN as [[p D]|GL]; [congruence|]. destruct (G_top n _ GL) as [T BN]. cbn in BN.
      set (d := EDecl v nm ps an) in *. assert (NSd : ~ seen st v) by (unfold seen; congruence).
      destruct f as [|f].
      { exfalso. assert (X : (S (size d) + mu (mkS ((v, None) :: pos st) (decls st)) <= mu st)%nat).
        { apply mu_enter; auto.
          - intros x Hx. unfold seen in *. cbn. destruct (v =? x); [discriminate|auto].
          - unfold seen. cbn. rewrite Z.eqb_refl. discriminate. }
        cbn in FU. lia. }
      set (sc' := (true, []) :: sc).
      assert (FE : forall n', find sc' n' = lookup n' G) by (intros; unfold sc'; rewrite find_top by auto; now rewrite LT).
      assert (IDd : forall x, In x (ids d) -> ~ seen st x) by (apply (proj1 T0 d T); exact NSd).
      assert (SS : forall x, seen (mkS ((v, None) :: pos st) (decls st)) x <-> x = v \/ seen st x).
      { intros x. unfold seen. cbn. destruct (Z.eqb_spec v x); [split; [auto|discriminate]|]. split; [auto|]. intros [->|H]; [congruence|auto]. }
      assert (DEP : forall n' d', free d n' -> lookup n' G = Some d' -> dep is_ d d').
      { intros n' d' Hf L. destruct (G_top n' d' L) as [Q1 Q2]. split; [auto|]. split; [auto|]. exists n'. auto. }
      assert (EN' : env_ok sc' st).
      { split; [auto|]. split; [auto|]. split; [auto|]. split; [discriminate|]. split; [unfold sc'; now rewrite last_in|].
        intros n' d' L. rewrite FE in L. split; [|auto]. apply tops_decl. now apply (G_top n'). }
      destruct (decl_outcome f sc' (fun st e => IH f ltac:(lia) sc' st e) st v nm ps an) as [(st' & E' & P' & N')|(E' & B')]; auto.
      * intros d2 Hd2 N2 x Hx Hx2. assert (d2 = d) by (eapply tops_disj; eauto). subst d2. apply N2. apply SS. left. reflexivity.
      * intros d2 Hd2 V2. split; [|auto]. eapply (tops_disj d2 d v); auto.
        -- destruct (tops_decl d2 Hd2) as (v2 & ? & ? & ? & ->). cbn in V2. subst. cbn. now left.
        -- cbn. now left.
      * intros d' n' d2 T' B' Hn' L ND. rewrite FE in L.
        destruct (Z.eq_dec (vid d') v) as [Ev|Nv].
        -- assert (d' = d). { eapply (tops_disj d' d v); auto.
             - destruct (tops_decl d' T') as (v2 & ? & ? & ? & ->). cbn in Ev. subst. cbn. now left.
             - cbn. now left. }
           subst d'. apply t_step. eapply DEP; eauto.
        -- apply t_trans with d.
           ++ apply (CY d' n d); auto.
              ** unfold busy in *. cbn in B'. destruct (Z.eqb_spec v (vid d')); [congruence|auto].
              ** constructor.
              ** intros [p D]. cbn in D. congruence.
           ++ apply t_step. eapply DEP; eauto.
      * assert (X : (S (size d) + mu (mkS ((v, None) :: pos st) (decls st)) <= mu st)%nat).
        { apply mu_enter; auto.
          - intros x Hx. apply SS. auto.
          - apply SS. auto. }
        cbn in FU. fold d. lia.
      * left. exists st'. split; [exact E'|]. split; [|constructor]. destruct P' as (X' & (C' & O' & T' & G') & FR' & FD' & DI').
        split; [auto|]. split; [|split; [|split; [|intros x []]]].
        -- split; [auto|]. split; [auto|]. split; [auto|]. split; [auto|]. split; [auto|].
           intros n' d' L. destruct (GS n' d' L) as [Q1 [Q2|Q2]]; split; auto. left. ed.
        -- intros x Sx. destruct (FR' x Sx) as [?|[Hx|?]]; auto. right. right. exists d.
           split; [auto|]. split; [auto|]. split; [|auto]. apply done_seen. apply DI'. cbn. now left.
        -- intros n' Hn'. inversion Hn'; subst. exists d. split; [do 4 eexists; reflexivity|]. split; [auto|]. apply DI'. cbn. now left.
      * right. split; [exact E'|]. intros W _ _. apply B'; auto.
        -- intros n' Hn'. rewrite FE. now apply (proj1 (proj2 W d T)).
        -- now apply (proj2 W d T).
  - (* node *)
    cbn [ids] in ID. destruct (ids_ok_sub _ _ _ ID) as (ID1 & ID2 & DJ). cbn [size] in FU. cbn [run].
    destruct (fold_outcome f sc (IHf sc) an st) as [(st1 & E1 & P1 & N1)|(E1 & B1)]; auto.
    { split; auto. }
    { eapply cyc_sub; [|exact CY]. intros n (x & Hx & Hn). eapply F_node; eauto. }
    { lia. }
    2:{ right. rewrite E1. split; [reflexivity|]. intros W Fn Dn. apply B1; auto.
        - intros n (x & Hx & Hn). apply Fn. eapply F_node; eauto.
        - inversion Dn; subst; auto. }
    rewrite E1. cbn [bind]. pose proof P1 as (X1 & EN1' & FR1 & FD1 & DI1).
    assert (M1 : (mu st1 <= mu st)%nat) by (apply mu_mono; intros; eapply ext_seen; eauto).
    destruct (fold_outcome f sc (IHf sc) ps st1 EN1') as [(st2 & E2 & P2 & N2)|(E2 & B2)].
    { eapply ids_ok_next; eauto. }
    { eapply cyc_next; [|exact X1]. eapply cyc_sub; [|exact CY]. intros n (x & Hx & Hn). eapply F_node; eauto. }
    { lia. }
    2:{ right. rewrite E2. split; [reflexivity|]. intros W Fn Dn. apply B2; auto.
        - intros n (x & Hx & Hn). apply Fn. eapply F_node; eauto.
        - inversion Dn; subst; auto. }
    rewrite E2. cbn [bind]. pose proof P2 as (X2 & EN2' & FR2 & FD2 & DI2).
    left. exists st2. split.
    { apply fold_settled; [auto|lia|]. eapply post_settled; [exact P1|exact X2| | |].
      - intros e n He Hn. exists e. auto.
      - intros e v He Hv. eapply flat_in; eauto.
      - auto. }
    split; [|constructor; intros e [He|He]; auto].
    split; [eapply ext_trans; eauto|]. split; [auto|]. split.
    { eapply frame_trans; eauto. intros v Hv. cbn. apply in_or_app. auto. }
    split.
    { intros n Hn. inversion Hn as [|? ? e ? Hx Hf| | |]; subst. destruct Hx as [Hx|Hx].
      - destruct (FD1 n) as (d & Q1 & Q2 & Q3); [exists e; auto|]. exists d. split; [auto|]. split; [auto|]. ed.
      - apply FD2. exists e; auto. }
    intros v Hv. cbn in Hv. apply in_app_or in Hv. destruct Hv; auto. ed.
  - (* scope *)
    cbn [ids] in ID. destruct (ids_ok_sub _ _ _ ID) as (ID1 & ID23 & DJ). destruct (ids_ok_sub _ _ _ ID23) as (ID2 & ID3 & DJ').
    cbn [size] in FU. cbn [run].
    destruct (fold_outcome f sc (IHf sc) an st) as [(st1 & E1 & P1 & N1)|(E1 & B1)]; auto.
    { split; auto. }
    { eapply cyc_sub; [|exact CY]. intros n (x & Hx & Hn). eapply F_ann; eauto. }
    { lia. }
    2:{ right. rewrite E1. split; [reflexivity|]. intros W Fn Dn. apply B1; auto.
        - intros n (x & Hx & Hn). apply Fn. eapply F_ann; eauto.
        - inversion Dn; subst; auto. }
    rewrite E1. cbn [bind]. pose proof P1 as (X1 & EN1' & FR1 & FD1 & DI1).
    assert (M1 : (mu st1 <= mu st)%nat) by (apply mu_mono; intros; eapply ext_seen; eauto).
    assert (FN0 : forall n, find ((false, []) :: sc) n = find sc n) by (intros; now rewrite find_in).
    destruct (items_outcome f sc b NE (fun m => IHf ((false, m) :: sc)) items [] st1) as
      [(m' & st2 & E2 & X2 & EN2 & FR2 & DI2 & DM2 & CY2 & N2 & ND2 & NL2 & FB2 & GB2)|(E2 & B2)].
    { destruct EN1' as (A & B & C & D1 & D2 & D3). split; [auto|]. split; [auto|]. split; [auto|]. split; [discriminate|].
      split; [now rewrite last_in|]. intros n d. rewrite FN0. apply D3. }
    { assert (ids_ok (flat_map ids items ++ ids b) st1) by (eapply ids_ok_next; eauto). now apply ids_ok_sub in H. }
    { intros n d H; discriminate. }
    { intros d' n d T B Hn E ND. rewrite FN0 in E. eapply cyc_next; [exact CY|exact X1|exact T|exact B| |exact E|exact ND]. now apply F_scope. }
    { lia. }
    2:{ right. rewrite E2. split; [reflexivity|]. intros W Fn Dn. inversion Dn; subst. apply B2; auto.
        intros n Hn. rewrite FN0. apply Fn. now apply F_scope. }
    rewrite E2. cbn [bind].
    assert (M2 : (mu st2 <= mu st1)%nat) by (apply mu_mono; intros; eapply ext_seen; eauto).
    destruct (IHf ((false, m') :: sc) st2 b) as [(st3 & E3 & P3 & N3)|(E3 & B3)].
    { split; [auto|]. split.
      - assert (ids_ok (flat_map ids items ++ ids b) st1) by (eapply ids_ok_next; eauto). apply ids_ok_sub in H. destruct H as (_ & H & _).
        eapply ids_ok_next; eauto.
      - split; [auto|lia]. }
    2:{ right. rewrite E3. split; [reflexivity|]. intros W Fn Dn. inversion Dn; subst. apply B3; auto.
        apply GB2. intros n Hn. rewrite FN0. apply Fn. now apply F_scope. }
    rewrite E3. cbn [bind]. pose proof P3 as (X3 & EN3 & FR3 & FD3 & DI3).
    assert (X13 : ext st1 st3) by (eapply ext_trans; eauto).
    left. exists st3. split.
    { apply fold_settled; [auto|lia|]. eapply post_settled; [exact P1|exact X13| | |].
      - intros e n He Hn. exists e. auto.
      - intros e v He Hv. eapply flat_in; eauto.
      - auto. }
    split.
    2:{ constructor; auto. intros e [He|[He|He]]; auto. now subst. }
    split; [eapply ext_trans; eauto|]. split; [|split; [|split]].
    + apply env_next with ((false, m') :: sc) st; auto; [split; auto|eapply ext_trans; eauto].
    + assert (FR13 : frame st1 st3 (flat_map ids items ++ ids b)).
      { eapply frame_trans; [exact X2|exact X3|exact FR2|exact FR3|]. intros v Hv. apply in_or_app. auto. }
      eapply frame_trans; [exact X1|exact X13|exact FR1|exact FR13|]. intros v Hv. cbn. apply in_or_app. auto.
    + intros n Hn. inversion Hn as [| |? ? ? e ? He Hf|? ? ? ? Hf|]; subst.
      * destruct (FD1 n) as (d & Q1 & Q2 & Q3); [exists e; auto|]. exists d. split; [auto|]. split; [auto|]. ed.
      * destruct (FB2 n eq_refl Hf) as [(d & Q1 & Q2 & Q3)|[Q1 Q2]].
        -- exists d. split; [auto|]. split; [auto|]. ed.
        -- destruct (FD3 n Q1) as (d & R1 & R2 & R3). exists d. split; [auto|]. split; [|auto]. rewrite find_in in R2 by auto. now rewrite Q2 in R2.
    + intros v Hv. cbn in Hv. apply in_app_or in Hv. destruct Hv as [Hv|Hv]; [ed|].
      apply in_app_or in Hv. destruct Hv as [Hv|Hv]; auto. ed.
  - (* local declaration *)
    destruct ID as (ND & FRE & DJ). assert (NSv : ~ seen st v) by (apply FRE; cbn; now left).
    assert (SS : forall x, seen (mkS ((v, None) :: pos st) (decls st)) x <-> x = v \/ seen st x).
    { intros x. unfold seen in *. cbn. destruct (Z.eqb_spec v x); [split; [auto|discriminate]|]. split; [auto|]. intros [->|H]; [congruence|auto]. }
    assert (NT : forall d, In d tops -> vid d <> v).
    { intros d Hd Ev. destruct (tops_decl d Hd) as (v2 & nm2 & ps2 & an2 & ->). cbn in Ev. subst v2.
      apply (DJ _ Hd NSv v); cbn; now left. }
    apply decl_outcome; auto.
    + split; auto.
    + intros d Hd Nd x Hx. apply (DJ d); auto. intros S. apply Nd. apply SS. auto.
    + intros d Hd Ev. exfalso. apply (NT d Hd Ev).
    + intros d' n d T B Hn E Nd. apply (CY d' n d); auto.
      * unfold busy in *. cbn in B. destruct (Z.eqb_spec v (vid d')); [exfalso; eapply NT; [exact T|symmetry; assumption]|auto].
      * intros [p D]. apply Nd. exists p. cbn. destruct (Z.eqb_spec v (vid d)); auto. exfalso. apply NSv. unfold seen. subst v. congruence.
    + assert (mu (mkS ((v, None) :: pos st) (decls st)) <= mu st)%nat by (apply mu_mono; intros x Hx; apply SS; auto). lia.
Qed.
End Main.
