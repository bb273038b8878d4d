(** Proofs for C56 (VarOccurrences). *)
Require Import ZArith List Bool Lia Permutation.
From Verif Require Import Base DenseModel DenseSpec DenseProofs.
Import ListNotations.
Open Scope Z_scope.

Lemma resolve_snoc : forall r k0 k1 v,
  resolve (r ++ [(k0, k1)]) v = if keqb k0 (resolve r v) then k1 else resolve r v.
Proof. intros. unfold resolve. rewrite fold_left_app. reflexivity. Qed.

Lemma resolve_ok : forall r v, Forall (fun p => id_ok (snd p)) r -> id_ok v -> id_ok (resolve r v).
Proof.
  unfold resolve. induction r as [|[a b] r IH]; intros v F K; cbn; auto. inversion F; subst.
  apply IH; auto. destruct (keqb a v); auto.
Qed.

Lemma it_insert_in : forall i s j, In j (it_insert i s) <-> j = i \/ In j s.
Proof.
  intros. unfold it_insert. destruct (existsb (Z.eqb i) s) eqn:E.
  - split; auto. intros [->|]; auto. apply existsb_exists in E. destruct E as (x & H & E). apply Z.eqb_eq in E. now subst.
  - rewrite in_app_iff. cbn. split; intros [|]; auto; destruct H; auto; tauto.
Qed.
Lemma it_insert_nodup : forall i s, NoDup s -> NoDup (it_insert i s).
Proof.
  intros. unfold it_insert. destruct (existsb (Z.eqb i) s) eqn:E; auto.
  apply NoDup_app; auto.
  - repeat constructor. tauto.
  - intros x X [<-|[]]. assert (existsb (Z.eqb i) s = true) by (apply existsb_exists; exists i; split; auto; apply Z.eqb_refl). congruence.
Qed.
Lemma it_erase_in : forall i s j, In j (it_erase i s) <-> In j s /\ j <> i.
Proof.
  intros. unfold it_erase. rewrite filter_In. rewrite negb_true_iff, Z.eqb_neq. tauto.
Qed.
Lemma union_in : forall a b j, In j (fold_left (fun a i => it_insert i a) a b) <-> In j a \/ In j b.
Proof.
  induction a as [|x a IH]; intros b j; cbn; [tauto|]. rewrite IH, it_insert_in.
  split; intros [H|H]; auto; destruct H; auto.
Qed.
Lemma union_nodup : forall a b, NoDup b -> NoDup (fold_left (fun a i => it_insert i a) a b).
Proof. induction a; intros; cbn; auto. apply IHa. now apply it_insert_nodup. Qed.

Notation inv := (inv items []).
Notation look := (look items).

Lemma find_items : forall (d : dense items) k, inv d -> id_ok k -> find d k = Ok (look d k).
Proof. apply find_look. Qed.

Definition content (d : dense items) (k : key) : items := match look d k with Some l => l | None => [] end.

Record rel (s : vocc) (rh : list vop) : Prop := mkRel {
  r_inv : inv (v_items s);
  r_inv' : DenseProofs.inv Z 0 (v_idx s);
  r_redir : Forall (fun p => id_ok (snd p)) (v_redir s);
  r_same : forall v w, id_ok v -> id_ok w -> (same rh v w <-> resolve (v_redir s) v = resolve (v_redir s) w);
  r_nodup : forall k, id_ok k -> NoDup (content (v_items s) k);
  r_occ : forall v i, id_ok v -> (occurs rh v i <-> In i (content (v_items s) (resolve (v_redir s) v)))
}.

Lemma rel0 : rel vocc0 [].
Proof.
  constructor; cbn.
  - apply inv0.
  - apply inv0.
  - constructor.
  - intros; tauto.
  - intros [s|n]; unfold content; cbn; [constructor|]. destruct (Z.to_nat n); constructor.
  - intros [s|n]; unfold content; cbn; [tauto|]. destruct (Z.to_nat n); cbn; tauto.
Qed.

Lemma content_upd : forall d d' k v, (forall k', id_ok k' -> look d' k' = upd items (look d) k v k') ->
  forall k', id_ok k' -> content d' k' = if key_dec k k' then match v with Some l => l | None => [] end else content d k'.
Proof. intros d d' k v H k' K. unfold content. rewrite H by auto. unfold upd. destruct key_dec; auto. Qed.

(* an operation that changes the content of one key only *)
Lemma point_ok : forall s o rh d' k P l,
  rel s rh -> id_ok k -> inv d' ->
  (forall k', id_ok k' -> content d' k' = if key_dec k k' then l else content (v_items s) k') ->
  NoDup l ->
  (forall v w, same (o :: rh) v w <-> same rh v w) ->
  (forall v i, id_ok v -> (occurs (o :: rh) v i <-> if key_dec k (resolve (v_redir s) v) then P i else occurs rh v i)) ->
  (forall i, P i <-> In i l) ->
  rel (mkV d' (v_idx s) (v_redir s)) (o :: rh).
Proof.
  intros s o rh d' k P l R K I C N S O Hl. destruct R as [R1 R2 R3 R4 R5 R6]. constructor; cbn [v_items v_idx v_redir]; auto.
  - intros v w V W. rewrite S. auto.
  - intros k' K'. rewrite C by auto. destruct key_dec; auto.
  - intros v i V. rewrite O by auto. rewrite C by (now apply resolve_ok). destruct key_dec; auto.
Qed.

Lemma occ_key : forall s rh v w i, rel s rh -> id_ok v -> id_ok w -> resolve (v_redir s) v = resolve (v_redir s) w ->
  occurs rh v i <-> occurs rh w i.
Proof. intros s rh v w i R V W E. rewrite (r_occ s rh R), (r_occ s rh R) by auto. now rewrite E. Qed.

Lemma add_rel : forall s rh v i, rel s rh -> id_ok v ->
  exists s', vadd s v i = Ok s' /\ rel s' (VAdd v i :: rh) /\ v_redir s' = v_redir s /\
    (length (d_im (v_items s)) <= length (d_im (v_items s')))%nat /\
    (forall n, resolve (v_redir s) v = KInt n -> n < Z.of_nat (length (d_im (v_items s')))) /\
    (forall k, id_ok k -> (look (v_items s') k <> None <-> k = resolve (v_redir s) v \/ look (v_items s) k <> None)).
Proof.
  intros s rh v i R V. pose proof (resolve_ok _ _ (r_redir s rh R) V) as K. unfold vadd. cbv zeta.
  set (k := resolve (v_redir s) v) in *. rewrite find_items by (auto; apply R). cbn [bind].
  assert (O : forall w j, id_ok w -> (occurs (VAdd v i :: rh) w j <->
      if key_dec k (resolve (v_redir s) w) then j = i \/ occurs rh v j else occurs rh w j)).
  { intros w j W. cbn. rewrite (r_same s rh R) by auto. destruct key_dec as [e|e].
    - rewrite (occ_key s rh w v) by (auto; congruence). split; intros [H|H]; auto; tauto || (left; split; auto).
    - split; [|auto]. intros [[H _]|H]; auto. exfalso. apply e. symmetry. exact H. }
  destruct (look (v_items s) k) as [l|] eqn:E.
  - destruct (assign_ok items [] (v_items s) k (it_insert i l) l (r_inv s rh R) K E) as (d' & E' & I' & L' & Q).
    rewrite E'. cbn. eexists; split; [reflexivity|]. split; [|split; [reflexivity|split; [cbn; lia|split]]].
    + apply point_ok with (k := k) (P := fun j => j = i \/ occurs rh v j) (l := it_insert i l); auto.
      * intros k' K'. rewrite (content_upd _ _ _ _ Q) by auto. reflexivity.
      * apply it_insert_nodup. pose proof (r_nodup s rh R k K) as N. unfold content in N. now rewrite E in N.
      * intros; cbn; tauto.
      * intros j. rewrite it_insert_in. rewrite (r_occ s rh R) by auto. fold k. unfold content. rewrite E. tauto.
    + intros n Hn. cbn [v_items]. rewrite Hn in E. cbn in E. rewrite Hn in K. cbn in K.
      destruct (nth_error (d_ip (v_items s)) (Z.to_nat n)) as [[]|] eqn:X; try discriminate.
      assert (Z.to_nat n < length (d_im (v_items s)))%nat by (apply nth_error_Some; congruence). lia.
    + intros k' K'. cbn [v_items]. rewrite Q by auto. unfold upd. destruct key_dec as [e|e].
      * split; [auto|discriminate].
      * split; [auto|]. intros [H|H]; auto; congruence.
  - destruct (insert_ok items [] (v_items s) k [i] (r_inv s rh R) K) as (d' & E' & I' & L1 & L2 & Q).
    rewrite E'. cbn. eexists; split; [reflexivity|]. split; [|split; [reflexivity|split; [cbn; lia|split]]].
    + apply point_ok with (k := k) (P := fun j => j = i \/ occurs rh v j) (l := [i]); auto.
      * intros k' K'. rewrite (content_upd _ _ _ _ Q) by auto. destruct key_dec; auto. clearbody k. destruct k; [rewrite E|]; reflexivity.
      * repeat constructor. tauto.
      * intros; cbn; tauto.
      * intros j. rewrite (r_occ s rh R) by auto. fold k. unfold content. rewrite E. cbn. split; intros [|]; auto; tauto.
    + cbn [v_items]. auto.
    + intros k' K'. cbn [v_items]. rewrite Q by auto. unfold upd. destruct key_dec as [e|e].
      * split; [auto|]. clearbody k. destruct k; [rewrite E|]; discriminate.
      * split; [auto|]. intros [H|H]; auto; congruence.
Qed.

Lemma remove_rel : forall s rh v i, rel s rh -> id_ok v -> look (v_items s) (resolve (v_redir s) v) <> None ->
  exists s' l, vremove s v i = Ok (s', to_int (Z.of_nat (length l))) /\ rel s' (VRemove v i :: rh) /\ v_redir s' = v_redir s /\
    look (v_items s') (resolve (v_redir s') v) = Some l /\
    length (d_im (v_items s)) = length (d_im (v_items s')) /\
    (forall k, id_ok k -> (look (v_items s') k <> None <-> look (v_items s) k <> None)).
Proof.
  intros s rh v i R V. pose proof (resolve_ok _ _ (r_redir s rh R) V) as K. unfold vremove. cbv zeta.
  set (k := resolve (v_redir s) v) in *. intros NN. rewrite find_items by (auto; apply R). cbn [bind].
  destruct (look (v_items s) k) as [l|] eqn:E; [|congruence].
  destruct (assign_ok items [] (v_items s) k (it_erase i l) l (r_inv s rh R) K E) as (d' & E' & I' & L' & Q).
  rewrite E'. cbn. exists (mkV d' (v_idx s) (v_redir s)), (it_erase i l). split; [reflexivity|]. split; [|split; [reflexivity|split; [|split; [cbn; lia|]]]].
  - apply point_ok with (k := k) (P := fun j => j <> i /\ occurs rh v j) (l := it_erase i l); auto.
    + intros k' K'. rewrite (content_upd _ _ _ _ Q) by auto. reflexivity.
    + unfold it_erase. apply NoDup_filter. pose proof (r_nodup s rh R k K) as N. unfold content in N. now rewrite E in N.
    + intros; cbn; tauto.
    + intros w j W. cbn. rewrite (r_same s rh R) by auto. fold k. destruct key_dec as [e|e].
      * rewrite (occ_key s rh w v) by (auto; congruence). symmetry in e. clear - e. tauto.
      * split; [tauto|]. intros H. split; auto. intros [H1 _]. congruence.
    + intros j. rewrite it_erase_in. rewrite (r_occ s rh R) by auto. fold k. unfold content. rewrite E. tauto.
  - cbn [v_items v_redir]. fold k. rewrite Q by auto. unfold upd. destruct key_dec as [e|e]; [reflexivity|exfalso; apply e; reflexivity].
  - intros k' K'. cbn [v_items]. rewrite Q by auto. unfold upd. destruct key_dec as [e|e]; [|tauto]. subst k'.
    rewrite E. split; discriminate.
Qed.

Lemma removeAll_rel : forall s rh v, rel s rh -> id_ok v -> look (v_items s) (resolve (v_redir s) v) <> None ->
  exists s', vremoveAll s v = Ok s' /\ rel s' (VRemoveAll v :: rh) /\ v_redir s' = v_redir s /\
    length (d_im (v_items s)) = length (d_im (v_items s')) /\
    (forall k, id_ok k -> (look (v_items s') k <> None <-> look (v_items s) k <> None)).
Proof.
  intros s rh v R V. pose proof (resolve_ok _ _ (r_redir s rh R) V) as K. unfold vremoveAll. cbv zeta.
  set (k := resolve (v_redir s) v) in *. intros NN. rewrite find_items by (auto; apply R). cbn [bind].
  destruct (look (v_items s) k) as [l|] eqn:E; [|congruence].
  destruct (assign_ok items [] (v_items s) k [] l (r_inv s rh R) K E) as (d' & E' & I' & L' & Q).
  rewrite E'. cbn. eexists. split; [reflexivity|]. split; [|split; [reflexivity|split; [cbn; lia|]]].
  - apply point_ok with (k := k) (P := fun j => False) (l := []); auto.
    + intros k' K'. rewrite (content_upd _ _ _ _ Q) by auto. reflexivity.
    + constructor.
    + intros; cbn; tauto.
    + intros w j W. cbn. rewrite (r_same s rh R) by auto. fold k. destruct key_dec as [e|e].
      * split; [intros [_ H]; apply H; congruence|tauto].
      * split; [tauto|]. intros H. split; auto; congruence.
    + cbn. tauto.
  - intros k' K'. cbn [v_items]. rewrite Q by auto. unfold upd. destruct key_dec as [e|e]; [|tauto]. subst k'.
    rewrite E. split; discriminate.
Qed.

Lemma keqb_spec : forall a b, Bool.reflect (a = b) (keqb a b).
Proof. intros. unfold keqb. destruct key_dec; constructor; auto. Qed.

(* outcome of unify: the state follows the specification unless it is undefined *)
Lemma unify_rel : forall s rh a b, rel s rh -> id_ok a -> id_ok b ->
  let k0 := resolve (v_redir s) a in let k1 := resolve (v_redir s) b in
  (vunify s a b = UB /\ exists n m, k0 = KInt n /\ k1 = KInt m /\ k0 <> k1 /\ look (v_items s) k0 <> None /\ look (v_items s) k1 = None /\
     Z.of_nat (length (d_im (v_items s))) <= m) \/
  exists s', vunify s a b = Ok s' /\ rel s' (VUnify a b :: rh) /\
    (length (d_im (v_items s)) <= length (d_im (v_items s')))%nat /\
    (forall k, id_ok k -> k0 <> k1 -> (look (v_items s') k <> None <->
       if key_dec k k0 then False else if key_dec k k1 then look (v_items s) k0 <> None \/ look (v_items s) k1 <> None
       else look (v_items s) k <> None)) /\
    (k0 = k1 -> s' = s) /\ (k0 <> k1 -> v_redir s' = v_redir s ++ [(k0, k1)]).
Proof.
  intros s rh a b R A B k0 k1. pose proof (resolve_ok _ _ (r_redir s rh R) A) as K0.
  pose proof (resolve_ok _ _ (r_redir s rh R) B) as K1. fold k0 in K0. fold k1 in K1.
  unfold vunify. cbv zeta. fold k0 k1. destruct (keqb_spec k0 k1) as [E|NE].
  { right. exists s. split; [reflexivity|]. split; [|split; [lia|split; [tauto|split; [reflexivity|tauto]]]].
    destruct R as [R1 R2 R3 R4 R5 R6]. constructor; auto.
    - intros v w V W. cbn. rewrite !R4 by auto. fold k0 k1. rewrite <- E.
      split; [|tauto]. intros [H|[[H1 H2]|[H1 H2]]]; congruence.
    - intros v i V. cbn. rewrite !R6 by auto. rewrite !R4 by auto. fold k0 k1. rewrite <- E.
      split; [|tauto]. intros [H|[[H1 H2]|[H1 H2]]]; congruence. }
  rewrite find_items by (auto; apply R). cbn [bind].
  destruct (remove_ok Z 0 (v_idx s) k0 (r_inv' s rh R) K0) as (x & Ex & Ix & _).
  assert (FIN : forall d, inv d ->
     (forall k, id_ok k -> NoDup (content d k)) ->
     (forall k i, id_ok k -> k <> k0 -> (In i (content d k) <-> if key_dec k k1 then In i (content (v_items s) k0) \/ In i (content (v_items s) k1)
          else In i (content (v_items s) k))) ->
     rel (mkV d x (v_redir s ++ [(k0, k1)])) (VUnify a b :: rh)).
  { intros d I N C. destruct R as [R1 R2 R3 R4 R5 R6].
    assert (RV : forall v, id_ok v -> id_ok (resolve (v_redir s ++ [(k0, k1)]) v) /\ resolve (v_redir s ++ [(k0, k1)]) v <> k0).
    { intros v V. rewrite resolve_snoc. destruct (keqb_spec k0 (resolve (v_redir s) v)); split; auto. now apply resolve_ok. }
    constructor; cbn [v_items v_idx v_redir]; auto.
    - apply Forall_app; split; auto.
    - intros v w V W. cbn. rewrite !R4 by auto. fold k0 k1. rewrite !resolve_snoc.
      destruct (keqb_spec k0 (resolve (v_redir s) v)); destruct (keqb_spec k0 (resolve (v_redir s) w)).
      + split; auto. left; congruence.
      + split; [intros [H|[[H1 H2]|[H1 H2]]]; congruence|]. intros. right. left. split; congruence.
      + split; [intros [H|[[H1 H2]|[H1 H2]]]; congruence|]. intros. right. right. split; congruence.
      + split; [intros [H|[[H1 H2]|[H1 H2]]]; congruence|]. auto.
    - intros v i V. destruct (RV v V) as [Q1 Q2]. rewrite C by auto. cbn. rewrite !R6, !R4 by auto. fold k0 k1.
      rewrite resolve_snoc. destruct (keqb_spec k0 (resolve (v_redir s) v)) as [e|e].
      + rewrite <- e. destruct key_dec as [_|]; [|congruence]. split; [intros [H|[[H1 H2]|[H1 H2]]]; auto|]. intros [H|H]; auto.
      + destruct key_dec as [e'|e'].
        * rewrite e'. split; [intros [H|[[H1 H2]|[H1 H2]]]; auto|]. intros [H|H]; auto.
        * split; [intros [H|[[H1 H2]|[H1 H2]]]; congruence|]. auto. }
  destruct (look (v_items s) k0) as [l0|] eqn:E0.
  2:{ cbn. rewrite Ex. cbn. right. eexists; split; [reflexivity|]. split; [|split; [cbn; lia|split; [|split; [congruence|reflexivity]]]].
      - apply FIN; [apply R| |].
        + intros k K. apply (r_nodup s rh R); auto.
        + intros k i K NK. destruct key_dec as [->|]; [|tauto]. unfold content at 2. rewrite E0. cbn. tauto.
      - intros k K _. cbn [v_items]. destruct key_dec as [->|].
        + rewrite E0. tauto.
        + destruct key_dec as [->|]; tauto. }
  rewrite find_items by (auto; apply R). cbn [bind].
  assert (C0 : content (v_items s) k0 = l0) by (unfold content; now rewrite E0).
  assert (STEP : forall d1 l, inv d1 -> (length (d_im (v_items s)) <= length (d_im d1))%nat ->
       (forall k, id_ok k -> look d1 k = upd items (look (v_items s)) k1 (Some l) k) -> NoDup l ->
       (forall i, In i l <-> In i (content (v_items s) k0) \/ In i (content (v_items s) k1)) ->
       exists s', (do d <- remove (T := items) [] d1 k0; do x <- remove 0 (v_idx s) k0; Ok (mkV d x (v_redir s ++ [(k0, k1)]))) = Ok s' /\ rel s' (VUnify a b :: rh) /\
       (length (d_im (v_items s)) <= length (d_im (v_items s')))%nat /\
       (forall k, id_ok k -> k0 <> k1 -> (look (v_items s') k <> None <->
       if key_dec k k0 then False else if key_dec k k1 then look (v_items s) k0 <> None \/ look (v_items s) k1 <> None
       else look (v_items s) k <> None)) /\
       (k0 = k1 -> s' = s) /\ (k0 <> k1 -> v_redir s' = v_redir s ++ [(k0, k1)])).
  { intros d1 l I1 L1 Q1 N1 C1. destruct (remove_ok items [] d1 k0 I1 K0) as (d2 & E2 & I2 & L2 & Q2).
    rewrite E2, Ex. cbn. eexists; split; [reflexivity|].
    assert (Q : forall k, id_ok k -> look d2 k = if key_dec k k0 then None else if key_dec k k1 then Some l else look (v_items s) k).
    { intros k K. rewrite Q2 by auto. unfold upd. destruct (key_dec k0 k), (key_dec k k0); try congruence.
      rewrite Q1 by auto. unfold upd. destruct (key_dec k1 k), (key_dec k k1); try congruence. }
    split; [|split; [cbn; lia|split; [|split; [congruence|reflexivity]]]].
    - apply FIN; auto.
      + intros k K. unfold content. rewrite Q by auto. destruct key_dec; [constructor|]. destruct key_dec; auto.
        apply (r_nodup s rh R k K).
      + intros k i K NK. unfold content at 1. rewrite Q by auto. destruct key_dec; [congruence|]. destruct key_dec; [apply C1|].
        reflexivity.
    - intros k K _. cbn [v_items]. rewrite Q by auto. destruct key_dec; [tauto|]. destruct key_dec; [|tauto].
      rewrite E0. split; [left; discriminate|discriminate]. }
  destruct (look (v_items s) k1) as [l1|] eqn:E1.
  - right. destruct (assign_ok items [] (v_items s) k1 (fold_left (fun a i => it_insert i a) l0 l1) l1 (r_inv s rh R) K1 E1) as (d1 & Ed & I1 & L1 & Q1).
    rewrite Ed. cbn [bind].
    destruct (STEP d1 (fold_left (fun a i => it_insert i a) l0 l1)) as (s' & Es & Rs); auto; try lia.
    + apply union_nodup. pose proof (r_nodup s rh R k1 K1) as N. unfold content in N. now rewrite E1 in N.
    + intros i. rewrite union_in. unfold content. rewrite E0, E1. tauto.
    + rewrite E0 in Rs. exists s'. split; [|exact Rs]. destruct (remove (T := items) [] d1 k0); cbn in *; auto.
  - assert (INS : exists s', (do d <- (do d <- insert (T := items) [] (v_items s) k1 l0; remove (T := items) [] d k0); do x <- remove 0 (v_idx s) k0; Ok (mkV d x (v_redir s ++ [(k0, k1)]))) = Ok s' /\ rel s' (VUnify a b :: rh) /\
       (length (d_im (v_items s)) <= length (d_im (v_items s')))%nat /\
       (forall k, id_ok k -> k0 <> k1 -> (look (v_items s') k <> None <->
       if key_dec k k0 then False else if key_dec k k1 then Some l0 <> None \/ (@None items) <> None
       else look (v_items s) k <> None)) /\
       (k0 = k1 -> s' = s) /\ (k0 <> k1 -> v_redir s' = v_redir s ++ [(k0, k1)])).
    { destruct (insert_ok items [] (v_items s) k1 l0 (r_inv s rh R) K1) as (d1 & Ed & I1 & L1 & _ & Q1).
      rewrite Ed. cbn [bind]. destruct (STEP d1 l0) as (s' & Es & Rs); auto; try lia.
      + intros k K. rewrite Q1 by auto. unfold upd. destruct key_dec; auto. clear - E1. clearbody k1. destruct k1; [rewrite E1|]; reflexivity.
      + rewrite <- C0. apply (r_nodup s rh R k0 K0).
      + intros i. rewrite C0. unfold content. rewrite E1. cbn. tauto.
      + exists s'. split; [destruct (remove (T := items) [] d1 k0); cbn in *; auto|]. rewrite E0 in Rs. exact Rs. }
    destruct k0 as [n0|n0] eqn:X0; [right; exact INS|]. destruct k1 as [n1|n1] eqn:X1; [right; exact INS|].
    destruct (grows (v_items s) n1) eqn:G; [|right; exact INS].
    left. split; [reflexivity|]. exists n0, n1. split; [reflexivity|]. split; [reflexivity|]. split; [auto|]. split; [discriminate|]. split; [auto|].
    unfold grows in G. apply Z.ltb_lt in G. rewrite to_int_small in G by (pose proof (i_small items [] _ (r_inv s rh R)); lia). lia.
Qed.

Lemma clear_rel : forall s rh, rel s rh -> rel (vclear s) (VClear :: rh).
Proof.
  intros s rh [R1 R2 R3 R4 R5 R6]. constructor; cbn -[resolve]; auto.
  - apply inv0.
  - apply inv0.
  - intros [x|n] _; unfold content; cbn; [constructor|]. destruct (Z.to_nat n); constructor.
  - intros v i V. unfold content. destruct (resolve (v_redir s) v) as [x|n]; cbn; try tauto. destruct (Z.to_nat n); cbn; tauto.
Qed.

Lemma step_rel : forall s rh o s', rel s rh -> Forall id_ok (vop_ids o) -> vstep s o = Ok s' -> rel s' (o :: rh).
Proof.
  intros s rh o s' R F E. destruct o as [v i|v i|v|a b|]; cbn in F, E.
  - inversion F; subst. destruct (add_rel s rh v i R) as (s1 & E1 & R1 & _); auto. congruence.
  - inversion F; subst. apply bind_ok in E. destruct E as ([s1 n] & E1 & E2). injection E2 as <-.
    destruct (look (v_items s) (resolve (v_redir s) v)) eqn:L.
    + destruct (remove_rel s rh v i R) as (s2 & l2 & E2 & R2 & _); auto; [congruence|]. congruence.
    + unfold vremove in E1. rewrite find_items in E1 by (try apply R; apply resolve_ok; auto; apply R).
      rewrite L in E1. discriminate.
  - inversion F; subst. destruct (look (v_items s) (resolve (v_redir s) v)) eqn:L.
    + destruct (removeAll_rel s rh v R) as (s2 & E2 & R2 & _); auto; [congruence|]. congruence.
    + unfold vremoveAll in E. rewrite find_items in E by (try apply R; apply resolve_ok; auto; apply R).
      rewrite L in E. discriminate.
  - inversion F as [|? ? F1 F2]; subst. inversion F2; subst.
    destruct (unify_rel s rh a b R) as [(X & _)|(s1 & E1 & R1 & _)]; auto; congruence.
  - injection E as <-. now apply clear_rel.
Qed.

Lemma run_rel : forall h s rh s', rel s rh -> Forall (fun o => Forall id_ok (vop_ids o)) h -> vrun s h = Ok s' -> rel s' (rev h ++ rh).
Proof.
  induction h as [|o h IH]; intros s rh s' R F E; cbn in E.
  - injection E as <-. auto.
  - inversion F; subst. apply bind_ok in E. destruct E as (s1 & E1 & E2). cbn. rewrite <- app_assoc. cbn.
    apply IH with s1; auto. apply step_rel with s; auto.
Qed.

Lemma occ_of : forall s rh v, rel s rh -> id_ok v -> exists l, NoDup l /\ (forall i, In i l <-> occurs rh v i) /\
    occurrences s v = Ok (to_int (Z.of_nat (length l))).
Proof.
  intros s rh v R V. pose proof (resolve_ok _ _ (r_redir s rh R) V) as K.
  exists (content (v_items s) (resolve (v_redir s) v)). split; [apply R; auto|]. split.
  - intros i. rewrite (r_occ s rh R) by auto. tauto.
  - unfold occurrences. rewrite find_items by (auto; apply R). cbn [bind]. unfold content.
    destruct (look (v_items s) (resolve (v_redir s) v)); reflexivity.
Qed.

Lemma C56_occurrences_l : forall h s v, Forall (fun o => Forall id_ok (vop_ids o)) h -> vrun vocc0 h = Ok s -> id_ok v ->
  exists l, NoDup l /\ (forall i, In i l <-> occurs (rev h) v i) /\
    (Z.of_nat (length l) <= INT_MAX -> occurrences s v = Ok (Z.of_nat (length l))).
Proof.
  intros h s v F E V. pose proof (run_rel h vocc0 [] s rel0 F E) as R. rewrite app_nil_r in R.
  destruct (occ_of s (rev h) v R V) as (l & N & H & Q). exists l. split; [auto|]. split; [auto|].
  intros L. rewrite Q. f_equal. apply to_int_small. unfold INT_MAX in L. lia.
Qed.

Lemma C56_remove_count_l : forall h s v i s' n, Forall (fun o => Forall id_ok (vop_ids o)) h -> vrun vocc0 h = Ok s -> id_ok v ->
  vremove s v i = Ok (s', n) -> occurrences s' v = Ok n.
Proof.
  intros h s v i s' n F E V X. pose proof (run_rel h vocc0 [] s rel0 F E) as R. rewrite app_nil_r in R.
  pose proof (resolve_ok _ _ (r_redir s _ R) V) as K.
  destruct (look (v_items s) (resolve (v_redir s) v)) eqn:L.
  - destruct (remove_rel s (rev h) v i R) as (s1 & l1 & E1 & R1 & RD & LK & _); auto; [congruence|].
    rewrite E1 in X. injection X as <- <-. unfold occurrences. rewrite find_items.
    + cbn. now rewrite LK.
    + apply R1.
    + rewrite RD. auto.
  - unfold vremove in X. rewrite find_items in X by (auto; apply R). rewrite L in X. discriminate.
Qed.

(** definedness *)
Definition below (N : Z) (k : key) : Prop := id_ok k /\ match k with KName _ => True | KInt n => n < N end.

Definition known (s : vocc) (rh : list vop) : Prop :=
  forall v, id_ok v -> (look (v_items s) (resolve (v_redir s) v) <> None <-> exists w i, In (VAdd w i) rh /\ same rh v w).

Lemma resolve_below : forall N r v, Forall (fun p => below N (snd p)) r -> below N v -> below N (resolve r v).
Proof.
  unfold resolve. induction r as [|[a b] r IH]; intros v F K; cbn; auto. inversion F; subst.
  apply IH; auto. destruct (keqb a v); auto.
Qed.

Lemma adds_ok : forall rh w i, Forall (fun o => Forall id_ok (vop_ids o)) rh -> In (VAdd w i) rh -> id_ok w.
Proof.
  intros rh w i F H. rewrite Forall_forall in F. specialize (F _ H). cbn in F. now inversion F.
Qed.

Lemma step_def : forall N s rh o, rel s rh -> known s rh -> Forall (fun p => below N (snd p)) (v_redir s) ->
  Forall (fun o => Forall id_ok (vop_ids o)) rh ->
  N <= Z.of_nat (length (d_im (v_items s))) -> Forall (below N) (vop_ids o) -> legal (o :: rh) ->
  exists s', vstep s o = Ok s' /\ known s' (o :: rh) /\ Forall (fun p => below N (snd p)) (v_redir s') /\
    N <= Z.of_nat (length (d_im (v_items s'))).
Proof.
  intros N s rh o R KN RB FH LN F LG. destruct o as [v i|v i|v|a b|]; cbn in F; cbn [vstep].
  - inversion F as [|? ? B _]; subst. destruct (add_rel s rh v i R) as (s1 & E1 & R1 & RD & L1 & _ & LK); [apply B|].
    exists s1. split; [auto|]. rewrite RD. split; [|split; [auto|lia]].
    intros w W. rewrite RD. rewrite LK by (apply resolve_ok; auto; apply R). rewrite (KN w W). cbn.
    split.
    + intros [H|(x & j & H1 & H2)].
      * exists v, i. split; [auto|]. apply (r_same s rh R); auto. apply B.
      * exists x, j. auto.
    + intros (x & j & [H1|H1] & H2).
      * injection H1 as <- <-. left. apply (r_same s rh R) in H2; auto. apply B.
      * right. exists x, j. auto.
  - inversion F as [|? ? B _]; subst. destruct LG as [LG _]. destruct (remove_rel s rh v i R) as (s1 & l & E1 & R1 & RD & _ & L1 & LK); [apply B|apply KN; auto; apply B|].
    rewrite E1. cbn. exists s1. split; [auto|]. rewrite RD. split; [|split; [auto|lia]].
    intros w W. rewrite RD. rewrite LK by (apply resolve_ok; auto; apply R). rewrite (KN w W). cbn.
    split; intros (x & j & H); exists x, j; [tauto|]. destruct H as [[H|H] H2]; [discriminate|tauto].
  - inversion F as [|? ? B _]; subst. destruct LG as [LG _]. destruct (removeAll_rel s rh v R) as (s1 & E1 & R1 & RD & L1 & LK); [apply B|apply KN; auto; apply B|].
    rewrite E1. exists s1. split; [auto|]. rewrite RD. split; [|split; [auto|lia]].
    intros w W. rewrite RD. rewrite LK by (apply resolve_ok; auto; apply R). rewrite (KN w W). cbn.
    split; intros (x & j & H); exists x, j; [tauto|]. destruct H as [[H|H] H2]; [discriminate|tauto].
  - inversion F as [|? ? B1 F2]; subst. inversion F2 as [|? ? B2 _]; subst.
    pose proof (resolve_below N _ _ RB B1) as K0. pose proof (resolve_below N _ _ RB B2) as K1.
    destruct (unify_rel s rh a b R) as [(_ & n & m & X0 & X1 & _ & _ & _ & X2)|(s1 & E1 & R1 & L1 & LK & S1 & S2)]; [apply B1|apply B2| |].
    { rewrite X1 in K1. destruct K1 as [_ K1]. lia. }
    exists s1. split; [auto|].
    set (k0 := resolve (v_redir s) a) in *. set (k1 := resolve (v_redir s) b) in *.
    destruct (key_dec k0 k1) as [e|e].
    + rewrite (S1 e). split; [|split; [auto|lia]]. intros w W. rewrite (KN w W). cbn. split.
      * intros (x & j & H1 & H2). exists x, j. auto.
      * intros (x & j & [H1|H1] & H2); [discriminate|]. exists x, j. split; auto.
        pose proof (adds_ok _ _ _ FH H1) as HX.
        rewrite !(r_same s rh R) in * by (auto; try apply B1; apply B2). fold k0 k1 in H2. rewrite <- e in H2.
        destruct H2 as [H2|[[H2 H3]|[H2 H3]]]; congruence.
    + rewrite (S2 e). split; [|split; [apply Forall_app; split; auto; repeat constructor; apply K1|lia]].
      intros w W. rewrite (S2 e). pose proof (resolve_ok _ _ (r_redir s rh R) W) as KW.
      rewrite LK; [|apply resolve_ok; [rewrite <- (S2 e); apply R1|auto]|auto].
      rewrite resolve_snoc. cbn.
      assert (EQ : (exists x j, (VUnify a b = VAdd x j \/ In (VAdd x j) rh) /\ (same rh w x \/ (same rh w a /\ same rh b x) \/ (same rh w b /\ same rh a x)))
                   <-> (look (v_items s) (resolve (v_redir s) w) <> None \/ (resolve (v_redir s) w = k0 /\ look (v_items s) k1 <> None)
                        \/ (resolve (v_redir s) w = k1 /\ look (v_items s) k0 <> None))).
      { assert (Ka : look (v_items s) k0 <> None <-> exists x j, In (VAdd x j) rh /\ same rh a x) by (apply KN; apply B1).
        assert (Kb : look (v_items s) k1 <> None <-> exists x j, In (VAdd x j) rh /\ same rh b x) by (apply KN; apply B2).
        rewrite (KN w W), Ka, Kb. pose proof (r_same s rh R w a W (proj1 B1)) as Sa. pose proof (r_same s rh R w b W (proj1 B2)) as Sb.
        fold k0 in Sa. fold k1 in Sb. rewrite <- Sa, <- Sb. clear. split.
        - intros (x & j & [H|H] & [H1|[[H1 H2]|[H1 H2]]]); try discriminate.
          + left. eauto.
          + right. left. split; eauto.
          + right. right. split; eauto.
        - intros [(x & j & H1 & H2)|[(H & x & j & H1 & H2)|(H & x & j & H1 & H2)]]; exists x, j; tauto. }
      rewrite EQ. clear EQ. destruct (keqb_spec k0 (resolve (v_redir s) w)) as [e1|e1].
      * rewrite <- e1. destruct (key_dec k1 k0); [congruence|]. destruct (key_dec k1 k1); [|congruence].
        split; [intros [|]; auto|]. intros [|[[_ ]|[? ]]]; auto.
      * destruct (key_dec (resolve (v_redir s) w) k0); [congruence|]. destruct (key_dec (resolve (v_redir s) w) k1) as [e2|e2].
        -- rewrite e2. split; [intros [|]; auto|]. intros [|[[? ]|[_ ]]]; auto.
        -- split; [auto|]. intros [|[[? ]|[? ]]]; auto; congruence.
  - destruct LG.
Qed.

Lemma run_def : forall N h s rh, rel s rh -> known s rh -> Forall (fun p => below N (snd p)) (v_redir s) ->
  Forall (fun o => Forall id_ok (vop_ids o)) rh ->
  N <= Z.of_nat (length (d_im (v_items s))) -> Forall (fun o => Forall (below N) (vop_ids o)) h -> legal (rev h ++ rh) ->
  exists s', vrun s h = Ok s'.
Proof.
  intros N. induction h as [|o h IH]; intros s rh R KN RB FH LN F LG; cbn.
  - eauto.
  - inversion F as [|? ? F1 F2]; subst. cbn in LG. rewrite <- app_assoc in LG. cbn in LG.
    assert (LO : legal (o :: rh)).
    { revert LG. generalize (rev h) as p. induction p as [|q p IHp]; cbn; auto. destruct q; tauto. }
    assert (FO : Forall id_ok (vop_ids o)) by (eapply Forall_impl; [|apply F1]; intros k [K _]; exact K).
    destruct (step_def N s rh o R KN RB FH LN F1 LO) as (s1 & E1 & K1 & B1 & L1).
    rewrite E1. cbn. apply IH with (o :: rh); auto. apply step_rel with s; auto.
Qed.

Lemma C56_defined_l : forall N i h, 0 < N <= 1431655765 ->
  Forall (fun o => Forall (fun k => id_ok k /\ match k with KName _ => True | KInt n => n < N end) (vop_ids o)) h ->
  legal (rev (VAdd (KInt (N - 1)) i :: h)) ->
  exists s, vrun vocc0 (VAdd (KInt (N - 1)) i :: h) = Ok s.
Proof.
  intros N i h HN F LG. cbn [vrun vstep].
  assert (K : id_ok (KInt (N - 1))) by (cbn; lia).
  destruct (add_rel vocc0 [] (KInt (N - 1)) i rel0 K) as (s1 & E1 & R1 & RD & L1 & L2 & LK).
  rewrite E1. cbn [bind]. apply run_def with N [VAdd (KInt (N - 1)) i]; auto.
  - intros v V. rewrite RD. cbn [v_redir vocc0]. rewrite LK by exact V. cbn.
    split.
    + intros [H|H]; [exists (KInt (N - 1)), i; auto|]. exfalso. apply H. destruct v; cbn; auto. now destruct (Z.to_nat n).
    + intros (w & j & [H|[]] & H2). injection H as <- <-. left. exact H2.
  - rewrite RD. constructor.
  - repeat constructor; cbn; lia.
  - specialize (L2 (N - 1) eq_refl). lia.
Qed.
