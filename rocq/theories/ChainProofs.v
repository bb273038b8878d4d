(** Entries of the multimap: bookkeeping lemmas for ChainModel. *)
Require Import List Bool Arith Lia Permutation.
From Verif Require Import Base ChainModel ChainSpec.
Import ListNotations.

Definition pdec : forall x y : nat * nat, {x = y} + {x <> y}.
Proof. decide equality; apply Nat.eq_dec. Qed.

Definition ents (st : cst) := c_done st ++ c_todo st.
Definition cnt (e : nat * nat) (st : cst) : nat := count_occ pdec (ents st) e.
Definition lives (st : cst) (i : nat) (it : item) : Prop := nth_error (c_items st) i = Some (Some it).

Lemma ins_perm : forall e l, Permutation (ins e l) (e :: l).
Proof.
  intros e l. induction l as [|x r IH]; cbn; [reflexivity|].
  destruct (fst x <=? fst e); [|reflexivity].
  rewrite IH. apply perm_swap.
Qed.

Lemma store_perm : forall st e, Permutation (ents (store st e)) (e :: ents st).
Proof.
  intros st e. unfold store, ents. destruct (c_todo st) as [|x r] eqn:E; cbn [c_done c_todo].
  - rewrite !app_nil_r. apply ins_perm.
  - destruct (fst x <=? fst e); cbn [c_done c_todo].
    + rewrite ins_perm. symmetry. apply Permutation_middle.
    + rewrite ins_perm. reflexivity.
Qed.

Lemma store_items : forall st e, c_items (store st e) = c_items st.
Proof. intros st e. unfold store. destruct (c_todo st); [reflexivity|]. destruct (_ <=? _); reflexivity. Qed.

Lemma store_hd : forall st e h r, c_todo st = h :: r -> exists r', c_todo (store st e) = h :: r'.
Proof.
  intros st e h r H. unfold store. rewrite H. destruct (fst h <=? fst e) eqn:E; cbn [c_todo]; [|eauto].
  cbn. rewrite E. eauto.
Qed.

Lemma cnt_perm : forall st st' l, Permutation (ents st') (l ++ ents st) ->
  forall e, cnt e st' = count_occ pdec l e + cnt e st.
Proof.
  intros st st' l H e. unfold cnt. rewrite <- count_occ_app. apply Permutation_count_occ, H.
Qed.

Lemma stores_perm : forall ks st i,
  Permutation (ents (fold_left (fun s v => store s (v, i)) ks st)) (map (fun v => (v, i)) ks ++ ents st).
Proof.
  induction ks as [|k ks IH]; intros st i; cbn; [reflexivity|].
  rewrite IH. rewrite store_perm. symmetry. apply Permutation_middle.
Qed.
Lemma stores_items : forall ks st i, c_items (fold_left (fun s v => store s (v, i)) ks st) = c_items st.
Proof. induction ks as [|k ks IH]; intros st i; cbn; [reflexivity|]. rewrite IH. apply store_items. Qed.
Lemma stores_hd : forall ks st i h r, c_todo st = h :: r ->
  exists r', c_todo (fold_left (fun s v => store s (v, i)) ks st) = h :: r'.
Proof.
  induction ks as [|k ks IH]; intros st i h r H; cbn; [eauto|].
  destruct (store_hd st (k, i) h r H) as (r' & H'). eapply IH, H'.
Qed.

Lemma count_map_pair : forall ks v i j,
  count_occ pdec (map (fun v => (v, i)) ks) (v, j) = if j =? i then count_occ Nat.eq_dec ks v else 0.
Proof.
  intros ks v i j. destruct (j =? i) eqn:E; [apply Nat.eqb_eq in E; subst|apply Nat.eqb_neq in E];
  induction ks as [|k ks IH]; cbn [map count_occ]; try reflexivity.
  - destruct (pdec (k, i) (v, i)) as [e|n], (Nat.eq_dec k v) as [e'|n']; try congruence; rewrite IH; reflexivity.
  - destruct (pdec (k, i) (v, j)) as [e|n]; [congruence|exact IH].
Qed.

Section S.
Variable V : nat -> vinfo.
Variable hr : bool.

Lemma track_cnt : forall st i it v j,
  cnt (v, j) (track V hr st i it) = (if j =? i then count_occ Nat.eq_dec (keys V hr it) v else 0) + cnt (v, j) st.
Proof.
  intros. unfold track. rewrite (cnt_perm st _ (map (fun v => (v, i)) (keys V hr it)) (stores_perm _ _ _)).
  rewrite count_map_pair. reflexivity.
Qed.
Lemma track_items : forall st i it, c_items (track V hr st i it) = c_items st.
Proof. intros. apply stores_items. Qed.
Lemma track_hd : forall st i it h r, c_todo st = h :: r -> exists r', c_todo (track V hr st i it) = h :: r'.
Proof. intros. eapply stores_hd. eassumption. Qed.

Lemma add_cnt : forall st it v j,
  cnt (v, j) (add_item V hr st it) =
  (if j =? length (c_items st) then count_occ Nat.eq_dec (keys V hr it) v else 0) + cnt (v, j) st.
Proof. intros. unfold add_item. rewrite track_cnt. reflexivity. Qed.
Lemma add_items : forall st it, c_items (add_item V hr st it) = c_items st ++ [Some it].
Proof. intros. unfold add_item. rewrite track_items. reflexivity. Qed.
Lemma add_hd : forall st it h r, c_todo st = h :: r -> exists r', c_todo (add_item V hr st it) = h :: r'.
Proof. intros. unfold add_item. eapply track_hd. cbn. eassumption. Qed.

End S.

Lemma upd_length : forall A (l : list A) i x, length (upd l i x) = length l.
Proof. induction l as [|y l IH]; intros [|i] x; cbn; auto. Qed.
Lemma upd_same : forall A (l : list A) i x y, nth_error l i = Some y -> nth_error (upd l i x) i = Some x.
Proof. induction l as [|z l IH]; intros [|i] x y H; cbn in *; try discriminate; eauto. Qed.
Lemma upd_other : forall A (l : list A) i j x, i <> j -> nth_error (upd l i x) j = nth_error l j.
Proof. induction l as [|z l IH]; intros [|i] [|j] x H; cbn; try congruence. apply IH. congruence. Qed.

Lemma entry_eqb_spec : forall e f, entry_eqb e f = true <-> e = f.
Proof.
  intros [a b] [c d]. unfold entry_eqb. cbn. rewrite andb_true_iff, !Nat.eqb_eq. split; [intros []; congruence|].
  intros H. inversion H. auto.
Qed.
Lemma rem1_some : forall e l l', rem1 e l = Some l' -> Permutation l (e :: l').
Proof.
  intros e l. induction l as [|x r IH]; cbn; intros l' H; [discriminate|].
  destruct (entry_eqb x e) eqn:E.
  - apply entry_eqb_spec in E. inversion H; subst. reflexivity.
  - destruct (rem1 e r) as [r'|]; [|discriminate]. inversion H; subst.
    rewrite (IH r' eq_refl). apply perm_swap.
Qed.
Lemma rem1_none : forall e l, rem1 e l = None -> ~ In e l.
Proof.
  intros e l. induction l as [|x r IH]; cbn; intros H; [tauto|].
  destruct (entry_eqb x e) eqn:E; [discriminate|].
  destruct (rem1 e r); [discriminate|].
  intros [H'|H']; [|exact (IH eq_refl H')].
  subst x. assert (entry_eqb e e = true) by (apply entry_eqb_spec; reflexivity). congruence.
Qed.

Lemma erase1_cnt : forall st e st', erase1 st e = Ok st' ->
  c_items st' = c_items st /\ (forall f, cnt f st' = if pdec e f then pred (cnt f st) else cnt f st).
Proof.
  intros st e st' H. unfold erase1 in H. destruct (rem1 e (c_done st)) as [d|] eqn:E1.
  - inversion H; subst; clear H. split; [reflexivity|]. intros f. unfold cnt, ents. cbn [c_done c_todo].
    rewrite !count_occ_app. pose proof (rem1_some _ _ _ E1) as Hp.
    pose proof (proj1 (Permutation_count_occ pdec _ _) Hp f) as Hc. rewrite Hc. cbn [count_occ].
    destruct (pdec e f); cbn; lia.
  - apply rem1_none in E1. destruct (c_todo st) as [|x r] eqn:E2.
    + inversion H; subst; clear H. split; [reflexivity|]. intros f. destruct (pdec e f) as [<-|n]; [|reflexivity].
      unfold cnt, ents. rewrite E2, app_nil_r. rewrite (proj1 (count_occ_not_In pdec _ _) E1). reflexivity.
    + destruct (entry_eqb x e) eqn:E3; [discriminate|].
      destruct (rem1 e r) as [r'|] eqn:E4.
      * inversion H; subst; clear H. split; [reflexivity|]. intros f. unfold cnt, ents. cbn [c_done c_todo].
        rewrite !count_occ_app, E2. pose proof (rem1_some _ _ _ E4) as Hp.
        pose proof (proj1 (Permutation_count_occ pdec _ _) Hp f) as Hc. cbn [count_occ] in *. rewrite Hc.
        destruct (pdec e f) as [<-|].
        -- rewrite (proj1 (count_occ_not_In pdec _ _) E1).
           destruct (pdec x e) as [->|]; [|lia].
           assert (entry_eqb e e = true) by (apply entry_eqb_spec; reflexivity). congruence.
        -- reflexivity.
      * inversion H; subst; clear H. split; [reflexivity|]. intros f. destruct (pdec e f) as [<-|n]; [|reflexivity].
        apply rem1_none in E4. unfold cnt, ents. rewrite E2.
        assert (~ In e (c_done st' ++ x :: r)) as Hn.
        { rewrite in_app_iff. cbn. intros [h|[h|h]]; auto. subst x.
          assert (entry_eqb e e = true) by (apply entry_eqb_spec; reflexivity). congruence. }
        rewrite (proj1 (count_occ_not_In pdec _ _) Hn). reflexivity.
Qed.
Lemma erase1_hd : forall st e st' h r, erase1 st e = Ok st' -> c_todo st = h :: r -> exists r', c_todo st' = h :: r'.
Proof.
  intros st e st' h r H Ht. unfold erase1 in H. rewrite Ht in H. destruct (rem1 e (c_done st)).
  - inversion H; subst. cbn. eauto.
  - destruct (entry_eqb h e); [discriminate|]. destruct (rem1 e r); inversion H; subst; cbn; eauto.
Qed.

(** the new negative literals *)
Lemma rename_spec : forall neg st i b a st' c, rename st i b a neg = Ok (st', c) ->
  c_items st' = c_items st /\ c = map (subst1 b a) neg /\ (forall x, In x neg -> exists v, x = AVar v) /\
  (forall v j, cnt (v, j) st' =
     if (j =? i) && negb (v =? b) then cnt (v, j) st - count_occ Nat.eq_dec (avars neg) v else cnt (v, j) st) /\
  (forall h r, c_todo st = h :: r -> exists r', c_todo st' = h :: r').
Proof.
  induction neg as [|[v|l] neg IH]; intros st i b a st' c H; cbn in H.
  - inversion H; subst. cbn. repeat split; eauto; try tauto. intros v j. destruct (_ && _); lia.
  - destruct (v =? b) eqn:Ev.
    + apply bind_ok in H. destruct H as ([s1 c1] & H1 & H2). inversion H2; subst; clear H2.
      destruct (IH _ _ _ _ _ _ H1) as (Hi & Hc & Hv & Hn & Hh). split; [exact Hi|]. split; [|split; [|split]].
      * cbn. unfold subst1 at 1. cbn. rewrite Ev. congruence.
      * intros x [<-|Hx]; eauto.
      * intros w j. rewrite Hn. cbn. destruct (j =? i); cbn; [|reflexivity]. destruct (w =? b) eqn:Ew; cbn; [reflexivity|].
        destruct (Nat.eq_dec v w); [|reflexivity]. apply Nat.eqb_eq in Ev. apply Nat.eqb_neq in Ew. congruence.
      * exact Hh.
    + apply bind_ok in H. destruct H as (s0 & H0 & H). apply bind_ok in H. destruct H as ([s1 c1] & H1 & H2).
      inversion H2; subst; clear H2.
      destruct (IH _ _ _ _ _ _ H1) as (Hi & Hc & Hv & Hn & Hh).
      destruct (erase1_cnt _ _ _ H0) as (Hi0 & Hn0).
      split; [congruence|]. split; [|split; [|split]].
      * cbn. unfold subst1 at 1. cbn. rewrite Ev. congruence.
      * intros x [<-|Hx]; eauto.
      * intros w j. rewrite Hn, Hn0. cbn.
        destruct (j =? i) eqn:Ej; cbn.
        -- apply Nat.eqb_eq in Ej. subst j. destruct (w =? b) eqn:Ew; cbn.
           ++ destruct (pdec (v, i) (w, i)) as [e|n]; [|reflexivity]. inversion e; subst. congruence.
           ++ destruct (pdec (v, i) (w, i)) as [e|n], (Nat.eq_dec v w) as [e'|n']; try congruence; lia.
        -- apply Nat.eqb_neq in Ej. destruct (pdec (v, i) (w, j)) as [e|n]; [congruence|reflexivity].
      * intros h r Ht. destruct (erase1_hd _ _ _ _ _ H0 Ht) as (r' & Ht'). eapply Hh, Ht'.
  - discriminate.
Qed.

Lemma avars_in : forall l v, In v (avars l) <-> In (AVar v) l.
Proof.
  induction l as [|[w|c] l IH]; intros v; cbn; [tauto| |].
  - rewrite IH. split; intros [H|H]; auto; left; congruence.
  - rewrite IH. split; [auto|]. intros [H|H]; [discriminate|auto].
Qed.
Lemma avars_app : forall l l', avars (l ++ l') = avars l ++ avars l'.
Proof. induction l as [|[w|c] l IH]; intros l'; cbn; [reflexivity| |apply IH]. rewrite IH. reflexivity. Qed.
Lemma subst1_in : forall b a l v, a <> b -> In (AVar v) (map (subst1 b a) l) ->
  v <> b /\ ((In (AVar v) l) \/ (v = a /\ In (AVar b) l)).
Proof.
  intros b a l v Hab H. apply in_map_iff in H. destruct H as (x & Hx & Hi). unfold subst1 in Hx.
  destruct x as [w|c]; cbn in Hx; [|discriminate].
  destruct (w =? b) eqn:E.
  - apply Nat.eqb_eq in E. inversion Hx; subst. split; [congruence|]. auto.
  - apply Nat.eqb_neq in E. inversion Hx; subst. auto.
Qed.
Lemma subst1_twice : forall b a l, map (subst1 b a) (map (subst1 b a) l) = map (subst1 b a) l.
Proof.
  intros b a l. rewrite map_map. apply map_ext. intros x. unfold subst1.
  destruct (arg_is b x) eqn:E; [|rewrite E; reflexivity]. destruct (arg_is b (AVar a)); reflexivity.
Qed.
Lemma arg_is_spec : forall v x, arg_is v x = true <-> x = AVar v.
Proof.
  intros v [w|c]; cbn; [|split; discriminate]. rewrite Nat.eqb_eq. split; congruence.
Qed.
