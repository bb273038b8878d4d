(** Which items hold the eliminated variable. *)
Require Import List Bool Arith Lia Permutation.
From Verif Require Import Base ChainModel ChainSpec ChainProofs ChainProofs2 ChainProofs3.
Import ListNotations.

Lemma nodup_same : forall (l : list nat) x, NoDup l -> (forall y, In y l -> y = x) -> length l <= 1.
Proof.
  intros [|y [|z l]] x Hn H; cbn; try lia.
  assert (y = x) by (apply H; cbn; auto). assert (z = x) by (apply H; cbn; auto). subst.
  inversion Hn; subst. cbn in H2. tauto.
Qed.

Lemma filter_index : forall A (f : A -> bool) (l : list A),
  length (filter f l) =
  length (filter (fun i => match nth_error l i with Some x => f x | None => false end) (seq 0 (length l))).
Proof.
  intros A f l. induction l as [|x l IH] using rev_ind; [reflexivity|].
  rewrite app_length. cbn [length]. rewrite Nat.add_1_r, seq_S, !filter_app, !app_length, IH. f_equal.
  - f_equal. apply filter_ext_in. intros i Hi. apply in_seq in Hi. rewrite nth_error_app1 by lia. reflexivity.
  - cbn. rewrite nth_error_app2 by lia. rewrite Nat.sub_diag. cbn. destruct (f x); reflexivity.
Qed.

Lemma filter_split : forall A (f : A -> bool) l, length (filter f l) + length (filter (fun x => negb (f x)) l) = length l.
Proof. intros A f l. induction l as [|x l IH]; cbn; [reflexivity|]. destruct (f x); cbn; lia. Qed.

Section S.
Variable V : nat -> vinfo.
Variable hr : bool.

Lemma memb_in : forall v l, memb v l = true <-> In v l.
Proof.
  intros v l. unfold memb. rewrite existsb_exists. split.
  - intros (x & Hx & E). apply Nat.eqb_eq in E. congruence.
  - intros H. exists v. rewrite Nat.eqb_refl. auto.
Qed.

Definition holders (st : cst) (b : nat) : list nat :=
  filter (fun i => match nth_error (c_items st) i with
    | Some o => match o with Some it => memb b (mentions V it) | None => false end | None => false end)
    (seq 0 (length (c_items st))).

Lemma occurrences_holders : forall st b, occurrences V st b = length (holders st b).
Proof. intros. unfold occurrences, holders. apply filter_index. Qed.
Lemma holders_in : forall st b i, In i (holders st b) <-> exists it, lives st i it /\ In b (mentions V it).
Proof.
  intros st b i. unfold holders, lives. rewrite filter_In, in_seq. split.
  - intros [_ H]. destruct (nth_error (c_items st) i) as [[it|]|]; try discriminate. apply memb_in in H. eauto.
  - intros (it & Hl & Hm). rewrite Hl. split; [|apply memb_in, Hm]. split; [lia|]. cbn. apply nth_error_Some. congruence.
Qed.
Lemma holders_nodup : forall st b, NoDup (holders st b).
Proof. intros. apply NoDup_filter, seq_NoDup. Qed.

Lemma keys_mentions : forall it b, In b (keys V hr it) -> (forall v, it <> Decl v) -> In b (mentions V it).
Proof.
  intros it b H Hd. destruct it as [p n|x|p l c|p l|v]; cbn [keys mentions] in *.
  - rewrite avars_app, in_app_iff. auto.
  - exact H.
  - rewrite avars_app, in_app_iff. auto.
  - destruct H.
  - destruct (Hd v eq_refl).
Qed.

Lemma keys_le1 : forall it, (forall p n, it <> Clause p n) -> length (keys V hr it) <= 1.
Proof.
  intros it H. destruct it as [p n|x|p l c|p l|v]; cbn.
  - destruct (H p n eq_refl).
  - destruct x; cbn; lia.
  - destruct c; cbn; lia.
  - lia.
  - destruct (v_def (V v)) as [[]|]; repeat match goal with |- context [if ?c then _ else _] => destruct c end; cbn; lia.
Qed.

Lemma count_occ_map_snd : forall (l : list (nat * nat)) b i,
  count_occ Nat.eq_dec (map snd (filter (fun x => fst x =? b) l)) i = count_occ pdec l (b, i).
Proof.
  induction l as [|[v j] l IH]; intros b i; cbn [filter map count_occ fst]; [reflexivity|].
  destruct (v =? b) eqn:E.
  - apply Nat.eqb_eq in E. subst v. cbn [map count_occ snd]. rewrite IH.
    destruct (Nat.eq_dec j i), (pdec (b, j) (b, i)); try congruence; reflexivity.
  - apply Nat.eqb_neq in E. rewrite IH. destruct (pdec (v, j) (b, i)); congruence.
Qed.
Lemma count_occ_le_length : forall (l : list nat) v, count_occ Nat.eq_dec l v <= length l.
Proof. induction l as [|x l IH]; intros v; cbn; [lia|]. specialize (IH v). destruct (Nat.eq_dec x v); lia. Qed.

Definition uniq (st : cst) : Prop := forall i j v, lives st i (Decl v) -> lives st j (Decl v) -> i = j.

Lemma decide_go : forall st i a b, decide V st i = Ok (Go a b) ->
  lives st i (Clause [AVar b] [AVar a]) /\ a <> b /\ v_dom (V b) = None /\ v_out (V b) = false /\
  match v_def (V b) with
  | Some (DForall _) => occurrences V st b = 1 /\ count st b = 1
  | Some _ => occurrences V st b = count st b
  | None => occurrences V st b = count st b + 1
  end.
Proof.
  intros st i a b H. unfold decide in H. unfold lives.
  destruct (nth_error (c_items st) i) as [[it|]|]; try discriminate.
  destruct it as [p n| | | |]; try discriminate.
  destruct p as [|[b0|] [|]]; try discriminate. destruct n as [|x [|]]; try discriminate.
  match type of H with (if ?c then _ else _) = _ => destruct c eqn:E end; [|discriminate].
  destruct x as [a0|]; [|discriminate]. destruct (a0 =? b0) eqn:Eab; [discriminate|].
  inversion H; subst; clear H. apply Nat.eqb_neq in Eab.
  apply andb_true_iff in E. destruct E as [E E4]. apply andb_true_iff in E. destruct E as [E E3].
  apply andb_true_iff in E. destruct E as [E1 E2].
  split; [reflexivity|]. split; [exact Eab|]. split; [destruct (v_dom (V b)); [discriminate|reflexivity]|].
  split; [apply negb_true_iff, E2|].
  destruct (v_def (V b)) as [[]|].
  - apply andb_true_iff in E4. rewrite !Nat.eqb_eq in E4. exact E4.
  - apply Nat.eqb_eq, E4.
  - apply Nat.eqb_eq, E4.
  - apply Nat.eqb_eq, E4.
Qed.

Definition range (st : cst) (b : nat) : list nat := map snd (filter (fun x => fst x =? b) (c_done st ++ c_todo st)).

Lemma range_in : forall st b i, In i (range st b) <-> In (b, i) (ents st).
Proof.
  intros st b i. unfold range. rewrite in_map_iff. split.
  - intros ([v j] & <- & H). apply filter_In in H. destruct H as [H E]. apply Nat.eqb_eq in E. cbn in E. subst. exact H.
  - intros H. exists (b, i). split; [reflexivity|]. apply filter_In. split; [exact H|]. apply Nat.eqb_refl.
Qed.
Lemma range_length : forall st b, length (range st b) = count st b.
Proof. intros. unfold range, count. apply map_length. Qed.
Lemma range_ok : forall st b, inv V hr st -> todo_ok V hr b st (range st b).
Proof. intros st b H i Hi. apply range_in in Hi. eapply inv_key; eassumption. Qed.

Lemma range_nodup : forall st b a st0 st', inv V hr st -> c_items st0 = c_items st ->
  compress_items V hr st0 (range st b) b a = Ok st' -> NoDup (range st b).
Proof.
  intros st b a st0 st' Hi H0 H.
  assert (todo_ok V hr b st0 (range st b)) as Ht.
  { intros i Hin. destruct (range_ok _ _ Hi i Hin) as (it & Hl & Hk). exists it. split; [|exact Hk]. unfold lives in *. congruence. }
  eapply (todo_nodup V hr _ st0); [exact Ht| |exact H].
  intros i Hnc. unfold range. rewrite count_occ_map_snd. specialize (Hi b i). unfold cnt, ents, kcount in Hi.
  destruct (nth_error (c_items st) i) as [[it|]|] eqn:E; try lia.
  etransitivity; [exact Hi|]. etransitivity; [apply count_occ_le_length|]. apply keys_le1.
  intros p n ->. apply (Hnc p n). unfold lives. congruence.
Qed.

Definition is_decl (st : cst) (i : nat) : bool :=
  match nth_error (c_items st) i with Some (Some (Decl _)) => true | _ => false end.

Lemma only : forall st i0 a b, inv V hr st -> uniq st -> decide V st i0 = Ok (Go a b) -> NoDup (range st b) ->
  (forall j it, lives st j it -> In b (mentions V it) -> j = i0 \/ (In j (range st b) /\ forall v, it <> Decl v)) /\
  (v_def (V b) <> None -> exists d, In d (range st b) /\ lives st d (Decl b)) /\
  (forall l, v_def (V b) = Some (DForall l) -> exists d, range st b = [d]) /\
  ~ In i0 (range st b).
Proof.
  intros st i0 a b Hi Hu Hd Hn. destruct (decide_go _ _ _ _ Hd) as (H0 & Hab & _ & _ & Hcase). clear Hd.
  pose proof (range_ok st b Hi) as Hr. rewrite <- range_length, occurrences_holders in Hcase.
  set (tp := range st b) in *.
  set (cons := filter (fun i => negb (is_decl st i)) tp). set (decls := filter (is_decl st) tp).
  assert (length decls + length cons = length tp) as Hlen by apply filter_split.
  assert (~ In i0 tp) as Hni0.
  { intros Hin. destruct (Hr _ Hin) as (it & Hl & Hk). assert (it = Clause [AVar b] [AVar a]) as -> by (unfold lives in *; congruence).
    cbn in Hk. destruct Hk as [Hk|[]]. congruence. }
  assert (forall d, In d decls -> lives st d (Decl b) /\ v_def (V b) <> None) as Hdecl.
  { intros d Hin. apply filter_In in Hin. destruct Hin as [Hin E]. destruct (Hr _ Hin) as (it & Hl & Hk).
    unfold is_decl in E. unfold lives in Hl. rewrite Hl in E. destruct it; try discriminate.
    destruct (keys_decl V hr _ _ Hk) as [-> _]. split; [exact Hl|]. intros En. cbn in Hk. rewrite En in Hk. destruct Hk. }
  assert (length decls <= 1) as Hd1.
  { destruct decls as [|d ds] eqn:E; [cbn; lia|]. rewrite <- E in *.
    apply (nodup_same decls d).
    - apply NoDup_filter, Hn.
    - intros y Hy. apply (Hu y d b); apply Hdecl; [exact Hy|rewrite E; cbn; auto]. }
  assert (NoDup (i0 :: cons)) as Hnc.
  { constructor; [|apply NoDup_filter, Hn]. intros Hin. apply filter_In in Hin. tauto. }
  assert (incl (i0 :: cons) (holders st b)) as Hinc.
  { intros i [<-|Hin]; apply holders_in.
    - exists (Clause [AVar b] [AVar a]). split; [exact H0|]. cbn. auto.
    - apply filter_In in Hin. destruct Hin as [Hin E]. destruct (Hr _ Hin) as (it & Hl & Hk). exists it. split; [exact Hl|].
      apply keys_mentions; [exact Hk|]. intros v ->. unfold is_decl in E. unfold lives in Hl. rewrite Hl in E. discriminate. }
  pose proof (NoDup_incl_length Hnc Hinc) as Hle. cbn [length] in Hle.
  assert (length (holders st b) <= S (length cons) /\ (v_def (V b) <> None -> decls <> [])) as [Hge Hdn].
  { destruct (v_def (V b)) as [[l|l|p l h]|] eqn:Ed.
    - split; [lia|]. intros _ E. rewrite E in Hlen. cbn in Hlen. lia.
    - split; [lia|]. intros _ E. rewrite E in Hlen. cbn in Hlen. lia.
    - split; [lia|]. intros _ E. rewrite E in Hlen. cbn in Hlen. lia.
    - destruct decls as [|d ds]; [cbn in Hlen; split; [lia|congruence]|].
      destruct (Hdecl d (or_introl eq_refl)) as [_ Hx]. congruence. }
  pose proof (NoDup_length_incl Hnc Hge Hinc) as Hrev.
  split; [|split; [|split]].
  - intros j it Hl Hm. assert (In j (holders st b)) as Hj by (apply holders_in; eauto).
    apply Hrev in Hj. destruct Hj as [<-|Hj]; [auto|]. right. apply filter_In in Hj. destruct Hj as [Hj E].
    split; [exact Hj|]. intros v ->. unfold is_decl in E. unfold lives in Hl. rewrite Hl in E. discriminate.
  - intros Hx. specialize (Hdn Hx). destruct decls as [|d ds] eqn:E; [congruence|]. exists d.
    assert (In d (filter (is_decl st) tp)) as Hin by (fold decls; rewrite E; cbn; auto).
    split; [apply filter_In in Hin; tauto|]. apply Hdecl. cbn. auto.
  - intros l El. rewrite El in Hcase. destruct Hcase as [_ Hc]. destruct tp as [|d [|]]; try discriminate. eauto.
  - exact Hni0.
Qed.
End S.
