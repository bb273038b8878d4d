(** Compressing items does not change the solutions in which both variables have the same value. *)
Require Import List Bool Arith Lia Permutation.
From Verif Require Import Base ChainModel ChainSpec ChainProofs ChainProofs2.
Import ListNotations.

Section S.
Variable V : nat -> vinfo.
Variable hr : bool.
Lemma keys_decl : forall v b, In b (keys V hr (Decl v)) ->
  v = b /\ ((exists l, v_def (V b) = Some (DForall l)) \/ v_pos (V b) = true).
Proof.
  intros v b H. cbn in H. destruct (v_def (V v)) as [[l|l|p l h]|] eqn:E.
  - destruct H as [->|[]]. eauto.
  - destruct (hr && v_pos (V v)) eqn:E2; [|destruct H]. destruct H as [->|[]]. apply andb_true_iff in E2. tauto.
  - destruct (hr && v_pos (V v) && h) eqn:E2; [|destruct H]. destruct H as [->|[]].
    apply andb_true_iff in E2. destruct E2 as [E2 _]. apply andb_true_iff in E2. tauto.
  - destruct H.
Qed.

Variable I : nat -> list bool -> bool.

Definition sol (s : nat -> bool) (st : cst) : Prop := forall i it, lives st i it -> holds V I s it.

Lemma all_subst : forall s b a n, (s a = true -> s b = true) -> all_true s (map (subst1 b a) n) -> all_true s n.
Proof.
  intros s b a n Hab H x Hx. specialize (H (subst1 b a x) (in_map _ _ _ Hx)). unfold subst1 in H.
  destruct (arg_is b x) eqn:E; [|exact H]. apply arg_is_spec in E. subst x. cbn in *. auto.
Qed.
Lemma all_subst' : forall s b a n, (s b = true -> s a = true) -> all_true s n -> all_true s (map (subst1 b a) n).
Proof.
  intros s b a n Hab H x Hx. apply in_map_iff in Hx. destruct Hx as (y & <- & Hy). unfold subst1.
  destruct (arg_is b y) eqn:E; [|auto]. apply arg_is_spec in E. subst y. cbn. apply Hab. exact (H _ Hy).
Qed.

Lemma fwd_item : forall s b a it ri new, eff V b a it ri new -> In b (keys V hr it) -> (s a = true -> s b = true) ->
  holds V I s it -> (forall it', ri = Some it' -> holds V I s it') /\ (forall it', In it' new -> holds V I s it').
Proof.
  intros s b a it ri new He Hk Hab Hh. destruct He as [y|p n Hv Hn|y|p l c|p l|v l Hd|v l Hd Hp|v x l Hd Hp Hx|v l Hd Hp|v p l h Hd Hp|v p l h Hd Hp];
    (split; [intros it' Hi; try discriminate Hi; injection Hi as <-|intros it' Hi]); try (destruct Hi; fail); try exact Hh.
  - destruct Hi as [<-|[]]. cbn in *. intros Hall. apply Hh. eapply all_subst; eassumption.
  - cbn in *. destruct c as [w|]; [|destruct Hk]. destruct Hk as [->|[]]. cbn in Hh. auto.
  - apply keys_decl in Hk. destruct Hk as [-> _]. apply in_map_iff in Hi. destruct Hi as (x & <- & Hx).
    apply filter_In in Hx. destruct Hx as [Hx _]. cbn in Hh |- *. intros Hall. exists x. split; [cbn; auto|].
    destruct Hh as [_ Hh]. specialize (Hh _ Hd). destruct Hh as [Hh _]. apply Hh; [|exact Hx].
    apply Hab. apply (Hall (AVar a)). cbn. auto.
  - apply keys_decl in Hk. destruct Hk as [-> _]. destruct Hi as [<-|[]]. cbn in Hh |- *. intros Hall.
    destruct Hh as [_ Hh]. specialize (Hh _ Hd). destruct Hh as [Hh _]. apply Hh.
    apply Hab. apply (Hall (AVar a)). cbn. auto.
  - apply keys_decl in Hk. destruct Hk as [-> _]. destruct Hi as [<-|[]]. cbn in Hh |- *. intros Ha.
    destruct Hh as [_ Hh]. specialize (Hh _ Hd). destruct Hh as [Hh _]. apply Hh. auto.
Qed.

Lemma bwd_item : forall s b a it ri new, eff V b a it ri new -> In b (keys V hr it) -> s a = s b ->
  v_dom (V b) = None ->
  (forall it', ri = Some it' -> holds V I s it') -> (forall it', In it' new -> holds V I s it') -> holds V I s it.
Proof.
  intros s b a it ri new He Hk Hab Hdom Hr Hn0. destruct He as [y|p n Hv Hn|y|p l c|p l|v l Hd|v l Hd Hp|v x l Hd Hp Hx|v l Hd Hp|v p l h Hd Hp|v p l h Hd Hp];
    try (apply Hr; reflexivity).
  - cbn in *. destruct y as [w|]; [|destruct Hk]. destruct Hk as [->|[]]. intros Hall. exists (AVar a). split; [cbn; auto|].
    cbn. rewrite Hab. exact (Hall (AVar b) (or_introl eq_refl)).
  - specialize (Hn0 _ (or_introl eq_refl)). cbn in *. intros Hall. apply Hn0. apply all_subst'; [congruence|exact Hall].
  - specialize (Hr _ eq_refl). cbn in *. destruct c as [w|]; [|destruct Hk]. destruct Hk as [->|[]]. cbn. rewrite <- Hab. exact Hr.
  - apply keys_decl in Hk. destruct Hk as [-> _]. cbn. split; [congruence|]. intros d Hd'. rewrite Hd in Hd'. injection Hd' as <-.
    split; [|congruence]. intros Hb. cbn. exists (AVar a). split; [cbn; auto|]. cbn. congruence.
  - apply keys_decl in Hk. destruct Hk as [-> _]. cbn. split; [congruence|]. intros d Hd'. rewrite Hd in Hd'. injection Hd' as <-.
    split; [|congruence]. intros Hb. cbn. specialize (Hn0 _ (or_introl eq_refl)). cbn in Hn0. apply Hn0.
    intros y [<-|[]]. cbn. congruence.
Qed.

Lemma sol_fwd1 : forall s st i b a st' it, lives st i it -> In b (keys V hr it) -> (s a = true -> s b = true) ->
  compress_item V hr st i b a = Ok st' -> sol s st -> sol s st'.
Proof.
  intros s st i b a st' it Hl Hk Hab Hc Hs. destruct (compress_item_eff _ _ _ _ _ _ _ _ Hl Hc) as (ri & new & He & Hi & _).
  destruct (fwd_item s b a it ri new He Hk Hab (Hs _ _ Hl)) as [H1 H2].
  intros j it' Hj. unfold lives in Hj. rewrite Hi in Hj.
  destruct (items_after _ _ _ _ _ _ (lives_lt _ _ _ Hl) Hj) as [[_ Hj']|[[_ Hj']|[_ Hj']]].
  - exact (Hs _ _ Hj').
  - auto.
  - auto.
Qed.
Lemma sol_bwd1 : forall s st i b a st' it, lives st i it -> In b (keys V hr it) -> s a = s b -> v_dom (V b) = None ->
  compress_item V hr st i b a = Ok st' -> sol s st' -> sol s st.
Proof.
  intros s st i b a st' it Hl Hk Hab Hd Hc Hs. destruct (compress_item_eff _ _ _ _ _ _ _ _ Hl Hc) as (ri & new & He & Hi & _).
  intros j it' Hj. destruct (Nat.eq_dec j i) as [->|n].
  - assert (it' = it) as -> by (unfold lives in *; congruence).
    apply (bwd_item s b a it ri new He Hk Hab Hd).
    + intros it0 ->. apply (Hs i). unfold lives. rewrite Hi. apply items_self. eapply lives_lt, Hl.
    + intros it0 Hin. destruct (items_new (c_items st) i ri new it0 Hin) as (k & _ & Hk0). apply (Hs k).
      unfold lives. rewrite Hi. exact Hk0.
  - apply (Hs j). unfold lives. rewrite Hi. apply items_keep; assumption.
Qed.

(** all items to be processed are there, once each *)
Definition todo_ok (b : nat) (st : cst) (is_ : list nat) : Prop :=
  forall i, In i is_ -> exists it, lives st i it /\ In b (keys V hr it).

Lemma gone_stays : forall is_ st b a st' i, nth_error (c_items st) i = Some None ->
  compress_items V hr st is_ b a = Ok st' -> nth_error (c_items st') i = Some None /\ ~ In i is_.
Proof.
  induction is_ as [|j is_ IH]; intros st b a st' i Hi H; cbn [compress_items] in H.
  - inversion H; subst. auto.
  - apply bind_ok in H. destruct H as (s1 & H1 & H2).
    assert (exists it, lives st j it) as (it & Hl).
    { unfold compress_item in H1. unfold lives. destruct (nth_error (c_items st) j) as [[it|]|]; try discriminate. eauto. }
    assert (i <> j) as Hij by (unfold lives in Hl; congruence).
    destruct (compress_item_eff _ _ _ _ _ _ _ _ Hl H1) as (ri & new & _ & Hi1 & _).
    assert (nth_error (c_items s1) i = Some None) as Hi2.
    { rewrite Hi1. apply items_keep; auto. }
    destruct (IH _ _ _ _ _ Hi2 H2) as [H3 H4]. split; [exact H3|]. intros [->|Hin]; auto.
Qed.

Lemma todo_nodup : forall is_ st b a st', todo_ok b st is_ ->
  (forall i, (forall p n, ~ lives st i (Clause p n)) -> count_occ Nat.eq_dec is_ i <= 1) ->
  compress_items V hr st is_ b a = Ok st' -> NoDup is_.
Proof.
  intros is_ st b a st' _ Hc H. apply (NoDup_count_occ Nat.eq_dec). intros i.
  destruct (nth_error (c_items st) i) as [[[p n| | | |]|]|] eqn:E;
    try (apply Hc; intros p' n'; unfold lives; rewrite E; discriminate).
  clear Hc. revert st H E. induction is_ as [|j is_ IH]; intros st H E; cbn; [lia|].
  cbn [compress_items] in H. apply bind_ok in H. destruct H as (s1 & H1 & H2).
  destruct (Nat.eq_dec j i) as [->|n0].
  - destruct (compress_item_eff _ _ _ _ _ _ _ _ E H1) as (ri & new & He & Hi1 & _).
    assert (ri = None) as -> by (inversion He; reflexivity).
    assert (nth_error (c_items s1) i = Some None) as Hi2.
    { rewrite Hi1. apply items_self. eapply lives_lt. exact E. }
    destruct (gone_stays _ _ _ _ _ _ Hi2 H2) as [_ Hn].
    rewrite (proj1 (count_occ_not_In Nat.eq_dec _ _) Hn). lia.
  - apply (IH s1); [exact H2|].
    assert (exists it, lives st j it) as (it & Hl).
    { unfold compress_item in H1. unfold lives. destruct (nth_error (c_items st) j) as [[it|]|]; try discriminate. eauto. }
    destruct (compress_item_eff _ _ _ _ _ _ _ _ Hl H1) as (ri & new & _ & Hi1 & _).
    rewrite Hi1. apply items_keep; auto.
Qed.

Lemma todo_next : forall b st j is_ st1 it a, NoDup (j :: is_) -> todo_ok b st (j :: is_) -> lives st j it ->
  compress_item V hr st j b a = Ok st1 -> todo_ok b st1 is_.
Proof.
  intros b st j is_ st1 it a Hn Ht Hl H1 i Hin.
  destruct (compress_item_eff _ _ _ _ _ _ _ _ Hl H1) as (ri & new & _ & Hi1 & _).
  destruct (Ht i (or_intror Hin)) as (it0 & H0 & Hk). exists it0. split; [|exact Hk].
  unfold lives. rewrite Hi1. apply items_keep; [|exact H0]. inversion Hn; subst. intros ->. auto.
Qed.

Lemma sol_fwd : forall s b a is_ st st', NoDup is_ -> todo_ok b st is_ -> (s a = true -> s b = true) ->
  compress_items V hr st is_ b a = Ok st' -> sol s st -> sol s st'.
Proof.
  intros s b a. induction is_ as [|j is_ IH]; intros st st' Hn Ht Hab H Hs; cbn [compress_items] in H.
  - inversion H; subst. exact Hs.
  - apply bind_ok in H. destruct H as (s1 & H1 & H2). destruct (Ht j (or_introl eq_refl)) as (it & Hl & Hk).
    apply (IH s1 st'); auto.
    + inversion Hn; assumption.
    + eapply todo_next; eassumption.
    + eapply sol_fwd1; eassumption.
Qed.
Lemma sol_bwd : forall s b a is_ st st', NoDup is_ -> todo_ok b st is_ -> s a = s b -> v_dom (V b) = None ->
  compress_items V hr st is_ b a = Ok st' -> sol s st' -> sol s st.
Proof.
  intros s b a. induction is_ as [|j is_ IH]; intros st st' Hn Ht Hab Hd H Hs; cbn [compress_items] in H.
  - inversion H; subst. exact Hs.
  - apply bind_ok in H. destruct H as (s1 & H1 & H2). destruct (Ht j (or_introl eq_refl)) as (it & Hl & Hk).
    eapply sol_bwd1; try eassumption. apply (IH s1 st'); auto.
    + inversion Hn; assumption.
    + eapply todo_next; eassumption.
Qed.

(** a general invariant rule for compress_items *)
Lemma items_ind : forall (P : list nat -> cst -> Prop) b a,
  (forall j is_ st st1 it ri new, P (j :: is_) st -> lives st j it -> In b (keys V hr it) ->
     eff V b a it ri new -> c_items st1 = upd (c_items st) j ri ++ map Some new ->
     compress_item V hr st j b a = Ok st1 ->
     (forall h r, c_todo st = h :: r -> exists r', c_todo st1 = h :: r') -> ~ In j is_ -> P is_ st1) ->
  forall is_ st st', NoDup is_ -> todo_ok b st is_ -> compress_items V hr st is_ b a = Ok st' -> P is_ st -> P [] st'.
Proof.
  intros P b a Hstep. induction is_ as [|j is_ IH]; intros st st' Hn Ht H HP; cbn [compress_items] in H.
  - inversion H; subst. exact HP.
  - apply bind_ok in H. destruct H as (s1 & H1 & H2). destruct (Ht j (or_introl eq_refl)) as (it & Hl & Hk).
    destruct (compress_item_eff _ _ _ _ _ _ _ _ Hl H1) as (ri & new & He & Hi1 & Hh).
    apply (IH s1 st'); auto.
    + inversion Hn; assumption.
    + eapply todo_next; eassumption.
    + inversion Hn; subst. exact (Hstep j is_ st s1 it ri new HP Hl Hk He Hi1 H1 Hh H3).
Qed.
End S.
