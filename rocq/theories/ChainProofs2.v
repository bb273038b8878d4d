(** The effect of compressing one item, and the invariant of the multimap. *)
Require Import List Bool Arith Lia Permutation.
From Verif Require Import Base ChainModel ChainSpec ChainProofs.
Import ListNotations.

Section S.
Variable V : nat -> vinfo.
Variable hr : bool.

Inductive eff (b a : nat) : item -> option item -> list item -> Prop :=
| E_drop : forall x, eff b a (Clause [AVar a] [x]) None []
| E_clause : forall p n, (forall x, In x n -> exists v, x = AVar v) -> ~ (p = [AVar a] /\ length n = 1) ->
    eff b a (Clause p n) None [Clause p (map (subst1 b a) n)]
| E_rev : forall x, eff b a (RevMap x) (Some (RevMap x)) []
| E_imp : forall p l c, eff b a (Imp p l c) (Some (Imp p l (AVar a))) []
| E_other : forall p l, eff b a (Other p l) (Some (Other p l)) []
| E_forall : forall v l, v_def (V v) = Some (DForall l) ->
    eff b a (Decl v) (Some (Decl v)) (map (fun x => Clause [x] [AVar a]) (filter (fun x => negb (arg_is a x)) l))
| E_exists_drop : forall v l, v_def (V v) = Some (DExists (AVar a :: l)) -> v_pos (V v) = true ->
    eff b a (Decl v) None []
| E_exists : forall v x l, v_def (V v) = Some (DExists (x :: l)) -> v_pos (V v) = true -> x <> AVar a ->
    eff b a (Decl v) None [Clause (x :: l) [AVar a]]
| E_exists_not : forall v l, v_def (V v) = Some (DExists l) -> v_pos (V v) = false ->
    eff b a (Decl v) (Some (Decl v)) []
| E_call : forall v p l h, v_def (V v) = Some (DCall p l h) -> v_pos (V v) = true ->
    eff b a (Decl v) (Some (Decl v)) [Imp p l (AVar a)]
| E_call_not : forall v p l h, v_def (V v) = Some (DCall p l h) -> v_pos (V v) = false ->
    eff b a (Decl v) (Some (Decl v)) [].

Lemma upd_id : forall A (l : list A) i x, nth_error l i = Some x -> upd l i x = l.
Proof. induction l as [|y l IH]; intros [|i] x H; cbn in *; try congruence. rewrite IH; auto. Qed.
Lemma upd_app : forall A (l r : list A) i x, i < length l -> upd (l ++ r) i x = upd l i x ++ r.
Proof. induction l as [|y l IH]; intros r [|i] x H; cbn in *; try lia; [reflexivity|]. rewrite IH by lia. reflexivity. Qed.
Lemma lives_lt : forall st i it, lives st i it -> i < length (c_items st).
Proof. intros st i it H. apply nth_error_Some. unfold lives in H. congruence. Qed.

Lemma add_conjuncts_items : forall l st a, c_items (add_conjuncts V hr st a l) =
  c_items st ++ map Some (map (fun x => Clause [x] [AVar a]) (filter (fun x => negb (arg_is a x)) l)).
Proof.
  induction l as [|x l IH]; intros st a; cbn [add_conjuncts filter map]; [symmetry; apply app_nil_r|].
  rewrite IH. destruct (arg_is a x); cbn [negb map]; [reflexivity|].
  rewrite add_items. rewrite <- app_assoc. reflexivity.
Qed.
Lemma add_conjuncts_hd : forall l st a h r, c_todo st = h :: r ->
  exists r', c_todo (add_conjuncts V hr st a l) = h :: r'.
Proof.
  induction l as [|x l IH]; intros st a h r H; cbn [add_conjuncts]; [eauto|].
  destruct (arg_is a x); [eapply IH; eauto|].
  destruct (add_hd V hr st (Clause [x] [AVar a]) h r H) as (r' & H'). eapply IH, H'.
Qed.

Lemma compress_item_eff : forall st i b a st' it, lives st i it -> compress_item V hr st i b a = Ok st' ->
  exists ri new, eff b a it ri new /\ c_items st' = upd (c_items st) i ri ++ map Some new /\
    forall h r, c_todo st = h :: r -> exists r', c_todo st' = h :: r'.
Proof.
  intros st i b a st' it Hl H. pose proof (lives_lt _ _ _ Hl) as Hlt. unfold compress_item in H. unfold lives in Hl.
  rewrite Hl in H. destruct it as [p n|x|p l c|p l|v].
  - destruct ((length p =? 1) && (length n =? 1) && existsb (arg_is a) p) eqn:E.
    + inversion H; subst; clear H. apply andb_true_iff in E. destruct E as [E E3]. apply andb_true_iff in E. destruct E as [E1 E2].
      apply Nat.eqb_eq in E1, E2. destruct p as [|x [|]]; try discriminate. destruct n as [|y [|]]; try discriminate.
      cbn in E3. rewrite orb_false_r in E3. apply arg_is_spec in E3. subst x.
      exists None, []. split; [constructor|]. cbn. rewrite app_nil_r. split; [reflexivity|]. eauto.
    + apply bind_ok in H. destruct H as ([s1 c] & H1 & H2). inversion H2; subst; clear H2.
      destruct (rename_spec _ _ _ _ _ _ _ H1) as (Hi & -> & Hv & _ & Hh).
      exists None. eexists. split; [apply E_clause; [exact Hv|]|split].
      * intros [-> E2]. rewrite E2 in E. cbn in E. rewrite Nat.eqb_refl in E. discriminate.
      * cbn [c_items remove_item]. rewrite add_items, Hi, subst1_twice. rewrite upd_app by assumption. reflexivity.
      * intros h r Ht. destruct (Hh h r Ht) as (r1 & Ht1). cbn [c_todo remove_item]. eapply add_hd, Ht1.
  - inversion H; subst; clear H. eexists _, _. split; [constructor|]. rewrite upd_id by assumption.
    cbn. rewrite app_nil_r. split; eauto.
  - inversion H; subst; clear H. eexists _, _. split; [constructor|]. rewrite track_items. cbn [c_items map].
    rewrite app_nil_r. split; [reflexivity|]. intros h r Ht. eapply track_hd. cbn. exact Ht.
  - inversion H; subst; clear H. eexists _, _. split; [constructor|]. rewrite upd_id by assumption.
    cbn. rewrite app_nil_r. split; eauto.
  - destruct (v_def (V v)) as [[l|l|p l h]|] eqn:Ed; [| | |discriminate].
    + inversion H; subst; clear H. eexists _, _. split; [eapply E_forall, Ed|]. rewrite upd_id by assumption.
      split; [apply add_conjuncts_items|]. intros h r Ht. eapply add_conjuncts_hd, Ht.
    + destruct (v_pos (V v)) eqn:Ep.
      * destruct l as [|x l]; [discriminate|]. inversion H; subst; clear H. destruct (arg_is a x) eqn:Ex.
        -- apply arg_is_spec in Ex. subst x. exists None, []. split; [eapply E_exists_drop; eauto|]. cbn. rewrite app_nil_r.
           split; eauto.
        -- exists None. eexists. split; [eapply E_exists; eauto|].
           { intros ->. cbn in Ex. rewrite Nat.eqb_refl in Ex. discriminate. }
           cbn [c_items remove_item]. rewrite add_items, upd_app by assumption. split; [reflexivity|].
           intros h r Ht. cbn [c_todo remove_item]. eapply add_hd, Ht.
      * inversion H; subst; clear H. eexists _, _. split; [eapply E_exists_not; eauto|]. rewrite upd_id by assumption.
        cbn. rewrite app_nil_r. split; eauto.
    + destruct (v_pos (V v)) eqn:Ep; inversion H; subst; clear H.
      * eexists _, _. split; [eapply E_call; eauto|]. rewrite upd_id by assumption. rewrite add_items. split; [reflexivity|].
        intros h' r Ht. eapply add_hd, Ht.
      * eexists _, _. split; [eapply E_call_not; eauto|]. rewrite upd_id by assumption.
        cbn. rewrite app_nil_r. split; eauto.
Qed.

(** the items after compressing item i *)
Lemma items_after : forall (l : list (option item)) i ri new j it, i < length l ->
  nth_error (upd l i ri ++ map Some new) j = Some (Some it) ->
  (j <> i /\ nth_error l j = Some (Some it)) \/ (j = i /\ ri = Some it) \/ (length l <= j /\ In it new).
Proof.
  intros l i ri new j it Hi H. destruct (Nat.lt_ge_cases j (length l)) as [Hj|Hj].
  - rewrite nth_error_app1 in H by (rewrite upd_length; exact Hj).
    destruct (Nat.eq_dec j i) as [->|n].
    + destruct (nth_error l i) as [y|] eqn:E; [|apply nth_error_None in E; lia].
      rewrite (upd_same _ _ _ _ _ E) in H. inversion H. auto.
    + rewrite upd_other in H by auto. auto.
  - rewrite nth_error_app2 in H by (rewrite upd_length; exact Hj). rewrite upd_length in H.
    apply nth_error_In in H. apply in_map_iff in H. destruct H as (x & Hx & Hin). inversion Hx; subst. auto.
Qed.
Lemma items_keep : forall (l : list (option item)) i ri new j x, j <> i ->
  nth_error l j = Some x -> nth_error (upd l i ri ++ map Some new) j = Some x.
Proof.
  intros l i ri new j x Hj H. rewrite nth_error_app1.
  - rewrite upd_other by auto. exact H.
  - rewrite upd_length. apply nth_error_Some. congruence.
Qed.
Lemma items_self : forall (l : list (option item)) i ri new, i < length l ->
  nth_error (upd l i ri ++ map Some new) i = Some ri.
Proof.
  intros l i ri new H. rewrite nth_error_app1 by (rewrite upd_length; exact H).
  destruct (nth_error l i) as [y|] eqn:E; [|apply nth_error_None in E; lia].
  exact (upd_same _ _ _ _ _ E).
Qed.
Lemma items_new : forall (l : list (option item)) i ri new it, In it new ->
  exists j, length l <= j /\ nth_error (upd l i ri ++ map Some new) j = Some (Some it).
Proof.
  intros l i ri new it H. apply In_nth_error in H. destruct H as (k & Hk). exists (length l + k). split; [lia|].
  rewrite nth_error_app2 by (rewrite upd_length; lia). rewrite upd_length.
  replace (length l + k - length l) with k by lia. rewrite nth_error_map, Hk. reflexivity.
Qed.

(** every entry stands for one occurrence in an item that is still there *)
Definition kcount (st : cst) (v i : nat) : nat :=
  match nth_error (c_items st) i with Some (Some it) => count_occ Nat.eq_dec (keys V hr it) v | _ => 0 end.
Definition inv (st : cst) : Prop := forall v i, cnt (v, i) st <= kcount st v i.

Lemma inv_key : forall st v i, inv st -> In (v, i) (ents st) -> exists it, lives st i it /\ In v (keys V hr it).
Proof.
  intros st v i Hi H. specialize (Hi v i). unfold kcount in Hi. unfold cnt in Hi.
  apply (count_occ_In pdec) in H. unfold lives.
  destruct (nth_error (c_items st) i) as [[it|]|]; try lia.
  exists it. split; [reflexivity|]. apply (count_occ_In Nat.eq_dec). lia.
Qed.

Lemma inv_add : forall st it, inv st -> inv (add_item V hr st it).
Proof.
  intros st it H v j. rewrite add_cnt. specialize (H v j). unfold kcount in *. rewrite add_items.
  destruct (j =? length (c_items st)) eqn:E.
  - apply Nat.eqb_eq in E. subst j. rewrite nth_error_app2 by lia. rewrite Nat.sub_diag. cbn.
    rewrite (proj2 (nth_error_None _ _)) in H by lia. lia.
  - apply Nat.eqb_neq in E. destruct (Nat.lt_ge_cases j (length (c_items st))) as [Hj|Hj].
    + rewrite nth_error_app1 by exact Hj. exact H.
    + rewrite (proj2 (nth_error_None (c_items st) j)) in H by lia. lia.
Qed.
Lemma nokey_add : forall st it b, (forall j, cnt (b, j) st = 0) -> ~ In b (keys V hr it) ->
  forall j, cnt (b, j) (add_item V hr st it) = 0.
Proof.
  intros st it b H Hn j. rewrite add_cnt, H. rewrite (proj1 (count_occ_not_In Nat.eq_dec _ _) Hn).
  destruct (_ =? _); reflexivity.
Qed.

Lemma inv_remove : forall st i, inv st -> (forall v, cnt (v, i) st = 0) -> inv (remove_item st i).
Proof.
  intros st i H H0 v j. specialize (H v j). unfold kcount in *. cbn [c_items remove_item].
  change (cnt (v, j) (remove_item st i)) with (cnt (v, j) st).
  destruct (Nat.eq_dec j i) as [->|n].
  - rewrite H0. lia.
  - rewrite upd_other by auto. exact H.
Qed.

Lemma inv_conjuncts : forall l st a b, a <> b -> inv st -> (forall j, cnt (b, j) st = 0) ->
  inv (add_conjuncts V hr st a l) /\ forall j, cnt (b, j) (add_conjuncts V hr st a l) = 0.
Proof.
  induction l as [|x l IH]; intros st a b Hab H H0; cbn [add_conjuncts]; [auto|].
  destruct (arg_is a x); [apply IH; auto|]. apply IH; [exact Hab| |].
  - apply inv_add, H.
  - apply nokey_add; [exact H0|]. cbn. tauto.
Qed.

Lemma inv_compress_item : forall st i b a st' it, a <> b -> inv st -> (forall j, cnt (b, j) st = 0) ->
  lives st i it -> In b (keys V hr it) -> compress_item V hr st i b a = Ok st' ->
  inv st' /\ forall j, cnt (b, j) st' = 0.
Proof.
  intros st i b a st' it Hab H H0 Hl Hk Hc. pose proof (lives_lt _ _ _ Hl) as Hlt.
  unfold compress_item in Hc. unfold lives in Hl. rewrite Hl in Hc.
  destruct it as [p n|x|p l c|p l|v].
  - destruct ((length p =? 1) && (length n =? 1) && existsb (arg_is a) p) eqn:E.
    + inversion Hc; subst; clear Hc. split; [|exact H0].
      apply inv_remove; [exact H|]. intros v. specialize (H v i). unfold kcount in H. rewrite Hl in H.
      apply andb_true_iff in E. destruct E as [E _]. apply andb_true_iff in E. destruct E as [_ E2]. apply Nat.eqb_eq in E2.
      destruct n as [|y [|]]; try discriminate. cbn in Hk, H. destruct y as [w|]; cbn in Hk, H; [|tauto].
      destruct Hk as [->|[]]. destruct (Nat.eq_dec b v) as [<-|]; [apply H0|lia].
    + apply bind_ok in Hc. destruct Hc as ([s1 c] & H1 & H2). inversion H2; subst; clear H2.
      destruct (rename_spec _ _ _ _ _ _ _ H1) as (Hi & -> & Hv & Hn & _). rewrite subst1_twice.
      assert (inv s1) as Hs1.
      { intros v j. rewrite Hn. specialize (H v j). unfold kcount in *. rewrite Hi.
        etransitivity; [|exact H]. destruct ((j =? i) && negb (v =? b)); [apply Nat.le_sub_l|reflexivity]. }
      assert (forall j, cnt (b, j) s1 = 0) as Hb1.
      { intros j. rewrite Hn, Nat.eqb_refl, andb_false_r. apply H0. }
      assert (forall v, cnt (v, i) s1 = 0) as Hi1.
      { intros v. rewrite Hn. rewrite Nat.eqb_refl. cbn [andb]. destruct (v =? b) eqn:Ev; cbn [negb].
        - apply Nat.eqb_eq in Ev. subst v. apply H0.
        - specialize (H v i). unfold kcount in H. rewrite Hl in H. cbn [keys] in H. lia. }
      split.
      * apply inv_remove; [apply inv_add, Hs1|]. intros v. rewrite add_cnt, Hi1, Hi.
        destruct (i =? length (c_items st)) eqn:E'; [apply Nat.eqb_eq in E'; lia|reflexivity].
      * intros j. change (cnt (b, j) (remove_item (add_item V hr s1 (Clause p (map (subst1 b a) n))) i)) with
          (cnt (b, j) (add_item V hr s1 (Clause p (map (subst1 b a) n)))).
        apply nokey_add; [exact Hb1|]. cbn [keys]. rewrite avars_in. intros Hin.
        apply subst1_in in Hin; [|exact Hab]. tauto.
  - inversion Hc; subst; auto.
  - inversion Hc; subst; clear Hc. cbn in Hk. destruct c as [w|]; cbn in Hk; [|tauto]. destruct Hk as [->|[]].
    set (st1 := mkC (upd (c_items st) i (Some (Imp p l (AVar a)))) (c_done st) (c_todo st)).
    assert (forall v j, cnt (v, j) st1 = cnt (v, j) st) as Hs1 by reflexivity.
    split.
    + intros v j. rewrite track_cnt, Hs1. unfold kcount. rewrite track_items. cbn [c_items st1].
      destruct (j =? i) eqn:E.
      * apply Nat.eqb_eq in E. subst j. rewrite (upd_same _ _ _ _ _ Hl).
        assert (cnt (v, i) st = 0); [|lia]. specialize (H v i). unfold kcount in H. rewrite Hl in H. cbn in H.
        destruct (Nat.eq_dec b v) as [<-|]; [apply H0|lia].
      * apply Nat.eqb_neq in E. rewrite upd_other by auto. exact (H v j).
    + intros j. rewrite track_cnt, Hs1, H0. cbn [keys avars]. destruct (j =? i); [|reflexivity].
      cbn. destruct (Nat.eq_dec a b); [congruence|reflexivity].
  - cbn in Hk. tauto.
  - assert (v = b) as ->.
    { cbn in Hk. destruct (v_def (V v)) as [[]|]; repeat match goal with H : context [if ?c then _ else _] |- _ => destruct c end;
      cbn in Hk; tauto. }
    assert (forall v, cnt (v, i) st = 0) as Hz.
    { intros v. destruct (Nat.eq_dec v b) as [->|n]; [apply H0|]. specialize (H v i). unfold kcount in H. rewrite Hl in H.
      assert (count_occ Nat.eq_dec (keys V hr (Decl b)) v = 0) as Hc0; [|lia].
      apply count_occ_not_In. cbn. destruct (v_def (V b)) as [[]|]; try (cbn; tauto);
      repeat match goal with |- context [if ?c then _ else _] => destruct c end; cbn; intuition congruence. }
    destruct (v_def (V b)) as [[l|l|p l h]|] eqn:Ed; [| | |discriminate].
    + inversion Hc; subst; clear Hc. apply inv_conjuncts; auto.
    + destruct (v_pos (V b)); [|inversion Hc; subst; auto].
      destruct l as [|x l]; [discriminate|]. inversion Hc; subst; clear Hc.
      destruct (arg_is a x).
      * split; [apply inv_remove; auto|exact H0].
      * split.
        -- apply inv_remove; [apply inv_add, H|]. intros v. rewrite add_cnt, Hz.
           destruct (i =? length (c_items st)) eqn:E'; [apply Nat.eqb_eq in E'; lia|reflexivity].
        -- intros j. change (cnt (b, j) (remove_item (add_item V hr st (Clause (x :: l) [AVar a])) i)) with
             (cnt (b, j) (add_item V hr st (Clause (x :: l) [AVar a]))).
           apply nokey_add; [exact H0|]. cbn. tauto.
    + destruct (v_pos (V b)); inversion Hc; subst; auto. split; [apply inv_add, H|].
      apply nokey_add; [exact H0|]. cbn. tauto.
Qed.
End S.
