(** Proofs for C22, part 7: the properties. *)
Require Import ZArith List Bool Lia Permutation ZifyBool.
From Verif Require Import Base RootModel GcModel GcSpec GcProofs GcProofs2 GcProofs3 GcProofs4 GcProofs5 GcProofs6.
Import ListNotations.
Open Scope Z_scope.
#[local] Arguments Z.add : simpl never.
#[local] Arguments Z.mul : simpl never.
#[local] Arguments Z.sub : simpl never.

Lemma alloc_spec : forall h k base, heap_state h -> free_kind k = false -> malloc_ok h k base ->
  exists h' a, gc_new k base h = Ok (h', a) /\ a <> 0 /\ contents h a = None /\ contents h' a = Some k /\ forall x, x <> a -> contents h' x = contents h x.
Proof.
  intros h k base Hh Hf Hm. destruct (state_inv h Hh) as (Ls & Hi & T). destruct (gc_new_ok h Ls k base Hi Hf Hm) as (h' & a & Ls' & E & Hi' & Ha & Hx).
  exists h', a. split; [exact E|]. assert (contents h' a = Some k) as Hk by (rewrite Hx, Z.eqb_refl; reflexivity). split; [|split; [exact Ha|]; split; [exact Hk|]].
  - apply contents_node in Hk. destruct Hk as (n & En & _). pose proof (hinv_pos h' Ls' a Hi' ltac:(congruence)). lia.
  - intros x Hxa. rewrite Hx. apply Z.eqb_neq in Hxa. rewrite Hxa. reflexivity.
Qed.

Lemma collect_spec : forall h keep markers trail, heap_state h -> typed_roots (hp_mem h) keep markers trail -> markers <> [] ->
  let lv := live (hp_mem h) (root_refs keep markers trail) in
  exists h' N, (forall fuel, (N <= fuel)%nat -> trigger fuel keep markers trail h = Ok h') /\
    forall a k', contents h' a = Some k' <-> exists k, contents h a = Some k /\ lv a /\ survives lv k k'.
Proof.
  intros h keep markers trail Hh Tr Hm lv. destruct (state_inv h Hh) as (Ls & Hi & T). destruct (collect_ok h Ls keep markers trail Hi T Tr Hm) as (N & HN).
  destruct (HN N (le_n N)) as (h' & Ls' & E & _ & _ & Hc). exists h', N. split; [|exact Hc]. intros fuel Hf. exact (trigger_mono N fuel keep markers trail h Hf h' E).
Qed.

Lemma points_contents : forall h P a, points P (hp_mem h) a -> class P -> exists k, contents h a = Some k /\ P k = true.
Proof. intros h P a (n & E & H) C. exists (n_kind n). split; [|exact H]. apply contents_node. exists n. split; [exact E|]. split; [reflexivity|]. eapply class_nonfree; eauto. Qed.

Lemma refs_class : forall m k r, typed_kind m k -> m 0 = None -> In r (refs k) -> exists P, class P /\ points P m r.
Proof.
  intros m k r T M0 Hr.
  assert (forall P p, class P -> isp P m p -> In r (opt p) -> exists P, class P /\ points P m r) as Hisp.
  { intros P p C H Hin. unfold opt in Hin. destruct (p =? 0) eqn:E0; [destruct Hin|]. destruct Hin as [<-|[]]. destruct H as [H|H]; [lia|eauto]. }
  assert (forall v, isv m v -> In r (vnode v) -> exists P, class P /\ points P m r) as Hisv.
  { intros [|z|a] H Hin; cbn in *; try contradiction. destruct Hin as [<-|[]]. exists kexpr. split; [apply c_expr|exact H]. }
  assert (forall l, Forall (isv m) l -> In r (vnodes l) -> exists P, class P /\ points P m r) as Hisvs.
  { intros l H Hin. unfold vnodes in Hin. apply in_flat_map in Hin. destruct Hin as (v & Hv & Hin). rewrite Forall_forall in H. exact (Hisv v (H v Hv) Hin). }
  assert (forall P p, class P -> points P m p -> In r (opt p) -> exists P, class P /\ points P m r) as Hpt.
  { intros P p C H Hin. apply (Hisp P p C); [right; exact H|exact Hin]. }
  pose proof c_str. pose proof c_chunk. pose proof c_vec. pose proof c_loc. pose proof c_fun. pose proof c_expr.
  destruct k as [| | | | |loc ann e|loc i]; cbn in T, Hr; try contradiction.
  - eauto.
  - destruct T. eauto.
  - destruct T as (Tl & Ta & Te). rewrite !in_app_iff in Hr. destruct Hr as [Hr|[Hr|Hr]]; [eauto|eauto|].
    destruct e; cbn in Te, Hr; rewrite ?in_app_iff in Hr; try contradiction; decompose [and] Te; try solve [decompose [or] Hr; eauto | eauto].
    + decompose [or] Hr; [|eauto]. destruct named; [eauto|contradiction].
    + decompose [or] Hr; [|eauto]. destruct slice; eauto.
    + decompose [or] Hr; [destruct hasDecl; eauto|]. destruct (5 <=? ck); [eauto|]. match goal with H : _ /\ _ |- _ => destruct H end. eauto.
  - destruct T as (Tl & Te). rewrite !in_app_iff in Hr. destruct Hr as [Hr|Hr]; [eauto|].
    destruct i; cbn in Te, Hr; rewrite ?in_app_iff in Hr; decompose [and] Te; try solve [decompose [or] Hr; eauto | eauto].
Qed.

Lemma safe_spec : forall h a k, heap_state h -> contents h a = Some k ->
  (forall r, In r (refs k) -> contents h r <> None) /\ (flat_of k = 0 \/ exists k', contents h (flat_of k) = Some k' /\ is_vardecl k' = true).
Proof.
  intros h a k Hh Hc. destruct (state_inv h Hh) as (Ls & Hi & [T0 T]). apply contents_node in Hc. destruct Hc as (n & En & <- & Hf). pose proof (T a n En) as Tk. split.
  - intros r Hr. destruct (refs_class _ _ _ Tk T0 Hr) as (P & C & Hp). destruct (points_contents h P r Hp C) as (k & Hk & _). congruence.
  - destruct (flat_typed _ _ Tk) as [F|F]; [left; exact F|right]. exact (points_contents h is_vardecl _ F c_vd).
Qed.

Lemma extents_spec : forall h a k, heap_state h -> contents h a = Some k ->
  (exists p, In p (hp_pages h) /\ p_base p <= a /\ a + nodesize k <= p_base p + p_size p) /\
  forall b k', contents h b = Some k' -> b <> a -> apart a (nodesize k) b (nodesize k').
Proof.
  intros h a k Hh Hc. destruct (state_inv h Hh) as (Ls & [Hl Hr] & T). apply contents_node in Hc. destruct Hc as (n & En & <- & Hf).
  pose proof (l_lay _ _ _ _ _ _ Hl) as Lay.
  assert (In a (concat Ls)) as Ha by (apply (l_dom _ _ _ _ _ _ Hl); congruence). destruct (lay_in _ _ _ _ Lay Ha) as (p & L & Hp & Hok & HL & Hcb).
  pose proof (page_in _ _ _ _ Hok HL) as (A1 & A2 & _). pose proof (pg_used _ _ _ Hok). assert (nsz (hp_mem h) a = nodesize (n_kind n)) as Hn by (unfold nsz; rewrite En; reflexivity). split.
  - exists p. split; [exact Hp|]. lia.
  - intros b k' Hcb' Hne. apply contents_node in Hcb'. destruct Hcb' as (n' & En' & <- & Hf'). assert (In b (concat Ls)) as Hb by (apply (l_dom _ _ _ _ _ _ Hl); congruence).
    destruct (lay_in _ _ _ _ Lay Hb) as (q & M & Hq & Hokq & HM & Hcq). pose proof (page_in _ _ _ _ Hokq HM) as (B1 & B2 & B3 & _). pose proof (pg_used _ _ _ Hokq). assert (nsz (hp_mem h) b = nodesize (n_kind n')) as Hn' by (unfold nsz; rewrite En'; reflexivity).
    destruct (in_page p b) eqn:Eb.
    + destruct (pl_sep _ _ _ Lay (l_disj _ _ _ _ _ _ Hl) q M p L b Hcq Hcb HM Eb) as [-> ->]. pose proof (tiled_apart _ _ _ _ a b (pg_tiled _ _ _ Hok) HL HM (not_eq_sym Hne)) as Hap. rewrite Hn, Hn' in Hap. exact Hap.
    + destruct (in_page q a) eqn:Ea.
      * destruct (pl_sep _ _ _ Lay (l_disj _ _ _ _ _ _ Hl) p L q M a Hcb Hcq HL Ea) as [-> ->]. unfold in_page in Eb. exfalso. lia.
      * unfold in_page in *. unfold apart.
        destruct (Z_lt_le_dec a b) as [Hab|Hab].
        -- left. destruct (Z_lt_le_dec b (p_base p)); lia.
        -- right. destruct (Z_lt_le_dec a (p_base q)); lia.
Qed.

Lemma sum_filter : forall (f : ptr -> bool) (g : ptr -> Z) l, (forall x, f x = false -> g x = 0) -> sum (map g l) = sum (map g (filter f l)).
Proof. intros f g l H. induction l as [|x l IH]; [reflexivity|]. cbn [map filter]. rewrite sum_cons. destruct (f x) eqn:E; cbn [map]; rewrite ?sum_cons; [lia|]. rewrite (H x E). lia. Qed.
Lemma sum_const : forall (g : ptr -> Z) c l, (forall x, In x l -> g x = c) -> sum (map g l) = c * Z.of_nat (length l).
Proof. intros g c l H. induction l as [|x l IH]; [cbn; lia|]. cbn [map length]. rewrite sum_cons, IH by (intros; apply H; right; auto). rewrite (H x (or_introl eq_refl)). lia. Qed.

Lemma accounting_spec : forall h, heap_state h -> exists objs, objects_of h objs /\
  hp_alloced h = sum (map p_size (hp_pages h)) /\
  hp_alloced h - hp_free h = sum (map (object_size h) objs) /\
  hp_free h = sum (map (fun s => (24 + 8 * s) * Z.of_nat (length (hp_fl h s))) all_slots) + sum (map (fun p => p_size p - p_used p) (hp_pages h)) /\
  0 <= hp_free h <= hp_alloced h.
Proof.
  intros h Hh. destruct (state_inv h Hh) as (Ls & [Hl Hr] & T). pose proof (l_lay _ _ _ _ _ _ Hl) as Lay. pose proof (lay_nodup _ _ _ Lay (l_disj _ _ _ _ _ _ Hl)) as ND.
  set (isobj := at_node (fun n => negb (free_kind (n_kind n))) (hp_mem h)). exists (filter isobj (concat Ls)). split; [|split; [|split; [|split]]].
  - split; [apply NoDup_filter; exact ND|]. intros a. rewrite filter_In. unfold isobj, at_node, contents. rewrite <- (l_dom _ _ _ _ _ _ Hl). destruct (hp_mem h a) as [n|]; [|intuition discriminate]. destruct (free_kind (n_kind n)); cbn; intuition congruence.
  - exact (l_al _ _ _ _ _ _ Hl).
  - rewrite (linv_acc _ _ _ _ _ _ Hl). rewrite (sum_filter isobj (osz (hp_mem h))).
    + apply sum_ext. intros x Hx. unfold osz, nsz, fsz, object_size, contents. destruct (hp_mem h x) as [n|]; [|reflexivity]. destruct (free_kind (n_kind n)); lia.
    + intros x. unfold isobj, at_node, osz, nsz, fsz. destruct (hp_mem h x) as [n|]; [|reflexivity]. destruct (free_kind (n_kind n)); cbn; [lia|discriminate].
  - rewrite (l_fr _ _ _ _ _ _ Hl). f_equal. set (isfree := at_node (fun n => free_kind (n_kind n)) (hp_mem h)). rewrite (sum_filter isfree).
    2:{ intros x. unfold isfree, at_node, fsz. destruct (hp_mem h x) as [n|]; [|reflexivity]. destruct (free_kind (n_kind n)); [discriminate|reflexivity]. }
    assert (Permutation (filter isfree (concat Ls)) (concat (map (hp_fl h) all_slots))) as P.
    { assert (forall s x, In x (hp_fl h s) -> 0 <= s <= 9 /\ hp_mem h x = Some (mkN (KFree (24 + 8 * s)) true false)) as Hfl by (intros s x Hx; apply (l_fl _ _ _ _ _ _ Hl); exact Hx).
      apply NoDup_Permutation; [apply NoDup_filter; exact ND| |].
      - assert (NoDup all_slots) as NDs by (unfold all_slots; repeat constructor; cbn; intuition lia). clear - Hl Hfl NDs. induction NDs as [|s l Hs NDs IH]; [constructor|]. cbn [map concat].
        assert (forall x, In x (hp_fl h s) -> ~ In x (concat (map (hp_fl h) l))) as Hdis.
        { intros x Hx Hin. apply in_concat in Hin. destruct Hin as (L & HL & Hin). apply in_map_iff in HL. destruct HL as (t & <- & Ht). destruct (Hfl s x Hx) as [_ E1]. destruct (Hfl t x Hin) as [_ E2]. rewrite E1 in E2. apply free_inj in E2. assert (s = t) by lia. subst t. contradiction. }
        pose proof (l_nd _ _ _ _ _ _ Hl s) as NF. clear - NF IH Hdis. induction NF as [|x r Hx NF IHr]; [exact IH|]. cbn. constructor; [|apply IHr; intros y Hy; apply Hdis; right; exact Hy]. rewrite in_app_iff. intros [H|H]; [contradiction|]. exact (Hdis x (or_introl eq_refl) H).
      - intros x. rewrite filter_In, (in_concat (map (hp_fl h) all_slots)). unfold isfree, at_node. split.
        + intros [_ Hf]. destruct (hp_mem h x) as [n|] eqn:En; [|discriminate]. pose proof (l_node _ _ _ _ _ _ Hl x n En) as Hn. rewrite Hf in Hn. destruct Hn as (s & Hs & ->). exists (hp_fl h s). split; [|apply (l_fl _ _ _ _ _ _ Hl); auto]. apply in_map. unfold all_slots. cbn. lia.
        + intros (L & HL & Hin). apply in_map_iff in HL. destruct HL as (s & <- & _). destruct (Hfl s x Hin) as [_ E]. split; [apply (l_dom _ _ _ _ _ _ Hl); congruence|]. rewrite E. reflexivity. }
    rewrite (sum_perm _ _ (Permutation_map _ P)). clear P.
    assert (forall l, sum (map (fsz (hp_mem h)) (concat (map (hp_fl h) l))) = sum (map (fun s => (24 + 8 * s) * Z.of_nat (length (hp_fl h s))) l)) as Hs.
    { induction l as [|s l IH]; [reflexivity|]. cbn [map concat]. rewrite map_app, sum_app, sum_cons, IH. f_equal. apply sum_const. intros x Hx. apply (l_fl _ _ _ _ _ _ Hl) in Hx. destruct Hx as [Hs E]. unfold fsz. rewrite E. cbn [n_kind free_kind]. apply nodesize_free. }
    apply Hs.
  - split; [|exact (linv_le _ _ _ _ _ _ Hl)]. rewrite (l_fr _ _ _ _ _ _ Hl). assert (0 <= sum (map (fsz (hp_mem h)) (concat Ls))) as H1.
    { apply sum_nonneg. rewrite Forall_map, Forall_forall. intros a Ha. destruct (lay_in _ _ _ _ Lay Ha) as (p & L & _ & Hp & HL & _). pose proof (page_in _ _ _ _ Hp HL) as (_ & _ & H1 & H2). pose proof (fsz_range _ a H2 H1). lia. }
    assert (0 <= sum (map rem (hp_pages h))) as H2.
    { apply sum_nonneg. rewrite Forall_map. clear - Lay. induction Lay as [|p L qs Ms Hp H IH]; constructor; auto. pose proof (pg_used _ _ _ Hp). unfold rem. lia. }
    lia.
Qed.

(** ** Changing the class of a node *)
Lemma call_args_spec : forall m new vecp hd u ck data args e', 0 <= ck <= 5 ->
  call_args m new vecp (ECall hd u ck data args) = Ok e' -> expr_size e' = expr_size (ECall hd u ck data args).
Proof.
  intros m new vecp hd u ck data args e' Hck H. unfold call_args in H. apply bind_ok in H. destruct H as (n & En & H). unfold call_count in En. cbn [expr_size].
  destruct (n =? Z.of_nat (length new)) eqn:E1; [injection H as <-; reflexivity|]. destruct ((n =? 0) && (Z.of_nat (length new) =? 1)) eqn:E2.
  - injection H as <-. cbn [expr_size]. destruct (5 <=? ck) eqn:E5; [assert (ck = 5) as -> by lia; reflexivity|]. injection En as <-. assert (ck = 0) as -> by lia. reflexivity.
  - injection H as <-. cbn [expr_size]. unfold call_size. destruct (Z.eq_dec ck 0) as [->|]; [reflexivity|]. destruct (Z.eq_dec ck 1) as [->|]; [reflexivity|]. destruct (Z.eq_dec ck 2) as [->|]; [reflexivity|].
    destruct (Z.eq_dec ck 3) as [->|]; [reflexivity|]. destruct (Z.eq_dec ck 4) as [->|]; [reflexivity|]. assert (ck = 5) as -> by lia. reflexivity.
Qed.
Lemma binop_morph_spec : forall m ident new vecp l r d e', binop_morph m ident new vecp (EBinOp l r d) = Ok e' -> expr_size e' = expr_size (EBinOp l r d).
Proof. intros m ident new vecp l r d e' H. unfold binop_morph in H. apply call_args_spec in H; [|lia]. rewrite H. reflexivity. Qed.

(** an assignment that keeps the class of the object keeps the memory typed *)
Lemma write_typed : forall m a n k', typed m -> m a = Some n -> (forall P, class P -> P (n_kind n) = true -> P k' = true) ->
  typed_kind m k' -> typed (mput m a (mkN k' false false)).
Proof.
  intros m a n k' [T0 T] En HP Tk. assert (carries m (mput m a (mkN k' false false)) (fun _ => True)) as HC.
  { intros b nb _ Eb Hf. unfold mput. destruct (b =? a) eqn:Eba; [|eauto]. apply Z.eqb_eq in Eba. subst b. rewrite En in Eb. injection Eb as <-. eauto. }
  split.
  - unfold mput. destruct (0 =? a) eqn:E0; [|exact T0]. apply Z.eqb_eq in E0. subst a. congruence.
  - intros b nb. unfold mput at 1. destruct (b =? a).
    + intros H. injection H as <-. cbn [n_kind]. apply (typed_c _ _ _ HC T0); auto.
    + intros H. apply (typed_c _ _ _ HC T0); auto. exact (T b nb H).
Qed.
