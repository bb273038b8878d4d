(** Proofs for C22, part 3: the layout of the pages, and allocation. *)
Require Import ZArith List Bool Lia Permutation ZifyBool.
From Verif Require Import Base RootModel GcModel GcSpec GcProofs GcProofs2.
Import ListNotations.
Open Scope Z_scope.
#[local] Arguments Z.add : simpl never.
#[local] Arguments Z.mul : simpl never.
#[local] Arguments Z.sub : simpl never.

Lemma align8_mod : forall s, align8 s mod 8 = 0.
Proof.
  intros s. unfold align8. rewrite <- Zplus_mod_idemp_l. pose proof (Z.mod_pos_bound s 8 ltac:(lia)) as H.
  assert (s mod 8 = 0 \/ s mod 8 = 1 \/ s mod 8 = 2 \/ s mod 8 = 3 \/ s mod 8 = 4 \/ s mod 8 = 5 \/ s mod 8 = 6 \/ s mod 8 = 7) as C by lia.
  destruct C as [->|[->|[->|[->|[->|[->|[->| ->]]]]]]]; reflexivity.
Qed.
Lemma align8_bound : forall s, s <= align8 s < s + 8.
Proof. intros s. unfold align8. pose proof (Z.mod_pos_bound (8 - s mod 8) 8 ltac:(lia)). lia. Qed.
Lemma align8_id : forall s, s mod 8 = 0 -> align8 s = s.
Proof. intros s H. unfold align8. rewrite H. change ((8 - 0) mod 8) with 0. lia. Qed.
Lemma nodesize_mod : forall k, nodesize k mod 8 = 0.
Proof. intros k. apply align8_mod. Qed.
Lemma nodesize_align : forall k, align8 (nodesize k) = nodesize k.
Proof. intros k. apply align8_id, nodesize_mod. Qed.
Lemma nodesize_pos : forall k, free_kind k = false -> 24 <= nodesize k.
Proof.
  intros k H. unfold nodesize. destruct k; try discriminate; match goal with |- _ <= align8 ?x => pose proof (align8_bound x) end.
  - pose proof (align8_bound (24 + (if n <=? 4 then 0 else n - 4))). destruct (n <=? 4) eqn:E; lia.
  - pose proof (align8_bound (24 + (if n <=? 4 then 0 else n - 4))). destruct (n <=? 4) eqn:E; lia.
  - set (z := Z.of_nat (length l)) in *. pose proof (align8_bound (32 + (if z <=? 2 then 0 else z - 2) * 8)). destruct (z <=? 2) eqn:E; lia.
  - pose proof (align8_bound (32 + (if n <=? 2 then 0 else n - 2) * 8)). destruct (n <=? 2) eqn:E; lia.
  - destruct e; cbn in *; try lia. unfold call_size in *. repeat match goal with |- context [if ?b then _ else _] => destruct b end; lia.
  - destruct i; cbn in *; lia.
Qed.
Lemma nodesize_flat : forall f k, nodesize (set_flat f k) = nodesize k.
Proof. intros f [| | | | |loc ann e|loc i]; try reflexivity. destruct e; reflexivity. Qed.
Lemma nodesize_free : forall s, nodesize (KFree (24 + 8 * s)) = 24 + 8 * s.
Proof. intros s. unfold nodesize. apply align8_id. rewrite Z.add_mod by lia. rewrite (Z.mul_comm 8 s), Z.mod_mul by lia. reflexivity. Qed.

(** ** Pages *)
Definition nsz (m : mem) (a : ptr) : Z := match m a with Some n => nodesize (n_kind n) | None => 0 end.
Definition fsz (m : mem) (a : ptr) : Z := match m a with Some n => if free_kind (n_kind n) then nodesize (n_kind n) else 0 | None => 0 end.

Fixpoint tiled (m : mem) (a e : Z) (L : list ptr) : Prop :=
  match L with
  | [] => a = e
  | x :: L' => x = a /\ m a <> None /\ 0 < nsz m a /\ tiled m (a + nsz m a) e L'
  end.
Definition small (m : mem) (a : ptr) : Prop := 24 <= nsz m a <= 96.
Record page_ok (m : mem) (p : page) (L : list ptr) : Prop := {
  pg_tiled : tiled m (p_base p) (p_base p + p_used p) L;
  pg_used : 0 <= p_used p <= p_size p;
  pg_mod : p_used p mod 8 = 0 /\ p_size p mod 8 = 0;
  pg_base : 0 < p_base p;
  pg_small : Forall (small m) L \/ (exists a, L = [a]) /\ p_used p = p_size p }.
Definition rem (p : page) : Z := p_size p - p_used p.
Definition disj (p q : page) : Prop := apart (p_base p) (p_size p) (p_base q) (p_size q).

Record linv (m : mem) (ps : list page) (Ls : list (list ptr)) (fl : Z -> list ptr) (al fr : Z) : Prop := {
  l_lay : Forall2 (page_ok m) ps Ls;
  l_dom : forall a, m a <> None <-> In a (concat Ls);
  l_disj : ForallOrdPairs disj ps;
  l_fl : forall s a, In a (fl s) <-> 0 <= s <= 9 /\ m a = Some (mkN (KFree (24 + 8 * s)) true false);
  l_nd : forall s, NoDup (fl s);
  l_node : forall a n, m a = Some n -> if free_kind (n_kind n) then exists s, 0 <= s <= 9 /\ n = mkN (KFree (24 + 8 * s)) true false
                                       else n_mark n = false /\ n_vd n = false;
  l_al : al = sum (map p_size ps);
  l_fr : fr = sum (map (fsz m) (concat Ls)) + sum (map rem ps) }.
Definition rems_ok (ps : list page) : Prop :=
  match ps with [] => True | p :: r => (rem p = 0 \/ 24 <= rem p) /\ Forall (fun q => rem q = 0) r end.

Lemma sum_cons : forall x l, sum (x :: l) = x + sum l.
Proof. reflexivity. Qed.
Lemma sum_app : forall l l', sum (l ++ l') = sum l + sum l'.
Proof. induction l as [|x l IH]; intros l'; [reflexivity|]. cbn [app]. rewrite !sum_cons, IH. lia. Qed.
Lemma sum_ext : forall (A : Type) (f g : A -> Z) l, (forall x, In x l -> f x = g x) -> sum (map f l) = sum (map g l).
Proof. intros A f g l H. f_equal. apply map_ext_in. exact H. Qed.
Lemma sum_perm : forall l l', Permutation l l' -> sum l = sum l'.
Proof. intros l l' H. induction H; rewrite ?sum_cons; lia. Qed.
Lemma sum_nonneg : forall l, Forall (fun x => 0 <= x) l -> 0 <= sum l.
Proof. intros l H. induction H; [cbn; lia|]. rewrite sum_cons. lia. Qed.

Lemma tiled_in : forall m L a e x, tiled m a e L -> In x L -> a <= x /\ x + nsz m x <= e /\ 0 < nsz m x /\ m x <> None.
Proof.
  intros m. induction L as [|y L IH]; intros a e x H Hin; [destruct Hin|]. cbn in H. destruct H as (-> & Hm & Hp & H).
  assert (a + nsz m a <= e) as Hle.
  { clear - H. revert H. generalize (a + nsz m a). clear a. induction L as [|y L IH]; intros a H; cbn in H; [lia|]. destruct H as (-> & _ & Hp & H). apply IH in H. lia. }
  destruct Hin as [<-|Hin]; [repeat split; auto; lia|]. destruct (IH _ _ _ H Hin) as (H1 & H2 & H3 & H4). repeat split; auto; lia.
Qed.
Lemma tiled_le : forall m L a e, tiled m a e L -> a <= e.
Proof. intros m. induction L as [|y L IH]; intros a e H; cbn in H; [lia|]. destruct H as (_ & _ & Hp & H). apply IH in H. lia. Qed.
Lemma tiled_sum : forall m L a e, tiled m a e L -> e - a = sum (map (nsz m) L).
Proof. intros m. induction L as [|y L IH]; intros a e H; cbn in H; [cbn; lia|]. destruct H as (-> & _ & Hp & H). apply IH in H. cbn [map]. rewrite sum_cons. lia. Qed.
Lemma tiled_nodup : forall m L a e, tiled m a e L -> NoDup L.
Proof.
  intros m. induction L as [|y L IH]; intros a e H; [constructor|]. cbn in H. destruct H as (-> & _ & Hp & H). constructor; [|eapply IH; eauto].
  intros Hin. destruct (tiled_in _ _ _ _ _ H Hin). lia.
Qed.
Lemma tiled_apart : forall m L a e x y, tiled m a e L -> In x L -> In y L -> x <> y -> apart x (nsz m x) y (nsz m y).
Proof.
  intros m. induction L as [|z L IH]; intros a e x y H Hx Hy Hn; [destruct Hx|]. cbn in H. destruct H as (-> & _ & Hp & H). unfold apart.
  destruct Hx as [<-|Hx], Hy as [<-|Hy]; [congruence| | |eapply IH; eauto].
  - destruct (tiled_in _ _ _ _ _ H Hy). lia.
  - destruct (tiled_in _ _ _ _ _ H Hx). lia.
Qed.
Lemma tiled_ext : forall m m' L a e, tiled m a e L -> (forall x, In x L -> nsz m' x = nsz m x /\ m' x <> None) -> tiled m' a e L.
Proof.
  intros m m'. induction L as [|y L IH]; intros a e H Hx; cbn in *; [auto|]. destruct H as (-> & Hm & Hp & H).
  destruct (Hx a (or_introl eq_refl)) as [E N]. rewrite E. repeat split; auto.
Qed.
Lemma tiled_snoc : forall m L a e, tiled m a e L -> m e <> None -> 0 < nsz m e -> tiled m a (e + nsz m e) (L ++ [e]).
Proof.
  intros m. induction L as [|y L IH]; intros a e H Hm Hp; cbn in *.
  - subst a. auto.
  - destruct H as (-> & Hm' & Hp' & H). repeat split; auto.
Qed.

Lemma page_ext : forall m m' p L, page_ok m p L -> (forall x, In x L -> nsz m' x = nsz m x /\ m' x <> None) -> page_ok m' p L.
Proof.
  intros m m' p L [T U M B S] Hx. constructor; auto.
  - eapply tiled_ext; eauto.
  - destruct S as [S|S]; [left|right; exact S]. rewrite Forall_forall in *. intros x Hin. unfold small. destruct (Hx x Hin) as [-> _]. apply S; auto.
Qed.
Lemma page_in : forall m p L x, page_ok m p L -> In x L -> p_base p <= x /\ x + nsz m x <= p_base p + p_used p /\ 0 < nsz m x /\ m x <> None.
Proof. intros m p L x H Hin. destruct H as [T _ _ _ _]. exact (tiled_in _ _ _ _ _ T Hin). Qed.

Lemma lay_in : forall m ps Ls a, Forall2 (page_ok m) ps Ls -> In a (concat Ls) -> exists p L, In p ps /\ page_ok m p L /\ In a L /\ In (p, L) (combine ps Ls).
Proof.
  intros m ps Ls a H. induction H as [|p L ps Ls Hp H IH]; intros Hin; [destruct Hin|]. cbn in Hin. apply in_app_or in Hin. destruct Hin as [Hin|Hin].
  - exists p, L. cbn. auto 6.
  - destruct (IH Hin) as (q & L' & Hq & Hq' & Ha & Hc). exists q, L'. cbn. auto 6.
Qed.
Lemma combine_in : forall m ps Ls p L, Forall2 (page_ok m) ps Ls -> In (p, L) (combine ps Ls) -> In p ps /\ In L Ls /\ page_ok m p L.
Proof.
  intros m ps Ls p L H. induction H as [|q L' ps Ls Hp H IH]; intros Hin; [destruct Hin|]. cbn in Hin. destruct Hin as [E|Hin].
  - injection E as <- <-. cbn. auto.
  - destruct (IH Hin) as (A & B & C). cbn. auto.
Qed.

(** an address inside a page, but not in use there, is not the address of a node *)
Lemma lay_apart : forall m p ps Ls, Forall2 (page_ok m) ps Ls -> Forall (disj p) ps -> forall x, p_base p <= x < p_base p + p_size p -> ~ In x (concat Ls).
Proof.
  intros m p ps Ls H F x Hx Hin. destruct (lay_in _ _ _ _ H Hin) as (q & L & Hq & Hok & HL & _). rewrite Forall_forall in F. specialize (F q Hq).
  pose proof (page_in _ _ _ _ Hok HL). pose proof (pg_used _ _ _ Hok). unfold disj, apart in F. lia.
Qed.
Lemma f2_length : forall (A B : Type) (R : A -> B -> Prop) l l', Forall2 R l l' -> length l = length l'.
Proof. intros A B R l l' H. induction H; cbn; auto. Qed.
Lemma disj_sym : forall p q, disj p q -> disj q p.
Proof. intros p q [H|H]; [right|left]; exact H. Qed.
Lemma fop_app : forall (bef beh : list page) p, ForallOrdPairs disj (bef ++ p :: beh) <->
  ForallOrdPairs disj (bef ++ beh) /\ Forall (disj p) (bef ++ beh).
Proof.
  induction bef as [|q bef IH]; intros beh p; cbn.
  - split; [intros H; inversion H; auto|intros [H1 H2]; constructor; auto].
  - split.
    + intros H. inversion H as [|q' l Hq Hl]; subst. apply IH in Hl. destruct Hl as [Hl Hp]. rewrite Forall_app in Hq. destruct Hq as [Hq1 Hq2].
      inversion Hq2; subst. split; [constructor; auto; apply Forall_app; auto|constructor; auto; apply disj_sym; auto].
    + intros [H1 H2]. inversion H1 as [|q' l Hq Hl]; subst. inversion H2 as [|q' l Hp1 Hp2]; subst. constructor; [|apply IH; auto].
      rewrite Forall_app in *. destruct Hq as [Hq1 Hq2]. split; [exact Hq1|]. constructor; [apply disj_sym; exact Hp1|exact Hq2].
Qed.
Lemma lay_nodup : forall m ps Ls, Forall2 (page_ok m) ps Ls -> ForallOrdPairs disj ps -> NoDup (concat Ls).
Proof.
  intros m ps Ls H. induction H as [|p L ps Ls Hp H IH]; intros D; [constructor|]. inversion D as [|p' ps' Dp Dps]; subst. cbn.
  assert (forall x, In x L -> ~ In x (concat Ls)) as Hx.
  { intros x Hx. eapply lay_apart; eauto. pose proof (page_in _ _ _ _ Hp Hx). pose proof (pg_used _ _ _ Hp). lia. }
  specialize (IH Dps). pose proof (tiled_nodup _ _ _ _ (pg_tiled _ _ _ Hp)) as NL. clear - Hx IH NL.
  induction L as [|x L IHL]; [exact IH|]. cbn. inversion NL; subst. constructor.
  - intros Hin. apply in_app_or in Hin. destruct Hin as [Hin|Hin]; [contradiction|]. apply (Hx x (or_introl eq_refl) Hin).
  - apply IHL; auto. intros y Hy. apply Hx. right. exact Hy.
Qed.

(** every page consists of its objects, its free nodes and its remainder *)
Definition osz (m : mem) (a : ptr) : Z := nsz m a - fsz m a.
Lemma fsz_range : forall m a, m a <> None -> 0 < nsz m a -> 0 <= fsz m a <= nsz m a.
Proof. intros m a H Hp. unfold fsz, nsz in *. destruct (m a) as [n|]; [|congruence]. destruct (free_kind (n_kind n)); lia. Qed.
Lemma sum_sub : forall (A : Type) (f g : A -> Z) l, sum (map (fun x => f x - g x) l) = sum (map f l) - sum (map g l).
Proof. intros A f g. induction l as [|x l IH]; [reflexivity|]. cbn [map]. rewrite !sum_cons. lia. Qed.
Lemma lay_sizes : forall m ps Ls, Forall2 (page_ok m) ps Ls ->
  sum (map p_size ps) = sum (map (osz m) (concat Ls)) + sum (map (fsz m) (concat Ls)) + sum (map rem ps).
Proof.
  intros m ps Ls H. induction H as [|p L ps Ls Hp H IH]; [reflexivity|]. cbn [map concat]. rewrite !map_app, !sum_app, !sum_cons, IH.
  pose proof (tiled_sum _ _ _ _ (pg_tiled _ _ _ Hp)) as Hs. unfold osz. rewrite !(sum_sub ptr (nsz m) (fsz m)). unfold rem. lia.
Qed.
Lemma free_inj : forall x y b c b' c', Some (mkN (KFree x) b c) = Some (mkN (KFree y) b' c') -> x = y.
Proof. intros. congruence. Qed.
Lemma kfree_inj : forall x y, KFree x = KFree y -> x = y.
Proof. intros. congruence. Qed.
Lemma linv_acc : forall m ps Ls fl al fr, linv m ps Ls fl al fr -> al - fr = sum (map (osz m) (concat Ls)).
Proof. intros m ps Ls fl al fr H. rewrite (l_al _ _ _ _ _ _ H), (l_fr _ _ _ _ _ _ H), (lay_sizes _ _ _ (l_lay _ _ _ _ _ _ H)). lia. Qed.
Lemma osz_sum_nonneg : forall m ps Ls, Forall2 (page_ok m) ps Ls -> 0 <= sum (map (osz m) (concat Ls)).
Proof.
  intros m ps Ls H. apply sum_nonneg. rewrite Forall_map, Forall_forall. intros a Ha. destruct (lay_in _ _ _ _ H Ha) as (p & L & _ & Hp & HL & _).
  pose proof (page_in _ _ _ _ Hp HL) as (_ & _ & H1 & H2). pose proof (fsz_range m a H2 H1). unfold osz. lia.
Qed.
Lemma linv_le : forall m ps Ls fl al fr, linv m ps Ls fl al fr -> fr <= al.
Proof. intros m ps Ls fl al fr H. pose proof (linv_acc _ _ _ _ _ _ H). pose proof (osz_sum_nonneg _ _ _ (l_lay _ _ _ _ _ _ H)). lia. Qed.

(** ** Adding a page, and adding a node at the end of a page *)
Lemma linv_page : forall m bef beh LB LE fl al fr np, linv m (bef ++ beh) (LB ++ LE) fl al fr -> length bef = length LB ->
  p_used np = 0 -> 0 <= p_size np -> p_size np mod 8 = 0 -> 0 < p_base np -> Forall (disj np) (bef ++ beh) ->
  linv m (bef ++ np :: beh) (LB ++ [] :: LE) fl (al + p_size np) (fr + p_size np).
Proof.
  intros m bef beh LB LE fl al fr np H Hl Hu Hs Hm Hb Hd. destruct H as [Lay Dom Dj Fl Nd Nk Al Fr].
  apply Forall2_app_inv_l in Lay. destruct Lay as (LB' & LE' & F1 & F2 & E).
  assert (LB = LB' /\ LE = LE') as [<- <-].
  { apply f2_length in F1. assert (length LB = length LB') by lia. clear - E H. revert LB' E H. induction LB as [|x LB IH]; intros [|y LB'] E H; cbn in *; try lia; auto.
    injection E as -> E. destruct (IH LB' E ltac:(lia)) as [-> ->]. auto. }
  constructor; auto.
  - apply Forall2_app; [exact F1|]. constructor; [|exact F2]. constructor; auto.
    + cbn. lia.
    + lia.
    + rewrite Hu. split; [reflexivity|exact Hm].
  - intros a. rewrite (Dom a), !concat_app. cbn. reflexivity.
  - apply fop_app. auto.
  - rewrite Al, !map_app, !sum_app. cbn [map]. rewrite sum_cons. lia.
  - rewrite Fr, !concat_app, !map_app, !sum_app. cbn [concat map app]. rewrite sum_cons. assert (rem np = p_size np) by (unfold rem; lia). lia.
Qed.

Definition upd (m m' : mem) (a : ptr) (n : node) : Prop := m' a = Some n /\ forall x, x <> a -> m' x = m x.
Lemma upd_nsz : forall m m' a n x, upd m m' a n -> x <> a -> nsz m' x = nsz m x.
Proof. intros m m' a n x [_ H] Hx. unfold nsz. rewrite H by auto. reflexivity. Qed.
Lemma upd_fsz : forall m m' a n x, upd m m' a n -> x <> a -> fsz m' x = fsz m x.
Proof. intros m m' a n x [_ H] Hx. unfold fsz. rewrite H by auto. reflexivity. Qed.

Lemma lay_upd : forall m m' a n ps Ls, Forall2 (page_ok m) ps Ls -> upd m m' a n -> ~ In a (concat Ls) -> Forall2 (page_ok m') ps Ls.
Proof.
  intros m m' a n ps Ls H U. induction H as [|p L ps Ls Hp H IH]; intros Hn; constructor.
  - apply (page_ext m); auto. intros x Hx. assert (x <> a) by (intros ->; apply Hn; cbn; apply in_or_app; auto).
    split; [eapply upd_nsz; eauto|]. destruct U as [_ U]. rewrite U by auto. apply (page_in _ _ _ _ Hp Hx).
  - apply IH. intros Hin. apply Hn. cbn. apply in_or_app. auto.
Qed.

(** the common part of all cases in which a node is appended to a page: a new node [n] that is either an object or a free node
    which is linked to its free list *)
Lemma linv_append : forall m m' bef p beh LB L LE fl fl' al fr n psize,
  linv m (bef ++ p :: beh) (LB ++ L :: LE) fl al fr -> length bef = length LB ->
  upd m m' (p_base p + p_used p) n ->
  let s := nodesize (n_kind n) in
  0 < s -> p_used p + s <= psize <= p_size p -> psize mod 8 = 0 -> (24 <= s <= 96 \/ L = [] /\ p_used p + s = psize) ->
  (if free_kind (n_kind n)
   then exists i, 0 <= i <= 9 /\ n = mkN (KFree (24 + 8 * i)) true false /\ fl' = flput fl i ((p_base p + p_used p) :: fl i)
   else n_mark n = false /\ n_vd n = false /\ fl' = fl) ->
  linv m' (bef ++ mkP (p_base p) psize (p_used p + s) :: beh) (LB ++ (L ++ [p_base p + p_used p]) :: LE) fl'
       (al - (p_size p - psize)) (fr - (p_size p - psize) - (if free_kind (n_kind n) then 0 else s)).
Proof.
  intros m m' bef p beh LB L LE fl fl' al fr n psize H Hl U s Hs Hps Hpm Hsm Hn. set (a := p_base p + p_used p) in *.
  destruct H as [Lay Dom Dj Fl Nd Nk Al Fr].
  apply Forall2_app_inv_l in Lay. destruct Lay as (LB' & LE' & F1 & F2 & E).
  assert (LB = LB' /\ L :: LE = LE') as [<- <-].
  { apply f2_length in F1. assert (length LB = length LB') by lia. clear - E H. revert LB' E H. induction LB as [|x LB IH]; intros [|y LB'] E H; cbn in *; try lia; auto.
    injection E as -> E. destruct (IH LB' E ltac:(lia)) as [-> ->]. auto. }
  inversion F2 as [|p' L' ps' Ls' Hp F3]; subst.
  apply fop_app in Dj. destruct Dj as [Dj Dp].
  assert (~ In a (concat (LB ++ LE))) as Na.
  { eapply lay_apart; [apply Forall2_app; eassumption|exact Dp|]. pose proof (pg_used _ _ _ Hp). unfold a. lia. }
  assert (~ In a L) as NaL. { intros Hin. pose proof (page_in _ _ _ _ Hp Hin). unfold a in *. lia. }
  rewrite concat_app in Na. rewrite in_app_iff in Na.
  assert (m a = None) as Ea.
  { destruct (m a) eqn:Ea; auto. exfalso. assert (m a <> None) as X by congruence. apply Dom in X. rewrite concat_app in X. cbn in X. rewrite !in_app_iff in X. tauto. }
  assert (nsz m' a = s) as Es by (unfold nsz; destruct U as [-> _]; reflexivity).
  assert (forall x, x <> a -> m' x = m x) as Ux by apply U.
  assert (page_ok m' (mkP (p_base p) psize (p_used p + s)) (L ++ [a])) as Hok.
  { pose proof (page_ext m m' p L Hp) as Hp'. destruct Hp' as [T' U' M' B' S'].
    { intros x Hx. assert (x <> a) by (intros ->; contradiction). split; [eapply upd_nsz; eauto|]. rewrite Ux by auto. apply (page_in _ _ _ _ Hp Hx). }
    constructor; cbn.
    - rewrite Z.add_assoc. fold a. rewrite <- Es. apply tiled_snoc; [exact T'|destruct U as [-> _]; congruence|lia].
    - lia.
    - split; [|exact Hpm]. rewrite Z.add_mod by lia. destruct M' as [-> _]. unfold s. rewrite nodesize_mod. reflexivity.
    - exact B'.
    - destruct Hsm as [Hsm|[-> Hsm]]; [|right; split; [exists a; reflexivity|exact Hsm]].
      left. apply Forall_app. split; [|constructor; [unfold small; lia|constructor]].
      destruct S' as [S'|[_ S']]; [exact S'|]. lia. }
  assert (concat (LB ++ (L ++ [a]) :: LE) = concat LB ++ (L ++ [a]) ++ concat LE) as Ec by (rewrite concat_app; reflexivity).
  constructor.
  - apply Forall2_app; [eapply lay_upd; eauto; tauto|]. constructor; [exact Hok|]. eapply lay_upd; eauto; tauto.
  - intros x. rewrite Ec, !in_app_iff. destruct (Z.eq_dec x a) as [->|Hx].
    + split; [intros _; right; left; right; left; reflexivity|intros _; destruct U as [-> _]; congruence].
    + rewrite (Ux x Hx), (Dom x), concat_app. cbn. rewrite !in_app_iff. split; [tauto|]. intros [?|[[?|[?|[]]]|?]]; auto. congruence.
  - apply fop_app. split; [exact Dj|]. eapply Forall_impl; [|exact Dp]. intros q Hq. unfold disj, apart in *. cbn. lia.
  - intros i x. destruct (free_kind (n_kind n)) eqn:Ef.
    + destruct Hn as (j & Hj & -> & ->). cbn in Es, s. unfold flput. destruct (i =? j) eqn:Eij.
      * apply Z.eqb_eq in Eij. subst j. cbn. rewrite Fl. destruct (Z.eq_dec x a) as [->|Hx].
        -- destruct U as [-> _]. split; auto.
        -- rewrite (Ux x Hx). split; [intros [?|?]; [congruence|auto]|auto].
      * rewrite Fl. destruct (Z.eq_dec x a) as [->|Hx]; [|rewrite (Ux x Hx); reflexivity].
        destruct U as [-> _]. rewrite Ea. split; intros [? X]; [discriminate|]. apply free_inj in X. lia.
    + destruct Hn as (Hn1 & Hn2 & ->). rewrite Fl. destruct (Z.eq_dec x a) as [->|Hx]; [|rewrite (Ux x Hx); reflexivity].
      destruct U as [-> _]. rewrite Ea. split; intros [? X]; [discriminate|]. injection X as X. rewrite X in Ef. discriminate.
  - intros i. destruct (free_kind (n_kind n)) eqn:Ef.
    + destruct Hn as (j & Hj & _ & ->). unfold flput. destruct (i =? j); [|apply Nd]. constructor; [|apply Nd]. rewrite Fl, Ea. intros [_ X]. discriminate.
    + destruct Hn as (_ & _ & ->). apply Nd.
  - intros x n' E'. destruct (Z.eq_dec x a) as [->|Hx]; [|rewrite (Ux x Hx) in E'; apply (Nk x); exact E'].
    destruct U as [U _]. rewrite U in E'. injection E' as <-. destruct (free_kind (n_kind n)) eqn:Ef; [|tauto]. destruct Hn as (j & Hj & Hn & _). eauto.
  - rewrite !map_app, !sum_app. cbn [map]. rewrite !sum_cons. cbn [p_size]. lia.
  - rewrite Ec, concat_app. cbn [concat]. rewrite !map_app, !sum_app. cbn [map]. rewrite !sum_cons.
    assert (forall l, ~ In a l -> sum (map (fsz m') l) = sum (map (fsz m) l)) as Hsum.
    { intros l Hnl. apply sum_ext. intros x Hx. eapply upd_fsz; eauto. intros ->. contradiction. }
    rewrite !Hsum by tauto. assert (fsz m' a = if free_kind (n_kind n) then s else 0) as -> by (unfold fsz; destruct U as [-> _]; reflexivity).
    assert (rem (mkP (p_base p) psize (p_used p + s)) = psize - (p_used p + s)) as -> by reflexivity. assert (rem p = p_size p - p_used p) as -> by reflexivity.
    change (sum []) with 0. destruct (free_kind (n_kind n)); lia.
Qed.

(** ** Replacing a node by an object of the same size *)
Lemma linv_replace : forall m m' ps Ls fl al fr a n0 n,
  linv m ps Ls fl al fr -> m a = Some n0 -> upd m m' a n -> nodesize (n_kind n) = nodesize (n_kind n0) ->
  free_kind (n_kind n) = false -> n_mark n = false -> n_vd n = false ->
  forall fl', (if free_kind (n_kind n0) then exists i r, 0 <= i <= 9 /\ n_kind n0 = KFree (24 + 8 * i) /\ fl i = a :: r /\ fl' = flput fl i r else fl' = fl) ->
  linv m' ps Ls fl' al (if free_kind (n_kind n0) then fr - nodesize (n_kind n0) else fr).
Proof.
  intros m m' ps Ls fl al fr a n0 n H E U Hs Hf Hm Hv fl' Hfl. destruct H as [Lay Dom Dj Fl Nd Nk Al Fr].
  assert (forall x, x <> a -> m' x = m x) as Ux by apply U. destruct U as [Ua _].
  assert (forall x, nsz m' x = nsz m x /\ (m x <> None -> m' x <> None)) as Hx.
  { intros x. unfold nsz. destruct (Z.eq_dec x a) as [->|Hx]; [rewrite Ua, E; split; [exact Hs|congruence]|rewrite Ux by auto; auto]. }
  assert (In a (concat Ls)) as Ha by (apply Dom; congruence).
  pose proof (lay_nodup _ _ _ Lay Dj) as ND.
  constructor; auto.
  - clear - Lay Hx. induction Lay as [|p L ps Ls Hp H IH]; constructor; auto. apply (page_ext m); auto. intros x Hin. destruct (Hx x) as [X Y]. split; [exact X|].
    apply Y. apply (page_in _ _ _ _ Hp Hin).
  - intros x. rewrite <- Dom. destruct (Z.eq_dec x a) as [->|Hxa]; [rewrite Ua, E; split; congruence|rewrite Ux by auto; reflexivity].
  - intros s x. destruct (free_kind (n_kind n0)) eqn:Ef.
    + destruct Hfl as (i & r & Hi & Kn & Efl & ->). unfold flput. destruct (s =? i) eqn:Es.
      * apply Z.eqb_eq in Es. subst s. pose proof (Nd i) as Ni. rewrite Efl in Ni. inversion Ni as [|y r' Hnr Hr]; subst. destruct (Z.eq_dec x a) as [->|Hxa].
        -- rewrite Ua. split; [contradiction|]. intros [_ X]. injection X as X. rewrite X in Hf. discriminate.
        -- rewrite Ux by auto. rewrite <- Fl, Efl. cbn. split; [auto|intros [?|?]; [congruence|auto]].
      * rewrite Fl. destruct (Z.eq_dec x a) as [->|Hxa]; [|rewrite Ux by auto; reflexivity]. rewrite Ua, E. split; intros [? X]; exfalso.
        -- assert (n_kind n0 = KFree (24 + 8 * s)) as Y by (apply (f_equal (fun o => match o with Some q => n_kind q | None => KStr 0 end)) in X; exact X). rewrite Kn in Y. apply kfree_inj in Y. lia.
        -- injection X as X. rewrite X in Hf. discriminate.
    + subst fl'. rewrite Fl. destruct (Z.eq_dec x a) as [->|Hxa]; [|rewrite Ux by auto; reflexivity]. rewrite Ua, E. split; intros [? X]; exfalso; injection X as X.
      * rewrite X in Ef. discriminate.
      * rewrite X in Hf. discriminate.
  - intros s. destruct (free_kind (n_kind n0)); [|subst fl'; apply Nd]. destruct Hfl as (i & r & Hi & Kn & Efl & ->). unfold flput. destruct (s =? i); [|apply Nd].
    pose proof (Nd i) as Ni. rewrite Efl in Ni. inversion Ni; auto.
  - intros x nx Ex. destruct (Z.eq_dec x a) as [->|Hxa]; [|rewrite Ux in Ex by auto; apply (Nk x); exact Ex]. rewrite Ua in Ex. injection Ex as <-. rewrite Hf. auto.
  - assert (sum (map (fsz m') (concat Ls)) = sum (map (fsz m) (concat Ls)) - fsz m a) as ->.
    { clear - Ux Ua Hf Ha ND. revert Ha ND. generalize (concat Ls). induction l as [|x l IH]; intros Ha ND; [destruct Ha|]. cbn [map]. rewrite !sum_cons. inversion ND; subst.
      destruct (Z.eq_dec x a) as [->|Hxa].
      - assert (fsz m' a = 0) as -> by (unfold fsz; rewrite Ua, Hf; reflexivity). assert (sum (map (fsz m') l) = sum (map (fsz m) l)) as ->; [|lia].
        apply sum_ext. intros y Hy. unfold fsz. rewrite Ux by (intros ->; contradiction). reflexivity.
      - destruct Ha as [Ha|Ha]; [congruence|]. rewrite IH by auto. assert (fsz m' x = fsz m x) as -> by (unfold fsz; rewrite Ux by auto; reflexivity). lia. }
    unfold fsz at 2. rewrite E, Fr. destruct (free_kind (n_kind n0)); lia.
Qed.

Definition hinv (h : heap) (Ls : list (list ptr)) : Prop :=
  linv (hp_mem h) (hp_pages h) Ls (hp_fl h) (hp_alloced h) (hp_free h) /\ rems_ok (hp_pages h).

Lemma slot_ok : forall s, 24 <= s <= 96 -> s mod 8 = 0 -> exists i, freelistSlot s = Ok i /\ 0 <= i <= 9 /\ s = 24 + 8 * i.
Proof.
  intros s Hs Hm. unfold freelistSlot, fl_max, fl_min. assert ((96 <? s) || (s <? 24) || negb (s mod 8 =? 0) = false) as -> by lia.
  exists ((s - 16) / 8 - 1). split; [reflexivity|]. pose proof (Z.div_mod (s - 16) 8 ltac:(lia)) as H.
  assert ((s - 16) mod 8 = 0) as Hm'. { rewrite Zminus_mod, Hm. reflexivity. }
  lia.
Qed.

(** the objects that exist afterwards: those before and the new one *)
Definition adds (h h' : heap) (a : ptr) (k : kind) : Prop := contents h a = None /\ forall x, contents h' x = if x =? a then Some k else contents h x.

Lemma upd_mput2 : forall m a n n', upd m (mput (mput m a n) a n') a n'.
Proof. intros m a n n'. unfold upd, mput. rewrite Z.eqb_refl. split; [reflexivity|]. intros x Hx. apply Z.eqb_neq in Hx. rewrite Hx. reflexivity. Qed.
Lemma contents_upd : forall m m' a k ps ps' fl fl' al al' fr fr', upd m m' a (mkN k false false) -> free_kind k = false ->
  (forall n, m a = Some n -> free_kind (n_kind n) = true) ->
  adds (mkHp m ps fl al fr) (mkHp m' ps' fl' al' fr') a k.
Proof.
  intros m m' a k ps ps' fl fl' al al' fr fr' [U1 U2] Hf Ha. split.
  - unfold contents. cbn. destruct (m a) as [n|] eqn:E; [|reflexivity]. rewrite (Ha n eq_refl). reflexivity.
  - intros x. unfold contents. cbn. destruct (x =? a) eqn:Ex.
    + apply Z.eqb_eq in Ex. subst x. rewrite U1. cbn. rewrite Hf. reflexivity.
    + apply Z.eqb_neq in Ex. rewrite U2 by auto. reflexivity.
Qed.

Lemma new_reuse : forall h Ls k a r i, hinv h Ls -> free_kind k = false -> 0 <= i <= 9 -> nodesize k = 24 + 8 * i -> hp_fl h i = a :: r ->
  let h' := mkHp (mput (mput (hp_mem h) a (mkN (KFree (nodesize k)) false false)) a (mkN k false false)) (hp_pages h) (flput (hp_fl h) i r) (hp_alloced h) (hp_free h - nodesize k) in
  hinv h' Ls /\ adds h h' a k.
Proof.
  intros [m ps fl al fr] Ls k a r i [H R] Hf Hi Hs Hfl. cbn in *.
  assert (m a = Some (mkN (KFree (24 + 8 * i)) true false)) as Ea by (apply (l_fl _ _ _ _ _ _ H); rewrite Hfl; left; reflexivity).
  pose proof (upd_mput2 m a (mkN (KFree (nodesize k)) false false) (mkN k false false)) as U.
  split; [split; [|exact R]|].
  - assert (Hl := linv_replace m _ ps Ls fl al fr a _ _ H Ea U). cbn [n_kind n_mark n_vd free_kind] in Hl. rewrite nodesize_free in Hl.
    specialize (Hl Hs Hf eq_refl eq_refl (flput fl i r)). cbn [hp_mem hp_pages hp_fl hp_alloced hp_free]. replace (fr - nodesize k) with (fr - (24 + 8 * i)) by lia. apply Hl. exists i, r. auto.
  - apply contents_upd; auto. intros n En. rewrite Ea in En. injection En as <-. reflexivity.
Qed.

(** bumping the used part of page [p], lib/gc.cpp:172-183, and constructing the object *)
Lemma new_bump : forall m bef p beh LB L LE fl al fr k, linv m (bef ++ p :: beh) (LB ++ L :: LE) fl al fr -> length bef = length LB -> free_kind k = false ->
  let s := nodesize k in
  p_used p + s <= p_size p -> (24 <= s <= 96 \/ L = [] /\ p_used p + s = p_size p) ->
  let a := p_base p + p_used p in
  let rest := p_size p - (p_used p + s) in
  let '(psize, al2, fr2) := if rest <? fl_min then (p_used p + s, al - rest, fr - s - rest) else (p_size p, al, fr - s) in
  let m' := mput (mput m a (mkN (KFree s) false false)) a (mkN k false false) in
  fr2 <= al2 /\ linv m' (bef ++ mkP (p_base p) psize (p_used p + s) :: beh) (LB ++ (L ++ [a]) :: LE) fl al2 fr2 /\
  (psize - (p_used p + s) = 0 \/ 24 <= psize - (p_used p + s)) /\ m a = None.
Proof.
  intros m bef p beh LB L LE fl al fr k H Hl Hf s Hu Hsm a rest.
  pose proof (upd_mput2 m a (mkN (KFree s) false false) (mkN k false false)) as U.
  assert (24 <= s) as Hpos by (apply nodesize_pos; exact Hf).
  assert (p_used p mod 8 = 0 /\ p_size p mod 8 = 0) as [M1 M2].
  { pose proof (l_lay _ _ _ _ _ _ H) as F. apply Forall2_app_inv_l in F. destruct F as (X & Y & _ & F & _). inversion F as [|p' L' ps' Ls' Hp F3]; subst. apply Hp. }
  assert ((p_used p + s) mod 8 = 0) as M3 by (rewrite Z.add_mod by lia; rewrite M1; unfold s; rewrite nodesize_mod; reflexivity).
  assert (m a = None) as Ea.
  { destruct (m a) eqn:Ea; auto. exfalso. assert (m a <> None) as X by congruence. apply (l_dom _ _ _ _ _ _ H) in X.
    pose proof (l_disj _ _ _ _ _ _ H) as Dj. apply fop_app in Dj. destruct Dj as [Dj Dp].
    pose proof (l_lay _ _ _ _ _ _ H) as F. apply Forall2_app_inv_l in F. destruct F as (LB' & LE' & F1 & F2 & E). rewrite E in X. inversion F2 as [|p' L' ps' Ls' Hp F3]; subst.
    rewrite concat_app in X. cbn in X. rewrite !in_app_iff in X. pose proof (pg_used _ _ _ Hp).
    assert (~ In a (concat (LB' ++ Ls'))) as Na. { eapply lay_apart; [apply Forall2_app; eassumption|exact Dp|]. unfold a. lia. }
    rewrite concat_app, in_app_iff in Na. destruct X as [X|[X|X]]; try tauto. pose proof (page_in _ _ _ _ Hp X). unfold a in *. lia. }
  destruct (rest <? fl_min) eqn:Er; unfold fl_min in Er.
  - assert (Hi := linv_append m _ bef p beh LB L LE fl fl al fr (mkN k false false) (p_used p + s) H Hl U). cbn [n_kind n_mark n_vd] in Hi. rewrite Hf in Hi.
    fold s in Hi. specialize (Hi ltac:(lia) ltac:(lia) M3 ltac:(destruct Hsm as [|[? ?]]; [left; lia|right; split; auto; lia]) ltac:(auto)).
    assert (linv (mput (mput m a (mkN (KFree s) false false)) a (mkN k false false)) (bef ++ mkP (p_base p) (p_used p + s) (p_used p + s) :: beh) (LB ++ (L ++ [a]) :: LE) fl (al - rest) (fr - s - rest)) as HL.
    { replace (al - rest) with (al - (p_size p - (p_used p + s))) by reflexivity. replace (fr - s - rest) with (fr - (p_size p - (p_used p + s)) - s) by (unfold rest; lia). exact Hi. }
    split; [exact (linv_le _ _ _ _ _ _ HL)|]. split; [exact HL|]. split; [left; lia|exact Ea].
  - assert (Hi := linv_append m _ bef p beh LB L LE fl fl al fr (mkN k false false) (p_size p) H Hl U). cbn [n_kind n_mark n_vd] in Hi. rewrite Hf in Hi.
    fold s in Hi. specialize (Hi ltac:(lia) ltac:(lia) M2 Hsm). specialize (Hi ltac:(auto)).
    replace (al - (p_size p - p_size p)) with al in Hi by lia. replace (fr - (p_size p - p_size p) - s) with (fr - s) in Hi by lia.
    split; [exact (linv_le _ _ _ _ _ _ Hi)|]. split; [exact Hi|]. split; [right; unfold rest in Er; lia|exact Ea].
Qed.

Lemma f2_cons_inv : forall m p ps Ls, Forall2 (page_ok m) (p :: ps) Ls -> exists L Ls', Ls = L :: Ls' /\ page_ok m p L /\ Forall2 (page_ok m) ps Ls'.
Proof. intros m p ps Ls H. inversion H; subst. eauto 6. Qed.

(** what remains once the page to allocate from is known *)
Definition alloc_tail (k : kind) (h1 : heap) (bef : list page) (p : page) (beh : list page) : res (heap * ptr) :=
  let s := nodesize k in
  let ret := p_base p + p_used p in
  let used := p_used p + s in
  let fr := hp_free h1 - s in
  let rest := p_size p - used in
  let '(psize, al2, fr2) := if rest <? fl_min then (used, hp_alloced h1 - rest, fr - rest) else (p_size p, hp_alloced h1, fr) in
  if al2 <? fr2 then UB
  else Ok (mkHp (mput (mput (hp_mem h1) ret (mkN (KFree s) false false)) ret (mkN k false false)) (bef ++ mkP (p_base p) psize used :: beh) (hp_fl h1) al2 fr2, ret).

Lemma alloc_tail_ok : forall k h1 bef p beh LB L LE, free_kind k = false ->
  linv (hp_mem h1) (bef ++ p :: beh) (LB ++ L :: LE) (hp_fl h1) (hp_alloced h1) (hp_free h1) -> length bef = length LB ->
  p_used p + nodesize k <= p_size p -> (24 <= nodesize k <= 96 \/ L = [] /\ p_used p + nodesize k = p_size p) ->
  (bef = [] /\ Forall (fun q => rem q = 0) beh \/ p_used p + nodesize k = p_size p /\ rems_ok (bef ++ beh) /\ bef <> []) ->
  exists h' a Ls', alloc_tail k h1 bef p beh = Ok (h', a) /\ hinv h' Ls' /\ adds h1 h' a k.
Proof.
  intros k h1 bef p beh LB L LE Hf H Hl Hu Hsm Hr. pose proof (new_bump _ _ _ _ _ _ _ _ _ _ k H Hl Hf Hu Hsm) as Hb. unfold alloc_tail. cbv zeta in *.
  set (s := nodesize k) in *. set (a := p_base p + p_used p) in *. set (rest := p_size p - (p_used p + s)) in *.
  destruct (if rest <? fl_min then (p_used p + s, hp_alloced h1 - rest, hp_free h1 - s - rest) else (p_size p, hp_alloced h1, hp_free h1 - s)) as [[psize al2] fr2] eqn:Ee.
  destruct Hb as (Hle & HL & Hrem & Hnone). destruct (al2 <? fr2) eqn:Elt; [lia|].
  eexists _, a, _. split; [reflexivity|]. split; [split; [exact HL|]|].
  - cbn [hp_pages]. destruct Hr as [[-> Hbeh]|(Hfull & Hr & Hne)].
    + cbn. split; [exact Hrem|exact Hbeh].
    + destruct bef as [|q bef]; [congruence|]. cbn in *. destruct Hr as [Hq Hr]. split; [exact Hq|]. apply Forall_app in Hr. destruct Hr as [Hr1 Hr2].
      apply Forall_app. split; [exact Hr1|]. constructor; [|exact Hr2]. unfold rem. cbn. unfold rest in *. unfold fl_min in Ee. destruct (p_size p - (p_used p + s) <? 24); injection Ee as <- _ _; lia.
  - destruct h1 as [m1 ps1 fl1 al1 fr1]. cbn [hp_mem hp_fl] in *. apply contents_upd; auto; [apply upd_mput2|]. intros n En. congruence.
Qed.

Lemma adds_pages : forall m ps ps' fl fl' al al' fr fr' h' a k, adds (mkHp m ps fl al fr) h' a k -> adds (mkHp m ps' fl' al' fr') h' a k.
Proof. intros. exact H. Qed.

Lemma gc_new_ok : forall h Ls k base, hinv h Ls -> free_kind k = false -> malloc_ok h k base ->
  exists h' a Ls', gc_new k base h = Ok (h', a) /\ hinv h' Ls' /\ adds h h' a k.
Proof.
  intros [m ps fl al fr] Ls k base [H R] Hf [Hb Hd]. cbn [hp_mem hp_pages hp_fl hp_alloced hp_free] in *.
  pose proof (nodesize_pos k Hf) as Hpos. pose proof (nodesize_mod k) as Hmod. unfold request in Hd.
  unfold gc_new, gc_alloc. rewrite nodesize_align. set (s := nodesize k) in *.
  assert (forall S0, S0 mod 8 = 0 -> 0 <= S0 -> Forall (fun p => apart base S0 (p_base p) (p_size p)) ps ->
    forall bef beh LB LE, length bef = length LB -> ps = bef ++ beh -> Ls = LB ++ LE ->
    linv m (bef ++ mkP base S0 0 :: beh) (LB ++ [] :: LE) fl (al + S0) (fr + S0)) as Hnp.
  { intros S0 HS1 HS2 Had bef beh LB LE Hl E1 E2. subst ps Ls. apply (linv_page m bef beh LB LE fl al fr (mkP base S0 0) H Hl); auto. }
  destruct ((s <? fl_min) || (fl_max <? s)) eqn:Ebig; unfold fl_min, fl_max in Ebig.
  - (* an object with a page of its own *)
    assert (96 < s) as Hbig by lia. assert ((24 <=? s) && (s <=? 96) = false) as Er by lia. rewrite Er in Hd.
    unfold heap_alloc. rewrite andb_false_r. replace (align8 s) with s by (symmetry; apply nodesize_align). cbn [hp_pages]. unfold alloc_page. cbn [hp_pages hp_mem hp_fl hp_alloced hp_free].
    destruct ps as [|p ps].
    + pose proof (l_lay _ _ _ _ _ _ H) as HLay; inversion HLay; subst Ls. cbn [bind].
      destruct (alloc_tail_ok k (mkHp m [] fl (al + s) (fr + s)) [] (mkP base s 0) [] [] [] [] Hf) as (h' & a & Ls' & Et & Hi & Ha).
      * apply (Hnp s Hmod ltac:(lia) Hd [] [] [] []); reflexivity.
      * reflexivity.
      * cbn [p_used p_size]. fold s. lia.
      * right. cbn [p_used p_size]. fold s. split; [reflexivity|lia].
      * left. split; [reflexivity|constructor].
      * exists h', a, Ls'. split; [|split; [exact Hi|exact (adds_pages _ _ [] _ fl _ al _ fr _ _ _ Ha)]].
        rewrite <- Et. unfold alloc_tail. fold s. cbn [hp_mem hp_fl hp_alloced hp_free p_base p_used p_size]. destruct (s - (0 + s) <? fl_min); cbv zeta; match goal with |- context [if ?c then UB else _] => destruct c end; reflexivity.
    + destruct (f2_cons_inv _ _ _ _ (l_lay _ _ _ _ _ _ H)) as (L & Ls0 & -> & Hp & Hps). cbn [bind orb].
      destruct (alloc_tail_ok k (mkHp m [] fl (al + s) (fr + s)) [p] (mkP base s 0) ps [L] [] Ls0 Hf) as (h' & a & Ls' & Et & Hi & Ha).
      * apply (Hnp s Hmod ltac:(lia) Hd [p] ps [L] Ls0); reflexivity.
      * reflexivity.
      * cbn [p_used p_size]. fold s. lia.
      * right. cbn [p_used p_size]. fold s. split; [reflexivity|lia].
      * right. cbn [p_used p_size]. fold s. split; [lia|]. split; [exact R|discriminate].
      * exists h', a, Ls'. split; [|split; [exact Hi|exact (adds_pages _ _ (p :: ps) _ fl _ al _ fr _ _ _ Ha)]].
        rewrite <- Et. unfold alloc_tail. fold s. cbn [hp_mem hp_fl hp_alloced hp_free p_base p_used p_size]. destruct (s - (0 + s) <? fl_min); cbv zeta; match goal with |- context [if ?c then UB else _] => destruct c end; reflexivity.
  - assert (24 <= s <= 96) as Hsm by lia. assert ((24 <=? s) && (s <=? 96) = true) as Er by lia. rewrite Er in Hd.
    destruct (slot_ok s Hsm Hmod) as (i & Ei & Hi & Hs). unfold heap_fl. rewrite Ei. cbn [bind hp_fl]. destruct (fl i) as [|a r] eqn:Efl.
    + (* from a page *)
      unfold heap_alloc. assert ((fl_max <? s) && negb false = false) as -> by (unfold fl_max; lia). replace (align8 s) with s by (symmetry; apply nodesize_align). cbn [hp_pages].
      unfold alloc_page. cbn [hp_pages hp_mem hp_fl hp_alloced hp_free]. replace (Z.max s pageSize) with pageSize by (unfold pageSize; lia).
      destruct ps as [|p ps].
      * pose proof (l_lay _ _ _ _ _ _ H) as HLay; inversion HLay; subst Ls. cbn [bind].
        destruct (alloc_tail_ok k (mkHp m [] fl (al + pageSize) (fr + pageSize)) [] (mkP base pageSize 0) [] [] [] [] Hf) as (h' & a & Ls' & Et & Hi' & Ha).
        -- apply (Hnp pageSize eq_refl ltac:(unfold pageSize; lia) Hd [] [] [] []); reflexivity.
        -- reflexivity.
        -- cbn [p_used p_size]. fold s. unfold pageSize. lia.
        -- left. exact Hsm.
        -- left. split; [reflexivity|constructor].
        -- exists h', a, Ls'. split; [|split; [exact Hi'|exact (adds_pages _ _ [] _ fl _ al _ fr _ _ _ Ha)]].
           rewrite <- Et. unfold alloc_tail. fold s. cbn [hp_mem hp_fl hp_alloced hp_free p_base p_used p_size]. destruct (pageSize - (0 + s) <? fl_min); cbv zeta; match goal with |- context [if ?c then UB else _] => destruct c end; reflexivity.
      * destruct (f2_cons_inv _ _ _ _ (l_lay _ _ _ _ _ _ H)) as (L & Ls0 & -> & Hp & Hps). cbn [orb]. destruct R as [Rp Rps].
        destruct (p_size p <=? p_used p + s) eqn:Efit.
        -- destruct (fl_max <? p_size p - p_used p) eqn:Ens; [unfold fl_max in Ens; lia|]. unfold fl_max in Ens.
           assert (Forall (disj (mkP base pageSize 0)) ps) as Hd' by (inversion Hd; assumption).
           destruct (fl_min <=? p_size p - p_used p) eqn:Emin; unfold fl_min in Emin.
           ++ (* the rest of the page goes to a free list *)
              assert ((p_size p - p_used p) mod 8 = 0) as Hrm. { rewrite Zminus_mod. destruct (pg_mod _ _ _ Hp) as [-> ->]. reflexivity. }
              destruct (slot_ok (p_size p - p_used p)) as (j & Ej & Hj & Hjs); [lia|exact Hrm|]. rewrite Ej. cbn [bind].
              set (e := p_base p + p_used p) in *. set (ns := p_size p - p_used p) in *.
              set (m1 := mput m e (mkN (KFree ns) true false)). set (p1 := mkP (p_base p) (p_size p) (p_used p + ns)).
              assert (upd m m1 e (mkN (KFree ns) true false)) as U1.
              { unfold upd, m1, mput. rewrite Z.eqb_refl. split; [reflexivity|]. intros x Hx. apply Z.eqb_neq in Hx. rewrite Hx. reflexivity. }
              assert (nodesize (KFree ns) = ns) as Ens' by (rewrite Hjs; apply nodesize_free).
              assert (H1 : linv m1 ([] ++ p1 :: ps) ([] ++ (L ++ [e]) :: Ls0) (flput fl j (e :: fl j)) al fr).
              { assert (Hx := linv_append m m1 [] p ps [] L Ls0 fl (flput fl j (e :: fl j)) al fr (mkN (KFree ns) true false) (p_size p) H eq_refl U1). cbn [n_kind free_kind] in Hx. rewrite Ens' in Hx.
                replace (al - (p_size p - p_size p)) with al in Hx by lia. replace (fr - (p_size p - p_size p) - 0) with fr in Hx by lia. apply Hx; unfold ns in *.
                - lia.
                - lia.
                - apply (pg_mod _ _ _ Hp).
                - left. lia.
                - exists j. split; [exact Hj|]. split; [rewrite <- Hjs; reflexivity|reflexivity]. }
              assert (H2 : linv m1 ([] ++ mkP base pageSize 0 :: p1 :: ps) ([] ++ [] :: (L ++ [e]) :: Ls0) (flput fl j (e :: fl j)) (al + pageSize) (fr + pageSize)).
              { apply (linv_page m1 [] (p1 :: ps) [] ((L ++ [e]) :: Ls0) _ al fr (mkP base pageSize 0) H1 eq_refl eq_refl); cbn [p_size p_base app]; auto; [unfold pageSize; lia|].
                constructor; [|exact Hd']. inversion Hd; subst. unfold disj, p1. cbn [p_base p_size]. assumption. }
              assert (m e = None) as Ee.
              { destruct (m e) eqn:Ee; auto. exfalso. assert (m e <> None) as X by congruence. apply (l_dom _ _ _ _ _ _ H) in X.
                pose proof (l_disj _ _ _ _ _ _ H) as Dj. apply (fop_app [] ps p) in Dj. destruct Dj as [Dj Dp]. cbn in X. apply in_app_or in X. destruct X as [X|X].
                - pose proof (page_in _ _ _ _ Hp X). unfold e in *. lia.
                - revert X. eapply lay_apart; [exact Hps|exact Dp|]. pose proof (pg_used _ _ _ Hp). unfold e, ns in *. lia. }
              destruct (alloc_tail_ok k (mkHp m1 [] (flput fl j (e :: fl j)) (al + pageSize) (fr + pageSize)) [] (mkP base pageSize 0) (p1 :: ps) [] [] ((L ++ [e]) :: Ls0) Hf) as (h' & a & Ls' & Et & Hi' & Ha).
              ** exact H2.
              ** reflexivity.
              ** cbn [p_used p_size]. fold s. unfold pageSize. lia.
              ** left. exact Hsm.
              ** left. split; [reflexivity|]. constructor; [|exact Rps]. unfold rem, p1, ns. cbn. lia.
              ** exists h', a, Ls'. split; [|split; [exact Hi'|]].
                 --- rewrite <- Et. unfold alloc_tail. fold s. cbn [hp_mem hp_fl hp_alloced hp_free p_base p_used p_size]. destruct (pageSize - (0 + s) <? fl_min); cbv zeta; match goal with |- context [if ?c then UB else _] => destruct c end; reflexivity.
                 --- destruct Ha as [Ha1 Ha2]. assert (forall x, contents (mkHp m (p :: ps) fl al fr) x = contents (mkHp m1 [] (flput fl j (e :: fl j)) (al + pageSize) (fr + pageSize)) x) as Hc.
                     { intros x. unfold contents. cbn [hp_mem]. destruct (Z.eq_dec x e) as [->|Hx]; [|destruct U1 as [_ U1]; rewrite U1 by auto; reflexivity].
                       destruct U1 as [-> _]. rewrite Ee. reflexivity. }
                     split; [rewrite Hc; exact Ha1|]. intros x. rewrite Hc. apply Ha2.
           ++ assert (p_size p - p_used p = 0) as Hz by (unfold rem in Rp; lia). rewrite Hz.
              pose proof (linv_le _ _ _ _ _ _ H) as Hle. destruct (al + pageSize <? fr + pageSize - 0) eqn:Ea; [lia|]. cbn [bind].
              destruct (alloc_tail_ok k (mkHp m [] fl (al + pageSize) (fr + pageSize - 0)) [] (mkP base pageSize 0) (p :: ps) [] [] (L :: Ls0) Hf) as (h' & a & Ls' & Et & Hi' & Ha).
              ** cbn [hp_mem hp_fl hp_alloced hp_free]. replace (fr + pageSize - 0) with (fr + pageSize) by lia. apply (Hnp pageSize eq_refl ltac:(unfold pageSize; lia) Hd [] (p :: ps) [] (L :: Ls0)); reflexivity.
              ** reflexivity.
              ** cbn [p_used p_size]. fold s. unfold pageSize. lia.
              ** left. exact Hsm.
              ** left. split; [reflexivity|]. constructor; [exact Hz|exact Rps].
              ** exists h', a, Ls'. split; [|split; [exact Hi'|exact (adds_pages _ _ (p :: ps) _ fl _ al _ fr _ _ _ Ha)]].
                 rewrite <- Et. unfold alloc_tail. fold s. cbn [hp_mem hp_fl hp_alloced hp_free p_base p_used p_size]. destruct (pageSize - (0 + s) <? fl_min); cbv zeta; match goal with |- context [if ?c then UB else _] => destruct c end; reflexivity.
        -- cbn [bind].
           destruct (alloc_tail_ok k (mkHp m (p :: ps) fl al fr) [] p ps [] L Ls0 Hf) as (h' & a & Ls' & Et & Hi' & Ha).
           ++ exact H.
           ++ reflexivity.
           ++ fold s. lia.
           ++ left. exact Hsm.
           ++ left. split; [reflexivity|exact Rps].
           ++ exists h', a, Ls'. split; [|split; [exact Hi'|exact Ha]].
              rewrite <- Et. unfold alloc_tail. fold s. cbn [hp_mem hp_fl hp_alloced hp_free p_base p_used p_size]. destruct (p_size p - (p_used p + s) <? fl_min); cbv zeta; match goal with |- context [if ?c then UB else _] => destruct c end; reflexivity.
    + (* from a free list *)
      cbn [bind hp_mem hp_pages hp_fl hp_alloced hp_free].
      destruct (new_reuse (mkHp m ps fl al fr) Ls k a r i (conj H R) Hf Hi Hs Efl) as [Hi' Ha]. eexists _, a, Ls. split; [reflexivity|]. split; [exact Hi'|exact Ha].
Qed.
