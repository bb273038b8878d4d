(** Proofs for C23 and C24. *)
Require Import ZArith List Bool Lia.
From Verif Require Import Base RootModel RootSpec.
Import ListNotations.
Open Scope Z_scope.

(** ** C23 *)

(** oldest value saved for a location (the back of the trail comes first) *)
Fixpoint oldest (t : list titem) (x : Z) : option val :=
  match t with
  | [] => None
  | TMark :: r => oldest r x
  | TSave l v :: r => match oldest r x with Some w => Some w | None => if x =? l then Some v else None end
  end.
Definition saves (t : list titem) : Prop := Forall (fun i => i <> TMark) t.

Lemma untrail_spec : forall sv t m, saves sv ->
  exists m', untrail (sv ++ TMark :: t) m = Ok (t, m') /\
             forall x, m' x = match oldest sv x with Some v => v | None => m x end.
Proof.
  induction sv as [|i sv IH]; intros t m H; cbn [app untrail].
  - exists m. split; [reflexivity|]. reflexivity.
  - inversion H as [|? ? Hi Hs]; subst. destruct i as [|l v]; [congruence|].
    destruct (IH t (cset m l v) Hs) as (m' & E & Hm). exists m'. split; [exact E|].
    intros x. rewrite Hm. cbn [oldest]. destruct (oldest sv x); [reflexivity|]. unfold cset. destruct (x =? l); reflexivity.
Qed.
Lemma untrail_bottom : forall sv m, saves sv -> untrail sv m = UB.
Proof.
  induction sv as [|i sv IH]; intros m H; [reflexivity|]. inversion H; subst. destruct i; [congruence|]. cbn. apply IH; auto.
Qed.

Inductive trel : list titem -> list frame -> Prop :=
| trel_bottom : forall sv, saves sv -> trel sv []
| trel_frame : forall sv t f fs, saves sv -> (forall x, f x = oldest sv x) -> trel t fs -> trel (sv ++ TMark :: t) (f :: fs).

Lemma trail_step_sim : forall o t m fs m', trel t fs -> (forall x, m x = m' x) ->
  match trail_step o (t, m), abs_step o (fs, m') with
  | Ok (t1, m1), Some (fs1, m2) => trel t1 fs1 /\ (forall x, m1 x = m2 x)
  | UB, None => True
  | _, _ => False
  end.
Proof.
  intros o t m fs m' R E. destruct o as [|l|l v|]; cbn [trail_step abs_step].
  - split; auto. apply (trel_frame []); auto. constructor. 
  - inversion R as [sv Hs|sv t0 f fs0 Hs Hf R0]; subst.
    + split; auto. apply trel_bottom. constructor; [discriminate|exact Hs].
    + split; auto. change (TSave l (m l) :: sv ++ TMark :: t0) with ((TSave l (m l) :: sv) ++ TMark :: t0).
      apply trel_frame; auto. { constructor; [discriminate|exact Hs]. }
      intros x. unfold fsave. cbn [oldest]. rewrite Hf, E. destruct (x =? l); destruct (oldest sv x); reflexivity.
  - split; auto. intros x. unfold cset. destruct (x =? l); auto.
  - inversion R as [sv Hs|sv t0 f fs0 Hs Hf R0]; subst.
    + rewrite untrail_bottom by exact Hs. exact I.
    + destruct (untrail_spec sv t0 m Hs) as (m1 & E1 & H1). rewrite E1. split; auto.
      intros x. rewrite H1. unfold undo. rewrite Hf. destruct (oldest sv x); auto.
Qed.

Lemma C23_refines_l : forall ops t m fs m', trel t fs -> (forall x, m x = m' x) ->
  match trail_run ops (t, m), abs_run ops (fs, m') with
  | Ok (_, m1), Some (_, m2) => forall x, m1 x = m2 x
  | UB, None => True
  | _, _ => False
  end.
Proof.
  induction ops as [|o r IH]; intros t m fs m' R E; cbn [trail_run abs_run]; [exact E|].
  pose proof (trail_step_sim o t m fs m' R E) as H.
  destruct (trail_step o (t, m)) as [[t1 m1]|?|]; destruct (abs_step o (fs, m')) as [[fs1 m2]|]; cbn [bind]; try contradiction; auto.
  destruct H as [R1 E1]. apply IH; auto.
Qed.

Lemma trail_run_app : forall a b s, trail_run (a ++ b) s = (do s' <- trail_run a s; trail_run b s').
Proof.
  induction a as [|o a IH]; intros b s; cbn [app trail_run]; [reflexivity|].
  destruct (trail_step o s); cbn [bind]; auto.
Qed.
Lemma oldest_app : forall a b x, oldest (a ++ b) x = match oldest b x with Some v => Some v | None => oldest a x end.
Proof.
  induction a as [|i a IH]; intros b x; cbn [app oldest]; [destruct (oldest b x); reflexivity|].
  destruct i as [|l v]; rewrite IH; [reflexivity|]. destruct (oldest b x); reflexivity.
Qed.
Lemma trailed_sections : forall b, trailed b -> forall t m, exists sv m',
  trail_run b (t, m) = Ok (sv ++ t, m') /\ saves sv /\
  forall x, match oldest sv x with Some v => v = m x | None => m' x = m x end.
Proof.
  induction 1 as [|l v r Hr IH|l r Hr IH|b r Hb IHb Hr IHr]; intros t m.
  - exists [], m. repeat split; auto. constructor.
  - cbn [trail_run trail_step bind]. destruct (IH (TSave l (m l) :: t) (cset m l v)) as (sv & m' & E & Hs & Hx).
    exists (sv ++ [TSave l (m l)]), m'. split; [rewrite <- app_assoc; exact E|]. split.
    { apply Forall_app; split; [exact Hs|]. constructor; [discriminate|constructor]. }
    intros x. rewrite oldest_app. cbn [oldest]. specialize (Hx x). unfold cset in Hx.
    destruct (x =? l) eqn:El; [apply Z.eqb_eq in El; subst x; reflexivity|]. exact Hx.
  - cbn [trail_run trail_step bind]. destruct (IH (TSave l (m l) :: t) m) as (sv & m' & E & Hs & Hx).
    exists (sv ++ [TSave l (m l)]), m'. split; [rewrite <- app_assoc; exact E|]. split.
    { apply Forall_app; split; [exact Hs|]. constructor; [discriminate|constructor]. }
    intros x. rewrite oldest_app. cbn [oldest]. specialize (Hx x).
    destruct (x =? l) eqn:El; [apply Z.eqb_eq in El; subst x; reflexivity|]. exact Hx.
  - cbn [trail_run trail_step bind]. rewrite trail_run_app.
    destruct (IHb (TMark :: t) m) as (sv & m1 & E & Hs & Hx). rewrite E. cbn [bind trail_run trail_step].
    destruct (untrail_spec sv t m1 Hs) as (m2 & E2 & H2). rewrite E2. cbn [bind].
    destruct (IHr t m2) as (sv' & m' & E' & Hs' & Hx'). exists sv', m'. split; [exact E'|]. split; [exact Hs'|].
    intros x. specialize (Hx' x). specialize (Hx x). specialize (H2 x).
    assert (m2 x = m x) as E0 by (rewrite H2; destruct (oldest sv x); congruence).
    destruct (oldest sv' x); congruence.
Qed.
Lemma C23_restores_l : forall b, trailed b -> forall t m, exists m',
  trail_run (OMark :: b ++ [OUntrail]) (t, m) = Ok (t, m') /\ forall x, m' x = m x.
Proof.
  intros b Hb t m. cbn [trail_run trail_step bind]. rewrite trail_run_app.
  destruct (trailed_sections b Hb (TMark :: t) m) as (sv & m1 & E & Hs & Hx). rewrite E. cbn [bind trail_run trail_step].
  destruct (untrail_spec sv t m1 Hs) as (m2 & E2 & H2). rewrite E2. cbn [bind]. exists m2. split; [reflexivity|].
  intros x. rewrite H2. specialize (Hx x). destruct (oldest sv x); auto.
Qed.

(** ** C24: a doubly linked list *)

Section Dll.
Variable Q : val -> Prop.

Fixpoint dll (m : handles) (p : Z) (L : list Z) (q : Z) : Prop :=
  match L with
  | [] => True
  | a :: r => a <> 0 /\ (exists e, m a = Some (mkH e p (hd q r)) /\ Q e) /\ dll m a r q
  end.

Lemma dll_frame : forall L m m' p q, (forall x, In x L -> m' x = m x) -> dll m p L q -> dll m' p L q.
Proof.
  induction L as [|a r IH]; intros m m' p q H D; [exact I|]. destruct D as (Ha & (e & E & B) & D). cbn [dll].
  split; [exact Ha|]. split; [exists e; split; [rewrite H by (left; reflexivity); exact E|exact B]|].
  apply (IH m); [|exact D]. intros x Hx. apply H. right; exact Hx.
Qed.
Lemma last_cons : forall (L : list Z) a p, last (a :: L) p = last L a.
Proof.
  induction L as [|b r IH]; intros a p; [reflexivity|]. change (last (a :: b :: r) p) with (last (b :: r) p). rewrite !IH. reflexivity.
Qed.
Lemma dll_app : forall L1 L2 m p q, dll m p (L1 ++ L2) q <-> dll m p L1 (hd q L2) /\ dll m (last L1 p) L2 q.
Proof.
  induction L1 as [|a r IH]; intros L2 m p q; [cbn; tauto|].
  rewrite last_cons. cbn [app dll]. rewrite IH.
  assert (hd q (r ++ L2) = hd (hd q L2) r) as -> by (destruct r; reflexivity). tauto.
Qed.
Lemma dll_in : forall L m p q a, dll m p L q -> In a L -> a <> 0 /\ exists h, m a = Some h /\ Q (h_e h).
Proof.
  induction L as [|b r IH]; intros m p q a D Hin; [destruct Hin|]. destruct D as (Hb & (e & E & B) & D).
  destruct Hin as [->|Hin]; [|eapply IH; eauto]. split; [exact Hb|]. eexists; split; [exact E|exact B].
Qed.
Lemma dll_visits : forall L m p, dll m p L 0 -> visits m (hd 0 L) L.
Proof.
  induction L as [|a r IH]; intros m p D; [constructor|]. destruct D as (Ha & (e & E & B) & D). cbn [hd].
  eapply visits_next; [exact Ha|exact E|]. cbn [h_n]. eapply IH; exact D.
Qed.
(** replacing the first backward pointer *)
Lemma dll_repoint : forall L m p q p' a r e, L = a :: r -> NoDup L -> dll m p L q -> m a = Some (mkH e p (hd q r)) ->
  dll (hput m a (mkH e p' (hd q r))) p' L q.
Proof.
  intros L m p q p' a r e -> Hnd D E. destruct D as (Ha & (e' & E' & B) & D). rewrite E in E'. injection E' as <-.
  cbn [dll]. split; [exact Ha|]. split; [exists e; split; [unfold hput; rewrite Z.eqb_refl; reflexivity|exact B]|].
  inversion Hnd as [|? ? Hni _]; subst.
  eapply dll_frame; [|exact D]. intros x Hx. unfold hput. destruct (x =? a) eqn:Ex; [|reflexivity].
  apply Z.eqb_eq in Ex; subst; contradiction.
Qed.
(** replacing the last forward pointer *)
Lemma dll_reend : forall L m p q q' b e, dll m p (L ++ [b]) q -> NoDup (L ++ [b]) -> m b = Some (mkH e (last L p) q) ->
  dll (hput m b (mkH e (last L p) q')) p (L ++ [b]) q'.
Proof.
  intros L m p q q' b e D Hnd E. apply dll_app in D. destruct D as [D1 D2]. apply dll_app.
  apply NoDup_remove in Hnd. rewrite app_nil_r in Hnd. destruct Hnd as [_ Hni]. split.
  - cbn [hd] in *. eapply dll_frame; [|exact D1]. intros x Hx. unfold hput. destruct (x =? b) eqn:Ex; [|reflexivity].
    apply Z.eqb_eq in Ex; subst; contradiction.
  - destruct D2 as (Hb & (e' & E' & B) & _). rewrite E in E'. injection E' as <-. cbn [dll hd]. split; [exact Hb|]. split; [|exact I].
    exists e. split; [unfold hput; rewrite Z.eqb_refl; reflexivity|exact B].
Qed.

(** the pointers held do not change *)
Definition same_e (m m' : handles) : Prop :=
  forall x, match m x, m' x with Some h, Some h' => h_e h = h_e h' | None, None => True | _, _ => False end.
Lemma same_e_refl : forall m, same_e m m.
Proof. intros m x. destruct (m x); auto. Qed.
Lemma same_e_trans : forall a b c, same_e a b -> same_e b c -> same_e a c.
Proof. intros a b c H1 H2 x. specialize (H1 x). specialize (H2 x). destruct (a x), (b x), (c x); try contradiction; congruence. Qed.
Lemma same_e_put : forall m a h h', m a = Some h -> h_e h = h_e h' -> same_e m (hput m a h').
Proof.
  intros m a h h' E Eh x. unfold hput. destruct (x =? a) eqn:Ex.
  - apply Z.eqb_eq in Ex; subst x. rewrite E. exact Eh.
  - destruct (m x); auto.
Qed.

Lemma hput_eq : forall m a h, hput m a h a = Some h.
Proof. intros. unfold hput. rewrite Z.eqb_refl. reflexivity. Qed.
Lemma hput_ne : forall m a h x, x <> a -> hput m a h x = m x.
Proof. intros. unfold hput. destruct (x =? a) eqn:E; [apply Z.eqb_eq in E; contradiction|reflexivity]. Qed.

Lemma add_spec : forall e h m L, dll m 0 L 0 -> NoDup L -> ~ In e L -> e <> 0 -> m e = Some h -> h_p h = 0 -> h_n h = 0 ->
  Q (h_e h) ->
  exists m', add e (mkHL m (hd 0 L)) = Ok (mkHL m' e) /\ dll m' 0 (e :: L) 0 /\ same_e m m' /\
             forall x, x <> e -> ~ In x L -> m' x = m x.
Proof.
  intros e h m L D Hnd Hni He E Hp Hn B. unfold add, hget. cbn [hl_m hl_head]. rewrite E. cbn [bind]. rewrite Hp, Hn. cbn [Z.eqb negb orb].
  unfold set_n at 1, hget. rewrite E. cbn [bind]. rewrite Hp.
  destruct L as [|a r].
  - cbn [hd Z.eqb negb bind]. exists (hput m e (mkH (h_e h) 0 0)). split; [reflexivity|].
    split; [cbn [dll hd]; split; [exact He|]; split; [|exact I]; exists (h_e h); split; [apply hput_eq|exact B]|].
    split; [eapply same_e_put; [exact E|reflexivity]|]. intros x Hx _. apply hput_ne; exact Hx.
  - cbn [hd]. pose proof D as (Ha & (ea & Ea & Ba) & D').
    assert (a <> e) as Hae by (intros ->; apply Hni; left; reflexivity).
    destruct (a =? 0) eqn:Ea0; [apply Z.eqb_eq in Ea0; contradiction|]. cbn [negb].
    unfold set_p, hget. rewrite hput_ne by exact Hae. rewrite Ea. cbn [bind h_e h_n].
    eexists. split; [reflexivity|]. split; [|split].
    + cbn [dll]. split; [exact He|]. split.
      { exists (h_e h). split; [|exact B]. rewrite hput_ne by (intros X; apply Hae; symmetry; exact X). apply hput_eq. }
      apply (dll_repoint _ _ 0 0 e a r ea eq_refl Hnd).
      * eapply dll_frame; [|exact D]. intros x Hx. apply hput_ne. intros ->; contradiction.
      * rewrite hput_ne by exact Hae. exact Ea.
    + apply (same_e_trans _ (hput m e (mkH (h_e h) 0 a))); [eapply same_e_put; [exact E|reflexivity]|]. eapply same_e_put; [rewrite hput_ne by exact Hae; exact Ea|reflexivity].
    + intros x Hx Hx'. rewrite hput_ne by (intros ->; apply Hx'; left; reflexivity). apply hput_ne; exact Hx.
Qed.

Lemma last_app1 : forall (L : list Z) b p, last (L ++ [b]) p = b.
Proof. induction L as [|a r IH]; intros b p; [reflexivity|]. cbn [app]. rewrite last_cons. apply IH. Qed.
Lemma hd_app : forall (L1 L2 : list Z) d, hd d (L1 ++ L2) = hd (hd d L2) L1.
Proof. destruct L1; reflexivity. Qed.

Lemma snoc_case : forall (L : list Z), L = [] \/ exists l b, L = l ++ [b].
Proof. intros L. destruct L using rev_ind; eauto. Qed.

Lemma last_nonzero : forall m L q, dll m 0 L q -> L <> [] -> last L 0 <> 0.
Proof.
  intros m L q D H. destruct (snoc_case L) as [->|(l & b & ->)]; [congruence|]. rewrite last_app1.
  destruct (dll_in _ _ _ _ b D) as [Hb _]; [apply in_or_app; right; left; reflexivity|exact Hb].
Qed.

Lemma nodup_l : forall (a b : list Z), NoDup (a ++ b) -> NoDup a.
Proof.
  induction a as [|x r IH]; intros b H; [constructor|]. cbn [app] in H. inversion H as [|? ? Hx Hr]; subst.
  constructor; [intros Hin; apply Hx; apply in_or_app; left; exact Hin|eapply IH; exact Hr].
Qed.
Lemma nodup_r : forall (a b : list Z), NoDup (a ++ b) -> NoDup b.
Proof. induction a as [|x r IH]; intros b H; [exact H|]. cbn [app] in H. inversion H; auto. Qed.
Lemma nodup_dis : forall (a b : list Z) x, NoDup (a ++ b) -> In x b -> ~ In x a.
Proof.
  induction a as [|y r IH]; intros b x H Hb Hx; [destruct Hx|]. cbn [app] in H. inversion H as [|? ? Hy Hr]; subst.
  destruct Hx as [->|Hx]; [apply Hy; apply in_or_app; right; exact Hb|]. eapply IH; eauto.
Qed.

(** unlinking: the neighbours of [a] are pointed at each other; the record of [a] is not changed *)
Lemma remove_spec : forall m L1 a L2, dll m 0 (L1 ++ a :: L2) 0 -> NoDup (L1 ++ a :: L2) ->
  exists m', remove a (mkHL m (hd 0 (L1 ++ a :: L2))) = Ok (mkHL m' (hd 0 (L1 ++ L2))) /\
             dll m' 0 (L1 ++ L2) 0 /\ same_e m m' /\ (forall x, ~ In x (L1 ++ L2) -> m' x = m x).
Proof.
  intros m L1 a L2 D Hnd.
  pose proof (NoDup_remove_1 _ _ _ Hnd) as Hnd'. pose proof (NoDup_remove_2 _ _ _ Hnd) as Hni.
  pose proof D as D0. apply dll_app in D. destruct D as [D1 (Ha & (e & E & B) & D2)]. cbn [hd] in D1.
  unfold remove. cbn [hl_m hl_head]. unfold hget at 1. rewrite E. cbn [bind h_p h_n].
  destruct (snoc_case L1) as [->|(l & b & ->)].
  - cbn [app hd last] in *. cbn [Z.eqb negb]. rewrite Z.eqb_refl. cbn [bind hl_m hl_head]. unfold hget. rewrite E. cbn [bind h_n h_p].
    destruct L2 as [|c r].
    + cbn [hd Z.eqb negb]. exists m. repeat split; auto using same_e_refl.
    + destruct D2 as (Hc & (ec & Ec & Bc) & D2). cbn [hd]. destruct (c =? 0) eqn:Ec0; [apply Z.eqb_eq in Ec0; contradiction|]. cbn [negb].
      unfold set_p, hget. rewrite Ec. cbn [bind h_e h_n]. eexists. split; [reflexivity|]. split; [|split].
      * apply (dll_repoint _ _ a 0 0 c r ec eq_refl Hnd'); [|exact Ec]. split; [exact Hc|]. split; [exists ec; auto|exact D2].
      * eapply same_e_put; [exact Ec|reflexivity].
      * intros x Hx. apply hput_ne. intros ->. apply Hx. left; reflexivity.
  - rewrite last_app1 in *. rewrite <- !app_assoc in *. cbn [app] in *.
    assert (b <> 0 /\ b <> a) as [Hb Hba].
    { split; [|intros ->; apply Hni; apply in_or_app; right; left; reflexivity].
      destruct (dll_in _ _ _ _ b D1) as [Hb _]; [apply in_or_app; right; left; reflexivity|exact Hb]. }
    apply dll_app in D1. destruct D1 as [D1 (_ & (eb & Eb & Bb) & _)]. cbn [hd] in D1, Eb.
    destruct (b =? 0) eqn:Eb0; [apply Z.eqb_eq in Eb0; contradiction|]. cbn [negb].
    unfold set_n, hget. rewrite Eb. cbn [bind h_e h_p hl_m hl_head]. rewrite hput_ne by (intros X; apply Hba; symmetry; exact X).
    rewrite E. cbn [bind h_n h_p].
    assert (forall m0, (forall x, In x (l ++ [b]) -> m0 x = hput m b (mkH eb (last l 0) (hd 0 L2)) x) ->
              dll m0 0 (l ++ [b]) (hd 0 L2)) as Dleft.
    { intros m0 H0. eapply dll_frame; [exact H0|]. apply (dll_reend l m 0 a (hd 0 L2) b eb).
      - apply dll_app. split; [exact D1|]. cbn [dll hd]. split; [exact Hb|]. split; [exists eb; auto|exact I].
      - assert ((l ++ b :: L2) = (l ++ [b]) ++ L2) as X by (rewrite <- app_assoc; reflexivity). rewrite X in Hnd'. eapply nodup_l; exact Hnd'.
      - exact Eb. }
    assert (l ++ b :: L2 = (l ++ [b]) ++ L2) as XL by (rewrite <- app_assoc; reflexivity).
    assert (forall (x : Z), In x L2 -> ~ In x (l ++ [b])) as Hdis.
    { intros x Hx. rewrite XL in Hnd'. eapply nodup_dis; eauto. }
    destruct L2 as [|c r].
    + cbn [hd Z.eqb negb]. eexists. split; [f_equal; f_equal; destruct l; reflexivity|]. split; [|split].
      * apply Dleft. intros; reflexivity.
      * eapply same_e_put; [exact Eb|reflexivity].
      * intros x Hx. apply hput_ne. intros ->. apply Hx. apply in_or_app; right; left; reflexivity.
    + destruct D2 as (Hc & (ec & Ec & Bc) & D2). cbn [hd]. destruct (c =? 0) eqn:Ec0; [apply Z.eqb_eq in Ec0; contradiction|]. cbn [negb].
      assert (c <> b) as Hcb. { intros ->. apply (Hdis b); [left; reflexivity|apply in_or_app; right; left; reflexivity]. }
      unfold set_p, hget. rewrite hput_ne by exact Hcb. rewrite Ec. cbn [bind h_e h_n]. eexists. split; [f_equal; f_equal; destruct l; reflexivity|]. split; [|split].
      * rewrite XL. apply dll_app. rewrite last_app1. split.
        { cbn [hd]. apply Dleft. intros x Hx. apply hput_ne. intros ->. apply (Hdis c); [left; reflexivity|exact Hx]. }
        apply (dll_repoint _ _ a 0 b c r ec eq_refl).
        { rewrite XL in Hnd'. eapply nodup_r; exact Hnd'. }
        { assert (dll m a (c :: r) 0) as D2' by (split; [exact Hc|]; split; [exists ec; auto|exact D2]).
          eapply dll_frame; [|exact D2']. intros x Hx. apply hput_ne. intros ->. apply (Hdis b Hx). apply in_or_app; right; left; reflexivity. }
        { rewrite hput_ne by exact Hcb. exact Ec. }
      * apply (same_e_trans _ (hput m b (mkH eb (last l 0) c))); [eapply same_e_put; [exact Eb|reflexivity]|]. eapply same_e_put; [rewrite hput_ne by exact Hcb; exact Ec|reflexivity].
      * intros x Hx. rewrite hput_ne; [apply hput_ne|]; intros ->; apply Hx; apply in_or_app; right; [left|right; left]; reflexivity.
Qed.

Lemma relocate_spec : forall m L1 s L2 a h, dll m 0 (L1 ++ s :: L2) 0 -> NoDup (L1 ++ s :: L2) -> ~ In a (L1 ++ s :: L2) -> a <> 0 ->
  m s = Some h -> m a = Some h ->
  exists m', relocate a (mkHL m (hd 0 (L1 ++ s :: L2))) = Ok (mkHL m' (hd 0 (L1 ++ a :: L2))) /\
             dll m' 0 (L1 ++ a :: L2) 0 /\ same_e m m' /\ (forall x, ~ In x (L1 ++ L2) -> m' x = m x).
Proof.
  intros m L1 s L2 a h D Hnd Hna Ha Es Ea.
  pose proof (NoDup_remove_1 _ _ _ Hnd) as Hnd'.
  assert (~ In a (L1 ++ L2)) as Hna'.
  { intros Hin. apply Hna. apply in_app_or in Hin. apply in_or_app. destruct Hin; [left|right; right]; assumption. }
  apply dll_app in D. destruct D as [D1 (Hs & (e & E & B) & D2)]. cbn [hd] in D1.
  rewrite Es in E. injection E as Eh. subst h.
  unfold relocate. cbn [hl_m hl_head]. unfold hget at 1. rewrite Ea. cbn [bind h_p h_n].
  assert (forall x, In x L2 -> x <> a) as H2a by (intros x Hx ->; apply Hna'; apply in_or_app; right; exact Hx).
  assert (forall x, In x L1 -> x <> a) as H1a by (intros x Hx ->; apply Hna'; apply in_or_app; left; exact Hx).
  assert (forall x, In x L2 -> ~ In x L1) as Hdis by (intros x; apply nodup_dis; exact Hnd').
  assert (NoDup L1) as Hn1 by (eapply nodup_l; exact Hnd'). assert (NoDup L2) as Hn2 by (eapply nodup_r; exact Hnd').
  (* the first step *)
  assert (exists m1, (if negb (last L1 0 =? 0) then do m0 <- set_n (last L1 0) a m; Ok (mkHL m0 (hd 0 (L1 ++ s :: L2))) else Ok (mkHL m a)) =
            Ok (mkHL m1 (hd 0 (L1 ++ a :: L2))) /\ dll m1 0 L1 a /\ same_e m m1 /\ (forall x, ~ In x L1 -> m1 x = m x)) as (m1 & E1 & D1' & S1 & F1).
  { destruct (snoc_case L1) as [->|(l & b & ->)].
    - cbn. exists m. repeat split; auto using same_e_refl.
    - rewrite last_app1. pose proof D1 as D1c. apply dll_app in D1c. destruct D1c as [_ (Hb & (eb & Eb & Bb) & _)].
      destruct (b =? 0) eqn:Eb0; [apply Z.eqb_eq in Eb0; contradiction|]. cbn [negb]. unfold set_n, hget. rewrite Eb. cbn [bind h_e h_p].
      eexists. split; [f_equal; f_equal; destruct l; reflexivity|]. split; [apply (dll_reend l m 0 s a b eb); auto|]. split.
      + eapply same_e_put; [exact Eb|reflexivity].
      + intros x Hx. apply hput_ne. intros ->. apply Hx. apply in_or_app; right; left; reflexivity. }
  rewrite E1. cbn [bind hl_m hl_head]. unfold hget at 1.
  assert (~ In a L1) as Hna1 by (intros Hin; apply (H1a a Hin); reflexivity).
  rewrite (F1 a Hna1), Ea. cbn [bind h_n].
  destruct L2 as [|c r].
  - cbn [hd Z.eqb negb]. exists m1. split; [reflexivity|]. rewrite app_nil_r. split; [|split; [exact S1|exact F1]].
    apply dll_app. cbn [hd dll]. split; [exact D1'|]. split; [exact Ha|]. split; [|exact I]. exists e. split; [rewrite F1 by exact Hna1; exact Ea|exact B].
  - destruct D2 as (Hc & (ec & Ec & Bc) & D2). cbn [hd]. destruct (c =? 0) eqn:Ec0; [apply Z.eqb_eq in Ec0; contradiction|]. cbn [negb].
    assert (~ In c L1) as Hc1 by (apply Hdis; left; reflexivity).
    unfold set_p, hget. rewrite (F1 c Hc1), Ec. cbn [bind h_e h_n]. eexists. split; [reflexivity|]. split; [|split].
    + apply dll_app. cbn [hd]. split.
      { eapply dll_frame; [|exact D1']. intros x Hx. apply hput_ne. intros ->; contradiction. }
      assert (a <> c) as Hac by (intros ->; apply (H2a c); [left|]; reflexivity).
      change (dll (hput m1 c (mkH ec a (hd 0 r))) (last L1 0) (a :: c :: r) 0). split; [exact Ha|]. split.
      { exists e. split; [rewrite hput_ne by exact Hac; rewrite F1 by exact Hna1; exact Ea|exact B]. }
      apply (dll_repoint _ _ s 0 a c r ec eq_refl Hn2); [|rewrite F1 by exact Hc1; exact Ec].
      assert (dll m s (c :: r) 0) as D2' by (split; [exact Hc|]; split; [exists ec; auto|exact D2]).
      eapply dll_frame; [|exact D2']. intros x Hx. apply F1. apply Hdis; exact Hx.
    + apply (same_e_trans _ m1 _ S1). eapply same_e_put; [rewrite F1 by exact Hc1; exact Ec|reflexivity].
    + intros x Hx. rewrite hput_ne; [apply F1; intros Hin; apply Hx; apply in_or_app; left; exact Hin|].
      intros ->. apply Hx. apply in_or_app; right; left; reflexivity.
Qed.

End Dll.

Lemma dll_weaken : forall (Q Q' : val -> Prop) L m p q, (forall x h, In x L -> m x = Some h -> Q (h_e h) -> Q' (h_e h)) -> dll Q m p L q -> dll Q' m p L q.
Proof.
  induction L as [|a r IH]; intros m p q H D; [exact I|]. destruct D as (Ha & (e & E & B) & D). cbn [dll]. split; [exact Ha|]. split.
  - exists e. split; [exact E|]. exact (H a _ (or_introl eq_refl) E B).
  - apply IH; [|exact D]. intros x h Hx. apply H. right; exact Hx.
Qed.
Lemma dll_sete : forall (Q Q' : val -> Prop) L m a h e p q, dll Q m p L q -> NoDup L -> m a = Some h -> Q' e -> (forall x, Q x -> Q' x) ->
  dll Q' (hput m a (mkH e (h_p h) (h_n h))) p L q.
Proof.
  induction L as [|b r IH]; intros m a h e p q D Hnd E B Himp; [exact I|]. destruct D as (Hb & (eb & Eb & Bb) & D). inversion Hnd as [|? ? Hni Hr]; subst.
  cbn [dll]. split; [exact Hb|]. destruct (Z.eq_dec b a) as [->|Hne].
  - rewrite Eb in E. injection E as <-. cbn [h_p h_n]. split; [exists e; split; [apply hput_eq|exact B]|].
    apply (dll_weaken Q); [auto|]. eapply dll_frame; [|exact D]. intros x Hx. apply hput_ne. intros ->; contradiction.
  - split; [exists eb; split; [rewrite hput_ne by exact Hne; exact Eb|auto]|]. eapply IH; eauto.
Qed.
Definition isboxed (v : val) : Prop := boxed v = true.

(** The invariant: the list contains exactly the objects holding a pointer to a node; the others are not linked *)
Record linv (s : hlist) (L : list Z) : Prop := {
  li_dll : dll isboxed (hl_m s) 0 L 0;
  li_nd : NoDup L;
  li_head : hl_head s = hd 0 L;
  li_in : forall a h, hl_m s a = Some h -> boxed (h_e h) = true -> In a L;
  li_out : forall a h, hl_m s a = Some h -> boxed (h_e h) = false -> h_p h = 0 /\ h_n h = 0;
  li_null : hl_m s 0 = None }.
Definition holds (s : hlist) (d : held) : Prop := forall a, d a = option_map h_e (hl_m s a).

Lemma same_e_some : forall m m' x h', same_e m m' -> m' x = Some h' -> exists h, m x = Some h /\ h_e h = h_e h'.
Proof. intros m m' x h' S E. specialize (S x). rewrite E in S. destruct (m x); [eauto|contradiction]. Qed.
Lemma same_e_map : forall m m' x, same_e m m' -> option_map h_e (m' x) = option_map h_e (m x).
Proof. intros m m' x S. specialize (S x). destruct (m x), (m' x); cbn; try contradiction; congruence. Qed.

Lemma linv_notin : forall s L a, linv s L -> (forall h, hl_m s a = Some h -> boxed (h_e h) = false) -> ~ In a L.
Proof.
  intros s L a H Hb Hin. destruct (dll_in _ _ _ _ _ a (li_dll _ _ H) Hin) as (_ & h & E & B). unfold isboxed in B. rewrite (Hb h E) in B. discriminate.
Qed.

Lemma ka_new_spec : forall s L a e, linv s L -> a <> 0 -> hl_m s a = None ->
  exists s' L', ka_new a e s = Ok s' /\ linv s' L' /\
    (forall x, option_map h_e (hl_m s' x) = if x =? a then Some e else option_map h_e (hl_m s x)) /\
    L' = (if boxed e then a :: L else L).
Proof.
  intros s L a e H Ha Hn. unfold ka_new, place. destruct (a =? 0) eqn:Ea0; [apply Z.eqb_eq in Ea0; contradiction|]. rewrite Hn. cbn [bind].
  assert (~ In a L) as Hni by (apply (linv_notin s L a H); intros h E; congruence).
  assert (dll isboxed (hput (hl_m s) a (mkH e 0 0)) 0 L 0) as D0.
  { eapply dll_frame; [|apply (li_dll _ _ H)]. intros x Hx. apply hput_ne. intros ->; contradiction. }
  destruct (boxed e) eqn:B.
  - destruct (add_spec isboxed a (mkH e 0 0) (hput (hl_m s) a (mkH e 0 0)) L D0 (li_nd _ _ H) Hni Ha (hput_eq _ _ _) eq_refl eq_refl B)
      as (m' & E & D & S & F). rewrite (li_head _ _ H). rewrite E.
    exists (mkHL m' a), (a :: L). split; [reflexivity|]. split; [|split; [|reflexivity]].
    + constructor; cbn [hl_m hl_head]; auto.
      * constructor; [exact Hni|apply (li_nd _ _ H)].
      * intros x h Ex Bx. destruct (same_e_some _ _ _ _ S Ex) as (h0 & E0 & Eh). destruct (Z.eq_dec x a) as [->|Hx]; [left; reflexivity|].
        rewrite hput_ne in E0 by exact Hx. right. apply (li_in _ _ H x h0 E0). congruence.
      * intros x h Ex Bx. destruct (Z.eq_dec x a) as [->|Hx].
        { destruct (same_e_some _ _ _ _ S Ex) as (h0 & E0 & Eh). rewrite hput_eq in E0. injection E0 as <-. cbn in Eh. congruence. }
        assert (~ In x L) as Hx'. { intros Hin. destruct (dll_in _ _ _ _ _ x D (or_intror Hin)) as (_ & h1 & E1 & B1). unfold isboxed in B1. congruence. }
        rewrite F in Ex by auto. rewrite hput_ne in Ex by exact Hx. exact (li_out _ _ H x h Ex Bx).
      * rewrite F; [rewrite hput_ne by auto; apply (li_null _ _ H)|auto|]. intros Hin. destruct (dll_in _ _ _ _ _ 0 D0 Hin) as [Hz _]; auto.
    + intros x. cbn [hl_m]. rewrite (same_e_map _ _ x S). unfold hput. destruct (x =? a); reflexivity.
  - exists (mkHL (hput (hl_m s) a (mkH e 0 0)) (hl_head s)), L. split; [reflexivity|]. split; [|split; [|reflexivity]].
    + constructor; cbn [hl_m hl_head]; auto.
      * apply (li_nd _ _ H).
      * apply (li_head _ _ H).
      * intros x h Ex Bx. destruct (Z.eq_dec x a) as [->|Hx].
        { rewrite hput_eq in Ex. injection Ex as <-. cbn in Bx. congruence. }
        rewrite hput_ne in Ex by exact Hx. eapply li_in; eauto.
      * intros x h Ex Bx. destruct (Z.eq_dec x a) as [->|Hx].
        { rewrite hput_eq in Ex. injection Ex as <-. split; reflexivity. }
        rewrite hput_ne in Ex by exact Hx. eapply li_out; eauto.
      * rewrite hput_ne by auto. apply (li_null _ _ H).
    + intros x. cbn [hl_m]. unfold hput. destruct (x =? a); reflexivity.
Qed.

Lemma in_split_nd : forall (L : list Z) a, In a L -> exists L1 L2, L = L1 ++ a :: L2.
Proof. intros L a H. apply in_split; exact H. Qed.

(** unlinking an object of the list *)
Lemma unlink_spec : forall s L a h, linv s L -> hl_m s a = Some h -> boxed (h_e h) = true ->
  exists L1 L2 m', L = L1 ++ a :: L2 /\ remove a s = Ok (mkHL m' (hd 0 (L1 ++ L2))) /\ dll isboxed m' 0 (L1 ++ L2) 0 /\ NoDup (L1 ++ L2) /\
     ~ In a (L1 ++ L2) /\ same_e (hl_m s) m' /\ (forall x, ~ In x (L1 ++ L2) -> m' x = hl_m s x).
Proof.
  intros s L a h H E B. destruct (in_split _ _ (li_in _ _ H a h E B)) as (L1 & L2 & ->).
  pose proof (li_dll _ _ H) as D. pose proof (li_nd _ _ H) as Hnd.
  destruct (remove_spec isboxed (hl_m s) L1 a L2 D Hnd) as (m' & Er & D' & S & F). exists L1, L2, m'.
  split; [reflexivity|]. split. { rewrite <- Er. f_equal. destruct s as [m0 hd0]; cbn in *. f_equal. apply (li_head _ _ H). }
  split; [exact D'|]. split; [apply (NoDup_remove_1 _ _ _ Hnd)|]. split; [apply (NoDup_remove_2 _ _ _ Hnd)|]. split; assumption.
Qed.

Lemma hdel_ne : forall m a x, x <> a -> hdel m a x = m x.
Proof. intros. unfold hdel. destruct (x =? a) eqn:E; [apply Z.eqb_eq in E; contradiction|reflexivity]. Qed.
Lemma hdel_eq : forall m a, hdel m a a = None.
Proof. intros. unfold hdel. rewrite Z.eqb_refl. reflexivity. Qed.

(** an object that is not linked is overwritten with an unlinked one, or removed *)
Lemma linv_other : forall m L a o head, dll isboxed m 0 L 0 -> NoDup L -> head = hd 0 L -> ~ In a L -> a <> 0 -> m 0 = None ->
  (forall x h, x <> a -> m x = Some h -> boxed (h_e h) = true -> In x L) ->
  (forall x h, x <> a -> m x = Some h -> boxed (h_e h) = false -> h_p h = 0 /\ h_n h = 0) ->
  (forall h, o = Some h -> boxed (h_e h) = false /\ h_p h = 0 /\ h_n h = 0) ->
  linv (mkHL (fun x => if x =? a then o else m x) head) L.
Proof.
  intros m L a o head D Hnd Hh Hni Ha Hz Hin Hout Ho. constructor; cbn [hl_m hl_head]; auto.
  - eapply dll_frame; [|exact D]. intros x Hx. destruct (x =? a) eqn:E; [apply Z.eqb_eq in E; subst; contradiction|reflexivity].
  - intros x h E B. destruct (x =? a) eqn:Ex; [destruct (Ho h E) as [X _]; congruence|]. apply Z.eqb_neq in Ex. eauto.
  - intros x h E B. destruct (x =? a) eqn:Ex; [destruct (Ho h E) as [_ X]; exact X|]. apply Z.eqb_neq in Ex. eauto.
  - destruct (0 =? a) eqn:E0; [apply Z.eqb_eq in E0; congruence|exact Hz].
Qed.

Lemma ka_del_spec : forall s L a h, linv s L -> hl_m s a = Some h ->
  exists s' L', ka_del a s = Ok s' /\ linv s' L' /\
    (forall x, option_map h_e (hl_m s' x) = if x =? a then None else option_map h_e (hl_m s x)).
Proof.
  intros s L a h H E. unfold ka_del, hget. rewrite E. cbn [bind].
  assert (a <> 0) as Ha by (intros ->; rewrite (li_null _ _ H) in E; discriminate).
  destruct (boxed (h_e h)) eqn:B.
  - destruct (unlink_spec s L a h H E B) as (L1 & L2 & m' & EL & Er & D & Hnd & Hni & S & F). rewrite Er. cbn [bind hl_m hl_head].
    exists (mkHL (hdel m' a) (hd 0 (L1 ++ L2))), (L1 ++ L2). split; [reflexivity|]. split.
    + apply linv_other; auto.
      * rewrite F; [apply (li_null _ _ H)|]. intros Hin. destruct (dll_in _ _ _ _ _ 0 D Hin); auto.
      * intros x h0 Hx E0 B0. destruct (same_e_some _ _ _ _ S E0) as (h1 & E1 & Eh). assert (In x L) as Hin by (apply (li_in _ _ H x h1 E1); congruence).
        rewrite EL in Hin. apply in_app_or in Hin. apply in_or_app. destruct Hin as [Hin|[Hin|Hin]]; auto. congruence.
      * intros x h0 Hx E0 B0. assert (~ In x (L1 ++ L2)) as Hx'. { intros Hin. destruct (dll_in _ _ _ _ _ x D Hin) as (_ & h1 & E1 & B1). unfold isboxed in B1. congruence. }
        rewrite F in E0 by exact Hx'. exact (li_out _ _ H x h0 E0 B0).
      * discriminate.
    + intros x. cbn [hl_m]. unfold hdel. destruct (x =? a); [reflexivity|]. apply (same_e_map _ _ x S).
  - exists (mkHL (hdel (hl_m s) a) (hl_head s)), L. split; [reflexivity|]. split.
    + apply linv_other; try discriminate; auto; try apply H.
      * apply (linv_notin s L a H). intros h0 E0. congruence.
      * intros; eapply li_in; eauto.
      * intros; eapply li_out; eauto.
    + intros x. cbn [hl_m]. unfold hdel. destruct (x =? a); reflexivity.
Qed.
