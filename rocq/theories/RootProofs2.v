(** Proofs for C24: moving and assigning handles, histories, and the ring of markers. *)
Require Import ZArith List Bool Lia Permutation.
From Verif Require Import Base RootModel RootSpec RootProofs.
Import ListNotations.
Open Scope Z_scope.

Lemma ka_move_spec : forall s L a b h, linv s L -> a <> 0 -> hl_m s a = None -> hl_m s b = Some h ->
  exists s' L', ka_move a b s = Ok s' /\ linv s' L' /\
    (forall x, option_map h_e (hl_m s' x) = if x =? b then Some VNull else if x =? a then Some (h_e h) else option_map h_e (hl_m s x)).
Proof.
  intros s L a b h H Ha Hn Eb. unfold ka_move, hget, place. rewrite Eb. cbn [bind].
  destruct (a =? 0) eqn:Ea0; [apply Z.eqb_eq in Ea0; contradiction|]. rewrite Hn. cbn [bind hl_m hl_head].
  assert (a <> b) as Hab by (intros ->; congruence).
  assert (b <> 0) as Hb0 by (intros ->; rewrite (li_null _ _ H) in Eb; discriminate).
  assert (mkH (h_e h) (h_p h) (h_n h) = h) as Eh by (destruct h; reflexivity). rewrite Eh.
  assert (~ In a L) as Hna by (apply (linv_notin s L a H); intros h0 E0; congruence).
  destruct (boxed (h_e h)) eqn:B.
  - destruct (in_split _ _ (li_in _ _ H b h Eb B)) as (L1 & L2 & ->).
    assert (dll isboxed (hput (hl_m s) a h) 0 (L1 ++ b :: L2) 0) as D0.
    { eapply dll_frame; [|apply (li_dll _ _ H)]. intros x Hx. apply hput_ne. intros ->; contradiction. }
    pose proof (li_nd _ _ H) as Hnd.
    destruct (relocate_spec isboxed (hput (hl_m s) a h) L1 b L2 a h D0 Hnd Hna Ha) as (m' & Er & D & S & F).
    { rewrite hput_ne by auto. exact Eb. } { apply hput_eq. }
    rewrite (li_head _ _ H), Er. cbn [bind hl_m hl_head].
    pose proof (NoDup_remove_1 _ _ _ Hnd) as Hnd'. pose proof (NoDup_remove_2 _ _ _ Hnd) as Hnb.
    rewrite F by exact Hnb. rewrite hput_ne by auto. rewrite Eb. cbn [bind].
    assert (~ In a (L1 ++ L2)) as Hna'.
    { intros Hin. apply Hna. apply in_app_or in Hin. apply in_or_app. destruct Hin; [left|right; right]; assumption. }
    eexists. exists (L1 ++ a :: L2). split; [reflexivity|]. split.
    + apply linv_other; auto.
      * apply NoDup_Add with (a := a) (l := L1 ++ L2); [apply Add_app|]. split; assumption.
      * intros Hin. apply in_app_or in Hin. destruct Hin as [Hin|[Hin|Hin]]; [|congruence|]; apply Hnb; apply in_or_app; auto.
      * rewrite F; [rewrite hput_ne by auto; apply (li_null _ _ H)|]. intros Hin.
        destruct (dll_in _ _ _ _ _ 0 D0) as [Hz _]; [|auto]. apply in_app_or in Hin. apply in_or_app. destruct Hin; [left|right; right]; assumption.
      * intros x h0 Hx E0 B0. destruct (same_e_some _ _ _ _ S E0) as (h1 & E1 & Eh1). destruct (Z.eq_dec x a) as [->|Hxa].
        { apply in_or_app; right; left; reflexivity. }
        rewrite hput_ne in E1 by exact Hxa. assert (In x (L1 ++ b :: L2)) as Hin by (apply (li_in _ _ H x h1 E1); congruence).
        apply in_app_or in Hin. apply in_or_app. destruct Hin as [Hin|[Hin|Hin]]; [auto|congruence|right; right; exact Hin].
      * intros x h0 Hx E0 B0. assert (~ In x (L1 ++ a :: L2)) as Hx'.
        { intros Hin. destruct (dll_in _ _ _ _ _ x D Hin) as (_ & h1 & E1 & B1). unfold isboxed in B1. congruence. }
        assert (x <> a) as Hxa by (intros ->; apply Hx'; apply in_or_app; right; left; reflexivity).
        rewrite F in E0; [|intros Hin; apply Hx'; apply in_app_or in Hin; apply in_or_app; destruct Hin; [left|right; right]; assumption].
        rewrite hput_ne in E0 by exact Hxa. exact (li_out _ _ H x h0 E0 B0).
      * intros h0 E0. injection E0 as <-. repeat split.
    + intros x. cbn [hl_m]. unfold hput at 1. destruct (x =? b); [reflexivity|]. rewrite (same_e_map _ _ x S). unfold hput. destruct (x =? a); reflexivity.
  - cbn [bind hl_m hl_head]. rewrite hput_ne by auto. rewrite Eb. cbn [bind].
    destruct (li_out _ _ H b h Eb B) as [Hp Hnn].
    assert (~ In b L) as Hnb by (apply (linv_notin s L b H); intros h0 E0; congruence).
    eexists. exists L. split; [reflexivity|]. split.
    + apply linv_other; auto.
      * eapply dll_frame; [|apply (li_dll _ _ H)]. intros x Hx. apply hput_ne. intros ->; contradiction.
      * apply (li_nd _ _ H).
      * apply (li_head _ _ H).
      * rewrite hput_ne by auto. apply (li_null _ _ H).
      * intros x h0 Hx E0 B0. destruct (Z.eq_dec x a) as [->|Hxa]; [rewrite hput_eq in E0; congruence|]. rewrite hput_ne in E0 by exact Hxa. eapply li_in; eauto.
      * intros x h0 Hx E0 B0. destruct (Z.eq_dec x a) as [->|Hxa]; [rewrite hput_eq in E0; injection E0 as <-; auto|]. rewrite hput_ne in E0 by exact Hxa. eapply li_out; eauto.
      * intros h0 E0. injection E0 as <-. repeat split.
    + intros x. cbn [hl_m]. unfold hput. destruct (x =? b); [reflexivity|]. destruct (x =? a); reflexivity.
Qed.

(** changing the pointer of a linked object to another node *)
Lemma linv_sete : forall s L a h e, linv s L -> hl_m s a = Some h -> boxed (h_e h) = true -> boxed e = true ->
  linv (mkHL (hput (hl_m s) a (mkH e (h_p h) (h_n h))) (hl_head s)) L.
Proof.
  intros s L a h e H E B Be. assert (In a L) as Hin by (eapply li_in; eauto).
  constructor; cbn [hl_m hl_head]; try apply H.
  - eapply dll_sete; [apply (li_dll _ _ H)|apply (li_nd _ _ H)|exact E|exact Be|auto].
  - intros x h0 E0 B0. destruct (Z.eq_dec x a) as [->|Hx]; [exact Hin|]. rewrite hput_ne in E0 by exact Hx. eapply li_in; eauto.
  - intros x h0 E0 B0. destruct (Z.eq_dec x a) as [->|Hx]; [rewrite hput_eq in E0; injection E0 as <-; cbn in B0; congruence|].
    rewrite hput_ne in E0 by exact Hx. eapply li_out; eauto.
  - rewrite hput_ne; [apply (li_null _ _ H)|]. intros <-. rewrite (li_null _ _ H) in E. discriminate.
Qed.
(** linking an object before its pointer is changed to a node *)
Lemma linv_add_sete : forall s L a h e, linv s L -> hl_m s a = Some h -> boxed (h_e h) = false -> boxed e = true ->
  exists m' h', add a s = Ok (mkHL m' a) /\ m' a = Some h' /\ same_e (hl_m s) m' /\
    linv (mkHL (hput m' a (mkH e (h_p h') (h_n h'))) a) (a :: L).
Proof.
  intros s L a h e H E B Be. destruct (li_out _ _ H a h E B) as [Hp Hn].
  assert (~ In a L) as Hni by (apply (linv_notin s L a H); intros h0 E0; congruence).
  assert (a <> 0) as Ha by (intros ->; rewrite (li_null _ _ H) in E; discriminate).
  assert (dll (fun _ => True) (hl_m s) 0 L 0) as D0 by (eapply dll_weaken; [|apply (li_dll _ _ H)]; auto).
  destruct (add_spec (fun _ => True) a h (hl_m s) L D0 (li_nd _ _ H) Hni Ha E Hp Hn I) as (m' & Ea & D & S & F).
  destruct D as (_ & (ea & Em & _) & D). cbn [hd] in *.
  exists m', (mkH ea 0 (hd 0 L)). split. { rewrite <- Ea. f_equal. destruct s; cbn. f_equal. apply (li_head _ _ H). }
  split; [exact Em|]. split; [exact S|]. cbn [h_p h_n].
  assert (dll isboxed (hput m' a (mkH e 0 (hd 0 L))) 0 (a :: L) 0) as Dn.
  { split; [exact Ha|]. split; [exists e; split; [apply hput_eq|exact Be]|].
    eapply dll_frame with (m := m'). { intros x Hx. apply hput_ne. intros ->; contradiction. }
    eapply dll_weaken; [|exact D]. intros x h0 Hx E0 _. destruct (same_e_some _ _ _ _ S E0) as (h1 & E1 & Eh). rewrite <- Eh.
    destruct (dll_in _ _ _ _ _ x (li_dll _ _ H) Hx) as (_ & h2 & E2 & B2). congruence. }
  constructor; cbn [hl_m hl_head]; auto.
  - constructor; [exact Hni|apply (li_nd _ _ H)].
  - intros x h0 E0 B0. destruct (Z.eq_dec x a) as [->|Hx]; [left; reflexivity|]. rewrite hput_ne in E0 by exact Hx.
    destruct (same_e_some _ _ _ _ S E0) as (h1 & E1 & Eh). right. apply (li_in _ _ H x h1 E1). congruence.
  - intros x h0 E0 B0. destruct (Z.eq_dec x a) as [->|Hx]; [rewrite hput_eq in E0; injection E0 as <-; cbn in B0; congruence|]. rewrite hput_ne in E0 by exact Hx.
    assert (~ In x L) as Hx'. { intros Hin. destruct (same_e_some _ _ _ _ S E0) as (h1 & E1 & Eh). destruct (dll_in _ _ _ _ _ x (li_dll _ _ H) Hin) as (_ & h2 & E2 & B2). unfold isboxed in B2. congruence. }
    rewrite F in E0 by auto. exact (li_out _ _ H x h0 E0 B0).
  - rewrite hput_ne by auto. rewrite F; [apply (li_null _ _ H)|auto|]. intros Hin. destruct (dll_in _ _ _ _ _ 0 D0 Hin) as [Hz _]; auto.
Qed.
(** unlinking an object and clearing its pointer *)
Lemma linv_unlink : forall s L a h e, linv s L -> hl_m s a = Some h -> boxed (h_e h) = true -> boxed e = false ->
  exists m' L' h', remove a s = Ok (mkHL m' (hd 0 L')) /\ m' a = Some h' /\ same_e (hl_m s) m' /\
    linv (mkHL (hput m' a (mkH e 0 0)) (hd 0 L')) L' /\ (exists L1 L2, L = L1 ++ a :: L2 /\ L' = L1 ++ L2).
Proof.
  intros s L a h e H E B Be. assert (a <> 0) as Ha by (intros ->; rewrite (li_null _ _ H) in E; discriminate).
  destruct (unlink_spec s L a h H E B) as (L1 & L2 & m' & EL & Er & D & Hnd & Hni & S & F).
  exists m', (L1 ++ L2), h. split; [exact Er|]. split; [rewrite F by exact Hni; exact E|]. split; [exact S|]. split; [|eauto].
  apply linv_other; auto.
  - rewrite F; [apply (li_null _ _ H)|]. intros Hin. destruct (dll_in _ _ _ _ _ 0 D Hin); auto.
  - intros x h0 Hx E0 B0. destruct (same_e_some _ _ _ _ S E0) as (h1 & E1 & Eh). assert (In x L) as Hin by (apply (li_in _ _ H x h1 E1); congruence).
    rewrite EL in Hin. apply in_app_or in Hin. apply in_or_app. destruct Hin as [Hin|[Hin|Hin]]; auto. congruence.
  - intros x h0 Hx E0 B0. assert (~ In x (L1 ++ L2)) as Hx'. { intros Hin. destruct (dll_in _ _ _ _ _ x D Hin) as (_ & h1 & E1 & B1). unfold isboxed in B1. congruence. }
    rewrite F in E0 by exact Hx'. exact (li_out _ _ H x h0 E0 B0).
  - intros h0 E0. injection E0 as <-. repeat split. exact Be.
Qed.
(** changing a pointer that is not linked *)
Lemma linv_plain : forall s L a h e, linv s L -> hl_m s a = Some h -> boxed (h_e h) = false -> boxed e = false ->
  linv (mkHL (hput (hl_m s) a (mkH e (h_p h) (h_n h))) (hl_head s)) L.
Proof.
  intros s L a h e H E B Be. assert (a <> 0) as Ha by (intros ->; rewrite (li_null _ _ H) in E; discriminate).
  apply linv_other; try apply H; auto.
  - apply (linv_notin s L a H). intros h0 E0. congruence.
  - intros; eapply li_in; eauto.
  - intros; eapply li_out; eauto.
  - intros h0 E0. injection E0 as <-. split; [exact Be|]. exact (li_out _ _ H a h E B).
Qed.

(** the same objects, pointwise *)
Lemma linv_ext : forall s s' L, linv s L -> (forall x, hl_m s' x = hl_m s x) -> hl_head s' = hl_head s -> linv s' L.
Proof.
  intros s s' L H Hx Hh. constructor.
  - eapply dll_frame; [|apply (li_dll _ _ H)]. intros x _. apply Hx.
  - apply (li_nd _ _ H).
  - rewrite Hh. apply (li_head _ _ H).
  - intros a h E. rewrite Hx in E. eapply li_in; eauto.
  - intros a h E. rewrite Hx in E. eapply li_out; eauto.
  - rewrite Hx. apply (li_null _ _ H).
Qed.
Lemma hput_twice : forall m a h h' x, hput (hput m a h) a h' x = hput m a h' x.
Proof. intros. unfold hput. destruct (x =? a); reflexivity. Qed.

Lemma ka_assign_spec : forall s L a b h g, linv s L -> hl_m s a = Some h -> hl_m s b = Some g ->
  exists s' L', ka_assign a b s = Ok s' /\ linv s' L' /\
    (forall x, option_map h_e (hl_m s' x) = if x =? a then Some (h_e g) else option_map h_e (hl_m s x)).
Proof.
  intros s L a b h g H Ea Eb. unfold ka_assign. destruct (a =? b) eqn:Eab.
  - apply Z.eqb_eq in Eab; subst b. unfold hget. rewrite Ea. cbn [bind]. exists s, L. split; [reflexivity|]. split; [exact H|].
    intros x. destruct (x =? a) eqn:Ex; [apply Z.eqb_eq in Ex; subst x; rewrite Ea; cbn; congruence|reflexivity].
  - apply Z.eqb_neq in Eab. unfold hget at 1 2. rewrite Ea, Eb. cbn [bind].
    destruct (boxed (h_e h)) eqn:Bh; destruct (boxed (h_e g)) eqn:Bg; cbn [negb].
    + cbn [bind]. unfold hget at 1. rewrite Eb. cbn [bind]. unfold set_e, hget. rewrite Ea. cbn [bind].
      eexists. exists L. split; [reflexivity|]. split; [apply (linv_sete s L a h (h_e g)); auto|].
      intros x. cbn [hl_m]. unfold hput. destruct (x =? a); reflexivity.
    + destruct (linv_unlink s L a h (h_e g) H Ea Bh Bg) as (m' & L' & h' & Er & Em & S & Hl & _). rewrite Er. cbn [bind hl_m hl_head].
      unfold set_n at 1, hget. rewrite Em. cbn [bind]. unfold set_p, hget. rewrite hput_eq. cbn [bind hl_m hl_head h_e h_n].
      rewrite !hput_ne by auto. pose proof (S b) as Sb. rewrite Eb in Sb. destruct (m' b) as [g'|] eqn:Eg'; [|contradiction]. cbn [bind].
      unfold set_e, hget. rewrite hput_eq. cbn [bind h_p h_n]. eexists. exists L'. split; [reflexivity|]. split.
      * eapply linv_ext; [exact Hl| |reflexivity]. intros x. cbn [hl_m]. rewrite !hput_twice. rewrite <- Sb. reflexivity.
      * intros x. cbn [hl_m]. rewrite !hput_twice. unfold hput. destruct (x =? a); [cbn; congruence|]. apply (same_e_map _ _ x S).
    + destruct (linv_add_sete s L a h (h_e g) H Ea Bh Bg) as (m' & h' & Er & Em & S & Hl). rewrite Er. cbn [bind hl_m hl_head].
      pose proof (S b) as Sb. rewrite Eb in Sb. unfold hget at 1. destruct (m' b) as [g'|] eqn:Eg'; [|contradiction]. cbn [bind].
      unfold set_e, hget. rewrite Em. cbn [bind]. eexists. exists (a :: L). rewrite <- Sb. split; [reflexivity|]. split; [exact Hl|].
      intros x. cbn [hl_m]. unfold hput. destruct (x =? a); [reflexivity|]. apply (same_e_map _ _ x S).
    + cbn [bind]. unfold hget at 1. rewrite Eb. cbn [bind]. unfold set_e, hget. rewrite Ea. cbn [bind].
      eexists. exists L. split; [reflexivity|]. split; [apply (linv_plain s L a h (h_e g)); auto|].
      intros x. cbn [hl_m]. unfold hput. destruct (x =? a); reflexivity.
Qed.

Lemma linv_init : linv hl_init [].
Proof. constructor; cbn; auto using NoDup_nil; try discriminate. Qed.

Lemma holds_none : forall s d a, holds s d -> d a = None -> hl_m s a = None.
Proof. intros s d a H E. rewrite H in E. destruct (hl_m s a); [discriminate|reflexivity]. Qed.
Lemma holds_some : forall s d a e, holds s d -> d a = Some e -> exists h, hl_m s a = Some h /\ h_e h = e.
Proof. intros s d a e H E. rewrite H in E. destruct (hl_m s a) as [h|]; [|discriminate]. injection E as <-. eauto. Qed.

Lemma ka_step_spec : forall d o d' s L, held_step d o d' -> linv s L -> holds s d ->
  exists s' L', ka_step o s = Ok s' /\ linv s' L' /\ holds s' d'.
Proof.
  intros d o d' s L Hst. revert s L. destruct Hst as [m a e [Ha Hf]|m a e Hf|m a b e [Ha Hf] Hb|m a b e [Ha Hf] Hb|m a b d0 e Hd Hb]; intros s L H Hh; cbn [ka_step].
  - destruct (ka_new_spec s L a e H Ha (holds_none _ _ _ Hh Hf)) as (s' & L' & E & H' & Hx & _). exists s', L'. split; [exact E|]. split; [exact H'|].
    intros x. rewrite Hx. unfold hold. rewrite <- Hh. reflexivity.
  - destruct (holds_some _ _ _ _ Hh Hf) as (h & E0 & _). destruct (ka_del_spec s L a h H E0) as (s' & L' & E & H' & Hx). exists s', L'. split; [exact E|]. split; [exact H'|].
    intros x. rewrite Hx. unfold hold. rewrite <- Hh. reflexivity.
  - destruct (holds_some _ _ _ _ Hh Hb) as (h & E0 & Eh). unfold ka_copy, hget. rewrite E0. cbn [bind]. rewrite Eh.
    destruct (ka_new_spec s L a e H Ha (holds_none _ _ _ Hh Hf)) as (s' & L' & E & H' & Hx & _). exists s', L'. split; [exact E|]. split; [exact H'|].
    intros x. rewrite Hx. unfold hold. rewrite <- Hh. reflexivity.
  - destruct (holds_some _ _ _ _ Hh Hb) as (h & E0 & Eh).
    destruct (ka_move_spec s L a b h H Ha (holds_none _ _ _ Hh Hf) E0) as (s' & L' & E & H' & Hx). exists s', L'. split; [exact E|]. split; [exact H'|].
    intros x. rewrite Hx, Eh. unfold hold. rewrite <- Hh. reflexivity.
  - destruct (holds_some _ _ _ _ Hh Hd) as (h & E0 & _). destruct (holds_some _ _ _ _ Hh Hb) as (g & E1 & Eg).
    destruct (ka_assign_spec s L a b h g H E0 E1) as (s' & L' & E & H' & Hx). exists s', L'. split; [exact E|]. split; [exact H'|].
    intros x. rewrite Hx, Eg. unfold hold. rewrite <- Hh. reflexivity.
Qed.

Lemma linv_visits : forall s L, linv s L -> visits (hl_m s) (hl_head s) L.
Proof. intros s L H. rewrite (li_head _ _ H). eapply dll_visits. apply (li_dll _ _ H). Qed.

Lemma C24_l : forall ops d, held_run (fun _ => None) ops d ->
  exists s L, ka_run ops hl_init = Ok s /\ (forall a, option_map h_e (hl_m s a) = d a) /\
    visits (hl_m s) (hl_head s) L /\ NoDup L /\ forall a, In a L <-> exists x, d a = Some (VNode x).
Proof.
  intros ops d Hr.
  assert (forall d0 s0 L0, held_run d0 ops d -> linv s0 L0 -> holds s0 d0 -> exists s L, ka_run ops s0 = Ok s /\ linv s L /\ holds s d) as X.
  { clear Hr. intros d0 s0 L0 Hr. revert s0 L0. induction Hr as [m|m o m1 r m2 Hst Hr IH]; intros s0 L0 H Hh; cbn [ka_run]; [eauto|].
    destruct (ka_step_spec _ _ _ _ _ Hst H Hh) as (s1 & L1 & E & H1 & Hh1). rewrite E. cbn [bind]. eapply IH; eauto. }
  destruct (X _ hl_init [] Hr linv_init) as (s & L & E & H & Hh); [intros a; reflexivity|].
  exists s, L. split; [exact E|]. split; [intros a; symmetry; apply Hh|]. split; [apply linv_visits; exact H|]. split; [apply (li_nd _ _ H)|].
  intros a. rewrite Hh. split.
  - intros Hin. destruct (dll_in _ _ _ _ _ a (li_dll _ _ H) Hin) as (_ & h & Ea & B). rewrite Ea. cbn. unfold isboxed in B. destruct (h_e h); try discriminate. eauto.
  - intros (x & Ex). destruct (hl_m s a) as [h|] eqn:Ea; [|discriminate]. injection Ex as Ex. eapply li_in; [exact H|exact Ea|]. rewrite Ex. reflexivity.
Qed.

(** ** Markers *)
Definition hm (m : Z -> option (Z * Z)) : handles := fun x => option_map (fun v => mkH VNull (fst v) (snd v)) (m x).
Definition any (_ : val) : Prop := True.
(** the ring of the markers L *)
Definition cyc (m : Z -> option (Z * Z)) (L : list Z) : Prop := dll any (hm m) (last L 0) L (hd 0 L) /\ NoDup L.

Lemma hm_put : forall m a p n x, hm (rput m a (p, n)) x = hput (hm m) a (mkH VNull p n) x.
Proof. intros. unfold hm, rput, hput. destruct (x =? a); reflexivity. Qed.
Lemma hm_some : forall m a e p n, hm m a = Some (mkH e p n) -> m a = Some (p, n) /\ e = VNull.
Proof. intros m a e p n E. unfold hm in E. destruct (m a) as [[p' n']|]; cbn in E; [|discriminate]. injection E as <- <- <-. auto. Qed.
Lemma rput_eq : forall m a v, rput m a v a = Some v.
Proof. intros. unfold rput. rewrite Z.eqb_refl. reflexivity. Qed.
Lemma rput_ne : forall m a v x, x <> a -> rput m a v x = m x.
Proof. intros. unfold rput. destruct (x =? a) eqn:E; [apply Z.eqb_eq in E; contradiction|reflexivity]. Qed.
Lemma last_def : forall (L : list Z) d d', L <> [] -> last L d = last L d'.
Proof. intros L d d' H. destruct (snoc_case L) as [->|(l & b & ->)]; [congruence|]. rewrite !last_app1. reflexivity. Qed.
Lemma hd_def : forall (L : list Z) d d', L <> [] -> hd d L = hd d' L.
Proof. intros [|a r] d d' H; [congruence|reflexivity]. Qed.

Lemma cyc_rotate : forall m A B, cyc m (A ++ B) -> cyc m (B ++ A).
Proof.
  intros m A B [D Hnd]. split.
  - destruct A as [|a A']; [rewrite app_nil_r; exact D|]. destruct B as [|b B']; [rewrite app_nil_r in D; exact D|].
    assert (last ((a :: A') ++ b :: B') 0 = last (b :: B') 0) as E1.
    { destruct (snoc_case (b :: B')) as [X|(l & z & X)]; [discriminate|]. rewrite X, app_assoc, !last_app1. reflexivity. }
    assert (last ((b :: B') ++ a :: A') 0 = last (a :: A') 0) as E2.
    { destruct (snoc_case (a :: A')) as [X|(l & z & X)]; [discriminate|]. rewrite X, app_assoc, !last_app1. reflexivity. }
    rewrite E1 in D. rewrite E2. apply dll_app in D. destruct D as [D1 D2]. apply dll_app. split.
    + rewrite (last_def (a :: A') 0 (last (b :: B') 0)) by discriminate. exact D2.
    + rewrite (last_def (b :: B') _ 0) by discriminate. exact D1.
  - apply (Permutation_NoDup (Permutation_app_comm A B)). exact Hnd.
Qed.
Lemma cyc_ext : forall m m' L, (forall x, In x L -> m' x = m x) -> cyc m L -> cyc m' L.
Proof. intros m m' L H [D Hnd]. split; [|exact Hnd]. eapply dll_frame; [|exact D]. intros x Hx. unfold hm. rewrite H by exact Hx. reflexivity. Qed.

(** a segment is closed to a ring *)
Lemma close_ring : forall m M p q, M <> [] -> dll any (hm m) p M q -> NoDup M ->
  exists p1 n1 p2 n2, m (hd 0 M) = Some (p1, n1) /\ (rput m (hd 0 M) (last M 0, n1)) (last M 0) = Some (p2, n2) /\
    cyc (rput (rput m (hd 0 M) (last M 0, n1)) (last M 0) (p2, hd 0 M)) M.
Proof.
  intros m M p q Hne D Hnd. destruct M as [|c r]; [congruence|]. cbn [hd].
  pose proof D as (Hc & (e & Ec & _) & Dr). destruct (hm_some _ _ _ _ _ Ec) as [Em ->].
  set (z := last (c :: r) 0).
  assert (dll any (hput (hm m) c (mkH VNull z (hd q r))) z (c :: r) q) as D1 by (apply (dll_repoint any _ _ p q z c r VNull eq_refl Hnd D Ec)).
  destruct (snoc_case (c :: r)) as [X|(l & b & X)]; [discriminate|].
  assert (z = b) as Ez by (unfold z; rewrite X, last_app1; reflexivity).
  assert (exists pb, hm (rput m c (z, hd q r)) b = Some (mkH VNull pb q) /\ pb = last l z) as (pb & Eb & Epb).
  { rewrite X in D1. apply dll_app in D1. destruct D1 as [_ (_ & (eb & Eb & _) & _)]. cbn [hd] in Eb. rewrite <- hm_put in Eb.
    destruct (hm_some _ _ _ _ _ Eb) as [_ ->]. eauto. }
  destruct (hm_some _ _ _ _ _ Eb) as [Eb' _].
  exists p, (hd q r), pb, q. split; [exact Em|]. split; [fold z; rewrite Ez in *; exact Eb'|]. fold z. split; [|exact Hnd]. fold z.
  assert (dll any (hput (hput (hm m) c (mkH VNull z (hd q r))) b (mkH VNull (last l z) c)) z (l ++ [b]) c) as D2.
  { apply dll_reend with (q := q); [rewrite <- X; exact D1|rewrite <- X; exact Hnd|]. rewrite <- hm_put, Eb, Epb. reflexivity. }
  cbn [hd]. rewrite <- X in D2. eapply dll_frame; [|exact D2]. intros x _. rewrite Ez, hm_put. unfold hput at 1 2. destruct (x =? b); [rewrite Epb, Ez; reflexivity|].
  rewrite hm_put. reflexivity.
Qed.

Record rinv (s : ring) (L : list Z) : Prop := {
  ri_cyc : cyc (r_m s) L;
  ri_root : r_root s = hd 0 L;
  ri_in : forall a, In a L <-> r_m s a <> None;
  ri_null : r_m s 0 = None }.

Lemma cyc_in : forall m L a, cyc m L -> In a L -> a <> 0.
Proof. intros m L a [D _] Hin. destruct (dll_in _ _ _ _ _ a D Hin); auto. Qed.

Lemma marker_add_spec : forall s L a, rinv s L -> a <> 0 -> r_m s a = None ->
  exists s' L', marker_add a s = Ok s' /\ rinv s' L' /\ forall x, In x L' <-> x = a \/ In x L.
Proof.
  intros s L a H Ha Hn. unfold marker_add. destruct (a =? 0) eqn:Ea0; [apply Z.eqb_eq in Ea0; contradiction|]. rewrite Hn.
  assert (~ In a L) as Hna by (intros Hin; apply (ri_in _ _ H) in Hin; contradiction).
  rewrite (ri_root _ _ H). destruct L as [|r0 r].
  - cbn [hd Z.eqb negb]. eexists. exists [a]. split; [reflexivity|]. split; [|intros x; cbn; intuition auto].
    constructor; cbn [r_m r_root hd].
    + split; [|constructor; [intros []|constructor]]. cbn [last hd dll]. split; [exact Ha|]. split; [|exact I].
      exists VNull. split; [unfold hm; rewrite rput_eq; reflexivity|exact I].
    + reflexivity.
    + intros x. split.
      * intros [<-|[]]. rewrite rput_eq. discriminate.
      * intros Hx. destruct (Z.eq_dec x a) as [->|Hne]; [left; reflexivity|]. rewrite !rput_ne in Hx by exact Hne. apply (ri_in _ _ H) in Hx. destruct Hx.
    + rewrite !rput_ne by auto. apply (ri_null _ _ H).
  - cbn [hd]. destruct (ri_cyc _ _ H) as [D Hnd]. set (z := last (r0 :: r) 0) in *. cbn [hd] in D.
    assert (r0 <> a) as H0a by (intros ->; apply Hna; left; reflexivity).
    pose proof D as (H00 & (e0 & E0 & _) & _). destruct (hm_some _ _ _ _ _ E0) as [Em0 _].
    destruct (r0 =? 0) eqn:E00; [apply Z.eqb_eq in E00; contradiction|]. cbn [negb].
    assert (In z (r0 :: r)) as Hz. { unfold z. destruct (snoc_case (r0 :: r)) as [X|(l & b & X)]; [discriminate|]. rewrite X, last_app1. apply in_or_app; right; left; reflexivity. }
    assert (z <> a) as Hza by (intros E; apply Hna; rewrite <- E; exact Hz).
    unfold rset_next at 1, rget. rewrite rput_eq. cbn [bind]. rewrite rput_eq. cbn [bind].
    rewrite !rput_ne by exact H0a. rewrite Em0. cbn [bind]. unfold rset_prev at 1, rget. rewrite rput_eq. cbn [bind]. rewrite rput_eq. cbn [bind].
    (* the ring of r0 :: r followed by a, as a segment *)
    set (ma := rput (rput (rput (r_m s) a (0, 0)) a (0, r0)) a (z, r0)).
    assert (dll any (hm ma) z ((r0 :: r)) r0) as Dma.
    { eapply dll_frame; [|exact D]. intros x Hx. unfold hm, ma. rewrite !rput_ne; [reflexivity|..]; intros ->; contradiction. }
    destruct (snoc_case (r0 :: r)) as [X|(l & b & X)]; [discriminate|].
    assert (z = b) as Ez by (unfold z; rewrite X, last_app1; reflexivity).
    assert (exists pb, ma z = Some (pb, r0) /\ pb = last l z) as (pb & Eb & Epb).
    { rewrite X in Dma. apply dll_app in Dma. destruct Dma as [_ (_ & (eb & Eb & _) & _)]. cbn [hd] in Eb. destruct (hm_some _ _ _ _ _ Eb) as [Eb' _]. rewrite Ez in *. eauto. }
    unfold rset_next, rget. rewrite Eb. cbn [bind].
    set (mb := rput ma z (pb, a)).
    assert (dll any (hm mb) z (r0 :: r) a) as Dmb.
    { rewrite X. eapply dll_frame with (m := hput (hm ma) b (mkH VNull (last l z) a)).
      { intros x _. unfold mb. rewrite hm_put, Ez, Epb, Ez. reflexivity. }
      apply dll_reend with (q := r0); [rewrite <- X; exact Dma|rewrite <- X; exact Hnd|]. unfold hm. rewrite <- Ez, Eb, Epb. reflexivity. }
    pose proof Dmb as (_ & (e1 & E1 & _) & _). destruct (hm_some _ _ _ _ _ E1) as [Em1 ->].
    unfold rset_prev, rget. rewrite Em1. cbn [bind]. eexists. exists (r0 :: r ++ [a]). split; [reflexivity|].
    split; [|intros x; cbn; rewrite in_app_iff; cbn; intuition auto].
    assert (NoDup (r0 :: r ++ [a])) as Hnd'.
    { change (r0 :: r ++ [a]) with ((r0 :: r) ++ [a]). apply (Permutation_NoDup (Permutation_app_comm [a] (r0 :: r))). constructor; assumption. }
    constructor; cbn [r_m r_root].
    + split; [|exact Hnd']. change (r0 :: r ++ [a]) with ((r0 :: r) ++ [a]). rewrite last_app1. cbn [hd app].
      change (r0 :: r ++ [a]) with ((r0 :: r) ++ [a]). apply dll_app. cbn [hd]. split.
      * eapply dll_frame with (m := hput (hm mb) r0 (mkH VNull a (hd a r))). { intros x _. rewrite hm_put. reflexivity. }
        apply (dll_repoint any _ _ z a a r0 r VNull eq_refl Hnd Dmb E1).
      * rewrite (last_def (r0 :: r) a 0) by discriminate. fold z. cbn [dll hd]. split; [exact Ha|]. split; [|exact I]. exists VNull. split; [|exact I].
        unfold hm. rewrite rput_ne by auto. unfold mb. rewrite rput_ne by auto. unfold ma. rewrite rput_eq. reflexivity.
    + reflexivity.
    + intros x. destruct (Z.eq_dec x a) as [->|Hxa].
      * split; [intros _|intros _; right; apply in_or_app; right; left; reflexivity]. rewrite rput_ne by auto. unfold mb. rewrite rput_ne by auto. unfold ma. rewrite rput_eq. discriminate.
      * assert (In x (r0 :: r ++ [a]) <-> In x (r0 :: r)) as -> by (cbn; rewrite in_app_iff; cbn; intuition congruence).
        rewrite (ri_in _ _ H). assert (r_m s x <> None <-> ma x <> None) as -> by (unfold ma; rewrite !rput_ne by exact Hxa; reflexivity).
        destruct (Z.eq_dec x r0) as [->|Hx0]; [rewrite rput_eq; split; [discriminate|]|rewrite rput_ne by exact Hx0; unfold mb; destruct (Z.eq_dec x z) as [->|Hxz]].
        { intros _. unfold ma. rewrite !rput_ne by exact H0a. congruence. }
        { rewrite rput_eq, Eb. split; discriminate. } { rewrite rput_ne by exact Hxz. reflexivity. }
    + rewrite rput_ne by auto. unfold mb. rewrite rput_ne by (intros E; apply (cyc_in (r_m s) (r0 :: r) z); [split; assumption|exact Hz|auto]).
      unfold ma. rewrite !rput_ne by auto. apply (ri_null _ _ H).
Qed.

Lemma marker_remove_spec : forall s L a, rinv s L -> r_m s a <> None ->
  exists s' L', marker_remove a s = Ok s' /\ rinv s' L' /\ forall x, In x L' <-> x <> a /\ In x L.
Proof.
  intros s L a H Hn. apply (ri_in _ _ H) in Hn. assert (a <> 0) as Ha by (apply (cyc_in _ _ _ (ri_cyc _ _ H) Hn)).
  destruct (in_split _ _ Hn) as (L1 & L2 & EL). pose proof (ri_cyc _ _ H) as C. rewrite EL in C. apply cyc_rotate in C. cbn [app] in C.
  set (M := L2 ++ L1) in *. assert (forall x, In x L <-> x = a \/ In x M) as HM.
  { intros x. unfold M. rewrite EL, !in_app_iff. cbn. intuition auto. }
  pose proof C as [D Hnd]. inversion Hnd as [|? ? Hna HndM]; subst x l. cbn [hd] in D.
  destruct D as (_ & (ea & Ea & _) & D). destruct (hm_some _ _ _ _ _ Ea) as [Em _].
  unfold marker_remove, rget at 1. rewrite Em. cbn [bind].
  destruct M as [|c r] eqn:EM.
  - cbn [hd]. rewrite Z.eqb_refl. cbn [bind]. eexists. exists []. split; [reflexivity|]. split.
    + constructor; cbn [r_m r_root hd].
      * split; [exact I|constructor].
      * reflexivity.
      * intros x. split; [intros []|]. intros Hx. destruct (x =? a) eqn:Ex; [congruence|]. apply (ri_in _ _ H) in Hx. apply HM in Hx. destruct Hx as [->|[]]. rewrite Z.eqb_refl in Ex. discriminate.
      * destruct (0 =? a); [reflexivity|apply (ri_null _ _ H)].
    + intros x. rewrite HM. cbn. tauto.
  - cbn [hd]. rewrite <- EM in *.
    assert (M <> []) as HMne by (rewrite EM; discriminate).
    assert (c = hd 0 M) as Ec by (rewrite EM; reflexivity).
    assert (last (a :: M) 0 = last M 0) as El by (rewrite last_cons; apply last_def; exact HMne). rewrite El.
    assert (In c M) as Hc by (rewrite EM; left; reflexivity).
    assert (In (last M 0) M) as Hz. { destruct (snoc_case M) as [X|(l & b & X)]; [congruence|]. rewrite X, last_app1. apply in_or_app; right; left; reflexivity. }
    assert (c <> a) as Hca by (intros ->; contradiction). assert (last M 0 <> a) as Hza by (intros X; rewrite X in Hz; contradiction).
    destruct (c =? a) eqn:Eca; [apply Z.eqb_eq in Eca; contradiction|].
    destruct (close_ring (r_m s) M a a HMne D HndM) as (p1 & n1 & p2 & n2 & E1 & E2 & C2). rewrite <- Ec in *.
    unfold rset_prev, rget at 1. rewrite E1. cbn [bind]. unfold rget at 1. rewrite rput_ne by auto. rewrite Em, El. cbn [bind hd].
    assert (hd a M = c) as Ehd by (rewrite EM; reflexivity). rewrite Ehd.
    unfold rset_next, rget at 1. rewrite E2. cbn [bind]. unfold rget at 1. rewrite !rput_ne by auto. rewrite Em, El. cbn [bind r_m r_root].
    set (mf := rput (rput (r_m s) c (last M 0, n1)) (last M 0) (p2, c)) in *.
    set (root' := if a =? r_root s then last M 0 else r_root s).
    assert (In root' M) as Hroot.
    { unfold root'. destruct (a =? r_root s) eqn:Er; [exact Hz|]. apply Z.eqb_neq in Er. rewrite (ri_root _ _ H) in *.
      assert (In (hd 0 L) L) as Hh by (destruct L; [destruct Hn|left; reflexivity]). apply HM in Hh. destruct Hh; [congruence|assumption]. }
    destruct (in_split _ _ Hroot) as (M1 & M2 & EM'). rewrite EM' in C2. apply cyc_rotate in C2. cbn [app] in C2.
    assert (forall x, In x (root' :: M2 ++ M1) <-> In x M) as HM'. { intros x. rewrite EM'. cbn. rewrite !in_app_iff. cbn. tauto. }
    eexists. exists (root' :: M2 ++ M1). split; [reflexivity|]. split.
    + constructor; cbn [r_m r_root hd].
      * eapply cyc_ext; [|exact C2]. intros x Hx. apply HM' in Hx. cbv beta. destruct (x =? a) eqn:Ex; [apply Z.eqb_eq in Ex; subst; contradiction|reflexivity].
      * reflexivity.
      * intros x. rewrite HM'. destruct (x =? a) eqn:Ex.
        { apply Z.eqb_eq in Ex; subst x. split; [contradiction|congruence]. }
        apply Z.eqb_neq in Ex. unfold mf. destruct (Z.eq_dec x (last M 0)) as [->|Hx1]; [rewrite rput_eq; split; [discriminate|auto]|]. rewrite rput_ne by exact Hx1.
        destruct (Z.eq_dec x c) as [->|Hx2]; [rewrite rput_eq; split; [discriminate|auto]|]. rewrite rput_ne by exact Hx2. rewrite <- (ri_in _ _ H), HM. intuition congruence.
      * destruct (0 =? a) eqn:E0; [apply Z.eqb_eq in E0; congruence|]. unfold mf. rewrite !rput_ne; [apply (ri_null _ _ H)| |];
          intros E; [apply (cyc_in (r_m s) L c (ri_cyc _ _ H)); [apply HM; auto|auto]|apply (cyc_in (r_m s) L (last M 0) (ri_cyc _ _ H)); [apply HM; auto|auto]].
    + intros x. rewrite HM'. rewrite HM. split; [intros Hx; split; [intros ->; contradiction|auto]|intros [Hne [->|Hx]]; [congruence|exact Hx]].
Qed.

Lemma seg_visits : forall r m root p a, dll any (hm m) p (a :: r) root -> ~ In root r -> NoDup (a :: r) -> ring_visits m root a (a :: r).
Proof.
  induction r as [|b r IH]; intros m root p a D Hni Hnd.
  - destruct D as (_ & (e & E & _) & _). destruct (hm_some _ _ _ _ _ E) as [Em _]. eapply ring_last. exact Em.
  - destruct D as (_ & (e & E & _) & D). destruct (hm_some _ _ _ _ _ E) as [Em _]. cbn [hd] in Em. eapply ring_next; [exact Em| |].
    + intros ->. apply Hni. left; reflexivity.
    + inversion Hnd; subst. eapply IH; [exact D| |assumption]. intros Hin. apply Hni. right; exact Hin.
Qed.

Lemma C24_markers_l : forall ops d, exist_run (fun _ => false) ops d ->
  exists s, marker_run ops ring_init = Ok s /\
    ((r_root s = 0 /\ forall a, d a = false) \/
     (r_root s <> 0 /\ exists L, ring_visits (r_m s) (r_root s) (r_root s) L /\ NoDup L /\ forall a, In a L <-> d a = true)).
Proof.
  intros ops d Hr.
  assert (forall d0 s0 L0, exist_run d0 ops d -> rinv s0 L0 -> (forall a, In a L0 <-> d0 a = true) ->
            exists s L, marker_run ops s0 = Ok s /\ rinv s L /\ forall a, In a L <-> d a = true) as X.
  { clear Hr. intros d0 s0 L0 Hr. revert s0 L0. induction Hr as [m|m o m1 r m2 Hst Hr IH]; intros s0 L0 H Hh; cbn [marker_run]; [eauto|].
    destruct Hst as [m a Ha Hf|m a Hf]; cbn [marker_step].
    - assert (r_m s0 a = None) as Hn. { destruct (r_m s0 a) eqn:E; [|reflexivity]. assert (In a L0) as Hin by (apply (ri_in _ _ H); congruence). apply Hh in Hin. congruence. }
      destruct (marker_add_spec s0 L0 a H Ha Hn) as (s1 & L1 & E & H1 & Hx). rewrite E. cbn [bind]. eapply IH; [exact H1|].
      intros x. rewrite Hx. destruct (x =? a) eqn:Ex; [apply Z.eqb_eq in Ex; subst; tauto|]. apply Z.eqb_neq in Ex. rewrite <- Hh. tauto.
    - assert (r_m s0 a <> None) as Hn by (apply (ri_in _ _ H); apply Hh; exact Hf).
      destruct (marker_remove_spec s0 L0 a H Hn) as (s1 & L1 & E & H1 & Hx). rewrite E. cbn [bind]. eapply IH; [exact H1|].
      intros x. rewrite Hx. destruct (x =? a) eqn:Ex; [apply Z.eqb_eq in Ex; subst; intuition congruence|]. apply Z.eqb_neq in Ex. rewrite <- Hh. tauto. }
  assert (rinv ring_init []) as H0. { constructor; cbn; auto. split; [exact I|constructor]. intros a; split; [intros []|congruence]. }
  destruct (X _ ring_init [] Hr H0) as (s & L & E & H & Hh); [intros a; split; [intros []|discriminate]|].
  exists s. split; [exact E|]. rewrite (ri_root _ _ H). destruct L as [|a r].
  - left. split; [reflexivity|]. intros a. destruct (d a) eqn:Ea; [|reflexivity]. apply Hh in Ea. destruct Ea.
  - right. cbn [hd]. split; [apply (cyc_in _ _ a (ri_cyc _ _ H)); left; reflexivity|]. exists (a :: r). destruct (ri_cyc _ _ H) as [D Hnd].
    split; [|split; [exact Hnd|exact Hh]]. inversion Hnd; subst. eapply seg_visits; [exact D|assumption|assumption].
Qed.
