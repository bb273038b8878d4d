(** Proofs for C25. *)
Require Import ZArith List Bool Lia.
From Verif Require Import Base RootModel RootSpec RootProofs RootProofs2.
Import ListNotations.
Open Scope Z_scope.

Lemma linv_nonzero : forall s L a h, linv s L -> hl_m s a = Some h -> a <> 0.
Proof. intros s L a h H E ->. rewrite (li_null _ _ H) in E. discriminate. Qed.
Lemma linv_boxed : forall s L a, linv s L -> In a L -> exists h, hl_m s a = Some h /\ boxed (h_e h) = true.
Proof. intros s L a H Hin. destruct (dll_in _ _ _ _ _ a (li_dll _ _ H) Hin) as (_ & h & E & B). eauto. Qed.

(** changing the pointer of an unlinked object to a node and linking it *)
Lemma linv_sete_add : forall s L a h e, linv s L -> hl_m s a = Some h -> boxed (h_e h) = false -> boxed e = true ->
  exists s', add a (mkHL (hput (hl_m s) a (mkH e (h_p h) (h_n h))) (hl_head s)) = Ok s' /\ linv s' (a :: L) /\
    (forall x, option_map h_e (hl_m s' x) = if x =? a then Some e else option_map h_e (hl_m s x)).
Proof.
  intros s L a h e H E Bh B. destruct (li_out _ _ H a h E Bh) as [Hp Hn]. rewrite Hp, Hn.
  assert (a <> 0) as Ha by (eapply linv_nonzero; eauto).
  assert (~ In a L) as Hni by (apply (linv_notin s L a H); intros h0 E0; congruence).
  assert (dll isboxed (hput (hl_m s) a (mkH e 0 0)) 0 L 0) as D0.
  { eapply dll_frame; [|apply (li_dll _ _ H)]. intros x Hx. apply hput_ne. intros ->; contradiction. }
  destruct (add_spec isboxed a (mkH e 0 0) (hput (hl_m s) a (mkH e 0 0)) L D0 (li_nd _ _ H) Hni Ha (hput_eq _ _ _) eq_refl eq_refl B)
    as (m' & Ea & D & S & F). rewrite (li_head _ _ H). rewrite Ea. eexists. split; [reflexivity|]. split.
  - constructor; cbn [hl_m hl_head]; auto.
    + constructor; [exact Hni|apply (li_nd _ _ H)].
    + intros x h0 Ex Bx. destruct (same_e_some _ _ _ _ S Ex) as (h1 & E1 & Eh). destruct (Z.eq_dec x a) as [->|Hx]; [left; reflexivity|].
      rewrite hput_ne in E1 by exact Hx. right. apply (li_in _ _ H x h1 E1). congruence.
    + intros x h0 Ex Bx. destruct (Z.eq_dec x a) as [->|Hx].
      { destruct (same_e_some _ _ _ _ S Ex) as (h1 & E1 & Eh). rewrite hput_eq in E1. injection E1 as <-. cbn in Eh. congruence. }
      assert (~ In x L) as Hx'. { intros Hin. destruct (dll_in _ _ _ _ _ x D (or_intror Hin)) as (_ & h1 & E1 & B1). unfold isboxed in B1. congruence. }
      rewrite F in Ex by auto. rewrite hput_ne in Ex by exact Hx. exact (li_out _ _ H x h0 Ex Bx).
    + rewrite F; [rewrite hput_ne by auto; apply (li_null _ _ H)|auto|]. intros Hin. destruct (dll_in _ _ _ _ _ 0 D0 Hin) as [Hz _]; auto.
  - intros x. cbn [hl_m]. rewrite (same_e_map _ _ x S). unfold hput. destruct (x =? a); reflexivity.
Qed.

(** the backward pointer is null exactly for the first object of the list and for unlinked objects *)
Lemma linv_prev : forall s L a h, linv s L -> hl_m s a = Some h -> (h_p h = 0 <-> ~ In a L \/ a = hl_head s).
Proof.
  intros s L a h H E. rewrite (li_head _ _ H). split.
  - intros Hp. destruct (in_dec Z.eq_dec a L) as [Hin|Hin]; [right|left; exact Hin]. destruct (in_split _ _ Hin) as (L1 & L2 & EL).
    pose proof (li_dll _ _ H) as D. rewrite EL in D. apply dll_app in D. destruct D as [D1 (_ & (e & Ea & _) & _)]. rewrite E in Ea. injection Ea as Ea. subst h. cbn [h_p] in Hp.
    destruct L1 as [|b r]; [rewrite EL; reflexivity|]. exfalso. revert Hp. eapply last_nonzero; [exact D1|discriminate].
  - intros [Hn| ->].
    + destruct (boxed (h_e h)) eqn:B; [exfalso; apply Hn; eapply li_in; eauto|]. apply (li_out _ _ H a h E B).
    + destruct L as [|b r]; [cbn in E; rewrite (li_null _ _ H) in E; discriminate|]. cbn [hd] in *. destruct (li_dll _ _ H) as (_ & (e & Eb & _) & _). rewrite E in Eb. injection Eb as ->. reflexivity.
Qed.
Lemma deref_spec : forall s L a h, linv s L -> hl_m s a = Some h ->
  wr_deref h = if boxed (h_e h) && (a =? hl_head s) then VNull else h_e h.
Proof.
  intros s L a h H E. unfold wr_deref. destruct (h_e h) as [|z|x] eqn:Ee; cbn [boxed andb]; try reflexivity.
  pose proof (linv_prev s L a h H E) as P. assert (In a L) as Hin by (eapply li_in; [exact H|exact E|rewrite Ee; reflexivity]).
  destruct (h_p h =? 0) eqn:Ep; cbn [negb].
  - apply Z.eqb_eq in Ep. apply P in Ep. destruct Ep as [Ep| ->]; [contradiction|]. rewrite Z.eqb_refl. reflexivity.
  - destruct (a =? hl_head s) eqn:Ea; [|reflexivity]. apply Z.eqb_eq in Ea. apply Z.eqb_neq in Ep. exfalso. apply Ep. apply P. right; exact Ea.
Qed.

(** clearing a reference in the middle of the list and removing it later *)
Lemma clear_flush : forall s P w R h, linv s (P ++ w :: R) -> hl_m s w = Some h ->
  exists s2, wr_flush (Some w) (mkHL (hput (hl_m s) w (mkH VNull (h_p h) (h_n h))) (hl_head s)) = Ok s2 /\ linv s2 (P ++ R) /\
    (forall x, option_map h_e (hl_m s2 x) = if x =? w then Some VNull else option_map h_e (hl_m s x)).
Proof.
  intros s P w R h H E. pose proof (li_nd _ _ H) as Hnd. assert (w <> 0) as Hw by (eapply linv_nonzero; eauto).
  pose proof (NoDup_remove_1 _ _ _ Hnd) as Hnd'. pose proof (NoDup_remove_2 _ _ _ Hnd) as Hni.
  set (m1 := hput (hl_m s) w (mkH VNull (h_p h) (h_n h))).
  assert (dll any m1 0 (P ++ w :: R) 0) as D1 by (eapply dll_sete; [apply (li_dll _ _ H)|exact Hnd|exact E|exact I|intros; exact I]).
  destruct (remove_spec any m1 P w R D1 Hnd) as (m' & Er & D & S & F).
  unfold wr_flush. rewrite (li_head _ _ H), Er. cbn [bind hl_m hl_head].
  assert (m' w = Some (mkH VNull (h_p h) (h_n h))) as Ew by (rewrite F by exact Hni; apply hput_eq).
  unfold set_n, hget. rewrite Ew. cbn [bind h_e h_p]. unfold set_p, hget. rewrite hput_eq. cbn [bind h_e h_n].
  assert (forall x, option_map h_e (m' x) = if x =? w then Some VNull else option_map h_e (hl_m s x)) as He.
  { intros x. rewrite (same_e_map _ _ x S). unfold m1, hput. destruct (x =? w); reflexivity. }
  eexists. split; [reflexivity|]. split.
  - apply linv_ext with (s := mkHL (fun x => if x =? w then Some (mkH VNull 0 0) else m' x) (hd 0 (P ++ R))); [|intros x; cbn [hl_m]; unfold hput; destruct (x =? w); reflexivity|reflexivity].
    apply linv_other; auto.
    + eapply dll_weaken; [|exact D]. intros x h0 Hx E0 _. assert (x <> w) as Hxw by (intros ->; contradiction).
      pose proof (He x) as Hex. rewrite E0 in Hex. destruct (x =? w) eqn:Exw; [apply Z.eqb_eq in Exw; contradiction|].
      destruct (linv_boxed s _ x H) as (h1 & E1 & B1). { apply in_app_or in Hx. apply in_or_app. destruct Hx; [left|right; right]; assumption. }
      rewrite E1 in Hex. cbn in Hex. injection Hex as Hex. unfold isboxed. rewrite Hex. exact B1.
    + rewrite F; [unfold m1; rewrite hput_ne by auto; apply (li_null _ _ H)|]. intros Hin. destruct (dll_in _ _ _ _ _ 0 D Hin); auto.
    + intros x h0 Hxw E0 B0. pose proof (He x) as Hex. rewrite E0 in Hex. destruct (x =? w) eqn:Exw; [apply Z.eqb_eq in Exw; contradiction|].
      destruct (hl_m s x) as [h1|] eqn:E1; [|discriminate]. cbn in Hex. injection Hex as Hex.
      assert (In x (P ++ w :: R)) as Hin by (apply (li_in _ _ H x h1 E1); congruence). apply in_app_or in Hin. apply in_or_app. destruct Hin as [Hin|[Hin|Hin]]; auto. congruence.
    + intros x h0 Hxw E0 B0. assert (~ In x (P ++ R)) as Hx'.
      { intros Hin. pose proof (He x) as Hex. rewrite E0 in Hex. destruct (x =? w) eqn:Exw; [apply Z.eqb_eq in Exw; contradiction|].
        destruct (linv_boxed s _ x H) as (h1 & E1 & B1). { apply in_app_or in Hin. apply in_or_app. destruct Hin; [left|right; right]; assumption. }
        rewrite E1 in Hex. cbn in Hex. congruence. }
      rewrite F in E0 by exact Hx'. unfold m1 in E0. rewrite hput_ne in E0 by exact Hxw. exact (li_out _ _ H x h0 E0 B0).
    + intros h0 E0. injection E0 as <-. repeat split.
  - intros x. cbn [hl_m]. unfold hput. destruct (x =? w) eqn:Exw; [reflexivity|]. rewrite He, Exw. reflexivity.
Qed.

Definition dead_in (g : nodes) (s : hlist) (x : Z) : bool :=
  match hl_m s x with Some h => match h_e h with VNode y => match g y with Some true => false | _ => true end | _ => false end | None => false end.

Lemma wr_loop_spec : forall R fuel g P pend s s1, wr_flush pend s = Ok s1 -> linv s1 (P ++ R) -> P <> [] -> (length R < fuel)%nat ->
  (forall x h y, In x R -> hl_m s1 x = Some h -> h_e h = VNode y -> g y <> None) ->
  exists s', wr_loop fuel g (hd 0 R) pend s = Ok s' /\ linv s' (P ++ filter (fun x => negb (dead_in g s1 x)) R) /\
    (forall x, option_map h_e (hl_m s' x) = if existsb (Z.eqb x) R && dead_in g s1 x then Some VNull else option_map h_e (hl_m s1 x)).
Proof.
  induction R as [|b R IH]; intros fuel g P pend s s1 Ef H HP Hf Hg; (destruct fuel as [|f]; [exfalso; cbn in Hf; lia|]); cbn [wr_loop hd].
  - rewrite Z.eqb_refl. exists s1. split; [exact Ef|]. split; [exact H|]. intros x. reflexivity.
  - destruct (linv_boxed s1 _ b H) as (h & Eb & Bb); [apply in_or_app; right; left; reflexivity|].
    assert (b <> 0) as Hb0 by (eapply linv_nonzero; eauto). destruct (b =? 0) eqn:E0; [apply Z.eqb_eq in E0; contradiction|].
    rewrite Ef. cbn [bind]. unfold hget at 1. rewrite Eb. cbn [bind].
    assert (In b (P ++ b :: R)) as Hin by (apply in_or_app; right; left; reflexivity).
    pose proof (li_nd _ _ H) as Hnd. pose proof (NoDup_remove_2 _ _ _ Hnd) as Hni.
    assert (b <> hl_head s1) as Hbh. { rewrite (li_head _ _ H). destruct P as [|p0 P']; [congruence|]. cbn [app hd]. intros ->. apply Hni. left; reflexivity. }
    rewrite (deref_spec s1 _ b h H Eb). destruct (b =? hl_head s1) eqn:Ebh; [apply Z.eqb_eq in Ebh; contradiction|]. rewrite andb_false_r.
    assert (h_n h = hd 0 R) as Hnx. { pose proof (li_dll _ _ H) as D. apply dll_app in D. destruct D as [_ (_ & (e & Ex & _) & _)]. rewrite Eb in Ex. injection Ex as ->. reflexivity. }
    destruct (h_e h) as [|z|y] eqn:Ey; try discriminate.
    assert (g y <> None) as Hgy by (eapply Hg; [left; reflexivity|exact Eb|exact Ey]).
    assert (forall x, In x R -> x <> b) as HRb by (intros x Hx ->; apply Hni; apply in_or_app; right; exact Hx).
    destruct (g y) as [[]|] eqn:Egy; [| |congruence].
    + cbn [bind]. unfold hget at 1. rewrite Eb. cbn [bind]. rewrite Hnx.
      destruct (IH f g (P ++ [b]) None s1 s1 eq_refl) as (s' & E & H' & He).
      { rewrite <- app_assoc. exact H. } { destruct P; discriminate. } { cbn in Hf; lia. } { intros x h0 y0 Hx. apply Hg. right; exact Hx. }
      exists s'. split; [exact E|]. assert (dead_in g s1 b = false) as Hd by (unfold dead_in; rewrite Eb, Ey, Egy; reflexivity). split.
      * cbn [filter]. rewrite Hd. cbn [negb]. rewrite <- app_assoc in H'. exact H'.
      * intros x. rewrite He. cbn [existsb]. destruct (x =? b) eqn:Exb; [|reflexivity]. apply Z.eqb_eq in Exb; subst x. rewrite Hd. rewrite andb_false_r. reflexivity.
    + unfold set_e, hget. rewrite Eb. cbn [bind hl_m hl_head]. rewrite hput_eq. cbn [bind h_n]. rewrite Hnx.
      destruct (clear_flush s1 P b R h H Eb) as (s2 & E2 & H2 & He2). rewrite Hnx in E2.
      destruct (IH f g P (Some b) _ s2 E2 H2 HP) as (s' & E & H' & He). { cbn in Hf; lia. }
      { intros x h0 y0 Hx E00 Ey0. assert (x <> b) as Hxb by auto. pose proof (He2 x) as Hex. rewrite E00 in Hex. destruct (x =? b) eqn:Exb; [apply Z.eqb_eq in Exb; contradiction|].
        destruct (hl_m s1 x) as [h1|] eqn:E1; [|discriminate]. cbn in Hex. injection Hex as Hex. eapply Hg; [right; exact Hx|exact E1|congruence]. }
      exists s'. split; [exact E|]. assert (dead_in g s1 b = true) as Hd by (unfold dead_in; rewrite Eb, Ey, Egy; reflexivity).
      assert (forall x, x <> b -> dead_in g s2 x = dead_in g s1 x) as Hdd.
      { intros x Hx. unfold dead_in. pose proof (He2 x) as Hex. destruct (x =? b) eqn:Exb; [apply Z.eqb_eq in Exb; contradiction|].
        destruct (hl_m s2 x), (hl_m s1 x); cbn in Hex; try discriminate; [injection Hex as ->; reflexivity|reflexivity]. }
      split.
      * cbn [filter]. rewrite Hd. cbn [negb].
        assert (filter (fun x => negb (dead_in g s1 x)) R = filter (fun x => negb (dead_in g s2 x)) R) as ->; [|exact H'].
        apply filter_ext_in. intros x Hx. rewrite Hdd by auto. reflexivity.
      * intros x. rewrite He. cbn [existsb]. destruct (x =? b) eqn:Exb.
        { apply Z.eqb_eq in Exb; subst x. rewrite Hd. assert (existsb (Z.eqb b) R = false) as ->.
          { destruct (existsb (Z.eqb b) R) eqn:X; [|reflexivity]. apply existsb_exists in X. destruct X as (y0 & Hy0 & Ey0). apply Z.eqb_eq in Ey0; subst y0. exfalso; apply (HRb b Hy0); reflexivity. }
          cbn [andb orb]. rewrite He2, Z.eqb_refl. reflexivity. }
        apply Z.eqb_neq in Exb. rewrite Hdd by exact Exb. cbn [orb]. rewrite He2. destruct (x =? b) eqn:Exb'; [apply Z.eqb_eq in Exb'; contradiction|]. reflexivity.
Qed.

Lemma filter_len : forall (f : Z -> bool) l, (length (filter f l) <= length l)%nat.
Proof. induction l as [|a l IH]; cbn; [lia|]. destruct (f a); cbn; lia. Qed.

(** all stored pointers are to allocated nodes *)
Definition good (s : hlist) (al : Z -> bool) : Prop := forall a h, hl_m s a = Some h -> val_alive al (h_e h).

Lemma wr_collect_spec : forall fuel keep s al L, linv s L -> good s al -> (length L < fuel)%nat ->
  exists s' L', wr_collect fuel keep (s, al) = Ok (s', fun a => al a && keep a) /\ linv s' L' /\ (length L' <= length L)%nat /\ hl_head s' = hl_head s /\
    (forall x, option_map h_e (hl_m s' x) = if x =? hl_head s then option_map h_e (hl_m s x) else option_map (fun h => weak_target keep (h_e h)) (hl_m s x)).
Proof.
  intros fuel keep s al L H Hg Hf. unfold wr_collect. destruct fuel as [|f]; [lia|].
  set (g := fun a => if al a then Some (keep a) else None).
  assert (forall x h, hl_m s x = Some h -> ~ In x L -> weak_target keep (h_e h) = h_e h) as Hout.
  { intros x h E Hx. destruct (h_e h) as [| |y] eqn:Ee; try reflexivity. exfalso. apply Hx. eapply li_in; [exact H|exact E|rewrite Ee; reflexivity]. }
  destruct L as [|b R].
  - rewrite (li_head _ _ H). cbn [hd wr_loop]. rewrite Z.eqb_refl. cbn [wr_flush bind]. exists s, []. split; [reflexivity|]. split; [exact H|]. split; [auto|].
    split; [rewrite (li_head _ _ H); reflexivity|]. intros x. destruct (x =? 0) eqn:Ex; [reflexivity|].
    destruct (hl_m s x) as [h|] eqn:E; [|reflexivity]. cbn. rewrite (Hout x h E) by (intros []). reflexivity.
  - destruct (linv_boxed s _ b H) as (h & Eb & Bb); [left; reflexivity|]. assert (b <> 0) as Hb0 by (eapply linv_nonzero; eauto).
    assert (hl_head s = b) as Eh by (rewrite (li_head _ _ H); reflexivity). rewrite Eh. cbn [wr_loop].
    destruct (b =? 0) eqn:E0; [apply Z.eqb_eq in E0; contradiction|]. cbn [wr_flush bind]. unfold hget at 1. rewrite Eb. cbn [bind].
    rewrite (deref_spec s _ b h H Eb), Eh, Z.eqb_refl, Bb. cbn [andb bind]. unfold hget at 1. rewrite Eb. cbn [bind].
    assert (h_n h = hd 0 R) as Hnx. { destruct (li_dll _ _ H) as (_ & (e & Ex & _) & _). rewrite Eb in Ex. injection Ex as ->. reflexivity. }
    rewrite Hnx.
    destruct (wr_loop_spec R f g [b] None s s eq_refl H) as (s' & E & H' & He); [discriminate|cbn in Hf; lia| |].
    { intros x h0 y Hx E1 Ey. pose proof (Hg x h0 E1) as Hv. rewrite Ey in Hv. cbn in Hv. unfold g. rewrite Hv. discriminate. }
    rewrite E. cbn [bind]. eexists. eexists. split; [reflexivity|]. split; [exact H'|]. split.
    { cbn [app length]. pose proof (filter_len (fun x => negb (dead_in g s x)) R). lia. }
    split; [rewrite (li_head _ _ H'); reflexivity|].
    intros x. rewrite He. pose proof (li_nd _ _ H) as Hnd. inversion Hnd as [|? ? Hbn _]; subst x0 l.
    destruct (x =? b) eqn:Exb.
    + apply Z.eqb_eq in Exb; subst x. assert (existsb (Z.eqb b) R = false) as ->; [|reflexivity].
      destruct (existsb (Z.eqb b) R) eqn:X; [|reflexivity]. apply existsb_exists in X. destruct X as (y0 & Hy0 & Ey0). apply Z.eqb_eq in Ey0; subst y0. contradiction.
    + apply Z.eqb_neq in Exb. destruct (hl_m s x) as [h0|] eqn:Ex.
      * cbn [option_map]. destruct (existsb (Z.eqb x) R) eqn:X; cbn [andb].
        { apply existsb_exists in X. destruct X as (y0 & Hy0 & Ey0). apply Z.eqb_eq in Ey0; subst y0.
          unfold dead_in. rewrite Ex. destruct (h_e h0) as [| |y] eqn:Ee; try reflexivity. pose proof (Hg x h0 Ex) as Hv. rewrite Ee in Hv. cbn in Hv.
          unfold g. rewrite Hv. cbn [weak_target]. destruct (keep y); reflexivity. }
        rewrite (Hout x h0 Ex); [reflexivity|]. intros [->|Hin]; [congruence|].
        assert (existsb (Z.eqb x) R = true) as X' by (apply existsb_exists; exists x; split; [exact Hin|apply Z.eqb_refl]). congruence.
      * cbn [option_map]. unfold dead_in. rewrite Ex. rewrite andb_false_r. reflexivity.
Qed.

(** the pointer an object stores is the intended one, or it has been lost *)
Definition near (s : hlist) (d : held) : Prop :=
  forall a, match d a, hl_m s a with Some v, Some h => h_e h = VNull \/ h_e h = v | None, None => True | _, _ => False end.
(** nothing has been lost *)
Definition exact_ (s : hlist) (d : held) : Prop := forall a, d a = option_map h_e (hl_m s a).

Lemma near_none : forall s d a, near s d -> d a = None -> hl_m s a = None.
Proof. intros s d a H E. specialize (H a). rewrite E in H. destruct (hl_m s a); [contradiction|reflexivity]. Qed.
Lemma near_some : forall s d a v, near s d -> d a = Some v -> exists h, hl_m s a = Some h /\ (h_e h = VNull \/ h_e h = v).
Proof. intros s d a v H E. specialize (H a). rewrite E in H. destruct (hl_m s a); [eauto|contradiction]. Qed.
Lemma near_put : forall s s' d a (o : option val) v, near s d -> (forall x, option_map h_e (hl_m s' x) = if x =? a then o else option_map h_e (hl_m s x)) ->
  match v, o with Some w, Some e => e = VNull \/ e = w | None, None => True | _, _ => False end -> near s' (hold d a v).
Proof.
  intros s s' d a o v H He Hv x. specialize (He x). specialize (H x). unfold hold. destruct (x =? a).
  - destruct (hl_m s' x) as [h|]; cbn in He; destruct o; try discriminate; [injection He as ->|]; destruct v; auto.
  - destruct (d x), (hl_m s x), (hl_m s' x); cbn in He; try discriminate; try contradiction; auto. injection He as ->. exact H.
Qed.
Lemma exact_put : forall s s' d a o, exact_ s d -> (forall x, option_map h_e (hl_m s' x) = if x =? a then o else option_map h_e (hl_m s x)) -> exact_ s' (hold d a o).
Proof. intros s s' d a o H He x. rewrite He. unfold hold. rewrite <- H. reflexivity. Qed.
Lemma good_put : forall s s' al a (o : option val), good s al -> (forall x, option_map h_e (hl_m s' x) = if x =? a then o else option_map h_e (hl_m s x)) ->
  match o with Some e => val_alive al e | None => True end -> good s' al.
Proof.
  intros s s' al a o H He Ho x h E. specialize (He x). rewrite E in He. cbn in He. destruct (x =? a).
  - subst o. exact Ho.
  - destruct (hl_m s x) as [h0|] eqn:E0; [|discriminate]. injection He as ->. eapply H; eauto.
Qed.

Lemma deref_alive : forall s L al a h, linv s L -> good s al -> hl_m s a = Some h -> val_alive al (wr_deref h).
Proof. intros s L al a h H Hg E. rewrite (deref_spec s L a h H E). destruct (boxed (h_e h) && (a =? hl_head s)); [exact I|]. eapply Hg; eauto. Qed.
Lemma deref_near : forall s L d a h v, linv s L -> near s d -> hl_m s a = Some h -> d a = Some v -> wr_deref h = VNull \/ wr_deref h = v.
Proof.
  intros s L d a h v H Hn E Ed. rewrite (deref_spec s L a h H E). destruct (boxed (h_e h) && (a =? hl_head s)); [left; reflexivity|].
  specialize (Hn a). rewrite E, Ed in Hn. exact Hn.
Qed.

Lemma wr_assign_spec : forall s L a b h g, linv s L -> hl_m s a = Some h -> hl_m s b = Some g ->
  exists s' L', wr_assign a b s = Ok s' /\ linv s' L' /\ (length L' <= S (length L))%nat /\
    (forall x, option_map h_e (hl_m s' x) = if x =? a then Some (if a =? b then h_e h else wr_deref g) else option_map h_e (hl_m s x)).
Proof.
  intros s L a b h g H Ea Eb. unfold wr_assign. destruct (a =? b) eqn:Eab.
  - apply Z.eqb_eq in Eab; subst b. unfold hget. rewrite Ea. cbn [bind]. exists s, L. split; [reflexivity|]. split; [exact H|]. split; [lia|].
    intros x. destruct (x =? a) eqn:Ex; [apply Z.eqb_eq in Ex; subst x; rewrite Ea; cbn; congruence|reflexivity].
  - apply Z.eqb_neq in Eab. unfold hget at 1 2. rewrite Ea, Eb. cbn [bind].
    destruct (boxed (h_e h)) eqn:Bh; destruct (boxed (wr_deref g)) eqn:Bg; cbn [negb andb].
    + cbn [bind]. unfold hget at 1. rewrite Eb. cbn [bind]. unfold set_e, hget. rewrite Ea. cbn [bind].
      eexists. exists L. split; [reflexivity|]. split; [apply (linv_sete s L a h (wr_deref g)); auto|]. split; [lia|].
      intros x. cbn [hl_m]. unfold hput. destruct (x =? a); reflexivity.
    + destruct (linv_unlink s L a h (wr_deref g) H Ea Bh Bg) as (m' & L' & h' & Er & Em & S & Hl & (L1 & L2 & EL & EL')). rewrite Er. cbn [bind hl_m hl_head].
      unfold set_p at 1, hget. rewrite Em. cbn [bind]. unfold set_n, hget. rewrite hput_eq. cbn [bind hl_m hl_head h_e h_n h_p].
      rewrite !hput_ne by auto. pose proof (S b) as Sb. rewrite Eb in Sb. destruct (m' b) as [g'|] eqn:Eg'; [|contradiction]. cbn [bind].
      assert (wr_deref g' = wr_deref g) as Edg.
      { pose proof (deref_spec s L b g H Eb) as X. 
        assert (hl_m (mkHL (hput m' a (mkH (wr_deref g) 0 0)) (hd 0 L')) b = Some g') as Eb' by (cbn [hl_m]; rewrite hput_ne by auto; exact Eg').
        pose proof (deref_spec _ L' b g' Hl Eb') as X'. cbn [hl_head] in X'. rewrite X, X'. rewrite <- Sb.
        destruct (boxed (h_e g)) eqn:Bgg; [|reflexivity]. cbn [andb].
        assert (b = hl_head s) as Ebh. { destruct (b =? hl_head s) eqn:Y; [apply Z.eqb_eq in Y; exact Y|]. rewrite X in Bg. rewrite andb_false_r in Bg. congruence. }
        rewrite (li_head _ _ H), EL in Ebh. destruct L1 as [|l0 L1']; [cbn in Ebh; congruence|]. cbn in Ebh. subst l0.
        rewrite EL'. cbn [app hd]. rewrite Z.eqb_refl. rewrite (li_head _ _ H), EL. cbn [app hd]. rewrite Z.eqb_refl. reflexivity. }
      unfold set_e, hget. rewrite hput_eq. cbn [bind h_p h_n]. rewrite Edg. eexists. exists L'. split; [reflexivity|]. split; [|split].
      * eapply linv_ext; [exact Hl| |reflexivity]. intros x. cbn [hl_m]. rewrite !hput_twice. reflexivity.
      * rewrite EL, EL'. rewrite !app_length. cbn. lia.
      * intros x. cbn [hl_m]. rewrite !hput_twice. unfold hput. destruct (x =? a); [reflexivity|]. apply (same_e_map _ _ x S).
    + cbn [bind]. unfold hget at 1. rewrite Eb. cbn [bind]. unfold set_e, hget at 1. rewrite Ea. cbn [bind]. rewrite Bg.
      destruct (linv_sete_add s L a h (wr_deref g) H Ea Bh Bg) as (s' & E & H' & He). exists s', (a :: L). split; [exact E|]. split; [exact H'|]. split; [cbn; lia|exact He].
    + cbn [bind]. unfold hget at 1. rewrite Eb. cbn [bind]. unfold set_e, hget. rewrite Ea. cbn [bind]. rewrite Bg.
      eexists. exists L. split; [reflexivity|]. split; [apply (linv_plain s L a h (wr_deref g)); auto|]. split; [lia|].
      intros x. cbn [hl_m]. unfold hput. destruct (x =? a); reflexivity.
Qed.

Record winv (s : hlist) (al : Z -> bool) (d : held) (al' : Z -> bool) (L : list Z) (n : nat) : Prop := {
  wi_l : linv s L;
  wi_al : forall x, al x = al' x;
  wi_good : good s al;
  wi_near : near s d;
  wi_len : (length L <= n)%nat }.

Lemma unboxed_target : forall keep v, boxed v = false -> weak_target keep v = v.
Proof. intros keep [| |]; cbn; auto; discriminate. Qed.

Lemma weak_step_spec : forall d al' o d1 al1' s al L n fuel, weak_step (d, al') o (d1, al1') -> winv s al d al' L n ->
  match o with WCollect keep => head_survives keep s | _ => True end -> (n < fuel)%nat ->
  exists s1 al1 L1, wr_step fuel o (s, al) = Ok (s1, al1) /\ winv s1 al1 d1 al1' L1 (S n) /\
    (match o with WCopy _ _ | WAssign _ _ => False | _ => True end -> exact_ s d -> exact_ s1 d1).
Proof.
  intros d al' o d1 al1' s al L n fuel Hst H Hh Hf.
  pose proof (wi_l _ _ _ _ _ _ H) as Hl. pose proof (wi_near _ _ _ _ _ _ H) as Hn. pose proof (wi_good _ _ _ _ _ _ H) as Hg.
  pose proof (wi_al _ _ _ _ _ _ H) as Ha. pose proof (wi_len _ _ _ _ _ _ H) as Hlen.
  assert (forall v, val_alive al' v -> val_alive al v) as Hav by (intros [|?|x]; cbn; auto; rewrite Ha; auto).
  inversion Hst as [d0 al0 x Hx|d0 al0 a e [Hf0 Hf1] He|d0 al0 a e Hd|d0 al0 a b e [Hf0 Hf1] Hd|d0 al0 a b v e Hd Hd'|d0 al0 keep]; subst; cbn [wr_step].
  - destruct (al x) eqn:Ex; [rewrite Ha in Ex; congruence|]. exists s, (fun a => if a =? x then true else al a), L. split; [reflexivity|]. split; [|auto]. constructor; auto.
    + intros y. rewrite Ha. reflexivity.
    + intros a h E. pose proof (Hg a h E) as Hv. destruct (h_e h); cbn in *; auto. destruct (a0 =? x); auto.
  - destruct (ka_new_spec s L a e Hl Hf0 (near_none _ _ _ Hn Hf1)) as (s' & L' & E & H' & Hx & EL'). rewrite E. cbn [bind]. exists s', al, L'. split; [reflexivity|]. split; [constructor; auto|].
    + eapply good_put; [exact Hg|exact Hx|]. apply Hav; exact He.
    + eapply near_put; [exact Hn|exact Hx|]. right; reflexivity.
    + rewrite EL'. destruct (boxed e); cbn; lia.
    + intros _ Hex. eapply exact_put; eauto.
  - destruct (near_some _ _ _ _ Hn Hd) as (h & E0 & _). destruct (ka_del_spec s L a h Hl E0) as (s' & L' & E & H' & Hx). rewrite E. cbn [bind].
    exists s', al, L'. split; [reflexivity|]. split; [constructor; auto|].
    + eapply good_put; [exact Hg|exact Hx|exact I].
    + eapply near_put; [exact Hn|exact Hx|exact I].
    + (* the list does not grow *)
      assert (incl L' L) as Hi. { intros x Hin. destruct (linv_boxed _ _ _ H' Hin) as (h1 & E1 & B1). specialize (Hx x). rewrite E1 in Hx. cbn in Hx. destruct (x =? a); [discriminate|].
        destruct (hl_m s x) as [h2|] eqn:E2; [|discriminate]. injection Hx as Hx. eapply li_in; [exact Hl|exact E2|congruence]. }
      pose proof (NoDup_incl_length (li_nd _ _ H') Hi). lia.
    + intros _ Hex. eapply exact_put; eauto.
  - destruct (near_some _ _ _ _ Hn Hd) as (h & E0 & _). unfold wr_copy, hget. rewrite E0. cbn [bind].
    destruct (ka_new_spec s L a (wr_deref h) Hl Hf0 (near_none _ _ _ Hn Hf1)) as (s' & L' & E & H' & Hx & EL'). rewrite E. cbn [bind]. exists s', al, L'. split; [reflexivity|]. split; [constructor; auto|].
    + eapply good_put; [exact Hg|exact Hx|]. eapply deref_alive; [exact Hl|exact Hg|exact E0].
    + eapply near_put; [exact Hn|exact Hx|]. cbn. eapply deref_near; [exact Hl|exact Hn|exact E0|exact Hd].
    + rewrite EL'. destruct (boxed (wr_deref h)); cbn; lia.
    + intros [].
  - destruct (near_some _ _ _ _ Hn Hd) as (h & E0 & Hv). destruct (near_some _ _ _ _ Hn Hd') as (g & E1 & Hv').
    destruct (wr_assign_spec s L a b h g Hl E0 E1) as (s' & L' & E & H' & HL & Hx). rewrite E. cbn [bind]. exists s', al, L'. split; [reflexivity|]. split; [constructor; auto|].
    + eapply good_put; [exact Hg|exact Hx|]. destruct (a =? b); [eapply Hg; exact E0|eapply deref_alive; [exact Hl|exact Hg|exact E1]].
    + eapply near_put; [exact Hn|exact Hx|]. cbn. destruct (a =? b) eqn:Eab; [apply Z.eqb_eq in Eab; subst b; replace e with v by congruence; exact Hv|eapply deref_near; [exact Hl|exact Hn|exact E1|exact Hd']].
    + lia.
    + intros [].
  - destruct (wr_collect_spec fuel keep s al L Hl Hg) as (s' & L' & E & H' & HL & Ehd & Hx); [lia|]. rewrite E. exists s', (fun a => al a && keep a), L'. split; [reflexivity|].
    assert (forall x h', hl_m s' x = Some h' -> exists h, hl_m s x = Some h /\ h_e h' = weak_target keep (h_e h)) as Hx'.
    { intros x h' Ex. specialize (Hx x). rewrite Ex in Hx. destruct (hl_m s x) as [h|] eqn:E0; [|destruct (x =? hl_head s); discriminate]. exists h. split; [reflexivity|].
      destruct (x =? hl_head s) eqn:Exh; cbn in Hx; injection Hx as Hx; [|exact Hx]. apply Z.eqb_eq in Exh; subst x. rewrite Hx.
      destruct (h_e h) as [| |y] eqn:Ey; try reflexivity. cbn [weak_target]. rewrite (Hh h y E0 Ey). reflexivity. }
    split; [constructor; auto|].
    + intros x. rewrite Ha. reflexivity.
    + intros a h Ea. destruct (Hx' a h Ea) as (h0 & E0 & Eh). rewrite Eh. pose proof (Hg a h0 E0) as Hv. destruct (h_e h0) as [| |y]; cbn in *; auto. destruct (keep y) eqn:Ek; cbn; auto. rewrite Hv, Ek. reflexivity.
    + intros a. pose proof (Hn a) as Hna. pose proof (Hx a) as Hxa. destruct (hl_m s' a) as [h'|] eqn:Ea.
      * destruct (Hx' a h' Ea) as (h0 & E0 & Eh). rewrite E0 in Hna. destruct (d a) as [v|]; [|contradiction]. cbn. rewrite Eh. destruct Hna as [-> | ->]; [left; reflexivity|right; reflexivity].
      * destruct (hl_m s a); [destruct (a =? hl_head s); discriminate|]. destruct (d a); [contradiction|exact I].
    + lia.
    + intros _ Hex a. cbn. rewrite Hex. pose proof (Hx a) as Hxa. destruct (hl_m s' a) as [h'|] eqn:Ea.
      * destruct (Hx' a h' Ea) as (h0 & E0 & Eh). rewrite E0. cbn. rewrite Eh. reflexivity.
      * destruct (hl_m s a); [destruct (a =? hl_head s); discriminate|reflexivity].
Qed.

Lemma weak_run_spec : forall ops d al' d2 al2' s al L n fuel, weak_run (d, al') ops (d2, al2') -> winv s al d al' L n ->
  (length ops + n < fuel)%nat -> heads_survive fuel ops (s, al) ->
  exists s2 al2 L2 n2, wr_run fuel ops (s, al) = Ok (s2, al2) /\ winv s2 al2 d2 al2' L2 n2 /\
    (no_copies ops -> exact_ s d -> exact_ s2 d2).
Proof.
  induction ops as [|o r IH]; intros d al' d2 al2' s al L n fuel Hr H Hf Hh.
  - inversion Hr; subst. exists s, al, L, n. cbn. auto.
  - inversion Hr as [|? ? [d1 al1'] ? ? Hst Hr']; subst. cbn [heads_survive fst] in Hh. destruct Hh as [Hh0 Hh].
    destruct (weak_step_spec _ _ _ _ _ _ _ _ _ fuel Hst H Hh0) as (s1 & al1 & L1 & E & H1 & X1); [cbn in Hf; lia|]. cbn [wr_run]. rewrite E. cbn [bind].
    destruct (IH _ _ _ _ _ _ _ _ fuel Hr' H1) as (s2 & al2 & L2 & n2 & E2 & H2 & X2); [cbn in Hf; lia|apply Hh; exact E|].
    exists s2, al2, L2, n2. split; [exact E2|]. split; [exact H2|]. intros Hnc Hex. apply X2.
    + intros o' Ho'. apply Hnc. right; exact Ho'.
    + apply X1; [|exact Hex]. apply (Hnc o). left; reflexivity.
Qed.

Lemma C25_l : forall ops d alive fuel, weak_run (fun _ => None, fun _ => false) ops (d, alive) -> (length ops < fuel)%nat ->
  heads_survive fuel ops wr_init ->
  exists s al, wr_run fuel ops wr_init = Ok (s, al) /\ (forall x, al x = alive x) /\
    forall a, match d a, hl_m s a with
              | Some v, Some h => (wr_deref h = VNull \/ wr_deref h = v) /\ val_alive alive (wr_deref h) /\
                                  (no_copies ops -> a <> hl_head s -> wr_deref h = v)
              | None, None => True
              | _, _ => False
              end.
Proof.
  intros ops d alive fuel Hr Hf Hh.
  assert (winv hl_init (fun _ => false) (fun _ => None) (fun _ => false) [] 0) as H0.
  { constructor; auto using linv_init. - intros a h E; discriminate. - intros a; exact I. }
  destruct (weak_run_spec ops _ _ _ _ hl_init (fun _ => false) [] 0 fuel Hr H0) as (s & al & L & n & E & H & X); [lia|exact Hh|].
  exists s, al. split; [exact E|]. split; [apply (wi_al _ _ _ _ _ _ H)|]. intros a. pose proof (wi_near _ _ _ _ _ _ H a) as Hn.
  destruct (d a) as [v|] eqn:Ed; destruct (hl_m s a) as [h|] eqn:Ea; auto. split; [|split].
  - eapply deref_near; [apply (wi_l _ _ _ _ _ _ H)|apply (wi_near _ _ _ _ _ _ H)|exact Ea|exact Ed].
  - pose proof (deref_alive s L al a h (wi_l _ _ _ _ _ _ H) (wi_good _ _ _ _ _ _ H) Ea) as Hv. destruct (wr_deref h); cbn in *; auto. rewrite <- (wi_al _ _ _ _ _ _ H). exact Hv.
  - intros Hnc Hne. rewrite (deref_spec s L a h (wi_l _ _ _ _ _ _ H) Ea). destruct (a =? hl_head s) eqn:Eh; [apply Z.eqb_eq in Eh; contradiction|]. rewrite andb_false_r.
    pose proof (X Hnc (fun a => eq_refl) a) as Hx. rewrite Ed, Ea in Hx. cbn in Hx. congruence.
Qed.

Lemma weak_map_l : forall marked m, NoDup (map fst m) -> forall k v, In (k, v) (weak_map_fix marked m) <-> In (k, v) m /\ marked k = true /\ marked v = true.
Proof.
  intros marked m Hnd k v. unfold weak_map_fix. rewrite filter_In. cbn [fst]. split.
  - intros [Hin Hn]. split; [exact Hin|]. apply negb_true_iff in Hn.
    destruct (marked k) eqn:Ek; destruct (marked v) eqn:Ev; auto; exfalso; (assert (existsb (Z.eqb k) (map fst (filter (fun n => negb (marked (fst n)) || negb (marked (snd n))) m)) = true) as X; [|congruence]);
      apply existsb_exists; exists k; split; try apply Z.eqb_refl; apply in_map_iff; exists (k, v); (split; [reflexivity|]); apply filter_In; (split; [exact Hin|]); cbn; rewrite Ek, Ev; reflexivity.
  - intros (Hin & Ek & Ev). split; [exact Hin|]. apply negb_true_iff. apply not_true_is_false. intros X. apply existsb_exists in X. destruct X as (k' & Hk' & E). apply Z.eqb_eq in E; subst k'.
    apply in_map_iff in Hk'. destruct Hk' as ([k1 v1] & Ek1 & Hk1). cbn in Ek1; subst k1. apply filter_In in Hk1. destruct Hk1 as [Hin1 Hd].
    assert (v1 = v) as ->. { clear -Hnd Hin Hin1. induction m as [|[a b] m IH]; [destruct Hin|]. cbn in Hnd. inversion Hnd as [|? ? Hn Hnd']; subst.
      destruct Hin as [Hin|Hin], Hin1 as [Hin1|Hin1].
      - congruence. - injection Hin as -> ->. exfalso. apply Hn. apply in_map_iff. exists (k, v1); auto. - injection Hin1 as -> ->. exfalso. apply Hn. apply in_map_iff. exists (k, v); auto. - auto. }
    cbn in Hd. rewrite Ek, Ev in Hd. discriminate.
Qed.
Lemma cse_l : forall marked m, NoDup (map fst m) -> forall k r b, In (k, (r, b)) (cse_fix marked m) <->
  In (k, (r, b)) m /\ (exists x, r = VNode x /\ marked x = true) /\ (exists y, b = VNode y /\ marked y = true).
Proof.
  intros marked m Hnd k r b. unfold cse_fix. rewrite filter_In. cbn [fst].
  assert (forall v, has_mark marked v = true <-> exists x, v = VNode x /\ marked x = true) as Hm.
  { intros [|z|x]; cbn; split; try discriminate; try (intros (y & Ey & _); discriminate); [eauto|]. intros (y & Ey & Hy). injection Ey as ->. exact Hy. }
  rewrite <- !Hm. split.
  - intros [Hin Hn]. split; [exact Hin|]. apply negb_true_iff in Hn.
    destruct (has_mark marked r) eqn:Ek; destruct (has_mark marked b) eqn:Ev; auto; exfalso;
      (assert (existsb (Z.eqb k) (map fst (filter (fun n : Z * (val * val) => negb (has_mark marked (fst (snd n))) || negb (has_mark marked (snd (snd n)))) m)) = true) as X; [|congruence]);
      apply existsb_exists; exists k; split; try apply Z.eqb_refl; apply in_map_iff; exists (k, (r, b)); (split; [reflexivity|]); apply filter_In; (split; [exact Hin|]); cbn; rewrite Ek, Ev; reflexivity.
  - intros (Hin & Ek & Ev). split; [exact Hin|]. apply negb_true_iff. apply not_true_is_false. intros X. apply existsb_exists in X. destruct X as (k' & Hk' & E). apply Z.eqb_eq in E; subst k'.
    apply in_map_iff in Hk'. destruct Hk' as ([k1 v1] & Ek1 & Hk1). cbn in Ek1; subst k1. apply filter_In in Hk1. destruct Hk1 as [Hin1 Hd].
    assert (v1 = (r, b)) as ->. { clear -Hnd Hin Hin1. induction m as [|[a c] m IH]; [destruct Hin|]. cbn in Hnd. inversion Hnd as [|? ? Hn Hnd']; subst.
      destruct Hin as [Hin|Hin], Hin1 as [Hin1|Hin1].
      - congruence. - injection Hin as -> ->. exfalso. apply Hn. apply in_map_iff. exists (k, v1); auto. - injection Hin1 as -> ->. exfalso. apply Hn. apply in_map_iff. exists (k, (r, b)); auto. - auto. }
    cbn in Hd. rewrite Ek, Ev in Hd. discriminate.
Qed.
