(** Proofs about BoundsModel, part 4: ComputeIntSetBounds. *)
Require Import ZArith List Bool Lia ZifyBool.
From Verif Require Import Base IntValModel IntValSpec IntValProofs IntValPropProofs ArrModel SetModel SetSpec SetPropProofs
  LinModel LinSpec LinProofs BoundsModel BoundsSpec BoundsProofs BoundsProofs2 BoundsProofs3.
Import ListNotations.
Open Scope Z_scope.

Section sx_induction.
  Variable P : sx -> Prop.
  Hypothesis HPar : forall v, P (SPar v).
  Hypothesis HId : forall x dom rhs, (forall e, rhs = Some e -> P e) -> P (SId x dom rhs).
  Hypothesis HLit : forall l, P (SLit l).
  Hypothesis HRange : forall l u, P (SRange l u).
  Hypothesis HBin : forall op a b, P a -> P b -> P (SBin op a b).
  Hypothesis HCall : forall op a b, P a -> P b -> P (SCall op a b).
  Hypothesis HCallD : forall args dom, Forall P args -> P (SCallDom args dom).
  Hypothesis HAcc : forall x idx elems dom, (forall t, elems = Some t -> Forall (fun p => P (snd p)) t) -> P (SAcc x idx elems dom).
  Hypothesis HField : P SField.
  Hypothesis HInv : forall l, Forall P l -> P (SInvalid l).
  Fixpoint sx_ind' (e : sx) : P e :=
    let list_ind := fix go (l : list sx) : Forall P l :=
      match l with [] => Forall_nil _ | x :: l => Forall_cons _ (sx_ind' x) (go l) end in
    match e with
    | SPar v => HPar v
    | SId x dom rhs => HId x dom rhs
        (match rhs return (forall e, rhs = Some e -> P e) with
         | None => fun e H => match H in _ = o return match o with None => True | Some e => P e end with eq_refl => I end
         | Some e0 => fun e H => match H in _ = o return match o with None => True | Some e => P e end with eq_refl => sx_ind' e0 end
         end)
    | SLit l => HLit l
    | SRange l u => HRange l u
    | SBin op a b => HBin op a b (sx_ind' a) (sx_ind' b)
    | SCall op a b => HCall op a b (sx_ind' a) (sx_ind' b)
    | SCallDom args dom => HCallD args dom (list_ind args)
    | SAcc x idx elems dom => HAcc x idx elems dom
        (match elems return (forall t, elems = Some t -> Forall (fun p => P (snd p)) t) with
         | None => fun t H => match H in _ = o return match o with None => True | Some t => Forall (fun p => P (snd p)) t end with eq_refl => I end
         | Some t0 => fun t H => match H in _ = o return match o with None => True | Some t => Forall (fun p => P (snd p)) t end with eq_refl =>
             (fix go (l : list (list Z * sx)) : Forall (fun p => P (snd p)) l :=
                match l with [] => Forall_nil _ | p :: l => @Forall_cons _ (fun p => P (snd p)) p l (sx_ind' (snd p)) (go l) end) t0 end
         end)
    | SField => HField
    | SInvalid l => HInv l (list_ind l)
    end.
End sx_induction.

Definition scovers (e : sx) (b : iset) : Prop := nf b /\ forall s V, sev s e V -> forall z, V z -> elem z b.
Definition ssound (e : sx) : Prop := forall st st', srun e st = Ok st' -> fst st' = true ->
  st = (true, snd st) /\ exists b, st' = (true, Some b :: snd st) /\ scovers e b.

Lemma spop_inv : forall st b st', spop st = Ok (b, st') -> st = (fst st', b :: snd st').
Proof. intros [v [|c l]] b st' H; cbn in *; [discriminate|]. injection H as <- <-. reflexivity. Qed.
Lemma spopn_app : forall k v s, spopn (length k) (v, k ++ s) = Ok (v, s).
Proof. induction k as [|b k IH]; intros v s; cbn; auto. Qed.
Lemma spopn_fst : forall n st st', spopn n st = Ok st' -> fst st' = fst st.
Proof. induction n as [|n IH]; intros st st' H; cbn in H; [now injection H as <-|]. bokp H b st1 E. apply spop_inv in E. apply IH in H. rewrite H, E. reflexivity. Qed.
Lemma srev_ok : forall l, Forall ssound l -> forall st st', srun_rev srun l st = Ok st' -> fst st' = true ->
  exists k, st = (true, snd st) /\ st' = (true, k ++ snd st) /\ length k = length l.
Proof.
  induction 1 as [|e l He _ IH]; intros st st' H V; cbn [srun_rev] in H.
  - injection H as <-. exists []. destruct st as [v s]. cbn in *. subst. auto.
  - bok H st1 E. destruct (He _ _ H V) as (E1 & b & E2 & _).
    destruct (IH _ _ E) as (k & K1 & K2 & K3); [now rewrite E1|]. exists (Some b :: k). split; auto. split; [|cbn; congruence].
    rewrite E2. f_equal. cbn. f_equal. rewrite K2. reflexivity.
Qed.
Lemma ok_wf : forall x, okl x \/ oku x -> wf x.
Proof.
  intros x H. unfold wf. destruct H as [[->|F]|[->|F]]; first [eexists; reflexivity|eexists; exact F].
Qed.
Lemma ok_ninf : forall b, okb b -> wf (fst b) /\ wf (snd b) /\ denote (fst b) <> Some PInf /\ denote (snd b) <> Some MInf.
Proof.
  intros b [A B]. split; [apply ok_wf; auto|]. split; [apply ok_wf; auto|].
  split; [destruct A as [->|F]|destruct B as [->|F]]; try (cbn; congruence); unfold fin, is_int in F; rewrite F; congruence.
Qed.
Lemma interval_ok : forall b, okb b -> nf (set_interval (fst b) (snd b)) /\ forall z, inb b z -> elem z (set_interval (fst b) (snd b)).
Proof.
  intros b O. destruct (ok_ninf b O) as (W1 & W2 & N1 & N2). destruct (C05_interval_l _ _ W1 W2 N1 N2) as [A B]. split; auto. intros z I. apply B. apply inb_between. exact I.
Qed.
Lemma union_ok : forall s t r, nf s -> nf t -> set_union s t = Ok r -> nf r /\ forall z, elem z r <-> elem z s \/ elem z t.
Proof. intros s t r Ns Nt H. destruct (C06_union_l s t Ns Nt) as [(r' & E & N & I)|[E _]]; rewrite E in H; [injection H as <-; auto|discriminate]. Qed.
Lemma lit_ok : forall l, Forall (fun e => wfe e /\ regular e /\ scalar e) l -> forall s r, nf s -> lit_bounds l s = Ok (Some r) ->
  nf r /\ (forall z, elem z s -> elem z r) /\ forall sg vs, Forall2 (ev sg) l vs -> forall z, In z vs -> elem z r.
Proof.
  induction 1 as [|e l (We & Ge & Se) _ IH]; intros s r N H; cbn [lit_bounds] in H.
  - injection H as <-. split; auto. split; auto. intros sg vs F z Hz. inversion F; subst. destruct Hz.
  - apply bind_ok in H. destruct H as ([[lo hi] v] & E & H). destruct v; [|cbn in H; discriminate]. cbn [negb orb] in H.
    destruct (negb (isFinite lo) || negb (isFinite hi)); [discriminate|]. bok H s' Es.
    destruct (comp_cases _ _ _ We Ge Se E) as [O C]. destruct (interval_ok _ O) as [NI II].
    change (const_range lo hi) with (set_interval (fst (lo, hi)) (snd (lo, hi))) in Es.
    destruct (union_ok _ _ _ N NI Es) as [N' U]. destruct (IH _ _ N' H) as (NR & A & B). split; auto. split.
    + intros z Hz. apply A. apply U. auto.
    + intros sg vs F z Hz. inversion F; subst. destruct Hz as [<-|Hz]; [|eauto]. apply A. apply U. right. apply II. eauto.
Qed.
Lemma sop_ok : forall op x y r, nf x -> nf y -> sop_bounds op (Some x) (Some y) = Ok r ->
  exists b, r = Some b /\ nf b /\ forall A B : Z -> Prop, (forall z, A z -> elem z x) -> (forall z, B z -> elem z y) -> forall z, sop_val op A B z -> elem z b.
Proof.
  intros op x y r Nx Ny H. destruct op; cbn in H.
  3: { injection H as <-. exists x. split; auto. split; auto. intros A B HA HB z [Z1 _]. auto. }
  all: bok H u Eu; injection H as <-; destruct (union_ok _ _ _ Nx Ny Eu) as [N U]; exists u; split; auto; split; auto;
    intros A B HA HB z Z; apply U; cbn in Z; intuition.
Qed.
Lemma srun_elem_in : forall t is st r, srun_elem srun t is st = Some r -> exists e, In (is, e) t /\ r = srun e st.
Proof.
  induction t as [|[js e] t IH]; intros is st r H; cbn in H; [discriminate|]. destruct (same_idx js is) eqn:E.
  - apply same_idx_eq in E. subst js. injection H as <-. exists e. split; [left|]; auto.
  - destruct (IH _ _ _ H) as (e' & I & ->). exists e'. split; [right|]; auto.
Qed.
Lemma snodup_fst : forall (t : list (list Z * sx)) i a b, NoDup (map fst t) -> In (i, a) t -> In (i, b) t -> a = b.
Proof.
  induction t as [|[j e] t IH]; intros i a b N Ha Hb; [destruct Ha|]. inversion N; subst.
  assert (K : forall c, In (i, c) t -> In i (map fst t)) by (intros c Hc; apply in_map_iff; exists (i, c); auto).
  destruct Ha as [Ha|Ha], Hb as [Hb|Hb].
  - congruence.
  - injection Ha as -> ->. exfalso. eauto.
  - injection Hb as -> ->. exfalso. eauto.
  - eauto.
Qed.
Lemma stwo : forall a b st st1 st2, ssound a -> ssound b -> srun a st = Ok st1 -> srun b st1 = Ok st2 -> fst st2 = true ->
  exists x y, st = (true, snd st) /\ st2 = (true, Some y :: Some x :: snd st) /\ scovers a x /\ scovers b y.
Proof.
  intros a b st st1 st2 Ha Hb R1 R2 V. destruct (Hb _ _ R2 V) as (Y1 & y & Y2 & Y3).
  destruct (Ha _ _ R1 (f_equal fst Y1)) as (X1 & x & X2 & X3). exists x, y. split; auto. split; auto. rewrite Y2, X2. reflexivity.
Qed.
Lemma spush_ok : forall e st b st', Ok (spush (Some b) st) = Ok st' -> fst st' = true -> scovers e b ->
  st = (true, snd st) /\ exists b, st' = (true, Some b :: snd st) /\ scovers e b.
Proof. intros e [v s] b st' H V C. injection H as <-. cbn in V. subst v. split; auto. exists b. auto. Qed.

Lemma ssound_all : forall e, wfs e -> ssound e.
Proof.
  induction e using sx_ind'; intros W; inversion W; subst; intros st st' R V.
  - cbn in R. destruct v as [v|]; [|discriminate]. eapply spush_ok; eauto. split; auto. intros s V0 HV z Hz. inversion HV; subst. auto.
  - cbn in R. destruct dom as [d|].
    + eapply spush_ok; eauto. split; auto. intros s V0 HV z Hz. inversion HV; subst. auto.
    + destruct rhs as [e|]; [|injection R as <-; discriminate].
      match goal with X : forall e, Some _ = Some e -> wfs e |- _ => specialize (X e eq_refl) end.
      destruct (H e eq_refl ltac:(assumption) _ _ R V) as (E1 & b & E2 & N & C). split; auto. exists b. split; auto. split; auto.
      intros s V0 HV z Hz. inversion HV; subst. eauto.
  - cbn [srun] in R. bok R o E. destruct o as [b|]; [|injection R as <-; discriminate].
    destruct (lit_ok l ltac:(assumption) [] b nf_nil E) as (N & _ & C). eapply spush_ok; eauto. split; auto. intros s V0 HV z Hz. inversion HV; subst. eauto.
  - cbn [srun] in R. apply bind_ok in R. destruct R as ([[ll lu] lv] & E1 & R). apply bind_ok in R. destruct R as ([[ul uu] uv] & E2 & R).
    injection R as <-. cbn in V. apply andb_true_iff in V. destruct V as [V V3]. apply andb_true_iff in V. destruct V as [V1 V2]. subst lv uv.
    destruct (comp_cases l _ _ ltac:(eassumption) ltac:(eassumption) ltac:(eassumption) E1) as [[O1 O2] C1].
    destruct (comp_cases u _ _ ltac:(eassumption) ltac:(eassumption) ltac:(eassumption) E2) as [[P1 P2] C2]. cbn [fst snd] in *.
    destruct st as [v s]. cbn in V1. subst v. split; auto. exists (set_interval ll uu). split; auto.
    destruct (interval_ok (ll, uu)) as [N I]; [split; auto|]. split; auto. intros sg V HV z Hz. inversion HV; subst. apply I.
    match goal with HA : ev _ l ?p, HB : ev _ u ?q |- _ => destruct (C1 _ p HA) as [L1 _]; destruct (C2 _ q HB) as [_ L2] end. cbn [fst snd] in *.
    split; cbn [fst snd]; [destruct L1 as [->|[? ?]]|destruct L2 as [->|[? ?]]]; try (left; reflexivity); right; split; auto; lia.
  - cbn [srun] in R. bok R st1 E1. bok R st2 E2. bokp R b1 st3 E3. bokp R b0 st4 E4. bok R u E5. injection R as <-. apply spop_inv in E3, E4. cbn in V.
    assert (V2 : fst st2 = true) by (rewrite E3; cbn; rewrite E4; exact V).
    destruct (stwo _ _ _ _ _ (IHe1 ltac:(assumption)) (IHe2 ltac:(assumption)) E1 E2 V2) as (x & y & X1 & X2 & [N1 C1] & [N2 C2]).
    destruct st3, st4. cbn in *. rewrite X2 in E3. injection E4 as ? ?. injection E3 as ? ? ?. subst.
    match goal with X : _ :: _ = _ :: _ |- _ => injection X as ? ? end. subst.
    destruct (sop_ok _ _ _ _ N1 N2 E5) as (b & -> & Nb & Cb). split; auto. exists b. split; auto. split; auto. intros s V0 HV z Hz. inversion HV; subst. eapply Cb; [| |exact Hz]; intros; [eapply C1|eapply C2]; eauto.
  - cbn [srun] in R. bok R st1 E1. bok R st2 E2. destruct (fst st2) eqn:V2; [|injection R as <-; discriminate].
    bokp R b0 st3 E3. bokp R b1 st4 E4. bok R u E5. injection R as <-. apply spop_inv in E3, E4. cbn in V.
    destruct (stwo _ _ _ _ _ (IHe2 ltac:(assumption)) (IHe1 ltac:(assumption)) E1 E2 V2) as (x & y & X1 & X2 & [N1 C1] & [N2 C2]).
    destruct st3, st4. cbn in *. rewrite X2 in E3. injection E4 as ? ?. injection E3 as ? ? ?. subst.
    match goal with X : _ :: _ = _ :: _ |- _ => injection X as ? ? end. subst.
    destruct (sop_ok _ _ _ _ N2 N1 E5) as (b & -> & Nb & Cb). split; auto. exists b. split; auto. split; auto. intros s V0 HV z Hz. inversion HV; subst. eapply Cb; [| |exact Hz]; intros; [eapply C2|eapply C1]; eauto.
  - cbn [srun] in R. bok R st1 E1. bok R st2 E2.
    assert (A : Forall ssound args). { match goal with X : Forall wfs args |- _ => clear - H X; induction H; inversion X; subst; constructor; auto end. }
    assert (V2 : fst st2 = true) by (injection R as <-; exact V). pose proof (spopn_fst _ _ _ E2) as V1. rewrite V2 in V1.
    destruct (srev_ok args A _ _ E1 (eq_sym V1)) as (k & K1 & K2 & K3). rewrite K2, <- K3, spopn_app in E2. injection E2 as <-.
    rewrite K1. eapply spush_ok; eauto. split; auto. intros s V0 HV z Hz. inversion HV; subst. auto.
  - cbn [srun] in R. destruct x as [x|]; [|injection R as <-; discriminate].
    destruct (match idx with Some is => match elems with Some t => srun_elem srun t is st | None => None end | None => None end) as [r|] eqn:Er.
    + destruct idx as [is|]; [|discriminate]. destruct elems as [t|]; [|discriminate]. destruct (srun_elem_in _ _ _ _ Er) as (e & Ie & ->).
      match goal with X : forall t, Some _ = Some t -> NoDup _ /\ _ |- _ => destruct (X t eq_refl) as [N F] end.
      specialize (H t eq_refl). rewrite Forall_forall in F, H. pose proof (H _ Ie (F _ Ie)) as Se. cbn in Se. destruct (Se _ _ R V) as (E1 & b & E2 & Nb & Cb).
      split; auto. exists b. split; auto. split; auto. intros s V0 HV z Hz. inversion HV; subst.
      match goal with X : forall js, Some is = Some js -> js = ?i |- _ => pose proof (X is eq_refl); subst i end.
      match goal with X : In (is, ?e') t |- _ => assert (e = e') by (eapply snodup_fst; eauto); subst e' end. eauto.
    + destruct dom as [d|]; [|injection R as <-; discriminate]. eapply spush_ok; eauto. split; auto. intros s V0 HV z Hz. inversion HV; subst; auto.
  - cbn [srun] in R. bok R st1 E. injection R as <-. discriminate.
Qed.
Lemma C17_sound_l : forall e b, wfs e -> compute_intset_bounds e = Ok (Some b) ->
  nf b /\ forall s V, sev s e V -> forall z, V z -> elem z b.
Proof.
  intros e b W H. unfold compute_intset_bounds in H. destruct (srun e (true, [])) as [[v st]|x|] eqn:R.
  - destruct v; [|discriminate]. destruct (ssound_all e W _ _ R eq_refl) as (_ & b' & E & C). injection E as ->. injection H as <-. exact C.
  - destruct x; discriminate.
  - discriminate.
Qed.
