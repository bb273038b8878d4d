Require Import List Arith Bool Lia.
From Verif Require Import CopyModel CopySpec.
Import ListNotations.

Lemma lookup_in : forall m e c, lookup m e = Some c -> In (e, c) m.
Proof.
  induction m as [|[a b] m IH]; cbn; intros e c E; [discriminate|].
  destruct (a =? e) eqn:Q; [apply Nat.eqb_eq in Q; inversion E; subst; auto|right; auto].
Qed.
Lemma lookup_none : forall m e c, lookup m e = None -> ~ In (e, c) m.
Proof.
  induction m as [|[a b] m IH]; cbn; intros e c E; [auto|].
  destruct (a =? e) eqn:Q; [discriminate|]. apply Nat.eqb_neq in Q. intros [X|X]; [inversion X; auto|]. eapply IH; eassumption.
Qed.
Lemma upd_same : forall h a x, upd h a x a = x. Proof. intros; unfold upd; rewrite Nat.eqb_refl; reflexivity. Qed.
Lemma upd_other : forall h a x b, b <> a -> upd h a x b = h b.
Proof. intros; unfold upd. destruct (b =? a) eqn:Q; [apply Nat.eqb_eq in Q; contradiction|reflexivity]. Qed.

Section G.
Context (h0 : nat -> node) (n0 : nat) (WF : graph h0 n0).

Definition rel (s : st) (a b : nat) : Prop := In (a, b) (M s).
Notation like s := (stands h0 (rel s)).

Lemma like_mono : forall s s' a b, incl (M s) (M s') -> like s a b -> like s' a b.
Proof. intros s s' a b I [?|[?|?]]; [left; assumption|right; left; assumption|right; right; apply I; assumption]. Qed.
Lemma likes_mono : forall s s' l l', incl (M s) (M s') -> Forall2 (like s) l l' -> Forall2 (like s') l l'.
Proof. intros s s' l l' I F. induction F; constructor; [eapply like_mono; eassumption|assumption]. Qed.

(** the part of a copy that is fixed when it is registered *)
Definition shape (s : st) (e c : nat) : Prop :=
  match nkind (h0 e) with
  | KConst => False
  | KNode => nkind (H s c) = KNode /\ nlab (H s c) = nlab (h0 e) /\ Forall2 (like s) (npre (h0 e)) (npre (H s c))
  | KDecl _ => nlab (H s c) = nlab (h0 e) /\
      exists i, n0 <= i < nx s /\ nkind (H s c) = KDecl i /\ nkind (H s i) = KId c /\ nlab (H s i) = nlab (h0 e)
  | KId d => exists cd, rel s d cd /\ nkind (H s cd) = KDecl c /\ nkind (H s c) = KId cd
  end.
(** the part that is filled in afterwards *)
Definition filled (s : st) (e c : nat) : Prop :=
  is_id (h0 e) \/ (Forall2 (like s) (npost (h0 e)) (npost (H s c)) /\ Forall2 (like s) (nann (h0 e)) (nann (H s c))).

Record Inv (O : list nat) (s : st) : Prop := {
  i_nx : n0 <= nx s;
  i_old : forall a, a < n0 -> H s a = h0 a;
  i_new : forall e c, In (e, c) (M s) -> n0 <= c < nx s /\ (e < n0 \/ e = c);
  i_shape : forall e c, In (e, c) (M s) -> e < n0 -> shape s e c;
  i_fill : forall e c, In (e, c) (M s) -> e < n0 -> In c O \/ filled s e c;
  i_fun : forall e c c', In (e, c) (M s) -> In (e, c') (M s) -> e < n0 -> npre (h0 e) = [] -> ~ is_id (h0 e) -> c = c';
  i_inj : forall e e' c, In (e, c) (M s) -> In (e', c) (M s) -> e < n0 -> e' < n0 -> ~ is_id (h0 e) -> ~ is_id (h0 e') -> e = e'
}.

(** what a call of copy leaves alone *)
Record frame (s s' : st) : Prop := {
  f_nx : nx s <= nx s';
  f_map : incl (M s) (M s');
  f_heap : forall a, a < nx s -> nkind (H s' a) = nkind (H s a) /\ nlab (H s' a) = nlab (H s a) /\
             npre (H s' a) = npre (H s a) /\ npost (H s' a) = npost (H s a) /\ (~ is_id (H s a) -> nann (H s' a) = nann (H s a))
}.
Lemma frame_refl : forall s, frame s s.
Proof. intros s; split; [lia|apply incl_refl|]. intros; repeat split; auto. Qed.
Lemma frame_trans : forall a b c, frame a b -> frame b c -> frame a c.
Proof.
  intros a b c [N1 M1 H1] [N2 M2 H2]. split; [lia|eapply incl_tran; eassumption|].
  intros x L. destruct (H1 x L) as (A1 & A2 & A3 & A4 & A5). destruct (H2 x ltac:(lia)) as (B1 & B2 & B3 & B4 & B5).
  split; [congruence|]. split; [congruence|]. split; [congruence|]. split; [congruence|].
  intros NI. rewrite B5, A5; auto. intros [d E]. apply NI. exists d. congruence.
Qed.

Lemma shape_frame : forall s s' e c, frame s s' -> c < nx s ->
  (forall d cd, rel s d cd -> cd < nx s) -> shape s e c -> shape s' e c.
Proof.
  intros s s' e c [N I F] L B. unfold shape. destruct (F c L) as (A1 & A2 & A3 & A4 & A5).
  destruct (nkind (h0 e)) as [| |i|d].
  - auto.
  - intros (P1 & P2 & P3). rewrite A1, A2, A3. repeat split; try assumption. eapply likes_mono; eassumption.
  - intros (P1 & j & P2 & P3 & P4 & P5). rewrite A1, A2. split; [assumption|].
    destruct (F j ltac:(lia)) as (B1 & B2 & _). exists j. rewrite B1, B2. repeat split; try assumption; lia.
  - intros (cd & P1 & P2 & P3). exists cd. rewrite A1. destruct (F cd (B _ _ P1)) as (B1 & _). rewrite B1.
    split; [apply I; assumption|]. split; assumption.
Qed.
Lemma shape_not_id : forall s e c, shape s e c -> ~ is_id (h0 e) -> ~ is_id (H s c).
Proof.
  intros s e c S NI [d E]. unfold shape in S. destruct (nkind (h0 e)) eqn:Q.
  - contradiction.
  - destruct S as (P & _). congruence.
  - destruct S as (_ & i & _ & P & _). congruence.
  - apply NI. eexists; exact Q.
Qed.
Lemma shape_id : forall s e c, shape s e c -> is_id (h0 e) -> is_id (H s c).
Proof. intros s e c S [d E]. unfold shape in S. rewrite E in S. destruct S as (cd & _ & _ & P). eexists; exact P. Qed.
Lemma filled_frame : forall s s' e c, frame s s' -> c < nx s -> shape s e c -> filled s e c -> filled s' e c.
Proof.
  intros s s' e c [N I F] L S [ID|[P1 P2]]; [left; assumption|].
  destruct (nkind (h0 e)) eqn:Q; try (left; eexists; exact Q); right;
  assert (NI : ~ is_id (h0 e)) by (intros [d X]; congruence);
  destruct (F c L) as (A1 & A2 & A3 & A4 & A5); rewrite A4, (A5 (shape_not_id _ _ _ S NI));
  (split; eapply likes_mono; eassumption).
Qed.

(** ** state updates *)
Lemma inv_alloc : forall O s e pre, Inv O s -> 0 < e < n0 -> (nkind (h0 e) = KNode \/ exists i, nkind (h0 e) = KDecl i) ->
  Forall2 (like s) (npre (h0 e)) pre ->
  (npre (h0 e) = [] -> forall c, ~ In (e, c) (M s)) ->
  let s' := alloc s e (h0 e) pre in
  Inv (nx s :: O) s' /\ frame s s' /\ In (e, nx s) (M s') /\ nann (H s' (nx s)) = [] /\ ~ is_id (H s' (nx s)) /\ nx s < nx s'.
Proof.
  intros O s e pre I Le K P NM s'.
  assert (FR : frame s s').
  { unfold s', alloc. split.
    - destruct (nkind (h0 e)); cbn; lia.
    - destruct (nkind (h0 e)); cbn; intros x X; repeat right; assumption || (right; right; assumption) || (right; assumption).
    - intros a La. destruct (nkind (h0 e)); cbn [H]; rewrite ?upd_other by lia; repeat split; auto. }
  assert (NEW : In (e, nx s) (M s')) by (unfold s', alloc; destruct (nkind (h0 e)); cbn; auto).
  assert (INM : forall a c, In (a, c) (M s') -> In (a, c) (M s) \/ (a = e /\ c = nx s) \/ (a = nx s /\ c = nx s)).
  { unfold s', alloc. intros a c X. destruct (nkind (h0 e)); cbn in X;
      destruct X as [X|X]; try (inversion X; auto); auto; destruct X as [X|X]; try (inversion X; auto); auto. }
  assert (OLD : forall a c, In (a, c) (M s) -> c < nx s) by (intros a c X; apply (i_new _ _ I) in X; lia).
  pose proof (i_nx _ _ I) as NX.
  assert (SH : shape s' e (nx s)).
  { unfold shape, s', alloc. destruct K as [K|[i K]]; rewrite K.
    - cbn [H]. rewrite upd_same. cbn. split; [reflexivity|]. split; [reflexivity|].
      eapply (likes_mono s); [|exact P]. cbn. intros x X; right; assumption.
    - cbn [H nx]. rewrite upd_other by lia. rewrite upd_same. cbn. split; [reflexivity|]. exists (S (nx s)).
      split; [lia|]. split; [reflexivity|]. rewrite upd_same. cbn. auto. }
  assert (NANN : nann (H s' (nx s)) = [] /\ ~ is_id (H s' (nx s))).
  { unfold s', alloc. destruct K as [K|[i K]]; rewrite K; cbn [H].
    - rewrite upd_same. cbn. split; [reflexivity|]. intros [d X]. discriminate.
    - rewrite upd_other by lia. rewrite upd_same. cbn. split; [reflexivity|]. intros [d X]. discriminate. }
  assert (LT : nx s < nx s') by (unfold s', alloc; destruct (nkind (h0 e)); cbn; lia).
  split; [|split; [exact FR|split; [exact NEW|split; [apply NANN|split; [apply NANN|exact LT]]]]].
  split.
  - destruct FR; lia.
  - intros a La. rewrite <- (i_old _ _ I a La). unfold s', alloc. destruct (nkind (h0 e)); cbn [H]; rewrite ?upd_other by lia; reflexivity.
  - intros a c X. destruct (INM a c X) as [Y|[[-> ->]|[-> ->]]].
    + apply (i_new _ _ I) in Y. destruct FR. lia.
    + lia.
    + lia.
  - intros a c X La. destruct (INM a c X) as [Y|[[-> ->]|[-> ->]]]; [|exact SH|lia].
    eapply shape_frame; [exact FR|eapply OLD; exact Y|intros d cd Z; eapply OLD; exact Z|apply (i_shape _ _ I); assumption].
  - intros a c X La. destruct (INM a c X) as [Y|[[-> ->]|[-> ->]]]; [|left; left; reflexivity|lia].
    destruct (i_fill _ _ I a c Y La) as [Z|Z]; [left; right; assumption|]. right.
    eapply filled_frame; [exact FR|eapply OLD; exact Y|apply (i_shape _ _ I); assumption|exact Z].
  - intros a c c' X X' La Pa NI. destruct (INM a c X) as [Y|[[-> ->]|[-> ->]]]; [| |lia];
      destruct (INM _ c' X') as [Y'|[[E ->]|[E ->]]]; try lia; try reflexivity.
    + eapply (i_fun _ _ I); eassumption.
    + subst a. exfalso. eapply NM; eassumption.
    + exfalso. eapply NM; eassumption.
  - intros a a' c X X' La La' NI NI'. destruct (INM a c X) as [Y|[[-> ->]|[-> ->]]]; [| |lia];
      destruct (INM a' _ X') as [Y'|[[E E']|[E E']]]; try lia; auto.
    + eapply (i_inj _ _ I); eassumption.
    + exfalso. apply OLD in Y. lia.
    + exfalso. apply OLD in Y'. lia.
Qed.

(* changing the fields post and ann of the open node c *)
Lemma inv_set : forall O s c post ann, Inv (c :: O) s -> n0 <= c < nx s -> ~ is_id (H s c) ->
  let s' := mkSt (upd (H s) c (mkNode (nkind (H s c)) (nlab (H s c)) (npre (H s c)) post ann)) (nx s) (M s) in
  Inv (c :: O) s' /\
  (forall e, In (e, c) (M s) -> e < n0 -> Forall2 (like s) (npost (h0 e)) post -> Forall2 (like s) (nann (h0 e)) ann -> Inv O s').
Proof.
  intros O s c post ann I Lc NID s'.
  assert (SH : forall a b, shape s a b -> shape s' a b).
  { intros a b. unfold shape, s'. cbn [H nx].
    assert (X : forall y, nkind (upd (H s) c (mkNode (nkind (H s c)) (nlab (H s c)) (npre (H s c)) post ann) y) = nkind (H s y) /\
                 nlab (upd (H s) c (mkNode (nkind (H s c)) (nlab (H s c)) (npre (H s c)) post ann) y) = nlab (H s y) /\
                 npre (upd (H s) c (mkNode (nkind (H s c)) (nlab (H s c)) (npre (H s c)) post ann) y) = npre (H s y)).
    { intros y. unfold upd. destruct (y =? c) eqn:Q; [apply Nat.eqb_eq in Q; subst; cbn; auto|auto]. }
    destruct (nkind (h0 a)) as [| |i|d].
    - auto.
    - destruct (X b) as (-> & -> & ->). auto.
    - destruct (X b) as (-> & -> & _). intros (P1 & j & P2 & P3 & P4 & P5). split; [assumption|]. exists j.
      destruct (X j) as (-> & -> & _). auto.
    - intros (cd & P1 & P2 & P3). exists cd. destruct (X cd) as (-> & _). destruct (X b) as (-> & _). auto. }
  assert (FI : forall a b, b <> c -> filled s a b -> filled s' a b).
  { intros a b N [P|P]; [left; assumption|right]. unfold s'. cbn [H]. rewrite upd_other by assumption. exact P. }
  split.
  - destruct I as [I1 I2 I3 I4 I5 I6 I7]. split; auto.
    + intros a La. unfold s'; cbn [H]. rewrite upd_other by lia. auto.
    + intros a b X La. destruct (Nat.eq_dec b c) as [->|N]; [left; left; reflexivity|].
      destruct (I5 a b X La) as [Y|Y]; [left; assumption|right; auto].
  - intros e X Le P1 P2. destruct I as [I1 I2 I3 I4 I5 I6 I7]. split; auto.
    + intros a La. unfold s'; cbn [H]. rewrite upd_other by lia. auto.
    + intros a b Y La. destruct (Nat.eq_dec b c) as [->|N].
      * right. assert (NI : forall q, In (q, c) (M s) -> q < n0 -> ~ is_id (h0 q)).
        { intros q Q Lq ID. apply NID. eapply shape_id; [apply (I4 q c Q Lq)|exact ID]. }
        assert (a = e) by (eapply I7; eauto). subst a. right. unfold s'; cbn [H]. rewrite upd_same. cbn. split; assumption.
      * destruct (I5 a b Y La) as [[Z|Z]|Z]; [congruence|left; assumption|right; auto].
Qed.

(* an annotation added to an identifier *)
Lemma inv_ann_id : forall O s c l, Inv O s -> n0 <= c -> is_id (H s c) -> Inv O (add_ann s c l) /\ frame s (add_ann s c l).
Proof.
  intros O s c l I Lc ID.
  assert (FR : frame s (add_ann s c l)).
  { split; [reflexivity|apply incl_refl|]. intros a La. unfold add_ann; cbn [H].
    destruct (Nat.eq_dec a c) as [->|N]; [rewrite upd_same; cbn|rewrite upd_other by assumption]; repeat split; auto. contradiction. }
  split; [|exact FR]. destruct I as [I1 I2 I3 I4 I5 I6 I7]. split; auto.
  - intros a La. unfold add_ann; cbn [H]. rewrite upd_other by lia. auto.
  - intros e b X Le. eapply shape_frame; [exact FR|apply I3 in X; lia| |auto]. intros d cd Y. apply I3 in Y. lia.
  - intros e b X Le. destruct (I5 e b X Le) as [Y|Y]; [left; assumption|right].
    eapply filled_frame; [exact FR|apply I3 in X; lia|auto|assumption].
Qed.
Lemma inv_register : forall O s e c d cd, Inv O s -> e < n0 -> nkind (h0 e) = KId d -> rel s d cd ->
  n0 <= c < nx s -> nkind (H s cd) = KDecl c -> nkind (H s c) = KId cd ->
  Inv O (register s e c) /\ frame s (register s e c).
Proof.
  intros O s e c d cd I Le K R Lc K1 K2.
  assert (FR : frame s (register s e c)).
  { split; [reflexivity|intros x X; right; assumption|]. intros a La. repeat split; auto. }
  split; [|exact FR]. assert (ID : is_id (h0 e)) by (eexists; exact K).
  assert (OLD : forall a b, In (a, b) (M s) -> b < nx s) by (intros a b X; apply (i_new _ _ I) in X; lia).
  destruct I as [I1 I2 I3 I4 I5 I6 I7]. split; auto.
  - intros a b [X|X]; [inversion X; subst; cbn; lia|auto].
  - intros a b [X|X] La.
    + inversion X; subst. unfold shape. rewrite K. exists cd. split; [right; exact R|]. split; assumption.
    + eapply shape_frame; [exact FR|eapply OLD; exact X|intros; eapply OLD; eassumption|auto].
  - intros a b [X|X] La; [inversion X; subst; right; left; exact ID|].
    destruct (I5 a b X La) as [Y|Y]; [left; assumption|right].
    eapply filled_frame; [exact FR|eapply OLD; exact X|auto|assumption].
  - intros a b b' [X|X] [Y|Y] La P NI; try (inversion X; subst; contradiction); try (inversion Y; subst; contradiction). eapply I6; eassumption.
  - intros a a' b [X|X] [Y|Y] La La' NI NI'; try (inversion X; subst; contradiction); try (inversion Y; subst; contradiction). eapply I7; eassumption.
Qed.

(** ** the traversal *)
Definition copy_spec (cp : st -> nat -> option (st * nat)) : Prop := forall O s e s' r, Inv O s -> e < n0 ->
  cp s e = Some (s', r) -> Inv O s' /\ frame s s' /\ like s' e r.

Lemma copy_list_ok : forall cp, copy_spec cp -> forall l O s s' r, Inv O s -> (forall k, In k l -> k < n0) ->
  copy_list cp s l = Some (s', r) -> Inv O s' /\ frame s s' /\ Forall2 (like s') l r.
Proof.
  intros cp CP. induction l as [|e l IH]; intros O s s' r I L E; cbn [copy_list] in E.
  - inversion E; subst. split; [assumption|]. split; [apply frame_refl|constructor].
  - destruct (cp s e) as [[s1 c]|] eqn:E1; [|discriminate]. destruct (copy_list cp s1 l) as [[s2 cs]|] eqn:E2; [|discriminate].
    inversion E; subst. destruct (CP O s e s1 c I (L e (or_introl eq_refl)) E1) as (I1 & F1 & K1).
    destruct (IH O s1 s' cs I1 (fun k X => L k (or_intror X)) E2) as (I2 & F2 & K2).
    split; [assumption|]. split; [eapply frame_trans; eassumption|].
    constructor; [eapply like_mono; [apply F2|exact K1]|exact K2].
Qed.

Lemma copy_node_ok : forall cp, copy_spec cp -> forall O s e s' r, Inv O s -> 0 < e < n0 ->
  (nkind (h0 e) = KNode \/ exists i, nkind (h0 e) = KDecl i) -> lookup (M s) e = None ->
  match copy_list cp s (npre (h0 e)) with
  | None => None
  | Some (s1, pre) =>
      match copy_list cp (alloc s1 e (h0 e) pre) (npost (h0 e)) with
      | None => None
      | Some (s3, post) =>
          match copy_list cp (set_post s3 (nx s1) post) (nann (h0 e)) with
          | None => None
          | Some (s5, l) => Some (add_ann s5 (nx s1) l, nx s1)
          end
      end
  end = Some (s', r) -> Inv O s' /\ frame s s' /\ like s' e r.
Proof.
  intros cp CP O s e s' r I Le K LK E. destruct WF as [_ W]. destruct (W e ltac:(lia)) as (Wk & _ & _).
  destruct (copy_list cp s (npre (h0 e))) as [[s1 pre]|] eqn:E1; [|discriminate].
  destruct (copy_list_ok cp CP _ O s s1 pre I (fun k X => Wk k (or_introl X)) E1) as (I1 & F1 & P1).
  assert (NM : npre (h0 e) = [] -> forall c, ~ In (e, c) (M s1)).
  { intros Z c. rewrite Z in E1. cbn in E1. inversion E1; subst. apply lookup_none. assumption. }
  destruct (inv_alloc O s1 e pre I1 Le K P1 NM) as (I2 & F2 & N2 & A2 & D2 & L2). cbv zeta in *.
  set (s2 := alloc s1 e (h0 e) pre) in *. set (c := nx s1) in *.
  destruct (copy_list cp s2 (npost (h0 e))) as [[s3 post]|] eqn:E3; [|discriminate].
  destruct (copy_list_ok cp CP _ (c :: O) s2 s3 post I2 (fun k X => Wk k (or_intror (or_introl X))) E3) as (I3 & F3 & P3).
  pose proof (i_nx _ _ I1) as NX. pose proof (f_nx _ _ F3) as NX3.
  destruct (f_heap _ _ F3 c L2) as (G1 & _ & _ & _ & G5). specialize (G5 D2).
  assert (D3 : ~ is_id (H s3 c)) by (intros [d X]; apply D2; exists d; congruence).
  destruct (inv_set O s3 c post (nann (H s3 c)) I3 ltac:(lia) D3) as (I4 & _). cbv zeta in I4.
  change (mkSt _ _ _) with (set_post s3 c post) in I4. set (s4 := set_post s3 c post) in *.
  destruct (copy_list cp s4 (nann (h0 e))) as [[s5 l]|] eqn:E5; [|discriminate].
  destruct (copy_list_ok cp CP _ (c :: O) s4 s5 l I4 (fun k X => Wk k (or_intror (or_intror X))) E5) as (I5 & F5 & P5).
  inversion E; subst s' r. clear E.
  assert (L4 : c < nx s4) by (cbn; lia).
  destruct (f_heap _ _ F5 c L4) as (Q1 & Q2 & Q3 & Q4 & Q5).
  assert (D4 : ~ is_id (H s4 c)). { unfold s4, set_post; cbn [H]. intros [d X]. rewrite upd_same in X. cbn in X. apply D3. exists d; assumption. }
  specialize (Q5 D4).
  assert (D5 : ~ is_id (H s5 c)) by (intros [d X]; apply D4; exists d; congruence).
  assert (PO : npost (H s5 c) = post) by (rewrite Q4; unfold s4, set_post; cbn [H]; rewrite upd_same; reflexivity).
  assert (AN : nann (H s5 c) = []) by (rewrite Q5; unfold s4, set_post; cbn [H]; rewrite upd_same; cbn; congruence).
  assert (M45 : incl (M s3) (M s5)) by apply (f_map _ _ F5).
  assert (NE : In (e, c) (M s5)) by (apply M45, (f_map _ _ F3); exact N2).
  pose proof (f_nx _ _ F5) as NX5. change (nx s4) with (nx s3) in NX5.
  destruct (inv_set O s5 c post l I5 ltac:(lia) D5) as (_ & I6). cbv zeta in I6.
  assert (S6 : add_ann s5 c l = mkSt (upd (H s5) c (mkNode (nkind (H s5 c)) (nlab (H s5 c)) (npre (H s5 c)) post l)) (nx s5) (M s5)).
  { unfold add_ann. rewrite PO, AN. reflexivity. }
  split.
  - rewrite S6. apply (I6 e NE); [lia| |exact P5]. eapply (likes_mono s3); [exact M45|exact P3].
  - split; [|right; right; exact NE].
    (* nodes that existed before are not c *)
    pose proof (f_nx _ _ F1) as NX1.
    split.
    + cbn. pose proof (f_nx _ _ F2). lia.
    + cbn. eapply incl_tran; [apply (f_map _ _ F1)|]. eapply incl_tran; [apply (f_map _ _ F2)|].
      eapply incl_tran; [apply (f_map _ _ F3)|exact M45].
    + intros a La. pose proof (frame_trans _ _ _ F1 (frame_trans _ _ _ F2 F3)) as FF.
      destruct (f_heap _ _ FF a La) as (B1 & B2 & B3 & B4 & B5).
      assert (Na : a <> c) by (unfold c; lia).
      assert (E4 : H s4 a = H s3 a) by (unfold s4, set_post; cbn [H]; apply upd_other; assumption).
      destruct (f_heap _ _ F5 a ltac:(cbn; lia)) as (C1 & C2 & C3 & C4 & C5). rewrite E4 in *.
      unfold add_ann; cbn [H]. rewrite upd_other by assumption.
      split; [congruence|]. split; [congruence|]. split; [congruence|]. split; [congruence|].
      intros NI. rewrite C5, B5; auto. intros [d X]. apply NI. exists d. congruence.
Qed.

Lemma copy_ok : forall fuel, copy_spec (copy fuel).
Proof.
  induction fuel as [|n IH]; intros O s e s' r I Le E; [discriminate|]. cbn [copy] in E.
  destruct (e =? 0) eqn:Z.
  { apply Nat.eqb_eq in Z. inversion E; subst. split; [assumption|]. split; [apply frame_refl|]. left; auto. }
  apply Nat.eqb_neq in Z.
  destruct (lookup (M s) e) as [c|] eqn:LK.
  { inversion E; subst. split; [assumption|]. split; [apply frame_refl|]. right; right. apply lookup_in; assumption. }
  cbv zeta in E. rewrite (i_old _ _ I e Le) in E.
  destruct (nkind (h0 e)) as [| |i|d] eqn:K.
  - inversion E; subst. split; [assumption|]. split; [apply frame_refl|]. right; left; auto.
  - eapply (copy_node_ok (copy n) IH); [exact I|lia|left; exact K|exact LK|exact E].
  - eapply (copy_node_ok (copy n) IH); [exact I|lia|right; eauto|exact LK|exact E].
  - destruct WF as [_ W]. destruct (W e Le) as (Wk & Wd & _). destruct (Wd d K) as (Ld & j & Kd).
    destruct (copy n s d) as [[s1 c1]|] eqn:E1; [|discriminate].
    destruct (IH O s d s1 c1 I ltac:(lia) E1) as (I1 & F1 & P1).
    assert (R1 : rel s1 d c1) by (destruct P1 as [[X _]|[[X _]|X]]; [lia|congruence|exact X]).
    pose proof (i_shape _ _ I1 d c1 R1 ltac:(lia)) as S1. unfold shape in S1. rewrite Kd in S1.
    destruct S1 as (_ & i & Li & S1 & S2 & _).
    unfold ident_of in E. rewrite S1 in E.
    destruct (inv_register O s1 e i d c1 I1 Le K R1 Li S1 S2) as (I2 & F2).
    destruct (copy_list (copy n) (register s1 e i) (nann (h0 e))) as [[s3 l]|] eqn:E3; [|discriminate].
    destruct (copy_list_ok (copy n) IH _ O _ s3 l I2 (fun k X => Wk k (or_intror (or_intror X))) E3) as (I3 & F3 & P3).
    inversion E; subst s' r.
    assert (ID : is_id (H s3 i)).
    { destruct (f_heap _ _ F3 i ltac:(cbn; lia)) as (Q & _). exists c1. rewrite Q. exact S2. }
    destruct (inv_ann_id O s3 i l I3 ltac:(lia) ID) as (I4 & F4).
    split; [assumption|]. split; [eapply frame_trans; [exact F1|]; eapply frame_trans; [exact F2|]; eapply frame_trans; eassumption|].
    right; right. apply (f_map _ _ F4), (f_map _ _ F3). left; reflexivity.
Qed.

(** ** termination *)
Definition inM (m : list (nat * nat)) (a : nat) : bool := match lookup m a with Some _ => true | None => false end.
Definition todo (s : st) : nat := length (filter (fun a => negb (inM (M s) a)) (seq 0 n0)).
Lemma inM_true : forall m a, inM m a = true <-> exists c, In (a, c) m.
Proof.
  intros m a. unfold inM. destruct (lookup m a) as [c|] eqn:L.
  - split; [|reflexivity]. intros _. exists c. apply lookup_in; assumption.
  - split; [discriminate|]. intros [c X]. exfalso. eapply lookup_none; eassumption.
Qed.
Lemma filter_le : forall (p q : nat -> bool) l, (forall a, In a l -> p a = true -> q a = true) -> length (filter p l) <= length (filter q l).
Proof.
  intros p q. induction l as [|a l IH]; intros X; cbn; [lia|].
  specialize (IH (fun b Y => X b (or_intror Y))). destruct (p a) eqn:P; [rewrite (X a (or_introl eq_refl) P); cbn; lia|].
  destruct (q a); cbn; lia.
Qed.
Lemma filter_lt : forall (p q : nat -> bool) l e, (forall a, In a l -> p a = true -> q a = true) -> In e l ->
  p e = false -> q e = true -> length (filter p l) < length (filter q l).
Proof.
  intros p q. induction l as [|a l IH]; intros e X I P Q; [destruct I|]. cbn.
  pose proof (filter_le p q l (fun b Y => X b (or_intror Y))) as L.
  destruct I as [->|I]; [rewrite P, Q; cbn; lia|].
  specialize (IH e (fun b Y => X b (or_intror Y)) I P Q). destruct (p a) eqn:Pa; [rewrite (X a (or_introl eq_refl) Pa); cbn; lia|].
  destruct (q a); cbn; lia.
Qed.
Lemma todo_mono : forall s s', incl (M s) (M s') -> todo s' <= todo s.
Proof.
  intros s s' I. apply filter_le. intros a _ X. destruct (inM (M s) a) eqn:Q; [|reflexivity].
  apply inM_true in Q. destruct Q as [c Q]. assert (Y : inM (M s') a = true) by (apply inM_true; eauto). rewrite Y in X. discriminate.
Qed.
Lemma todo_dec : forall s s' e c, incl (M s) (M s') -> e < n0 -> lookup (M s) e = None -> In (e, c) (M s') -> todo s' < todo s.
Proof.
  intros s s' e c I L N X. apply (filter_lt _ _ _ e).
  - intros a _ Y. destruct (inM (M s) a) eqn:Q; [|reflexivity].
    apply inM_true in Q. destruct Q as [b Q]. assert (Z : inM (M s') a = true) by (apply inM_true; eauto). rewrite Z in Y. discriminate.
  - apply in_seq. lia.
  - assert (Z : inM (M s') e = true) by (apply inM_true; eauto). rewrite Z. reflexivity.
  - unfold inM. rewrite N. reflexivity.
Qed.

Context (rank : nat -> nat) (Rk : forall e k, e < n0 -> early_ref h0 e k -> rank k < rank e).
Context (B : nat) (RB : forall e, e < n0 -> rank e <= B).
Definition need (s : st) (e : nat) : nat := todo s * (B + 2) + rank e + 1.

Lemma copy_list_ends : forall n l O s, (forall O s e, Inv O s -> e < n0 -> need s e <= n -> copy n s e <> None) ->
  Inv O s -> (forall k, In k l -> k < n0 /\ need s k <= n) -> copy_list (copy n) s l <> None.
Proof.
  intros n. induction l as [|e l IH]; intros O s CP I L; cbn [copy_list]; [discriminate|].
  destruct (L e (or_introl eq_refl)) as [Le Ne].
  destruct (copy n s e) as [[s1 c]|] eqn:E1; [|exfalso; eapply (CP O s e); eassumption].
  destruct (copy_ok n O s e s1 c I Le E1) as (I1 & F1 & _).
  destruct (copy_list (copy n) s1 l) as [[s2 cs]|] eqn:E2; [discriminate|].
  exfalso. apply (IH O s1 CP I1); [|exact E2]. intros k X. destruct (L k (or_intror X)) as [Lk Nk]. split; [assumption|].
  pose proof (todo_mono s s1 (f_map _ _ F1)). unfold need in *. nia.
Qed.

Lemma copy_ends : forall n O s e, Inv O s -> e < n0 -> need s e <= n -> copy n s e <> None.
Proof.
  induction n as [|n IH]; intros O s e I Le N; [unfold need in N; lia|]. cbn [copy].
  destruct (e =? 0) eqn:Z; [discriminate|]. apply Nat.eqb_neq in Z.
  destruct (lookup (M s) e) as [c|] eqn:LK; [discriminate|].
  cbv zeta. rewrite (i_old _ _ I e Le).
  pose proof WF as [_ W]. destruct (W e Le) as (Wk & Wd & _).
  assert (NODE : (nkind (h0 e) = KNode \/ exists i, nkind (h0 e) = KDecl i) ->
    match copy_list (copy n) s (npre (h0 e)) with
    | None => None
    | Some (s1, pre) =>
      match copy_list (copy n) (alloc s1 e (h0 e) pre) (npost (h0 e)) with
      | None => None
      | Some (s3, post) =>
          match copy_list (copy n) (set_post s3 (nx s1) post) (nann (h0 e)) with
          | None => None
          | Some (s5, l) => Some (add_ann s5 (nx s1) l, nx s1)
          end
      end
    end <> None).
  { intros K. destruct (copy_list (copy n) s (npre (h0 e))) as [[s1 pre]|] eqn:E1.
    2:{ intros _. apply (copy_list_ends n _ O s IH I) in E1; [assumption|]. intros k X. split; [apply Wk; auto|].
        pose proof (Rk e k Le (or_introl X)). unfold need in *. lia. }
    destruct (copy_list_ok (copy n) (copy_ok n) _ O s s1 pre I (fun k X => Wk k (or_introl X)) E1) as (I1 & F1 & P1).
    assert (NM : npre (h0 e) = [] -> forall c, ~ In (e, c) (M s1)).
    { intros Q c. rewrite Q in E1. cbn in E1. inversion E1; subst. apply lookup_none. assumption. }
    destruct (inv_alloc O s1 e pre I1 ltac:(lia) K P1 NM) as (I2 & F2 & N2 & A2 & D2 & L2). cbv zeta in *.
    set (s2 := alloc s1 e (h0 e) pre) in *.
    pose proof (frame_trans _ _ _ F1 F2) as F12.
    assert (T2 : todo s2 < todo s) by (eapply todo_dec; [apply (f_map _ _ F12)|exact Le|exact LK|exact N2]).
    destruct (copy_list (copy n) s2 (npost (h0 e))) as [[s3 post]|] eqn:E3.
    2:{ intros _. apply (copy_list_ends n _ (nx s1 :: O) s2 IH I2) in E3; [assumption|]. intros k X. assert (Lk : k < n0) by (apply Wk; auto).
        split; [assumption|]. pose proof (RB k Lk). unfold need in *. nia. }
    destruct (copy_list_ok (copy n) (copy_ok n) _ (nx s1 :: O) s2 s3 post I2 (fun k X => Wk k (or_intror (or_introl X))) E3) as (I3 & F3 & P3).
    destruct (f_heap _ _ F3 (nx s1) L2) as (G1 & _).
    assert (D3 : ~ is_id (H s3 (nx s1))) by (intros [d X]; apply D2; exists d; congruence).
    pose proof (i_nx _ _ I1) as NXa. pose proof (f_nx _ _ F3) as NXb.
    destruct (inv_set O s3 (nx s1) post (nann (H s3 (nx s1))) I3 ltac:(lia) D3) as (I4 & _). cbv zeta in I4.
    change (mkSt _ _ _) with (set_post s3 (nx s1) post) in I4.
    destruct (copy_list (copy n) (set_post s3 (nx s1) post) (nann (h0 e))) as [[s5 l]|] eqn:E5; [discriminate|].
    intros _. apply (copy_list_ends n _ _ _ IH I4) in E5; [assumption|]. intros k X. assert (Lk : k < n0) by (apply Wk; auto).
    split; [assumption|]. pose proof (RB k Lk). pose proof (todo_mono s2 s3 (f_map _ _ F3)).
    change (todo (set_post s3 (nx s1) post)) with (todo s3). unfold need in *. change (todo (set_post s3 (nx s1) post)) with (todo s3). nia. }
  destruct (nkind (h0 e)) as [| |i|d] eqn:K; [discriminate|apply NODE; auto|apply NODE; eauto|]. clear NODE.
  destruct (Wd d eq_refl) as (Ld & j & Kd).
  destruct (copy n s d) as [[s1 c1]|] eqn:E1.
  2:{ intros _. eapply (IH O s d I); [lia| |exact E1]. pose proof (Rk e d Le (or_intror K)). unfold need in *. lia. }
  destruct (copy_ok n O s d s1 c1 I ltac:(lia) E1) as (I1 & F1 & P1).
  assert (R1 : rel s1 d c1) by (destruct P1 as [[X _]|[[X _]|X]]; [lia|congruence|exact X]).
  pose proof (i_shape _ _ I1 d c1 R1 ltac:(lia)) as S1. unfold shape in S1. rewrite Kd in S1.
  destruct S1 as (_ & i & Li & S1 & S2 & _). unfold ident_of. rewrite S1.
  destruct (inv_register O s1 e i d c1 I1 Le K R1 Li S1 S2) as (I2 & F2).
  destruct (copy_list (copy n) (register s1 e i) (nann (h0 e))) as [[s3 l]|] eqn:E3; [discriminate|].
  intros _. apply (copy_list_ends n _ O _ IH I2) in E3; [assumption|]. intros k X. assert (Lk : k < n0) by (apply Wk; auto).
  split; [assumption|]. pose proof (RB k Lk). pose proof (frame_trans _ _ _ F1 F2) as F12.
  assert (T2 : todo (register s1 e i) < todo s) by (eapply todo_dec; [apply (f_map _ _ F12)|exact Le|exact LK|left; reflexivity]).
  unfold need in *. nia.
Qed.
End G.
