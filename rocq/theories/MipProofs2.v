(** Proofs for C84, part 1: projection of domains and constraints onto the reference variable. *)
Require Import ZArith List Bool Lia.
From Verif Require Import Base IntValSpec MipModel MipSpec MipProofs.
Import ListNotations.
Open Scope Z_scope.

Lemma up_le : forall w c x, 0 < den w -> (up w c <= x <-> num w * c + off w <= den w * x).
Proof.
  intros w c x D. unfold up. pose proof (Z.mul_div_le (- (num w * c + off w)) (den w) D). pose proof (Z.mul_succ_div_gt (- (num w * c + off w)) (den w) D).
  set (q := - (num w * c + off w) / den w) in *. split; intros; nia.
Qed.
Lemma le_down : forall w c x, 0 < den w -> (x <= down w c <-> den w * x <= num w * c + off w).
Proof.
  intros w c x D. unfold down. pose proof (Z.mul_div_le (num w * c + off w) (den w) D). pose proof (Z.mul_succ_div_gt (num w * c + off w) (den w) D).
  set (q := (num w * c + off w) / den w) in *. split; intros; nia.
Qed.
Lemma exact_eq : forall w c, 0 < den w -> exact w c = true -> up w c = down w c /\ den w * down w c = num w * c + off w.
Proof.
  intros w c D E. unfold exact in E. apply Z.eqb_eq in E. apply Z.div_exact in E; [|lia]. unfold down. split; [|lia].
  unfold up. rewrite E at 1. rewrite <- Z.mul_opp_r, Z.mul_comm, Z.div_mul by lia. lia.
Qed.
Lemma inexact : forall w c x, 0 < den w -> exact w c = false -> den w * x <> num w * c + off w.
Proof. intros w c x D E Q. unfold exact in E. apply Z.eqb_neq in E. apply E. rewrite <- Q, Z.mul_comm. apply Z.mod_mul. lia. Qed.
Lemma up_down : forall w c, 0 < den w -> down w c <= up w c <= down w c + 1.
Proof.
  intros w c D. pose proof (proj1 (le_down w c (down w c) D) (Z.le_refl _)). pose proof (proj1 (up_le w c (up w c) D) (Z.le_refl _)).
  split; [nia|]. apply up_le; auto. pose proof (Z.mul_succ_div_gt (num w * c + off w) (den w) D). unfold down. lia.
Qed.

(** * Insertion and conversion of sets *)
Lemma insert_ok : forall s v, separate s ->
  (ext_le (lf v) (rt v) -> forall u, In u s -> ext_lt (rt u) (lf v) \/ ext_lt (rt v) (lf u)) ->
  separate (fst (insert s v)) /\ forall u, In u (fst (insert s v)) <-> In u s \/ (u = v /\ ext_le (lf v) (rt v)).
Proof.
  intros s v SS H. destruct (xlt (rt v) (lf v)) eqn:X.
  { unfold insert. rewrite X. cbn [fst]. split; auto. intros u. apply xlt_iff in X. split; [auto|]. intros [I | [_ Q]]; auto. xl. }
  apply xlt_false in X. specialize (H X). destruct (prefix_cut (fun u => xle (lf u) (lf v)) s) as (A & B & E & _ & HA & HB). subst s.
  assert (HA' : forall u, In u A -> ext_le (lf u) (lf v)) by (intros u I; apply xle_iff; auto).
  apply sep_app in SS. destruct SS as (SA & SB & AB).
  assert (HB' : forall u, In u B -> ext_lt (lf v) (lf u)).
  { destruct B as [|b B]; [cbn; tauto|]. apply xle_false in HB. intros u [<- | I]; auto. destruct SB as (N & Q & _). specialize (Q u I). xl. }
  rewrite insert_len; auto. 2: { destruct B; auto. apply HB'. now left. }
  cbn [fst]. split.
  - apply sep_app. split; auto. split.
    + cbn [separate]. split; auto. split; auto. intros u I. destruct (H u (in_or_app A B u (or_intror I))) as [Q | Q]; auto. specialize (HB' u I).
      assert (ext_le (lf u) (rt u)) by (eapply sep_nonempty; [exact SB|auto]). xl.
    + intros a b Ia [<- | Ib]; auto. destruct (H a (in_or_app A B a (or_introl Ia))) as [Q | Q]; auto. specialize (HA' a Ia). xl.
  - intros u. rewrite !in_app_iff. cbn [In]. intuition congruence.
Qed.

Lemma convert1_order : forall w u u', good_view w -> ext_lt (rt u) (lf u') -> lf u' <> PInf -> rt u <> MInf ->
  ext_lt (rt (convert1 w u)) (lf (convert1 w u')) \/ ext_lt (rt (convert1 w u')) (lf (convert1 w u)).
Proof.
  intros w u u' (D & N & _) L N1 N2. unfold convert1. destruct (rt u) as [|p|] eqn:E1; [tauto| |exfalso; destruct (lf u'); unfold ext_lt in L; cbn in L; tauto].
  destruct (lf u') as [|q|] eqn:E2; [exfalso; unfold ext_lt in L; cbn in L; tauto| |tauto].
  assert (PQ : p < q) by xl. cbv zeta. cbn [lf rt]. destruct (Z.ltb_spec (num w) 0); [right|left]; apply lt_hl; cbn [hi lo]; right; split; auto.
  - pose proof (proj1 (le_down w q (down w q) D) (Z.le_refl _)). pose proof (proj1 (up_le w p (up w p) D) (Z.le_refl _)). nia.
  - pose proof (proj1 (le_down w p (down w p) D) (Z.le_refl _)). pose proof (proj1 (up_le w q (up w q) D) (Z.le_refl _)). nia.
Qed.
Lemma within_convert : forall w u x v, good_view w -> related_by w x v -> lf u <> PInf -> rt u <> MInf ->
  (within x (convert1 w u) <-> within v u).
Proof.
  intros w u x v (D & N & _) R N1 N2. unfold within, convert1, related_by in *. cbv zeta. cbn [lf rt].
  destruct (Z.ltb_spec (num w) 0).
  - destruct (lf u) as [|p|], (rt u) as [|q|]; try tauto; cbn [ext_le]; rewrite ?up_le, ?le_down by auto; try (split; intros [? ?]; split; try exact I; nia).
  - destruct (lf u) as [|p|], (rt u) as [|q|]; try tauto; cbn [ext_le]; rewrite ?up_le, ?le_down by auto; try (split; intros [? ?]; split; try exact I; nia).
Qed.
Lemma convert_ok : forall w S, good_view w -> good_set S -> separate (convert w S) /\ proper (convert w S) /\
  (forall u, In u (convert w S) <-> exists t, In t S /\ u = convert1 w t /\ ext_le (lf u) (rt u)).
Proof.
  intros w S G (SS & PS). unfold convert.
  assert (GEN : forall T R acc, R ++ T = S -> separate acc -> (forall u, In u acc <-> exists t, In t R /\ u = convert1 w t /\ ext_le (lf u) (rt u)) ->
     let s' := fold_left (fun acc v => fst (insert acc (convert1 w v))) T acc in
     separate s' /\ (forall u, In u s' <-> exists t, In t S /\ u = convert1 w t /\ ext_le (lf u) (rt u))).
  { induction T as [|t T IH]; intros R acc E SA HA; cbv zeta; cbn [fold_left].
    - rewrite app_nil_r in E. subst R. auto.
    - destruct (insert_ok acc (convert1 w t) SA) as (S1 & H1).
      { intros NE u I. apply HA in I. destruct I as (r & Ir & -> & _). apply convert1_order; auto.
        - rewrite <- E in SS. apply sep_app in SS. destruct SS as (_ & _ & X). apply X; auto. now left.
        - apply PS. rewrite <- E. apply in_or_app. right. now left.
        - apply PS. rewrite <- E. apply in_or_app. auto. }
      apply (IH (R ++ [t])); auto; [rewrite <- app_assoc; auto|].
      intros u. rewrite H1, HA. split.
      + intros [(r & I & E1 & N) | [-> N]]; [exists r|exists t]; repeat split; auto; apply in_or_app; [auto|right; now left].
      + intros (r & I & E1 & N). apply in_app_or in I. destruct I as [I | [<- | []]]; [left; exists r; auto|right; subst; auto]. }
  destruct (GEN S [] [] eq_refl Logic.I) as (A & B).
  { intros u. split; [intros []|intros (t & [] & _)]. }
  split; auto. split; auto. intros u I. apply B in I. destruct I as (t & _ & -> & _). unfold convert1. cbv zeta. cbn [lf rt].
  split; [destruct (if num w <? 0 then rt t else lf t)|destruct (if num w <? 0 then lf t else rt t)]; discriminate.
Qed.
Lemma convert_member : forall w S x v, good_view w -> good_set S -> related_by w x v -> (member x (convert w S) <-> member v S).
Proof.
  intros w S x v G GS R. destruct (convert_ok w S G GS) as (_ & _ & H). destruct GS as (_ & PS). unfold member. split.
  - intros (u & I & W). apply H in I. destruct I as (t & It & -> & _). exists t. split; auto. destruct (PS t It). eapply within_convert; eauto.
  - intros (t & It & W). exists (convert1 w t). destruct (PS t It). assert (W' : within x (convert1 w t)) by (apply (within_convert w t x v); auto).
    split; auto. apply H. exists t. repeat split; auto. destruct W'. xl.
Qed.

(** * Projection *)
Definition static (p : post) (v : Z) : Prop := match p with NE c => v <> c | IN D => member v D | _ => True end.
Definition dynamic (p : post) (v : Z) (bs : nat -> Z) : Prop := match p with NE _ | IN _ => True | _ => post_holds v bs p end.
Lemma post_split : forall v bs p, post_holds v bs p <-> static p v /\ dynamic p v bs.
Proof. destruct p; cbn; tauto. Qed.
(** the intervals that the 0/1 variable of a constraint is related to *)
Definition rel_set (w : view) (p : post) : list intv :=
  let le c := [Iv MInf (Fin (down w c))] in
  let ge c := [Iv (Fin (up w c)) PInf] in
  match p with
  | IN_R D b => convert w D
  | LE_R c b => if num w <? 0 then ge c else le c
  | GE_R c b => if num w <? 0 then le c else ge c
  | EQ_R c b => [Iv (Fin (up w c)) (Fin (down w c))]
  | _ => []
  end.
Definition clean (s : soi) (u : intv) : Prop := forall v, In v s ->
  (lf u <> MInf -> ext_lt (rt v) (lf u) \/ ext_le (lf u) (lf v)) /\ (rt u <> PInf -> ext_le (rt v) (rt u) \/ ext_lt (rt u) (lf v)).
Lemma clean_refines : forall s s' u, clean s u -> refines s' s -> clean s' u.
Proof. intros s s' u C R v I. destruct (R v I) as (y & Iy & Y1 & Y2). destruct (C y Iy) as (A & B). split; intros N; [destruct (A N)|destruct (B N)]; [left|right|left|right]; xl. Qed.
Definition whole (w : view) (p : post) : Prop := match p with EQ_R c _ => exact w c = true | LE0_IF _ => num w < 0 -> exact w 0 = true | _ => True end.

Lemma cut1_ok : forall s u, separate s -> proper s -> ext_le (lf u) (rt u) -> lf u <> PInf -> rt u <> MInf ->
  exists s', cut_deltas1 s (lf u) (rt u) 1 = Done s' /\ separate s' /\ proper s' /\ refines s' s /\
  (forall z, member z s' <-> member z s) /\ clean s' u.
Proof.
  intros s u SS PS NE N1 N2. unfold cut_deltas1. assert (E : fst (insert [] (Iv (lf u) (rt u))) = [u]).
  { unfold insert. cbn [lf rt]. replace (xlt (rt u) (lf u)) with false by (symmetry; now apply xlt_false). cbn. now destruct u. }
  rewrite E. destruct (cut_deltas_ok 1 [u] s) as (s' & E' & A & P & R & M & C); auto; [lia|intros v [<- | []]; auto|].
  exists s'. do 4 (split; auto). split. { intros z. rewrite M. pose proof (no_cut_points [u] z). tauto. }
  intros v I. apply C; auto. now left.
Qed.

Lemma project_call_ok : forall w s p, good_view w -> Forall good_set (sets_of p) -> separate s -> proper s ->
  exists s', project_call w s p = Done s' /\ separate s' /\ proper s' /\ refines s' s /\
  (forall x v, related_by w x v -> (member x s' <-> member x s /\ static p v)) /\
  (whole w p -> Forall (clean s') (rel_set w p)).
Proof.
  intros w s p G GS SS PS. pose proof G as (D & N & _).
  assert (LE : forall c, exists s', cut_deltas1 s MInf (Fin (down w c)) 1 = Done s' /\ separate s' /\ proper s' /\ refines s' s /\
     (forall z, member z s' <-> member z s) /\ clean s' (Iv MInf (Fin (down w c)))).
  { intros c. apply (cut1_ok s (Iv MInf (Fin (down w c)))); cbn; auto; discriminate. }
  assert (GE : forall c, exists s', cut_deltas1 s (Fin (up w c)) PInf 1 = Done s' /\ separate s' /\ proper s' /\ refines s' s /\
     (forall z, member z s' <-> member z s) /\ clean s' (Iv (Fin (up w c)) PInf)).
  { intros c. apply (cut1_ok s (Iv (Fin (up w c)) PInf)); cbn; auto; discriminate. }
  destruct p as [c | T | T b | c b | c b | c b | b]; cbn [project_call rel_set static sets_of whole] in *.
  - destruct (exact w c) eqn:E.
    + destruct (exact_eq w c D E) as (_ & Q). assert (L : ext_lt (Fin (down w c - 1)) (Fin (down w c + 1))) by xl.
      destruct (cut_ok s _ _ SS L) as (s' & -> & A & B & C & _ & P). exists s'. do 4 (split; auto). split; [|auto].
      intros x v R. rewrite B. unfold strictly_between, related_by in *.
      assert (EQ : (ext_lt (Fin (down w c - 1)) (Fin x) /\ ext_lt (Fin x) (Fin (down w c + 1))) <-> v = c).
      { rewrite !lt_hl. cbn [hi lo]. split; intros K; [assert (x = down w c) by lia; subst x; nia|subst v; assert (x = down w c) by nia; lia]. }
      rewrite EQ. tauto.
    + exists s. do 4 (split; auto using refines_refl). split; [|auto]. intros x v R. split; [|tauto]. intros M. split; auto. intros ->.
      apply (inexact w c x D E). exact R.
  - inversion GS as [|? ? G1 _]; subst. destruct (convert_ok w T G G1) as (A & B & _).
    destruct (intersect_ok s (convert w T)) as (s' & -> & A' & P' & R' & M'); auto. exists s'. do 4 (split; auto). split; [|auto].
    intros x v R. rewrite M'. rewrite (convert_member w T x v G G1 R). tauto.
  - inversion GS as [|? ? G1 _]; subst. destruct (convert_ok w T G G1) as (A & B & _).
    destruct (cut_deltas_ok 1 (convert w T) s) as (s' & -> & A' & P' & R' & M' & C'); auto; [lia|]. exists s'. do 4 (split; auto). split.
    + intros x v R. rewrite M'. pose proof (no_cut_points (convert w T) x). tauto.
    + intros _. apply Forall_forall. intros u I y Iy. apply C'; auto.
  - destruct (num w <? 0); [destruct (GE c) as (s' & -> & A & P & R & M & C)|destruct (LE c) as (s' & -> & A & P & R & M & C)]; exists s'; do 4 (split; auto); (split; [intros x v _; rewrite M; tauto|auto]).
  - destruct (num w <? 0); [destruct (LE c) as (s' & -> & A & P & R & M & C)|destruct (GE c) as (s' & -> & A & P & R & M & C)]; exists s'; do 4 (split; auto); (split; [intros x v _; rewrite M; tauto|auto]).
  - destruct (exact w c) eqn:E.
    + destruct (exact_eq w c D E) as (EU & _). destruct (cut1_ok s (Iv (Fin (down w c)) (Fin (down w c)))) as (s' & E1 & A & P & R & M & C); cbn [lf rt]; auto; [cbn; lia|discriminate|discriminate|].
      cbn [lf rt] in E1. rewrite E1. exists s'. do 4 (split; auto). split; [intros x v _; rewrite M; tauto|]. intros _. rewrite EU. auto.
    + exists s. do 4 (split; auto using refines_refl). split; [intros x v _; tauto|discriminate].
  - exists s. do 4 (split; auto using refines_refl). split; [intros x v _; tauto|auto].
Qed.
Definition cleans (s : soi) (w : view) (ps : list post) : Prop := Forall (fun p => Forall (clean s) (rel_set w p)) ps.
Lemma cleans_refines : forall s s' w ps, cleans s w ps -> refines s' s -> cleans s' w ps.
Proof. intros s s' w ps C R. eapply Forall_impl; [|exact C]. intros p H. eapply Forall_impl; [|exact H]. intros u K. eapply clean_refines; eauto. Qed.
Lemma project_calls_ok : forall w ps s, good_view w -> Forall (fun p => Forall good_set (sets_of p)) ps -> separate s -> proper s ->
  exists s', project_calls w s ps = Done s' /\ separate s' /\ proper s' /\ refines s' s /\
  (forall x v, related_by w x v -> (member x s' <-> member x s /\ Forall (fun p => static p v) ps)) /\
  (Forall (whole w) ps -> cleans s' w ps).
Proof.
  intros w ps. induction ps as [|p ps IH]; intros s G GS SS PS.
  { exists s. do 4 (split; auto using refines_refl). split; [|intros; constructor]. intros x v _. split; [auto|tauto]. }
  inversion GS as [|? ? G1 G2]; subst. cbn [project_calls]. destruct (project_call_ok w s p G G1 SS PS) as (s1 & -> & A & P & R & M & C). cbn [obind].
  destruct (IH s1 G G2 A P) as (s' & -> & A' & P' & R' & M' & C'). exists s'. do 3 (split; auto). split; [eapply refines_trans; eauto|]. split.
  - intros x v Q. rewrite (M' x v Q), (M x v Q). split; [intros ((K1 & K2) & K3); auto|]. intros (K & F). inversion F; subst. tauto.
  - intros F. inversion F; subst. constructor; [|now apply C']. eapply Forall_impl; [|now apply C]. intros u K. eapply clean_refines; eauto.
Qed.
Definition statics (m : mvard) (v : Z) : Prop := (forall D, mv_dom m = Some D -> member v D) /\ Forall (fun p => static p v) (mv_posts m).
Lemma project_var_ok : forall m s, good_var m -> separate s -> proper s ->
  exists s', project_var s m = Done s' /\ separate s' /\ proper s' /\ refines s' s /\
  (forall x v, related_by (mv_view m) x v -> (member x s' <-> member x s /\ statics m v)) /\
  (Forall (whole (mv_view m)) (mv_posts m) -> cleans s' (mv_view m) (mv_posts m)).
Proof.
  intros m s (G & GD & GP) SS PS. unfold project_var, statics.
  assert (C : exists s1, (match mv_dom m with Some D => intersect s (convert (mv_view m) D) | None => Done s end) = Done s1 /\ separate s1 /\ proper s1 /\
    refines s1 s /\ (forall x v, related_by (mv_view m) x v -> (member x s1 <-> member x s /\ (forall D, mv_dom m = Some D -> member v D)))).
  { destruct (mv_dom m) as [D|] eqn:ED.
    - specialize (GD D eq_refl). destruct (convert_ok _ D G GD) as (A & B & _). destruct (intersect_ok s (convert (mv_view m) D)) as (s' & -> & A' & P' & R' & M'); auto.
      exists s'. do 4 (split; auto). intros x v R. rewrite M', (convert_member _ D x v G GD R). split; [intros [K1 K2]; split; auto; intros D' Q; now injection Q as <-|].
      intros [K1 K2]. split; auto.
    - exists s. do 4 (split; auto using refines_refl). intros x v R. split; [intros K; split; auto; discriminate|tauto]. }
  destruct C as (s1 & EC & A & P & R & M). unfold soi in *. rewrite EC. cbn [obind]. destruct (project_calls_ok (mv_view m) (mv_posts m) s1 G GP A P) as (s' & -> & A' & P' & R' & M' & C').
  exists s'. do 3 (split; auto). split; [eapply refines_trans; eauto|]. split; auto. intros x v Q. rewrite (M' x v Q), (M x v Q). tauto.
Qed.
Definition all_clean (s : soi) (vs : list mvard) : Prop := Forall (fun m => cleans s (mv_view m) (mv_posts m)) vs.
Theorem project_all_ok : forall vs s, Forall good_var vs -> separate s -> proper s ->
  exists s', project_all s vs = Done s' /\ separate s' /\ proper s' /\ refines s' s /\
  (forall x vals, linked vs x vals -> (member x s' <-> member x s /\ Forall2 statics vs vals)) /\
  (Forall (fun m => Forall (whole (mv_view m)) (mv_posts m)) vs -> all_clean s' vs).
Proof.
  induction vs as [|m vs IH]; intros s G SS PS.
  { exists s. do 4 (split; auto using refines_refl). split; [|intros; constructor]. intros x vals L. inversion L; subst. split; [auto|tauto]. }
  inversion G as [|? ? G1 G2]; subst. cbn [project_all]. destruct (project_var_ok m s G1 SS PS) as (s1 & -> & A & P & R & M & C). cbn [obind].
  destruct (IH s1 G2 A P) as (s' & -> & A' & P' & R' & M' & C'). exists s'. do 3 (split; auto). split; [eapply refines_trans; eauto|]. split.
  - intros x vals L. inversion L as [|? v ? vl L1 L2]; subst. rewrite (M' x vl L2), (M x v L1). split; [intros ((K1 & K2) & K3); auto|]. intros (K & F). inversion F; subst. tauto.
  - intros F. inversion F; subst. constructor; [|now apply C']. eapply cleans_refines; eauto.
Qed.
