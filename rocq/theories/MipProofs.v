(** Proofs for C83: operations on sets of intervals. *)
Require Import ZArith List Bool Lia.
From Verif Require Import Base IntValSpec MipModel MipSpec.
Import ListNotations.
Open Scope Z_scope.

(** * The order on integers with infinities, in terms of two integers *)
Definition hi (a : ext) : Z := match a with MInf => -1 | Fin _ => 0 | PInf => 1 end.
Definition lo (a : ext) : Z := match a with Fin z => z | _ => 0 end.
Lemma le_hl : forall a b, ext_le a b <-> hi a < hi b \/ hi a = hi b /\ lo a <= lo b.
Proof. destruct a, b; cbn; intuition lia. Qed.
Lemma lt_hl : forall a b, ext_lt a b <-> hi a < hi b \/ hi a = hi b /\ lo a < lo b.
Proof. intros. unfold ext_lt. rewrite !le_hl. lia. Qed.
Lemma eq_hl : forall a b, a = b <-> hi a = hi b /\ lo a = lo b.
Proof. intros a b. split; [now intros ->|]. destruct a, b; cbn; intros [H K]; try discriminate; auto. now subst. Qed.
Lemma last_case : forall (s : soi), s = [] \/ exists p x, s = p ++ [x].
Proof. intros s. destruct (rev s) as [|x p] eqn:E; [left|right; exists (rev p), x]; apply (f_equal (@rev _)) in E; rewrite rev_involutive in E; auto. Qed.
Lemma hi_range : forall a, -1 <= hi a <= 1.
Proof. destruct a; cbn; lia. Qed.
Lemma xle_iff : forall a b, xle a b = true <-> ext_le a b.
Proof. destruct a, b; cbn; try tauto; try (split; intros; easy). apply Z.leb_le. Qed.
Lemma xlt_iff : forall a b, xlt a b = true <-> ext_lt a b.
Proof. intros. unfold xlt. rewrite negb_true_iff, <- not_true_iff_false, xle_iff, le_hl, lt_hl. lia. Qed.
Lemma xle_false : forall a b, xle a b = false <-> ext_lt b a.
Proof. intros. rewrite <- not_true_iff_false, xle_iff, le_hl, lt_hl. lia. Qed.
Lemma xlt_false : forall a b, xlt a b = false <-> ext_le b a.
Proof. intros. rewrite <- not_true_iff_false, xlt_iff, le_hl, lt_hl. lia. Qed.
Ltac xl := rewrite ?lt_hl, ?le_hl in *; cbn [hi lo lf rt] in *; lia.

(** * Positions *)
Lemma prefix_app : forall p A B, (forall v, In v A -> p v = true) -> match B with [] => True | w :: _ => p w = false end ->
  prefix p (A ++ B) = length A.
Proof.
  induction A as [|a A IH]; intros B HA HB; cbn [app prefix length].
  - destruct B; cbn; [auto|now rewrite HB].
  - rewrite HA by now left. f_equal. apply IH; auto. intros; apply HA; now right.
Qed.
Lemma prefix_cut : forall p s, exists A B, s = A ++ B /\ prefix p s = length A /\ (forall v, In v A -> p v = true) /\
  match B with [] => True | w :: _ => p w = false end.
Proof.
  intros p. induction s as [|v s (A & B & E & EP & HA & HB)]; [exists [], []; now cbn|]. cbn [prefix]. destruct (p v) eqn:Q.
  - exists (v :: A), B. subst s. split; [auto|]. split; [cbn; lia|]. split; auto. intros w [<- | I]; auto.
  - exists [], (v :: s). cbn. auto.
Qed.
Lemma firstn_len : forall (A B : soi), firstn (length A) (A ++ B) = A.
Proof. intros. rewrite firstn_app, Nat.sub_diag, firstn_all. cbn. apply app_nil_r. Qed.
Lemma skipn_len : forall (A B : soi), skipn (length A) (A ++ B) = B.
Proof. intros. rewrite skipn_app, Nat.sub_diag, skipn_all. now cbn. Qed.
Lemma nth_len : forall (A B : soi) v, nth (length A) (A ++ v :: B) dflt = v.
Proof. intros. rewrite app_nth2, Nat.sub_diag by lia. now cbn. Qed.
Lemma erase_len : forall (A B : soi) v, erase (A ++ v :: B) (length A) = A ++ B.
Proof.
  intros. unfold erase. rewrite firstn_len. f_equal. change (A ++ v :: B) with (A ++ [v] ++ B). rewrite app_assoc.
  replace (S (length A)) with (length (A ++ [v])) by (rewrite app_length; cbn; lia). apply skipn_len.
Qed.
Lemma insert_len : forall (A B : soi) v, ext_le (lf v) (rt v) -> (forall w, In w A -> ext_le (lf w) (lf v)) ->
  (match B with [] => True | w :: _ => ext_lt (lf v) (lf w) end) -> insert (A ++ B) v = (A ++ v :: B, length A).
Proof.
  intros A B v NE HA HB. unfold insert. replace (xlt (rt v) (lf v)) with false by (symmetry; now apply xlt_false).
  assert (P : upper_bound (A ++ B) (lf v) = length A).
  { unfold upper_bound. apply prefix_app; [intros w I; apply xle_iff; auto|]. destruct B; auto. now apply xle_false. }
  cbv zeta. now rewrite P, firstn_len, skipn_len.
Qed.
Lemma erase_range_len : forall (A B C : soi), erase_range (A ++ B ++ C) (length A) (length (A ++ B)) = Done (A ++ C).
Proof.
  intros. unfold erase_range. replace (_ <? _)%nat with false by (symmetry; apply Nat.ltb_ge; rewrite app_length; lia).
  rewrite firstn_len. f_equal. f_equal. rewrite app_assoc. apply skipn_len.
Qed.

(** * Separate intervals *)
Lemma sep_app : forall A B, separate (A ++ B) <-> separate A /\ separate B /\ (forall a b, In a A -> In b B -> ext_lt (rt a) (lf b)).
Proof.
  induction A as [|a A IH]; intros B; cbn [app separate]; [firstorder|]. rewrite IH. split.
  - intros (N & H & SA & SB & X). split; [split; [auto|split; auto]; intros; apply H, in_or_app; auto|]. split; auto.
    intros c b [<- | I] Ib; auto. apply H, in_or_app; auto.
  - intros ((N & H & SA) & SB & X). split; auto. split.
    { intros w I. apply in_app_or in I. destruct I; [auto|]. apply X; auto. now left. }
    split; auto. split; auto. intros; apply X; auto. now right.
Qed.
Lemma sep_nonempty : forall s v, separate s -> In v s -> ext_le (lf v) (rt v).
Proof. induction s as [|w s IH]; cbn; [tauto|]. intros v (N & _ & S) [<- | I]; auto. Qed.
Lemma member_app : forall z A B, member z (A ++ B) <-> member z A \/ member z B.
Proof. unfold member. intros. split. { intros (v & I & W). apply in_app_or in I. destruct I; eauto. } intros [(v & I & W) | (v & I & W)]; exists v; split; auto; apply in_or_app; auto. Qed.
Lemma member_cons : forall z v B, member z (v :: B) <-> within z v \/ member z B.
Proof. unfold member. intros. split. { intros (w & [<- | I] & W); eauto. } intros [W | (w & I & W)]; [exists v; split; auto; now left|exists w; split; auto; now right]. Qed.
Lemma member_nil : forall z, ~ member z [].
Proof. intros z (v & [] & _). Qed.
Lemma refines_refl : forall s, refines s s.
Proof. intros s v I. exists v. repeat split; auto; xl. Qed.
Lemma refines_trans : forall a b c, refines a b -> refines b c -> refines a c.
Proof. intros a b c H K v I. destruct (H v I) as (w & I1 & A1 & A2). destruct (K w I1) as (u & I2 & B1 & B2). exists u. repeat split; auto; xl. Qed.
Lemma refines_in : forall a b, incl a b -> refines a b.
Proof. intros a b H v I. exists v. repeat split; auto; xl. Qed.

(** * The left end of a cut *)
Definition stage1 (s : soi) (l : ext) : soi * nat :=
  let k1 := match l with MInf => lower_bound s l | _ => upper_bound s l end in
  match k1 with
  | O => (s, k1)
  | S k =>
      let it := nth k s dflt in
      if xlt l (rt it) then let '(s', _) := insert (erase s k) (Iv (lf it) l) in insert s' (Iv l (rt it)) else (s, k1)
  end.
Lemma stage1_ok : forall s l, separate s -> exists L R, stage1 s l = (L ++ R, length L) /\ separate L /\ separate R /\
  (forall v, In v L -> ext_le (lf v) l /\ ext_le (rt v) l) /\ (forall v, In v R -> ext_le l (lf v)) /\
  (forall z, member z L <-> member z s /\ ext_le (Fin z) l) /\
  (forall z, ext_lt l (Fin z) -> (member z R <-> member z s)) /\
  refines (L ++ R) s /\ (proper s -> proper (L ++ R)).
Proof.
  intros s l SS. unfold stage1.
  destruct (match l with MInf => true | _ => false end) eqn:EL.
  - (* everything is on the right *)
    destruct l; try discriminate. unfold lower_bound. destruct (prefix_cut (fun v => xlt (lf v) MInf) s) as (A & B & E & EP & HA & HB).
    destruct A as [|a A].
    + rewrite EP. cbn [length]. exists [], s. split; [reflexivity|]. split; [cbn; auto|]. split; [auto|]. split; [cbn; tauto|].
      split; [intros; cbn; auto|]. split; [|split; [tauto|split; [apply refines_refl|auto]]]. intros z. split; [intros M; now apply member_nil in M|]. cbn. tauto.
    + specialize (HA a (or_introl eq_refl)). rewrite xlt_iff in HA. exfalso. unfold ext_lt in HA. destruct (lf a); cbn in HA; tauto.
  - assert (EK : (match l with MInf => lower_bound s l | _ => upper_bound s l end) = upper_bound s l) by (destruct l; [discriminate|reflexivity|reflexivity]).
    rewrite EK. clear EK. unfold upper_bound. destruct (prefix_cut (fun v => xle (lf v) l) s) as (P & Q & E & EP & HP & HQ). cbv zeta. rewrite EP.
    assert (HP' : forall v, In v P -> ext_le (lf v) l) by (intros v I; apply xle_iff; auto). clear HP.
    assert (HQ' : forall v, In v Q -> ext_lt l (lf v)).
    { destruct Q as [|q Q]; [cbn; tauto|]. apply xle_false in HQ. intros v [<- | I]; auto.
      subst s. apply sep_app in SS. destruct SS as (_ & SQ & _). cbn [separate] in SQ. destruct SQ as (N & H & _). specialize (H v I). xl. }
    clear HQ. destruct (last_case P) as [-> | (P0 & a & ->)].
    + cbn [length app] in *. subst s. exists [], Q. split; [reflexivity|]. split; [cbn; auto|]. split; [auto|]. split; [cbn; tauto|].
      split; [intros v I; specialize (HQ' v I); xl|]. split; [|split; [tauto|split; [apply refines_refl|auto]]].
      intros z. split; [intros M; now apply member_nil in M|]. intros ((v & I & W1 & W2) & K). specialize (HQ' v I). exfalso. xl.
    + subst s. rewrite app_length, Nat.add_1_r. rewrite <- app_assoc. cbn [app]. rewrite nth_len.
      pose proof SS as SA. rewrite <- app_assoc in SA. cbn [app] in SA. apply sep_app in SA. destruct SA as (SP0 & (Na & Ha & SQ) & X0).
      assert (La : ext_le (lf a) l) by (apply HP', in_or_app; right; now left).
      assert (X1 : forall v, In v P0 -> ext_lt (rt v) (lf a)) by (intros; apply X0; auto; now left).
      assert (N0 : forall v, In v P0 -> ext_le (lf v) (rt v)) by (intros v I; exact (sep_nonempty P0 v SP0 I)).
      destruct (xlt l (rt a)) eqn:EX.
      * apply xlt_iff in EX. rewrite erase_len. rewrite insert_len; [|cbn [lf rt]; auto|intros w I; specialize (X1 w I); specialize (N0 w I); xl|].
        2: { destruct Q as [|q Q]; auto. specialize (HQ' q (or_introl eq_refl)). xl. }
        change (P0 ++ Iv (lf a) l :: Q) with (P0 ++ [Iv (lf a) l] ++ Q). rewrite app_assoc.
        rewrite insert_len.
        2: { cbn [lf rt]. xl. }
        2: { intros w I. apply in_app_or in I. destruct I as [I | [<- | []]]; cbn [lf rt]; [specialize (X1 w I); specialize (N0 w I); xl|auto]. }
        2: { destruct Q as [|q Q]; auto. specialize (HQ' q (or_introl eq_refl)). xl. }
        exists (P0 ++ [Iv (lf a) l]), (Iv l (rt a) :: Q). split; [reflexivity|].
        split. { apply sep_app. split; auto. split; [cbn; repeat split; auto; tauto|]. intros u v I [<- | []]. cbn. auto. }
        split. { cbn [separate lf rt]. split; [xl|]. split; auto. }
        split. { intros v I. apply in_app_or in I. destruct I as [I | [<- | []]]; cbn [lf rt]; [|split; [auto|xl]]. specialize (X1 v I). specialize (N0 v I). split; xl. }
        split. { intros v [<- | I]; cbn [lf]; [xl|]. specialize (HQ' v I). xl. }
        split. { intros z. rewrite !member_app, !member_cons. split.
          - intros [M | [[W1 W2] | M]]; [| |now apply member_nil in M].
            + split; [tauto|]. destruct M as (v & I & W1 & W2). specialize (X1 v I). xl.
            + cbn [lf rt] in W1, W2. split; [|auto]. right. left. split; xl.
          - intros ([M | [[W1 W2] | M]] & K); [auto| |].
            + right. left. split; cbn; auto.
            + exfalso. destruct M as (v & I & W1 & W2). specialize (HQ' v I). xl. }
        split. { intros z K. rewrite member_cons, member_app, member_cons. unfold within. cbn [lf rt]. split.
          - intros [[W1 W2] | M]; auto. right. left. split; auto. xl.
          - intros [M | [[W1 W2] | M]]; auto; [|left; split; auto; xl].
            exfalso. destruct M as (v & I & W1 & W2). specialize (X1 v I). xl. }
        split.
        2: { intros PR v I. assert (PA : lf a <> PInf /\ rt a <> MInf) by (apply PR, in_or_app; right; now left).
          apply in_app_or in I. destruct I as [I | [<- | I]]; [|cbn [lf rt]; split; [|tauto]; destruct l; try discriminate; unfold ext_lt in EX; cbn in EX; destruct (rt a); tauto|apply PR, in_or_app; right; now right].
          apply in_app_or in I. destruct I as [I | [<- | []]]; [apply PR, in_or_app; auto|]. cbn [lf rt]. split; [tauto|]. destruct l; discriminate. }
        intros v I. apply in_app_or in I. destruct I as [I | [<- | I]].
        { apply in_app_or in I. destruct I as [I | [<- | []]].
          - exists v. split; [apply in_or_app; auto|]. split; xl.
          - exists a. split; [apply in_or_app; right; now left|]. cbn [lf rt]. split; xl. }
        { exists a. split; [apply in_or_app; right; now left|]. cbn [lf rt]. split; xl. }
        exists v. split; [apply in_or_app; right; now right|]. split; xl.
      * apply xlt_false in EX. exists (P0 ++ [a]), Q. replace (P0 ++ a :: Q) with ((P0 ++ [a]) ++ Q) by (rewrite <- app_assoc; reflexivity).
        split; [f_equal; rewrite app_length; cbn; lia|].
        apply sep_app in SS. destruct SS as (SP & SQ' & X). split; auto. split; auto.
        assert (RL : forall v, In v (P0 ++ [a]) -> ext_le (rt v) l).
        { intros v I. apply in_app_or in I. destruct I as [I | [<- | []]]; auto. specialize (X1 v I). xl. }
        split; [intros v I; auto|]. split; [intros v I; specialize (HQ' v I); xl|].
        split. { intros z. rewrite (member_app z (P0 ++ [a]) Q). split.
          - intros M. split; [auto|]. destruct M as (v & I & W1 & W2). specialize (RL v I). xl.
          - intros ([M | M] & K); auto. exfalso. destruct M as (v & I & W1 & W2). specialize (HQ' v I). xl. }
        split. { intros z K. rewrite (member_app z (P0 ++ [a]) Q). split; [auto|]. intros [M | M]; auto. exfalso. destruct M as (v & I & W1 & W2). specialize (RL v I). xl. }
        split; [apply refines_refl|auto].
Qed.

Theorem cut_ok : forall s l r, separate s -> ext_lt l r -> exists s', cut_out s l r = Done s' /\ separate s' /\
  (forall z, member z s' <-> member z s /\ ~ strictly_between l r z) /\ refines s' s /\
  (forall v, In v s' -> ext_le (rt v) l \/ ext_le r (lf v)) /\ (proper s -> proper s').
Proof.
  intros s l r SS LR. destruct s as [|s0 st] eqn:Es.
  { exists []. cbn [cut_out]. split; auto. split; [cbn; auto|]. split; [|split; [apply refines_refl|split; [cbn; tauto|auto]]].
    intros z. split; [intros M; now apply member_nil in M|tauto]. }
  assert (EC : cut_out s l r = let '(s1, d1) := stage1 s l in
      let k2 := lower_bound s1 r in
      match k2 with
      | O => erase_range s1 d1 k2
      | S k =>
          let it := nth k s1 dflt in
          if match r with PInf => xlt r (rt it) | _ => xle r (rt it) end
          then
            let '(s2, p) := insert (erase s1 k) (Iv r (rt it)) in
            let d := if (k <? d1)%nat then pred d1 else d1 in
            let d := if (p <=? d)%nat then S d else d in
            erase_range s2 (if (d1 =? k)%nat then p else d) p
          else erase_range s1 d1 k2
      end) by (rewrite Es; reflexivity).
  rewrite <- Es in *. rewrite EC. clear EC Es s0 st.
  destruct (stage1_ok s l SS) as (L & R & E1 & SL & SR & HL & HR & ML & MR & RF & PP). rewrite E1. cbv zeta. clear E1.
  assert (BT : forall z, ~ strictly_between l r z <-> ext_le (Fin z) l \/ ext_le r (Fin z)) by (intros; unfold strictly_between; xl).
  (* the intervals of R that start before r *)
  destruct (prefix_cut (fun v => xlt (lf v) r) R) as (R1 & R2 & ER & _ & H1 & H2).
  assert (H1' : forall v, In v R1 -> ext_lt (lf v) r) by (intros v I; apply xlt_iff; auto). clear H1.
  assert (H2' : forall v, In v R2 -> ext_le r (lf v)).
  { destruct R2 as [|q Q]; [cbn; tauto|]. apply xlt_false in H2. intros v [<- | I]; auto. subst R. apply sep_app in SR.
    destruct SR as (_ & (N & H & _) & _). specialize (H v I). xl. }
  assert (EK : lower_bound (L ++ R) r = length (L ++ R1)).
  { unfold lower_bound. rewrite ER, app_assoc. apply prefix_app.
    - intros v I. apply xlt_iff. apply in_app_or in I. destruct I as [I | I]; auto. destruct (HL v I). xl.
    - destruct R2; auto. }
  rewrite EK. subst R. clear EK H2.
  pose proof SR as SR'. apply sep_app in SR'. destruct SR' as (SR1 & SR2 & X12).
  (* what is left, given the middle part *)
  assert (FIN : forall X, separate (X ++ R2) -> (forall v, In v X -> lf v = r /\ r <> PInf /\ exists w, In w R1 /\ rt v = rt w /\ ext_le (lf w) (lf v)) ->
      (forall z, ext_le r (Fin z) -> (member z X <-> member z R1)) ->
      separate (L ++ X ++ R2) /\ (forall z, member z (L ++ X ++ R2) <-> member z s /\ ~ strictly_between l r z) /\
      refines (L ++ X ++ R2) s /\ (forall v, In v (L ++ X ++ R2) -> ext_le (rt v) l \/ ext_le r (lf v)) /\ (proper s -> proper (L ++ X ++ R2))).
  { intros X SX HX MX. assert (HXR : forall v, In v (X ++ R2) -> ext_le r (lf v)).
    { intros v I. apply in_app_or in I. destruct I as [I | I]; auto. destruct (HX v I) as [-> _]. xl. }
    split. { apply sep_app. split; auto. split; auto. intros a b Ia Ib. specialize (HXR b Ib). destruct (HL a Ia). xl. }
    split. { intros z. rewrite BT, member_app, ML. split.
      - intros [[M K] | M]; [tauto|]. assert (K : ext_le r (Fin z)) by (destruct M as (v & I & W1 & W2); specialize (HXR v I); xl).
        split; [|tauto]. apply MR; [xl|]. rewrite member_app in *. destruct M as [M | M]; auto. left. now apply MX.
      - intros (M & [K | K]); [tauto|]. right. apply MR in M; [|xl]. rewrite member_app in *. destruct M as [M | M]; auto. left. now apply MX. }
    split.
    { eapply refines_trans; [|exact RF]. intros v I. apply in_app_or in I. destruct I as [I | I]; [exists v; split; [apply in_or_app; auto|split; xl]|].
      apply in_app_or in I. destruct I as [I | I].
      - destruct (HX v I) as (_ & _ & w & Iw & E & K). exists w. split; [apply in_or_app; right; apply in_or_app; auto|]. rewrite E. split; [auto|xl].
      - exists v. split; [apply in_or_app; right; apply in_or_app; auto|split; xl]. }
    split. { intros v I. apply in_app_or in I. destruct I as [I | I]; [left; now destruct (HL v I)|right; auto]. }
    intros PR. specialize (PP PR). intros v I. apply in_app_or in I. destruct I as [I | I]; [apply PP, in_or_app; auto|].
    apply in_app_or in I. destruct I as [I | I]; [|apply PP, in_or_app; right; apply in_or_app; auto].
    destruct (HX v I) as (-> & NR & w & Iw & -> & _). split; auto. apply PP, in_or_app. right. apply in_or_app. auto. }
  (* no interval in the middle *)
  assert (NOX : (forall v, In v R1 -> ext_lt (rt v) r \/ r = PInf) -> exists s', erase_range (L ++ R1 ++ R2) (length L) (length (L ++ R1)) = Done s' /\
      separate s' /\ (forall z, member z s' <-> member z s /\ ~ strictly_between l r z) /\ refines s' s /\
      (forall v, In v s' -> ext_le (rt v) l \/ ext_le r (lf v)) /\ (proper s -> proper s')).
  { intros H. rewrite erase_range_len. exists (L ++ R2). split; auto. apply (FIN []); cbn; auto; [tauto|].
    intros z K. split; [intros M; now apply member_nil in M|]. intros (v & I & W1 & W2). exfalso. destruct (H v I) as [Q | ->]; xl. }
  destruct (last_case (L ++ R1)) as [E0 | (P & a & EP)].
  { rewrite E0. cbn [length]. apply app_eq_nil in E0. destruct E0 as [-> ->]. apply NOX. cbn. tauto. }
  destruct (last_case R1) as [-> | (R0 & a' & ->)].
  - (* nothing to delete; a is the last of L *)
    rewrite app_nil_r in *. assert (EL : length L = S (length P)) by (rewrite EP, app_length; cbn; lia). rewrite EL. cbn [app].
    assert (NT : nth (length P) (L ++ R2) dflt = a) by (rewrite EP, <- app_assoc; cbn [app]; apply nth_len). rewrite NT.
    assert (Ia : In a L) by (rewrite EP; apply in_or_app; right; now left). destruct (HL a Ia) as [A1 A2].
    replace (match r with PInf => xlt r (rt a) | _ => xle r (rt a) end) with false.
    2: { symmetry. pose proof (hi_range (rt a)). destruct r; [apply xle_false|apply xle_false|apply xlt_false]; xl. }
    rewrite <- EL. apply NOX. cbn. tauto.
  - rewrite app_assoc in EP. apply app_inj_tail in EP. destruct EP as [<- <-].
    assert (EQ : length (L ++ R0 ++ [a']) = S (length (L ++ R0))) by (rewrite !app_length; cbn; lia). rewrite EQ.
    assert (NT : nth (length (L ++ R0)) (L ++ (R0 ++ [a']) ++ R2) dflt = a') by (rewrite <- app_assoc, app_assoc; cbn [app]; apply nth_len). rewrite NT.
    assert (Ia : In a' (R0 ++ [a'])) by (apply in_or_app; right; now left).
    assert (RR : forall v, In v R0 -> ext_lt (rt v) (lf a')) by (apply sep_app in SR1; destruct SR1 as (_ & _ & X); intros; apply X; auto; now left).
    pose proof (H1' a' Ia) as La.
    destruct (match r with PInf => xlt r (rt a') | _ => xle r (rt a') end) eqn:ET.
    + assert (RA : ext_le r (rt a')) by (destruct r; [now apply xle_iff|now apply xle_iff|apply xlt_iff in ET; xl]).
      assert (EE : erase (L ++ (R0 ++ [a']) ++ R2) (length (L ++ R0)) = (L ++ R0) ++ R2) by (rewrite <- app_assoc, app_assoc; cbn [app]; apply erase_len).
      rewrite EE. rewrite insert_len.
      2: { cbn. auto. }
      2: { intros w I. cbn [lf rt]. apply in_app_or in I. destruct I as [I | I]; [destruct (HL w I); xl|]. assert (ext_lt (lf w) r) by (apply H1', in_or_app; auto). xl. }
      2: { destruct R2 as [|q Q]; auto. cbn [lf rt]. assert (ext_lt (rt a') (lf q)) by (apply X12; auto; now left). xl. }
      assert (EX : exists s', erase_range ((L ++ R0) ++ Iv r (rt a') :: R2) (length L) (length (L ++ R0)) = Done s' /\
         separate s' /\ (forall z, member z s' <-> member z s /\ ~ strictly_between l r z) /\ refines s' s /\
         (forall v, In v s' -> ext_le (rt v) l \/ ext_le r (lf v)) /\ (proper s -> proper s')).
      { rewrite <- app_assoc. rewrite erase_range_len. exists (L ++ [Iv r (rt a')] ++ R2). split; auto. apply FIN.
        - cbn [app separate lf rt]. split; auto.
        - intros v [<- | []]. cbn [lf rt]. split; auto. split; [intros ->; apply xlt_iff in ET; unfold ext_lt in ET; destruct (rt a'); cbn in ET; tauto|]. exists a'. split; auto. split; auto. xl.
        - intros z K. rewrite member_cons, member_app, member_cons. unfold within. cbn [lf rt]. split.
          + intros [[W1 W2] | M]; [|now apply member_nil in M]. right. left. split; auto. xl.
          + intros [(v & I & W1 & W2) | [[W1 W2] | M]]; [|left; auto|now apply member_nil in M]. exfalso. specialize (RR v I). xl. }
      destruct R0 as [|c R0].
      * rewrite app_nil_r in *. rewrite Nat.eqb_refl. exact EX.
      * replace (length L =? length (L ++ c :: R0))%nat with false by (symmetry; apply Nat.eqb_neq; rewrite app_length; cbn; lia).
        replace (length (L ++ c :: R0) <? length L)%nat with false by (symmetry; apply Nat.ltb_ge; rewrite app_length; cbn; lia).
        replace (length (L ++ c :: R0) <=? length L)%nat with false by (symmetry; apply Nat.leb_gt; rewrite app_length; cbn; lia).
        exact EX.
    + rewrite <- EQ. apply NOX. intros v I. destruct r; [left|left|now right].
      { apply xle_false in ET. apply in_app_or in I. destruct I as [I | [<- | []]]; auto. specialize (RR v I). assert (ext_le (lf a') (rt a')) by (eapply sep_nonempty; [exact SR1|exact Ia]). xl. }
      { apply xle_false in ET. apply in_app_or in I. destruct I as [I | [<- | []]]; auto. specialize (RR v I). assert (ext_le (lf a') (rt a')) by (eapply sep_nonempty; [exact SR1|exact Ia]). xl. }
Qed.

(** * Intersection *)
Lemma cut_minf : forall s, cut_out s MInf MInf = Done s.
Proof.
  intros s. destruct s as [|v s]; [reflexivity|]. unfold cut_out, lower_bound. cbn [prefix].
  replace (xlt (lf v) MInf) with false by reflexivity. cbn iota. cbn [prefix]. replace (xlt (lf v) MInf) with false by reflexivity. reflexivity.
Qed.
Lemma prefix_all : forall p s, (forall v, In v s -> p v = true) -> prefix p s = length s.
Proof. intros. rewrite <- (app_nil_r s) at 1. apply prefix_app; auto. Qed.
Lemma cut_pinf : forall s, proper s -> cut_out s PInf PInf = Done s.
Proof.
  intros s PR. destruct (last_case s) as [-> | (p & x & E)]; [reflexivity|].
  assert (EL : length s = S (length p)) by (rewrite E, app_length; cbn; lia).
  assert (NT : nth (length p) s dflt = x) by (rewrite E; apply nth_len).
  assert (K1 : upper_bound s PInf = S (length p)).
  { rewrite <- EL. apply prefix_all. intros v _. destruct (lf v); reflexivity. }
  assert (K2 : lower_bound s PInf = S (length p)).
  { rewrite <- EL. apply prefix_all. intros v I. apply xlt_iff. destruct (PR v I) as [N _]. unfold ext_lt. destruct (lf v); cbn; tauto. }
  assert (X : xlt PInf (rt x) = false) by (unfold xlt; now destruct (rt x)).
  unfold cut_out. destruct s as [|v s]; [discriminate|]. rewrite K1, NT, X. cbv zeta. rewrite K2, NT, X.
  unfold erase_range. rewrite Nat.ltb_irrefl. rewrite <- EL, firstn_all, skipn_all, app_nil_r. reflexivity.
Qed.

Lemma intersect_loop_ok : forall s2 s v, separate (v :: s2) -> proper (v :: s2) -> separate s -> proper s ->
  exists s', intersect_loop s (v :: s2) = Done s' /\ separate s' /\ proper s' /\ refines s' s /\
  forall z, member z s' <-> member z s /\ (ext_lt (rt v) (Fin z) -> member z s2).
Proof.
  induction s2 as [|w s2 IH]; intros s v S2 P2 SS PS.
  - cbn [intersect_loop].
    assert (C : exists s', cut_out s (rt v) PInf = Done s' /\ separate s' /\ proper s' /\ refines s' s /\
       forall z, member z s' <-> member z s /\ (ext_lt (rt v) (Fin z) -> member z [])).
    { destruct (xlt (rt v) PInf) eqn:X.
      - apply xlt_iff in X. destruct (cut_ok s _ _ SS X) as (s' & E & A & B & C & _ & D). exists s'. do 4 (split; auto). intros z. split.
        + intros H. apply B in H. destruct H as [H H']. split; auto. intros Q. exfalso. apply H'. split; auto. split; cbn; auto.
        + intros (M & Q). apply B. split; auto. intros [Q1 _]. apply (member_nil z). auto.
      - assert (EQ : rt v = PInf) by (unfold xlt in X; destruct (rt v); cbn in X; congruence). rewrite EQ. exists s. rewrite cut_pinf by auto.
        do 4 (split; auto using refines_refl). intros z. split; [|tauto]. intros M. split; auto. intros [_ Q]. cbn in Q. tauto. }
    destruct C as (s' & -> & H). exists s'. split; auto.
  - change (intersect_loop s (v :: w :: s2)) with (obind (cut_out s (rt v) (lf w)) (fun s' => intersect_loop s' (w :: s2))).
    destruct S2 as (Nv & Hv & S2'). assert (LT : ext_lt (rt v) (lf w)) by (apply Hv; now left).
    destruct (cut_ok s _ _ SS LT) as (s1 & -> & A & B & C & _ & D). cbn [obind].
    destruct (IH s1 w S2' (fun u I => P2 u (or_intror I)) A (D PS)) as (s' & -> & A' & P' & R' & M'). exists s'.
    split; auto. split; auto. split; auto. split; [eapply refines_trans; eauto|].
    intros z. rewrite M', B, member_cons. unfold strictly_between, within. split.
    + intros ((M & Q) & K). split; auto. intros L. destruct (xlt (Fin z) (lf w)) eqn:X.
      * apply xlt_iff in X. tauto.
      * apply xlt_false in X. destruct (xlt (rt w) (Fin z)) eqn:Y; [apply xlt_iff in Y; auto|apply xlt_false in Y; auto].
    + intros (M & K). repeat split; auto.
      * intros [Q1 Q2]. destruct (K Q1) as [[W _] | (u & I & W & _)]; [xl|]. assert (ext_lt (rt w) (lf u)) by (destruct S2' as (_ & H & _); auto). assert (ext_le (lf w) (rt w)) by apply S2'. xl.
      * intros Q. assert (L : ext_lt (rt v) (Fin z)) by (assert (ext_le (lf w) (rt w)) by apply S2'; xl). destruct (K L) as [[_ W] | M2]; auto. xl.
Qed.
Theorem intersect_ok : forall s s2, separate s -> proper s -> separate s2 -> proper s2 ->
  exists s', intersect s s2 = Done s' /\ separate s' /\ proper s' /\ refines s' s /\ forall z, member z s' <-> member z s /\ member z s2.
Proof.
  intros s s2 SS PS S2 P2. unfold intersect. destruct s2 as [|v t].
  { exists []. split; auto. split; [cbn; auto|]. split; [intros v []|]. split; [intros v []|]. intros z. split; [intros M; now apply member_nil in M|intros [_ M]; auto]. }
  assert (C : exists s1, cut_out s MInf (lf v) = Done s1 /\ separate s1 /\ proper s1 /\ refines s1 s /\
       forall z, member z s1 <-> member z s /\ ext_le (lf v) (Fin z)).
  { destruct (xlt MInf (lf v)) eqn:X.
    - apply xlt_iff in X. destruct (cut_ok s _ _ SS X) as (s' & E & A & B & C & _ & D). exists s'. do 4 (split; auto). intros z. split.
      + intros H. apply B in H. destruct H as [H H']. split; auto. destruct (xle (lf v) (Fin z)) eqn:Y; [now apply xle_iff|]. apply xle_false in Y. exfalso. apply H'. split; auto. split; cbn; auto.
      + intros (M & Q). apply B. split; auto. unfold strictly_between. xl.
    - assert (EQ : lf v = MInf) by (unfold xlt in X; destruct (lf v); cbn in X; congruence). rewrite EQ. exists s. rewrite cut_minf.
      do 4 (split; auto using refines_refl). intros z. cbn [ext_le]. tauto. }
  destruct C as (s1 & -> & A & P & R & M). cbn [obind].
  destruct (intersect_loop_ok t s1 v S2 P2 A P) as (s' & -> & A' & P' & R' & M'). exists s'. split; auto. split; auto. split; auto.
  split; [eapply refines_trans; eauto|]. intros z. rewrite M', M, member_cons. unfold within. split.
  - intros ((K & L) & Q). split; auto. destruct (xlt (rt v) (Fin z)) eqn:Y; [apply xlt_iff in Y; auto|apply xlt_false in Y; auto].
  - intros (K & Q). repeat split; auto.
    + destruct Q as [[W _] | (u & I & W & _)]; auto. destruct S2 as (N & H & _). specialize (H u I). xl.
    + intros L. destruct Q as [[_ W] | Q]; auto. xl.
Qed.

(** * Cutting around the ends *)
Definition cut_points (s2 : list intv) (d : Z) (z : Z) : Prop :=
  exists v, In v s2 /\ (lf v <> MInf /\ strictly_between (xadd (lf v) (- d)) (lf v) z \/ rt v <> PInf /\ strictly_between (rt v) (xadd (rt v) d) z).
Theorem cut_deltas_ok : forall d s2 s, 0 < d -> proper s2 -> separate s -> proper s ->
  exists s', cut_deltas s s2 d = Done s' /\ separate s' /\ proper s' /\ refines s' s /\
  (forall z, member z s' <-> member z s /\ ~ cut_points s2 d z) /\
  (forall v w, In v s' -> In w s2 -> (lf w <> MInf -> ext_lt (rt v) (lf w) \/ ext_le (lf w) (lf v)) /\
                                     (rt w <> PInf -> ext_le (rt v) (rt w) \/ ext_lt (rt w) (lf v))).
Proof.
  intros d s2. induction s2 as [|v t IH]; intros s D P2 SS PS.
  { exists s. replace (cut_deltas s [] d) with (Done s) by (destruct s; reflexivity). split; auto. split; auto. split; auto. split; [apply refines_refl|].
    split; [|intros v w _ []]. intros z. split; [intros M; split; auto; now intros (v & [] & _)|tauto]. }
  destruct s as [|s0 st] eqn:Es.
  { exists []. split; [reflexivity|]. split; auto. split; auto. split; [apply refines_refl|]. split; [|intros x w []]. intros z. split; [intros M; now apply member_nil in M|tauto]. }
  assert (EC : cut_deltas s (v :: t) d = obind (if xlt MInf (lf v) then cut_out s (xadd (lf v) (- d)) (lf v) else Done s) (fun s' =>
      obind (if xlt (rt v) PInf then cut_out s' (rt v) (xadd (rt v) d) else Done s') (fun s'' => cut_deltas s'' t d))) by (rewrite Es; reflexivity).
  rewrite <- Es in *. rewrite EC. clear EC Es s0 st.
  destruct (P2 v (or_introl eq_refl)) as [N1 N2].
  assert (C1 : exists s1, (if xlt MInf (lf v) then cut_out s (xadd (lf v) (- d)) (lf v) else Done s) = Done s1 /\ separate s1 /\ proper s1 /\
     refines s1 s /\ (forall z, member z s1 <-> member z s /\ ~ (lf v <> MInf /\ strictly_between (xadd (lf v) (- d)) (lf v) z)) /\
     (lf v <> MInf -> forall u, In u s1 -> ext_lt (rt u) (lf v) \/ ext_le (lf v) (lf u))).
  { destruct (lf v) as [|c|] eqn:EL; [| |tauto].
    - exists s. do 4 (split; auto using refines_refl). split; [|tauto]. intros z. split; [|tauto]. intros M. split; auto. tauto.
    - cbn [xlt xle negb xadd]. assert (LT : ext_lt (Fin (c + - d)) (Fin c)) by xl. destruct (cut_ok s _ _ SS LT) as (s1 & E & A & B & C & X & Y).
      exists s1. split; [exact E|]. split; auto. split; auto. split; auto. split.
      + intros z. rewrite B. split; [intros [M Q]; split; auto; tauto|]. intros [M Q]. split; auto. intros W. apply Q. split; auto. discriminate.
      + intros _ u I. destruct (X u I); [left; xl|now right]. }
  destruct C1 as (s1 & -> & A1 & P1 & R1 & M1 & X1). cbn [obind].
  assert (C2 : exists s2, (if xlt (rt v) PInf then cut_out s1 (rt v) (xadd (rt v) d) else Done s1) = Done s2 /\ separate s2 /\ proper s2 /\
     refines s2 s1 /\ (forall z, member z s2 <-> member z s1 /\ ~ (rt v <> PInf /\ strictly_between (rt v) (xadd (rt v) d) z)) /\
     (rt v <> PInf -> forall u, In u s2 -> ext_le (rt u) (rt v) \/ ext_lt (rt v) (lf u))).
  { destruct (rt v) as [|c|] eqn:EL; [tauto| |].
    - replace (xlt (Fin c) PInf) with true by reflexivity. cbn [xadd]. assert (LT : ext_lt (Fin c) (Fin (c + d))) by xl. destruct (cut_ok s1 _ _ A1 LT) as (s2 & E & A & B & C & X & Y).
      exists s2. split; [exact E|]. split; auto. split; auto. split; auto. split.
      + intros z. rewrite B. split; [intros [M Q]; split; auto; tauto|]. intros [M Q]. split; auto. intros W. apply Q. split; auto. discriminate.
      + intros _ u I. destruct (X u I); [now left|right; xl].
    - exists s1. do 4 (split; auto using refines_refl). split; [|tauto]. intros z. split; [|tauto]. intros M. split; auto. tauto. }
  destruct C2 as (s3 & -> & A3 & P3 & R3 & M3 & X3). cbn [obind].
  destruct (IH s3 D (fun u I => P2 u (or_intror I)) A3 P3) as (s' & E & A & P & R & M & X). exists s'. split; auto. split; auto. split; auto.
  assert (RR : refines s' s1) by (eapply refines_trans; eauto).
  split; [eapply refines_trans; eauto|]. split.
  - intros z. rewrite M, M3, M1. split.
    + intros (((K & Q1) & Q2) & Q3). split; auto. intros (u & [<- | I] & Q); [destruct Q; tauto|]. apply Q3. now exists u.
    + intros (K & Q). repeat split; auto; intros Q'; apply Q.
      * exists v. split; [now left|auto].
      * exists v. split; [now left|auto].
      * destruct Q' as (u & I & Q'). exists u. split; [now right|auto].
  - intros u w I [<- | Iw]; [|apply X; auto]. split.
    + intros N. destruct (RR u I) as (y & Iy & Y1 & Y2). destruct (X1 N y Iy); [left|right]; xl.
    + intros N. destruct (R u I) as (y & Iy & Y1 & Y2). destruct (X3 N y Iy); [left|right]; xl.
Qed.
(** cutting around integers at distance 1 removes no integer *)
Lemma no_cut_points : forall s2 z, ~ cut_points s2 1 z.
Proof. intros s2 z (v & _ & [(_ & H) | (_ & H)]); unfold strictly_between in H; [destruct (lf v)|destruct (rt v)]; cbn [xadd] in H; try xl; destruct H as [H K]; unfold ext_lt in *; cbn in *; tauto. Qed.

(** * The checks *)
Lemma disjunct_iff : forall s, disjunct_strict s = true <-> separate s.
Proof.
  induction s as [|v s IH]; [cbn; tauto|]. cbn [disjunct_strict separate]. rewrite !andb_true_iff, IH, xle_iff. split.
  - intros ((N & H) & SS). split; auto. split; auto. destruct s as [|w s]; [cbn; tauto|]. apply xlt_iff in H. destruct SS as (Nw & Hw & _).
    intros u [<- | I]; auto. specialize (Hw u I). xl.
  - intros (N & H & SS). split; auto. split; auto. destruct s as [|w s]; auto. apply xlt_iff. apply H. now left.
Qed.
