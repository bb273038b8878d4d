Require Import ZArith List Bool Lia ZifyBool Permutation.
From Verif Require Import Base FSetModel FSetSpec.
Import ListNotations.
Open Scope Z_scope.

Definition BB : Z := DMAX + 1.
Lemma BB_pos : 1 < BB. Proof. reflexivity. Qed.
Lemma DMAX_BB : DMAX = BB - 1. Proof. unfold BB; lia. Qed.
Definition K (x : fval) : Z := match x with FMinus => - BB | FNum z => z | FPlus => BB end.
Definition wff (x : fval) : Prop := match x with FNum z => - BB < z < BB | _ => True end.
Global Opaque BB.

Ltac fv := intros; repeat match goal with x : fval |- _ => destruct x end; cbn [K wff f_le f_lt f_eq f_ge f_gt f_overlaps] in *; pose proof BB_pos; try lia.

Lemma le_K : forall x y, wff x -> wff y -> f_le x y = (K x <=? K y). Proof. fv. Qed.
Lemma lt_K : forall x y, wff x -> wff y -> f_lt x y = (K x <? K y). Proof. fv. Qed.
Lemma K_bounds : forall x, wff x -> - BB <= K x <= BB. Proof. fv. Qed.
Lemma max_K : forall x y, wff x -> wff y -> wff (f_max x y) /\ K (f_max x y) = Z.max (K x) (K y).
Proof. intros x y Hx Hy; unfold f_max. rewrite lt_K by assumption. destruct (_ <? _) eqn:E; split; auto; lia. Qed.
Lemma min_K : forall x y, wff x -> wff y -> wff (f_min x y) /\ K (f_min x y) = Z.min (K x) (K y).
Proof. intros x y Hx Hy; unfold f_min. rewrite lt_K by assumption. destruct (_ <? _) eqn:E; split; auto; lia. Qed.
Lemma overlaps_K : forall x y, wff x -> wff y -> - BB < K x -> K y < BB -> f_overlaps x y = (K y <=? K x + 1).
Proof. fv. Qed.

Definition okr (r : frange) : Prop :=
  wff (fst r) /\ wff (snd r) /\ K (fst r) <= K (snd r) /\ K (fst r) < BB /\ - BB < K (snd r).
Fixpoint nfk (g : Z) (lo : Z) (s : fset) : Prop :=
  match s with [] => True | r :: t => okr r /\ lo <= K (fst r) /\ nfk g (K (snd r) + g) t end.
Fixpoint memk (z : Z) (s : fset) : Prop :=
  match s with [] => False | r :: t => K (fst r) <= z <= K (snd r) \/ memk z t end.

Lemma nfk_weaken : forall g s lo lo', lo' <= lo -> nfk g lo s -> nfk g lo' s.
Proof. destruct s; cbn; intros; auto. intuition lia. Qed.
Lemma nfk_from : forall g s lo lo', nfk g lo s -> (forall r t, s = r :: t -> lo' <= K (fst r)) -> nfk g lo' s.
Proof. destruct s; cbn; intros; auto. specialize (H0 _ _ eq_refl). intuition lia. Qed.
Section G.
Context (g : Z) (G1 : 1 <= g <= 2).
Notation nfk := (nfk g).

Lemma memk_lo : forall s lo z, nfk lo s -> memk z s -> lo <= z.
Proof.
  induction s as [|r s IH]; cbn; intros; [contradiction|].
  destruct H as (H1 & H2 & H3). destruct H0 as [H0|H0]; [lia|].
  specialize (IH _ _ H3 H0). unfold okr in H1. lia.
Qed.

(** ** Union *)
Definition absorb_post (lo : Z) (i : fset) (m : fval) (j : fset) (o : fval * fset * fset) : Prop :=
  let '(m', i', j') := o in
  wff m' /\ K m <= K m' /\ nfk (K m' + 2) i' /\ nfk (K m' + 2) j' /\
  (length i' + length j' <= length i + length j)%nat /\
  forall l, l <= lo -> l <= K m -> forall z,
    (l <= z <= K m \/ memk z i \/ memk z j) <-> (l <= z <= K m' \/ memk z i' \/ memk z j').

Lemma absorb_unfold : forall i m j, f_absorb i m j =
    match i with
    | (a, b) :: i' =>
        if f_overlaps m a then f_absorb i' (f_max m b) j
        else
          match j with
          | [] => (m, i, j)
          | (c, d) :: j' => if f_overlaps m c then f_absorb i (f_max m d) j' else (m, i, j)
          end
    | [] =>
        match j with
        | [] => (m, i, j)
        | (c, d) :: j' => if f_overlaps m c then f_absorb i (f_max m d) j' else (m, i, j)
        end
    end.
Proof. intros i m j; destruct i, j; reflexivity. Qed.

Lemma absorb_ok : forall n i m j lo, (length i + length j <= n)%nat ->
  wff m -> - BB < K m -> nfk lo i -> nfk lo j -> absorb_post lo i m j (f_absorb i m j).
Proof.
  induction n as [|n IH]; intros i m j lo Hn Wm Bm Ni Nj.
  - destruct i; [|cbn in Hn; lia]. destruct j; [|cbn in Hn; lia]. cbn.
    split; [assumption|]. split; [lia|]. repeat (split; [first [exact I | assumption | lia]|]). intros; tauto.
  - rewrite absorb_unfold.
    assert (JCASE : (match i with [] => true | r :: _ => K m + 1 <? K (fst r) end = true) ->
       absorb_post lo i m j
        match j with
        | [] => (m, i, j)
        | (c, d) :: j' => if f_overlaps m c then f_absorb i (f_max m d) j' else (m, i, j)
        end).
    { intros Hi.
      assert (Ni' : nfk (K m + 2) i) by (eapply nfk_from; [exact Ni|]; intros; subst; lia).
      destruct j as [|[c d] j'].
      - cbn. split; [assumption|]. split; [lia|]. split; [assumption|].
        repeat (split; [first [exact I | assumption | lia]|]). intros; tauto.
      - cbn in Nj. destruct Nj as (Oj & Lj & Nj). destruct Oj as (W1 & W2 & O1 & O2 & O3). cbn in *.
        rewrite overlaps_K by assumption.
        destruct (K c <=? K m + 1) eqn:C.
        + destruct (max_K m d Wm W2) as [Wx Kx].
          assert (P : absorb_post lo i (f_max m d) j' (f_absorb i (f_max m d) j')).
          { apply IH; try assumption; try lia. eapply nfk_weaken; [|exact Nj]; lia. }
          destruct (f_absorb i (f_max m d) j') as [[m' i2] j2]. revert P. unfold absorb_post. rewrite Kx. cbn [length memk fst snd].
          intros (H1 & H2 & H3 & H4 & H5 & H9).
          repeat (split; [first [assumption|lia]|]).
          intros l Hl Hl2 z. rewrite <- (H9 l Hl ltac:(lia) z).
          clear H9. intuition lia.
        + cbn. split; [assumption|]. split; [lia|]. split; [assumption|].
          split; [split; [repeat split; assumption|split; [cbn; lia|assumption]]|].
          repeat (split; [first [exact I | assumption | lia]|]). intros; tauto. }
    destruct i as [|[a b] i']; [apply JCASE; reflexivity|].
    cbn [fst snd] in *.
    pose proof Ni as (Oi & Li & Ni2). pose proof Oi as (W1 & W2 & O1 & O2 & O3). cbn [fst snd] in *.
    rewrite overlaps_K by assumption.
    destruct (K a <=? K m + 1) eqn:C; [|apply JCASE; lia].
    clear JCASE.
    destruct (max_K m b Wm W2) as [Wx Kx].
    assert (P : absorb_post lo i' (f_max m b) j (f_absorb i' (f_max m b) j)).
    { apply IH; try assumption; try lia; [cbn in Hn; lia|]. eapply nfk_weaken; [|exact Ni2]; lia. }
    destruct (f_absorb i' (f_max m b) j) as [[m' i2] j2]. revert P. unfold absorb_post. rewrite Kx. cbn [length memk fst snd].
    intros (H1 & H2 & H3 & H4 & H5 & H9).
    repeat (split; [first [assumption|lia]|]).
    intros l Hl Hl2 z. rewrite <- (H9 l Hl ltac:(lia) z).
    clear H9. intuition lia.
Qed.

Lemma finish_K : forall i j, K (fma (f_finish i j)) < K (fmi (f_finish i j)) /\ wff (fmi (f_finish i j)) /\ wff (fma (f_finish i j)).
Proof. intros; cbn. pose proof BB_pos. lia. Qed.

Lemma union_next_ok : forall i j lo, nfk lo i -> nfk lo j ->
  let st := f_union_next i j in
    (K (fma st) < K (fmi st) /\ wff (fmi st) /\ wff (fma st) /\ i = [] /\ j = []) \/
    (okr (fmi st, fma st) /\ lo <= K (fmi st) /\ nfk (K (fma st) + g) (fi st) /\ nfk (K (fma st) + g) (fj st) /\
     (length (fi st) + length (fj st) < length i + length j)%nat /\
     forall z, (memk z i \/ memk z j) <-> (K (fmi st) <= z <= K (fma st) \/ memk z (fi st) \/ memk z (fj st))).
Proof.
  intros i j lo Ni Nj. unfold f_union_next.
  destruct i as [|[a b] i']; destruct j as [|[c d] j'].
  - left. destruct (finish_K [] []) as (F1 & F2 & F3). auto.
  - cbn in Nj. destruct Nj as (Oj & Lj & Nj). cbn. right. cbn in Lj, Nj.
    split; [assumption|]. split; [assumption|]. split; [exact I|]. split; [assumption|].
    split; [lia|]. intros; tauto.
  - cbn in Ni. destruct Ni as (Oi & Li & Ni). cbn. right. cbn in Li, Ni.
    split; [assumption|]. split; [assumption|]. split; [assumption|]. split; [exact I|].
    split; [lia|]. intros; tauto.
  - cbn in Ni, Nj. destruct Nj as (Oj & Lj & Nj), Ni as (Oi & Li & Ni).
    pose proof Oi as (A1 & A2 & A3 & A4 & A5). pose proof Oj as (C1 & C2 & C3 & C4 & C5).
    cbn [fst snd] in *.
    rewrite (overlaps_K d a) by assumption.
    destruct (K a <=? K d + 1) eqn:O1; cbn [negb].
    2:{ cbn. right. split; [assumption|]. split; [assumption|].
        split; [split; [assumption|split; [cbn; lia|assumption]]|]. split; [assumption|].
        split; [lia|]. intros; tauto. }
    rewrite (overlaps_K b c) by assumption.
    destruct (K c <=? K b + 1) eqn:O2; cbn [negb].
    2:{ cbn. right. split; [assumption|]. split; [assumption|].
        split; [assumption|]. split; [split; [assumption|split; [cbn; lia|assumption]]|].
        split; [lia|]. intros; tauto. }
    destruct (max_K b d A2 C2) as [Wx Kx]. destruct (min_K a c A1 C1) as [Wn Kn].
    set (lo' := Z.min (K b) (K d) + g).
    assert (P : absorb_post lo' i' (f_max b d) j' (f_absorb i' (f_max b d) j')).
    { apply (absorb_ok (length i' + length j')); try assumption; try lia.
      - eapply nfk_weaken; [|exact Ni]. lia.
      - eapply nfk_weaken; [|exact Nj]. lia. }
    destruct (f_absorb i' (f_max b d) j') as [[m i2] j2].
    destruct P as (H1 & H2 & H3 & H4 & H5 & H9). cbv zeta. right. cbn [fmi fma fi fj fst snd length memk].
    rewrite Kx in *.
    split; [repeat split; cbn; try assumption; lia|].
    split; [lia|]. split; [eapply nfk_weaken; [|exact H3]; lia|]. split; [eapply nfk_weaken; [|exact H4]; lia|].
    split; [lia|].
    intros z. rewrite <- (H9 (K (f_min a c)) ltac:(lia) ltac:(lia) z). rewrite Kn.
    clear H9. intuition lia.
Qed.

Lemma union_drain_ok : forall n st lo,
  (K (fma st) < K (fmi st) /\ wff (fmi st) /\ wff (fma st)) \/
  (okr (fmi st, fma st) /\ lo <= K (fmi st) /\ nfk (K (fma st) + g) (fi st) /\ nfk (K (fma st) + g) (fj st) /\
     (length (fi st) + length (fj st) < n)%nat) ->
  exists s, f_drain (fun st => Ok (f_union_next (fi st) (fj st))) n st = Ok s /\ nfk lo s /\
        forall z, memk z s <-> K (fmi st) <= z <= K (fma st) \/ (K (fmi st) <= K (fma st) /\ (memk z (fi st) \/ memk z (fj st))).
Proof.
  induction n as [|n IH]; intros st lo H.
  - cbn [f_drain]. destruct H as [(H & W1 & W2)|H]; [|lia].
    rewrite le_K by assumption. replace (_ <=? _) with false by lia. eexists; split; [reflexivity|]. split; [exact I|]. cbn; intros; intuition lia.
  - cbn [f_drain]. destruct H as [(H & W1 & W2)|(O & L & N1 & N2 & Hn)].
    { rewrite le_K by assumption. replace (_ <=? _) with false by lia. eexists; split; [reflexivity|]. split; [exact I|]. cbn; intros; intuition lia. }
    pose proof O as (W1 & W2 & O1 & O2 & O3). cbn [fst snd] in *.
    rewrite le_K by assumption. replace (_ <=? _) with true by lia.
    pose proof (union_next_ok (fi st) (fj st) (K (fma st) + g) N1 N2) as H. cbv zeta in H.
    cbn [bind]. set (st' := f_union_next (fi st) (fj st)) in *.
    destruct (IH st' (K (fma st) + g)) as (l & El & Nl & Ml).
    { destruct H as [(H1 & H2 & H3 & H4 & H5)|(H1 & H2 & H3 & H4 & H5 & H6)].
      - left; auto.
      - right. repeat (split; [assumption|]). lia. }
    rewrite El. cbn [bind]. eexists; split; [reflexivity|]. split.
    + split; [assumption|]. split; [assumption|]. assumption.
    + intros z. cbn [memk fst snd]. rewrite Ml.
      destruct H as [(H1 & H2 & H3 & H4 & H5)|(H1 & H2 & H3 & H4 & H5 & H8)].
      * rewrite H4, H5. cbn. intuition lia.
      * unfold okr in H1. cbn in H1. rewrite H8. clear Ml H8. intuition lia.
Qed.

Lemma f_union_ok : forall s t lo, nfk lo s -> nfk lo t ->
  exists r, f_union s t = Ok r /\ nfk lo r /\ forall z, memk z r <-> memk z s \/ memk z t.
Proof.
  intros s t lo Ns Nt. unfold f_union.
  pose proof (union_next_ok s t lo Ns Nt) as H. cbv zeta in H. set (st := f_union_next s t) in *.
  destruct (union_drain_ok (length s + length t) st lo) as (r & Er & Nr & Mr).
  { destruct H as [(H1 & H2 & H3 & H4 & H5)|(H1 & H2 & H3 & H4 & H5 & H8)].
    + left; auto.
    + right. repeat (split; [assumption|]). lia. }
  exists r. split; [exact Er|]. split; [assumption|]. intros z. rewrite Mr.
  destruct H as [(H1 & H2 & H3 & H4 & H5)|(H1 & H2 & H3 & H4 & H5 & H8)].
  + subst s t; cbn. intuition lia.
  + unfold okr in H1. cbn in H1. rewrite H8. clear Mr H8. intuition lia.
Qed.

(** ** Intersection *)
Lemma skip_below_ok : forall i m lo, nfk lo i -> wff m ->
  nfk lo (f_skip_below i m) /\ (length (f_skip_below i m) <= length i)%nat /\
  (forall z, K m <= z -> (memk z i <-> memk z (f_skip_below i m))) /\
  (forall z, memk z (f_skip_below i m) -> memk z i) /\
  (forall r t, f_skip_below i m = r :: t -> K m <= K (snd r)) /\
  (length (f_skip_below i m) = length i -> f_skip_below i m = i).
Proof.
  induction i as [|[a b] i IH]; intros m lo N W; cbn [f_skip_below].
  - repeat split; auto; try tauto. discriminate.
  - pose proof N as N0. cbn in N. destruct N as (O & L & N). pose proof O as (W1 & W2 & O1 & O2 & O3). cbn [fst snd] in *.
    rewrite lt_K by assumption.
    destruct (K b <? K m) eqn:C.
    + assert (N' : nfk lo i) by (eapply nfk_weaken; [|exact N]; lia).
      destruct (IH m lo N' W) as (H1 & H2 & H3 & H4 & H5 & H6).
      split; [assumption|]. split; [cbn; lia|]. split.
      { intros z Hz. cbn [memk fst snd]. rewrite <- (H3 z Hz). intuition lia. }
      split; [cbn; auto|]. split; [assumption|]. cbn; lia.
    + split; [assumption|]. split; [lia|]. split; [tauto|]. split; [tauto|].
      split; [|reflexivity]. intros r t H; inversion H; subst. cbn. lia.
Qed.

Lemma inter_align_ok : forall n i j li lj, (length i + length j <= n)%nat ->
  nfk li i -> nfk lj j -> j <> [] ->
  exists o, f_inter_align n i j = Ok o /\
   match o with
   | None => forall z, memk z i -> memk z j -> False
   | Some ((a, b) :: i', (c, d) :: j') =>
       nfk li ((a, b) :: i') /\ nfk lj ((c, d) :: j') /\ K c <= K b /\ K a <= K d /\
       (length i' + length j' + 2 <= length i + length j)%nat /\
       (forall z, (memk z i /\ memk z j) <-> (memk z ((a, b) :: i') /\ memk z ((c, d) :: j')))
   | Some _ => False
   end.
Proof.
  induction n as [|n IH]; intros i j li lj Hn Ni Nj Hj.
  { destruct j; [contradiction|]. cbn in Hn. lia. }
  cbn [f_inter_align]. destruct j as [|[c d] j]; [contradiction|].
  pose proof Nj as (Oj & Lj & Nj'). pose proof Oj as (C1 & C2 & C3 & C4 & C5). cbn [fst snd] in *.
  destruct (skip_below_ok i c li Ni C1) as (H1 & H2 & H3 & H4 & H5 & _).
  destruct (f_skip_below i c) as [|[a b] i'] eqn:SI.
  { eexists; split; [reflexivity|]. intros z Mi Mj. cbn.
    assert (K c <= z). { cbn in Mj. destruct Mj as [Mj|Mj]; [lia|]. pose proof (memk_lo _ _ _ Nj' Mj). lia. }
    apply (H3 z H) in Mi. exact Mi. }
  specialize (H5 _ _ eq_refl). cbn [fst snd] in H5.
  pose proof H1 as (Oi & Li & Ni'). pose proof Oi as (A1 & A2 & A3 & A4 & A5). cbn [fst snd] in *.
  destruct (skip_below_ok ((c, d) :: j) a lj Nj A1) as (J1 & J2 & J3 & J4 & J5 & J6).
  set (j0 := (c, d) :: j) in *.
  assert (EQ : forall z, memk z i /\ memk z j0 <-> memk z ((a, b) :: i') /\ memk z (f_skip_below j0 a)).
  { intros z. split.
    - intros [Mi Mj]. assert (K c <= z). { unfold j0 in Mj; cbn in Mj. destruct Mj as [Mj|Mj]; [lia|]. pose proof (memk_lo _ _ _ Nj' Mj). lia. }
      apply (H3 z H) in Mi. split; [assumption|]. apply J3; [|assumption].
      cbn in Mi. destruct Mi as [Mi|Mi]; [lia|]. pose proof (memk_lo _ _ _ Ni' Mi). lia.
    - intros [Mi Mj]. split; auto. }
  destruct (f_skip_below j0 a) as [|[c' d'] j'] eqn:SJ.
  { eexists; split; [reflexivity|]. intros z Mi Mj. destruct (proj1 (EQ z) (conj Mi Mj)) as [_ X]. exact X. }
  specialize (J5 _ _ eq_refl). cbn [fst snd] in J5.
  pose proof J1 as (Oj' & Lj' & Nj''). pose proof Oj' as (D1 & D2 & D3 & D4 & D5). cbn [fst snd] in *.
  rewrite lt_K by assumption.
  destruct (K b <? K c') eqn:C.
  - assert (LT : (length ((c', d') :: j') < length j0)%nat).
    { apply Nat.le_neq. split; [exact J2|]. intros e.
      specialize (J6 e). unfold j0 in J6. injection J6 as X Y Z0. subst c'. lia. }
    destruct (IH ((a, b) :: i') ((c', d') :: j') li lj) as (o & Ho & Po); try assumption; try discriminate; [unfold j0 in *; cbn [length] in *; lia|].
    exists o. split; [exact Ho|].
    destruct o as [[[|[a2 b2] i2] [|[c2 d2] j2]]|]; try contradiction.
    + destruct Po as (P1 & P2 & P3 & P4 & P5 & P6).
      repeat (split; [first [assumption|unfold j0 in *; cbn [length] in *; lia]|]). intros z. rewrite EQ. apply P6.
    + intros z Mi Mj. destruct (proj1 (EQ z) (conj Mi Mj)) as [X Y]. exact (Po z X Y).
  - eexists; split; [reflexivity|]. cbn iota.
    split; [assumption|]. split; [assumption|]. split; [lia|]. split; [lia|].
    split; [unfold j0 in *; cbn [length] in *; lia|]. exact EQ.
Qed.

Definition both (i j : fset) (z : Z) : Prop := memk z i /\ memk z j.

Lemma inter_next_ok : forall i j li lj, nfk li i -> nfk lj j ->
  exists st, f_inter_next i j = Ok st /\
   ((K (fma st) < K (fmi st) /\ wff (fmi st) /\ wff (fma st) /\ forall z, ~ both i j z) \/
    (okr (fmi st, fma st) /\ Z.max li lj <= K (fmi st) /\
     (exists li' lj', nfk li' (fi st) /\ nfk lj' (fj st) /\ K (fma st) + g <= Z.max li' lj') /\
     (length (fi st) + length (fj st) < length i + length j)%nat /\
     forall z, both i j z <-> K (fmi st) <= z <= K (fma st) \/ both (fi st) (fj st) z)).
Proof.
  intros i j li lj Ni Nj.
  destruct i as [|[a0 b0] i0].
  { eexists; split; [reflexivity|]. left. destruct (finish_K [] j) as (F1 & F2 & F3).
    repeat (split; [assumption|]). intros z [M _]; exact M. }
  destruct j as [|[c0 d0] j0].
  { eexists; split; [reflexivity|]. left. destruct (finish_K ((a0, b0) :: i0) []) as (F1 & F2 & F3).
    repeat (split; [assumption|]). intros z [_ M]; exact M. }
  set (i := (a0, b0) :: i0) in *. set (j := (c0, d0) :: j0) in *.
  destruct (inter_align_ok (length i + length j) i j li lj) as (o & Ho & Po); try assumption; [lia|discriminate|].
  change (f_inter_next i j) with (do o <- f_inter_align (length i + length j) i j;
      match o with
      | Some ((a, b) :: i', (c, d) :: j') =>
          if f_lt b d then Ok (mkFit (f_max a c) (f_min b d) i' ((c, d) :: j'))
          else Ok (mkFit (f_max a c) (f_min b d) ((a, b) :: i') j')
      | _ => Ok (f_finish i j)
      end).
  rewrite Ho. cbn [bind].
  destruct o as [[[|[a b] i'] [|[c d] j']]|]; try contradiction.
  2:{ eexists; split; [reflexivity|]. left. destruct (finish_K i j) as (F1 & F2 & F3).
      repeat (split; [assumption|]). intros z [M1 M2]. exact (Po z M1 M2). }
  destruct Po as (P1 & P2 & P3 & P4 & P5 & P6).
  pose proof P1 as (Oi & Li & Ni'). pose proof Oi as (A1 & A2 & A3 & A4 & A5).
  pose proof P2 as (Oj & Lj & Nj'). pose proof Oj as (C1 & C2 & C3 & C4 & C5). cbn [fst snd] in *.
  destruct (max_K a c A1 C1) as [Wx Kx]. destruct (min_K b d A2 C2) as [Wn Kn].
  assert (OK : okr (f_max a c, f_min b d)).
  { repeat split; cbn [fst snd]; try assumption; rewrite ?Kx, ?Kn; lia. }
  rewrite lt_K by assumption.
  destruct (K b <? K d) eqn:C.
  - eexists; split; [reflexivity|]. right. cbn [fmi fma fi fj].
    split; [exact OK|]. split; [rewrite Kx; lia|]. split.
    { exists (K b + g), lj. split; [assumption|]. split; [assumption|]. rewrite Kn. lia. }
    split; [cbn [length]; lia|].
    intros z. unfold both. rewrite P6. rewrite Kx, Kn. cbn [memk fst snd].
    split.
    + intros [[M1|M1] [M2|M2]]; [left; lia | | right; auto | right; auto].
      exfalso. pose proof (memk_lo _ _ _ Nj' M2). lia.
    + intros [M|[M1 M2]]; [split; left; lia|]. split; [right; assumption|exact M2].
  - eexists; split; [reflexivity|]. right. cbn [fmi fma fi fj].
    split; [exact OK|]. split; [rewrite Kx; lia|]. split.
    { exists li, (K d + g). split; [assumption|]. split; [assumption|]. rewrite Kn. lia. }
    split; [cbn [length]; lia|].
    intros z. unfold both. rewrite P6. rewrite Kx, Kn. cbn [memk fst snd].
    split.
    + intros [[M1|M1] [M2|M2]]; [left; lia | right; auto | | right; auto].
      exfalso. pose proof (memk_lo _ _ _ Ni' M1). lia.
    + intros [M|[M1 M2]]; [split; left; lia|]. split; [exact M1|right; assumption].
Qed.

Lemma inter_drain_ok : forall n st lo,
  (K (fma st) < K (fmi st) /\ wff (fmi st) /\ wff (fma st)) \/
  (okr (fmi st, fma st) /\ lo <= K (fmi st) /\
   (exists li' lj', nfk li' (fi st) /\ nfk lj' (fj st) /\ K (fma st) + g <= Z.max li' lj') /\
   (length (fi st) + length (fj st) < n)%nat) ->
  exists s, f_drain (fun st => f_inter_next (fi st) (fj st)) n st = Ok s /\ nfk lo s /\
    forall z, memk z s <-> K (fmi st) <= z <= K (fma st) \/ (K (fmi st) <= K (fma st) /\ both (fi st) (fj st) z).
Proof.
  induction n as [|n IH]; intros st lo H.
  - cbn [f_drain]. destruct H as [(H & W1 & W2)|H]; [|lia].
    rewrite le_K by assumption. replace (_ <=? _) with false by lia.
    eexists; split; [reflexivity|]. split; [exact I|]. cbn; intuition lia.
  - cbn [f_drain]. destruct H as [(H & W1 & W2)|(O & L & (li & lj & N1 & N2 & LL) & Hn)].
    { rewrite le_K by assumption. replace (_ <=? _) with false by lia.
      eexists; split; [reflexivity|]. split; [exact I|]. cbn; intuition lia. }
    pose proof O as (W1 & W2 & O1 & O2 & O3). cbn [fst snd] in *.
    rewrite le_K by assumption. replace (_ <=? _) with true by lia.
    destruct (inter_next_ok _ _ li lj N1 N2) as (st' & Es & H). rewrite Es. cbn [bind].
    destruct (IH st' (K (fma st) + g)) as (l & El & Nl & Ml).
    { destruct H as [(H1 & H2 & H3 & H4)|(H1 & H2 & H3 & H4 & H5)]; [left; auto|right].
      split; [assumption|]. split; [lia|]. split; [assumption|]. lia. }
    rewrite El. cbn [bind]. eexists; split; [reflexivity|].
    split; [cbn; auto|]. intros z. cbn [memk fst snd]. rewrite Ml.
    destruct H as [(H1 & H2 & H3 & H4)|(H1 & H2 & H3 & H4 & H5)].
    + specialize (H4 z). intuition lia.
    + unfold okr in H1; cbn [fst snd] in H1. rewrite (H5 z). clear H5 Ml. intuition lia.
Qed.

Lemma f_inter_ok : forall s t lo, nfk lo s -> nfk lo t ->
  exists r, f_inter s t = Ok r /\ nfk lo r /\ forall z, memk z r <-> memk z s /\ memk z t.
Proof.
  intros s t lo Ns Nt. unfold f_inter.
  destruct (inter_next_ok s t lo lo Ns Nt) as (st & Es & H). rewrite Es. cbn [bind].
  destruct (inter_drain_ok (length s + length t) st lo) as (r & Er & Nr & Mr).
  { destruct H as [(H1 & H2 & H3 & H4)|(H1 & H2 & H3 & H4 & H5)]; [left; auto|right].
    split; [assumption|]. split; [lia|]. split; assumption. }
  exists r. split; [assumption|]. split; [assumption|]. intros z. rewrite Mr.
  destruct H as [(H1 & H2 & H3 & H4)|(H1 & H2 & H3 & H4 & H5)].
  - specialize (H4 z). unfold both in *. intuition lia.
  - unfold okr in H1; cbn [fst snd] in H1. fold (both s t z). rewrite (H5 z). clear H5 Mr. intuition lia.
Qed.

Lemma f_contains_ok : forall s lo v, nfk lo s -> wff v -> (f_contains s v = true <-> memk (K v) s).
Proof.
  induction s as [|[a b] s IH]; intros lo v N W; cbn [f_contains memk fst snd]; [split; [discriminate|contradiction]|].
  destruct N as (O & L & N). pose proof O as (W1 & W2 & O1 & O2 & O3). cbn [fst snd] in *.
  rewrite lt_K, le_K by assumption. destruct (K v <? K a) eqn:C.
  { split; [discriminate|]. intros [H|H]; [lia|]. pose proof (memk_lo _ _ _ N H). lia. }
  destruct (K v <=? K b) eqn:D; [split; [left; lia|reflexivity]|].
  rewrite (IH _ v N W). intuition lia.
Qed.
End G.

(** ** from keys to the specification *)
Lemma stored_wff : forall a, stored a <-> wff a.
Proof. intros []; cbn; unfold double; rewrite ?DMAX_BB; intuition lia. Qed.
Lemma below_K : forall a z, double z -> wff a -> (below a z <-> K a <= z).
Proof. intros [] z D W; cbn in *; unfold double in D; rewrite DMAX_BB in D; pose proof BB_pos; intuition lia. Qed.
Lemma above_K : forall b z, double z -> wff b -> (above z b <-> z <= K b).
Proof. intros [] z D W; cbn in *; unfold double in D; rewrite DMAX_BB in D; pose proof BB_pos; intuition lia. Qed.
Lemma fgood_okr : forall r, fgood r <-> okr r.
Proof.
  intros [a b]. unfold fgood, okr; cbn [fst snd]. rewrite !stored_wff. split.
  - intros (W1 & W2 & z & D & L1 & L2). apply (below_K a z D W1) in L1. apply (above_K b z D W2) in L2.
    unfold double in D. rewrite DMAX_BB in D. repeat split; try assumption; lia.
  - intros (W1 & W2 & L & L1 & L2). split; [assumption|]. split; [assumption|].
    pose proof (K_bounds a W1). pose proof (K_bounds b W2). pose proof BB_pos.
    assert (D : double (Z.max (K a) (- DMAX))) by (unfold double; rewrite DMAX_BB; lia).
    exists (Z.max (K a) (- DMAX)). split; [assumption|]. rewrite (below_K a _ D W1), (above_K b _ D W2).
    unfold double in D; rewrite DMAX_BB in *; lia.
Qed.
Lemma before_K : forall r1 r2, okr r1 -> okr r2 -> (before r1 r2 <-> K (snd r1) < K (fst r2)).
Proof.
  intros [a b] [c d] (_ & Wb & O1 & O2 & O3) (Wc & _ & P1 & P2 & P3). unfold before; cbn [fst snd] in *.
  pose proof BB_pos. pose proof (K_bounds b Wb). pose proof (K_bounds c Wc). split.
  - intros H'. set (x := Z.min (K b) DMAX). set (y := Z.max (K c) (- DMAX)).
    assert (Dx : double x) by (unfold double, x; rewrite DMAX_BB; lia).
    assert (Dy : double y) by (unfold double, y; rewrite DMAX_BB; lia).
    specialize (H' x y). rewrite (above_K b x Dx Wb), (below_K c y Dy Wc) in H'.
    specialize (H' ltac:(unfold x; lia) ltac:(unfold y; lia) Dx Dy). unfold x, y in H'. rewrite DMAX_BB in H'. lia.
  - intros L x y Hx Hy Dx Dy. apply (above_K b x Dx Wb) in Hx. apply (below_K c y Dy Wc) in Hy. lia.
Qed.
Lemma apart_K : forall r1 r2, okr r1 -> okr r2 -> (apart r1 r2 <-> K (snd r1) + 2 <= K (fst r2)).
Proof.
  intros [a b] [c d] (_ & Wb & O1 & O2 & O3) (Wc & _ & P1 & P2 & P3). unfold apart; cbn [fst snd] in *.
  pose proof BB_pos. pose proof (K_bounds b Wb). pose proof (K_bounds c Wc). split.
  - intros (z & D & N1 & N2). rewrite (above_K b z D Wb) in N1. rewrite (below_K c z D Wc) in N2. lia.
  - intros L. exists (K b + 1). assert (D : double (K b + 1)) by (unfold double; rewrite DMAX_BB; lia).
    split; [assumption|]. rewrite (above_K b _ D Wb), (below_K c _ D Wc). lia.
Qed.
Lemma ordered_nfk : forall s, ordered s <-> exists lo, nfk 1 lo s.
Proof.
  intros s. split.
  - induction 1 as [|r G|r1 r2 s G Bf O [lo IH]].
    + exists 0; exact I.
    + exists (K (fst r)). cbn. apply fgood_okr in G. split; [assumption|]. split; [lia|exact I].
    + exists (K (fst r1)). apply fgood_okr in G. pose proof (proj1 IH) as G2. rewrite (before_K r1 r2 G G2) in Bf.
      split; [assumption|]. split; [lia|]. eapply nfk_from; [exact IH|]. intros r t E; inversion E; subst. lia.
  - intros [lo H]. revert lo H. induction s as [|r1 s IH]; intros lo H; [constructor|].
    destruct H as (O & L & N). apply fgood_okr in O. destruct s as [|r2 s]; [constructor; assumption|].
    constructor; [assumption| |eapply IH; exact N]. apply fgood_okr in O. apply (before_K r1 r2); [assumption|apply N|].
    destruct N as (_ & X & _). lia.
Qed.
Lemma spaced_nfk : forall s, spaced s <-> exists lo, nfk 2 lo s.
Proof.
  intros s. split.
  - induction 1 as [|r G|r1 r2 s G Bf O [lo IH]].
    + exists 0; exact I.
    + exists (K (fst r)). cbn. apply fgood_okr in G. split; [assumption|]. split; [lia|exact I].
    + exists (K (fst r1)). apply fgood_okr in G. pose proof (proj1 IH) as G2. rewrite (apart_K r1 r2 G G2) in Bf.
      split; [assumption|]. split; [lia|]. eapply nfk_from; [exact IH|]. intros r t E; inversion E; subst. lia.
  - intros [lo H]. revert lo H. induction s as [|r1 s IH]; intros lo H; [constructor|].
    destruct H as (O & L & N). apply fgood_okr in O. destruct s as [|r2 s]; [constructor; assumption|].
    constructor; [assumption| |eapply IH; exact N]. apply fgood_okr in O. apply apart_K; [assumption|apply N|].
    destruct N as (_ & X & _). lia.
Qed.
Lemma nfk_12 : forall s lo, nfk 2 lo s -> nfk 1 lo s.
Proof.
  induction s as [|r s IH]; cbn; intros lo H; [exact I|]. destruct H as (O & L & N).
  split; [assumption|]. split; [assumption|]. apply IH in N. eapply nfk_weaken; [|exact N]; lia.
Qed.
Lemma felem_K : forall s g lo z, nfk g lo s -> double z -> (felem z s <-> memk z s).
Proof.
  intros s g. induction s as [|[a b] s IH]; intros lo z N D; cbn [memk].
  - split; [intros (a & b & [] & _)|contradiction].
  - destruct N as (O & L & N). pose proof O as (W1 & W2 & O1 & O2 & O3). cbn [fst snd] in *.
    rewrite <- (IH _ z N D). split.
    + intros (a' & b' & [E|I] & L1 & L2).
      * inversion E; subst. apply (below_K _ z D W1) in L1. apply (above_K _ z D W2) in L2. left; lia.
      * right. exists a', b'. auto.
    + intros [H|(a' & b' & I & L1 & L2)].
      * exists a, b. split; [left; reflexivity|]. rewrite (below_K _ z D W1), (above_K _ z D W2). lia.
      * exists a', b'. split; [right; assumption|auto].
Qed.
Lemma two_nfk : forall g s t, (exists lo, nfk g lo s) -> (exists lo, nfk g lo t) -> exists lo, nfk g lo s /\ nfk g lo t.
Proof.
  intros g s t [l1 H1] [l2 H2]. exists (Z.min l1 l2). split; (eapply nfk_weaken; [|eassumption]); lia.
Qed.

(** ** sets of values *)
Definition num (z : Z) : fval := FNum z.
Fixpoint increasing (l : list Z) : Prop :=
  match l with x :: ((y :: _) as l') => x <= y /\ increasing l' | _ => True end.
Lemma insert_num : forall z l, exists l', f_insert (FNum z) (map FNum l) = map FNum l' /\
  (forall x, In x l' <-> x = z \/ In x l) /\ (increasing l -> increasing l') /\
  (forall x l0, l' = x :: l0 -> x = z \/ (exists l1, l = x :: l1)).
Proof.
  intros z l. induction l as [|y l IH]; cbn [f_insert map].
  - exists [z]. split; [reflexivity|]. split; [cbn; intuition congruence|]. split; [cbn; auto|]. intros x l0 E; inversion E; auto.
  - cbn [f_lt]. destruct (y <? z) eqn:C.
    + destruct IH as (l' & E & M & I & H). rewrite E. exists (y :: l'). split; [reflexivity|].
      split; [cbn; intros x; rewrite M; intuition congruence|]. split; [|intros x l0 X; inversion X; subst; eauto].
      intros X. cbn. destruct l' as [|w l'']; [exact I0 || exact Logic.I|].
      split; [|apply I; destruct l; cbn in X; [exact Logic.I|apply X]].
      destruct (H w l'' eq_refl) as [->|[l1 ->]]; [lia|]. cbn in X. lia.
    + exists (z :: y :: l). split; [reflexivity|]. split; [cbn; intuition congruence|].
      split; [intros X; cbn in *; split; [lia|exact X]|]. intros x l0 X; inversion X; auto.
Qed.
Lemma sort_num : forall l, exists l', f_sort (map FNum l) = map FNum l' /\ (forall x, In x l' <-> In x l) /\ increasing l'.
Proof.
  induction l as [|z l (l' & E & M & I)]; [exists []; split; [reflexivity|]; split; [tauto|exact Logic.I]|].
  cbn [f_sort map]. rewrite E. destruct (insert_num z l') as (l2 & E2 & M2 & I2 & _). exists l2.
  split; [assumption|]. split; [intros x; rewrite M2; cbn; rewrite M; intuition congruence|auto].
Qed.
Lemma ranges_num : forall l x, double x -> (forall z, In z l -> double z) -> increasing (x :: l) ->
  nfk 1 x (f_ranges (FNum x) (FNum x) (map FNum l)) /\
  (forall z, memk z (f_ranges (FNum x) (FNum x) (map FNum l)) <-> z = x \/ In z l) /\
  (forall r, In r (f_ranges (FNum x) (FNum x) (map FNum l)) -> exists z, r = (FNum z, FNum z)) /\
  (forall lo, nfk 1 lo (f_ranges (FNum x) (FNum x) (map FNum l)) -> lo <= x).
Proof.
  induction l as [|y l IH]; intros x Dx Dl I; cbn [f_ranges map].
  - assert (O : okr (FNum x, FNum x)).
    { unfold double in Dx; rewrite DMAX_BB in Dx. repeat split; cbn; lia. }
    split; [split; [exact O|split; [cbn; lia|exact Logic.I]]|]. split; [cbn; intros; intuition lia|].
    split; [intros r [<-|[]]; eauto|]. intros lo H. cbn in H. lia.
  - assert (Dy : double y) by (apply Dl; left; reflexivity).
    assert (Dl' : forall z, In z l -> double z) by (intros; apply Dl; right; assumption).
    destruct I as [L I]. cbn [f_gt]. unfold f_gt. cbn [f_lt]. destruct (x <? y) eqn:C.
    + destruct (IH y Dy Dl' I) as (N & M & S & _).
      assert (O : okr (FNum x, FNum x)).
      { unfold double in Dx; rewrite DMAX_BB in Dx. repeat split; cbn; lia. }
      split; [split; [exact O|split; [cbn; lia|eapply nfk_weaken; [|exact N]; cbn; lia]]|].
      split; [intros z; cbn [memk fst snd K]; rewrite M; cbn [In]; intuition lia|].
      split; [intros r [<-|R]; [eauto|apply S; assumption]|]. intros lo H. cbn in H. lia.
    + assert (y = x) by lia. subst y. destruct (IH x Dx Dl' I) as (N & M & S & T).
      split; [assumption|]. split; [intros z; rewrite M; cbn [In]; intuition lia|]. split; assumption.
Qed.
Lemma of_values_ok : forall l, (forall z, In z l -> double z) ->
  (exists lo, nfk 1 lo (f_of_values (map FNum l))) /\
  (forall z, memk z (f_of_values (map FNum l)) <-> In z l) /\
  (forall r, In r (f_of_values (map FNum l)) -> exists z, r = (FNum z, FNum z)).
Proof.
  intros l D. unfold f_of_values. destruct (sort_num l) as (l' & E & M & I). rewrite E.
  destruct l' as [|x l']; cbn [map].
  - split; [exists 0; exact Logic.I|]. split; [intros z; cbn; rewrite <- M; cbn; tauto|intros r []].
  - destruct (ranges_num l' x) as (N & Q & S & _); [apply D, M; left; reflexivity|intros z H; apply D, M; right; assumption|exact I|].
    split; [eexists; exact N|]. split; [|exact S]. intros z. rewrite Q, <- M. cbn. intuition congruence.
Qed.
Lemma ordered_single_spaced : forall s, (exists lo, nfk 1 lo s) ->
  (forall z, memk z s -> ~ memk (z + 1) s) -> exists lo, nfk 2 lo s.
Proof.
  intros s [lo N] H. exists lo. revert lo N. induction s as [|[a b] s IH]; intros lo N; [exact I|].
  destruct N as (O & L & N). split; [assumption|]. split; [assumption|].
  assert (N2 : nfk 2 (K b + 1) s).
  { apply IH; [|exact N]. intros z M1 M2. apply (H z); right; assumption. }
  cbn [snd]. eapply nfk_from; [exact N2|]. intros r t E. subst s. cbn [snd] in *.
  destruct N as (O' & L' & _). pose proof O as (_ & _ & Q1 & _). pose proof O' as (_ & _ & Q2 & _). cbn [fst snd] in *.
  destruct (Z.eq_dec (K (fst r)) (K b + 1)) as [e|e]; [|lia]. exfalso. apply (H (K b)).
  - left; cbn; lia.
  - right; left. lia.
Qed.

(** ** cardinality *)
Lemma card_values : forall s acc, (forall r, In r s -> exists z, r = (FNum z, FNum z)) -> f_card s acc = Some (acc + Z.of_nat (length s)).
Proof.
  induction s as [|r s IH]; intros acc H; cbn [f_card length]; [f_equal; lia|].
  destruct (H r (or_introl eq_refl)) as [z ->]. unfold f_width. cbn [fst snd fIsFinite f_eq]. rewrite Z.eqb_refl. cbn [andb].
  rewrite IH by (intros; apply H; right; assumption). f_equal. lia.
Qed.
