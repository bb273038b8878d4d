Require Import ZArith List Bool Lia ZifyBool Permutation Sorted.
From Verif Require Import Base IntValModel IntValSpec IntValProofs SetModel SetSpec SetProofs SetProofs2.
Import ListNotations.
Open Scope Z_scope.

(** * From keys to the specification *)
Section K.
Set Default Proof Using "All".
Context (B : Z) (HB : BIG <= B).
Notation K := (key B).
Notation okr := (okr B).
Notation nfk := (nfk B).
Notation memk := (memk B).

Lemma denote_cases : forall a, wfv a ->
  (denote a = Some PInf /\ K a = B) \/ (denote a = Some MInf /\ K a = - B) \/
  (exists z, denote a = Some (Fin z) /\ K a = z /\ fits64 z /\ a = ofZ z).
Proof.
  intros [v i] H. unfold wfv, denote, key in *; cbn [iv_v iv_inf] in *. destruct i.
  - destruct H; subst; [left; split; [reflexivity|lia]|right; left; split; [reflexivity|lia]].
  - right; right. exists v. unfold fits64 in *.
    replace ((LLONG_MIN <=? v) && (v <=? LLONG_MAX)) with true by lia. auto.
Qed.

Lemma wfv_denote : forall a e, denote a = Some e -> wfv a.
Proof. intros a e H. apply wf_wfv. exists e; assumption. Qed.

Lemma between_k : forall z a b, - B < z < B -> (between z a b <-> wfv a /\ wfv b /\ K a <= z <= K b).
Proof.
  intros z a b Hz. unfold between. split.
  - intros (x & y & Hx & Hy & L1 & L2).
    pose proof (wfv_denote _ _ Hx) as Wa. pose proof (wfv_denote _ _ Hy) as Wb.
    destruct (denote_cases a Wa) as [[D1 K1]|[[D1 K1]|(z1 & D1 & K1 & F1 & _)]]; rewrite D1 in Hx; inversion Hx; subst;
    destruct (denote_cases b Wb) as [[D2 K2]|[[D2 K2]|(z2 & D2 & K2 & F2 & _)]]; rewrite D2 in Hy; inversion Hy; subst;
    cbn in *; try contradiction; repeat split; try assumption; lia.
  - intros (Wa & Wb & H).
    destruct (denote_cases a Wa) as [[D1 K1]|[[D1 K1]|(z1 & D1 & K1 & F1 & _)]]; rewrite D1, K1 in *;
    destruct (denote_cases b Wb) as [[D2 K2]|[[D2 K2]|(z2 & D2 & K2 & F2 & _)]]; rewrite D2, K2 in *;
    try lia; do 2 eexists; (split; [reflexivity|]); (split; [reflexivity|]); cbn [ext_le]; (split; [exact I || lia|exact I || lia]).
Qed.

Lemma okr_good : forall r, okr r <-> good_range r.
Proof.
  intros [a b]. unfold good_range, SetProofs.okr; cbn [fst snd]. split.
  - intros (Wa & Wb & H1 & H2 & H3).
    exists (Z.min (K b) (B - 1)). apply between_k.
    + unfold BIG, LLONG_MAX in HB. lia.
    + repeat split; try assumption; lia.
  - intros (z & x & y & Hx & Hy & L1 & L2).
    pose proof (wfv_denote _ _ Hx) as Wa. pose proof (wfv_denote _ _ Hy) as Wb.
    split; [assumption|]. split; [assumption|]. 
    destruct (denote_cases a Wa) as [[D1 K1]|[[D1 K1]|(z1 & D1 & K1 & F1 & _)]]; rewrite D1 in Hx; inversion Hx; subst;
    destruct (denote_cases b Wb) as [[D2 K2]|[[D2 K2]|(z2 & D2 & K2 & F2 & _)]]; rewrite D2 in Hy; inversion Hy; subst;
    cbn in *; try contradiction; unfold fits64, BIG, LLONG_MIN, LLONG_MAX in *; lia.
Qed.

Lemma gap_k : forall r1 r2, okr r1 -> okr r2 -> (gap r1 r2 <-> K (snd r1) + 2 <= K (fst r2)).
Proof.
  intros [a b] [c d] (_ & Wb & Ob1 & Ob2 & Ob3) (Wc & _ & Oc1 & Oc2 & Oc3). unfold gap; cbn [fst snd] in *. split.
  - intros (z & x & y & Hx & Hy & L1 & L2). unfold ext_lt in *.
    destruct (denote_cases b Wb) as [[D1 K1]|[[D1 K1]|(z1 & D1 & K1 & F1 & _)]]; rewrite D1 in Hx; inversion Hx; subst;
    destruct (denote_cases c Wc) as [[D2 K2]|[[D2 K2]|(z2 & D2 & K2 & F2 & _)]]; rewrite D2 in Hy; inversion Hy; subst;
    cbn in *; try tauto; unfold fits64, BIG, LLONG_MIN, LLONG_MAX in *; try lia.
    destruct L1 as [L1 N1], L2 as [L2 N2].
    assert (K b <> z) by (intros X; apply N1; rewrite X; reflexivity).
    assert (z <> K c) by (intros X; apply N2; rewrite X; reflexivity). lia.
  - intros H.
    destruct (denote_cases b Wb) as [[D1 K1]|[[D1 K1]|(z1 & D1 & K1 & F1 & _)]]; rewrite K1 in *; try lia.
    destruct (denote_cases c Wc) as [[D2 K2]|[[D2 K2]|(z2 & D2 & K2 & F2 & _)]]; rewrite K2 in *; try lia.
    exists (z1 + 1), (Fin z1), (Fin z2). unfold ext_lt; cbn. repeat split; try assumption; try lia.
    + intros X; inversion X; lia.
    + intros X; inversion X; lia.
Qed.

Lemma nf_nfk : forall s, nf s -> nfk (- B) s.
Proof.
  intros s H. assert (G : nfk (- B) s /\ forall r t, s = r :: t -> okr r); [|tauto].
  induction H.
  - cbn; split; [exact I|discriminate].
  - apply okr_good in H. pose proof H as (W1 & W2 & _). cbn. split.
    + split; [assumption|]. split; [|exact I]. apply (key_bounds B HB); assumption.
    + intros r0 t E; inversion E; subst; assumption.
  - destruct IHnf as [IH1 IH2]. specialize (IH2 _ _ eq_refl).
    apply okr_good in H. pose proof H as (W1 & W2 & _).
    split; [|intros r0 t E; inversion E; subst; assumption].
    cbn [SetProofs.nfk]. split; [assumption|]. split; [apply (key_bounds B HB); assumption|].
    cbn in IH1. split; [assumption|]. split; [|tauto].
    apply gap_k in H0; assumption.
Qed.

Lemma nfk_nf : forall s lo, nfk lo s -> nf s.
Proof.
  induction s as [|r s IH]; intros lo H; [constructor|].
  cbn in H. destruct H as (O & L & N). destruct s as [|r2 s].
  - constructor. apply okr_good; assumption.
  - constructor.
    + apply okr_good; assumption.
    + cbn in N. apply gap_k; tauto.
    + eapply IH; eassumption.
Qed.

Lemma elem_memk : forall s lo z, nfk lo s -> - B < z < B -> (elem z s <-> memk z s).
Proof.
  induction s as [|[a b] s IH]; intros lo z N Hz; cbn.
  - split; [intros (a & b & [] & _)|contradiction].
  - cbn in N. destruct N as ((W1 & W2 & _) & L & N). cbn [fst snd] in *.
    rewrite <- (IH _ z N Hz). unfold elem. split.
    + intros (a' & b' & [E|I] & H).
      * inversion E; subst. left. apply between_k in H; tauto.
      * right; eauto.
    + intros [H|(a' & b' & I & H)].
      * exists a, b. split; [left; reflexivity|]. apply between_k; tauto.
      * exists a', b'. split; [right; assumption|assumption].
Qed.

Lemma witness : forall r, okr r -> exists z, - B < z < B /\ K (fst r) <= z <= K (snd r).
Proof.
  intros [a b] (Wa & Wb & H1 & H2 & H3). cbn [fst snd] in *.
  exists (Z.min (K b) (B - 1)). unfold BIG, LLONG_MAX in HB. lia.
Qed.

(** ** subset *)
Lemma subset_unfold : forall i j, set_subset i j =
    match i, j with
    | (a, b) :: i', (c, d) :: j' =>
        if iv_lt d a then set_subset i j'
        else if iv_ge a c && iv_le b d then set_subset i' j
        else false
    | [], _ => true
    | _ :: _, [] => false
    end.
Proof using. intros [|[a b] i] [|[c d] j]; reflexivity. Qed.
Lemma disjoint_unfold : forall i j, set_disjoint i j =
    match i, j with
    | (a, b) :: i', (c, d) :: j' =>
        if iv_lt d a then set_disjoint i j'
        else if iv_lt b c then set_disjoint i' j
        else false
    | _, _ => true
    end.
Proof using. intros [|[a b] i] [|[c d] j]; reflexivity. Qed.

Lemma subset_k : forall n i j li lj, (length i + length j <= n)%nat -> nfk li i -> nfk lj j ->
  (set_subset i j = true -> forall z, memk z i -> memk z j) /\
  (set_subset i j = false -> exists z, - B < z < B /\ memk z i /\ ~ memk z j).
Proof.
  induction n as [|n IH]; intros i j li lj Hn Ni Nj.
  { destruct i; [|cbn in Hn; lia]. rewrite subset_unfold. split; [cbn; tauto|discriminate]. }
  rewrite subset_unfold. destruct i as [|[a b] i']; [split; [cbn; tauto|discriminate]|].
  pose proof Ni as (Oi & Li & Ni'). pose proof Oi as (A1 & A2 & A3 & A4 & A5). cbn [fst snd] in *.
  destruct j as [|[c d] j'].
  { split; [discriminate|]. intros _. destruct (witness _ Oi) as (z & Hz & Z1). exists z.
    split; [assumption|]. split; [left; exact Z1|cbn; tauto]. }
  pose proof Nj as (Oj & Lj & Nj'). pose proof Oj as (C1 & C2 & C3 & C4 & C5). cbn [fst snd length] in *.
  rewrite (lt_k B HB) by assumption. unfold iv_ge. rewrite !(le_k B HB) by assumption.
  destruct (K d <? K a) eqn:DA.
  - destruct (IH ((a, b) :: i') j' li (K d + 2)) as [P Q]; try assumption; [cbn [length]; lia|].
    split.
    + intros H z Mz. right. apply P; assumption.
    + intros H. destruct (Q H) as (z & Hz & M1 & M2). exists z. split; [assumption|]. split; [assumption|].
      cbn. intros [X|X]; [|contradiction]. cbn in M1. destruct M1 as [M1|M1]; [lia|].
      pose proof (memk_lo B _ _ _ Ni' M1). lia.
  - destruct ((K c <=? K a) && (K b <=? K d)) eqn:IN.
    + destruct (IH i' ((c, d) :: j') (K b + 2) lj) as [P Q]; try assumption; [cbn [length]; lia|].
      split.
      * intros H z [Mz|Mz]; [left; cbn in Mz |- *; lia|]. apply P; assumption.
      * intros H. destruct (Q H) as (z & Hz & M1 & M2). exists z. split; [assumption|]. split; [right; assumption|assumption].
    + split; [discriminate|]. intros _.
      pose proof (key_cases B HB a A1) as KA. pose proof (key_cases B HB d C2) as KD.
      pose proof (key_cases B HB b A2) as KB. pose proof (key_cases B HB c C1) as KC.
      unfold BIG, LLONG_MIN, LLONG_MAX in *.
      destruct (Z.lt_ge_cases (K a) (K c)).
      * exists (Z.min (K c - 1) (K b)). split; [lia|]. split; [left; cbn; lia|].
        cbn. intros [X|X]; [lia|]. pose proof (memk_lo B _ _ _ Nj' X). lia.
      * exists (K d + 1). split; [lia|]. split; [left; cbn; lia|].
        cbn. intros [X|X]; [lia|]. pose proof (memk_lo B _ _ _ Nj' X). lia.
Qed.

Lemma disjoint_k : forall n i j li lj, (length i + length j <= n)%nat -> nfk li i -> nfk lj j ->
  (set_disjoint i j = true -> forall z, memk z i -> memk z j -> False) /\
  (set_disjoint i j = false -> exists z, - B < z < B /\ memk z i /\ memk z j).
Proof.
  induction n as [|n IH]; intros i j li lj Hn Ni Nj.
  { destruct i; [|cbn in Hn; lia]. rewrite disjoint_unfold. split; [cbn; tauto|discriminate]. }
  rewrite disjoint_unfold. destruct i as [|[a b] i']; [split; [cbn; tauto|discriminate]|].
  pose proof Ni as (Oi & Li & Ni'). pose proof Oi as (A1 & A2 & A3 & A4 & A5). cbn [fst snd] in *.
  destruct j as [|[c d] j']; [split; [cbn; tauto|discriminate]|].
  pose proof Nj as (Oj & Lj & Nj'). pose proof Oj as (C1 & C2 & C3 & C4 & C5). cbn [fst snd length] in *.
  rewrite !(lt_k B HB) by assumption.
  destruct (K d <? K a) eqn:DA.
  - destruct (IH ((a, b) :: i') j' li (K d + 2)) as [P Q]; try assumption; [cbn [length]; lia|].
    split.
    + intros H z M1 [M2|M2]; [|eapply P; eassumption].
      cbn in M1, M2. destruct M1 as [M1|M1]; [lia|]. pose proof (memk_lo B _ _ _ Ni' M1). lia.
    + intros H. destruct (Q H) as (z & Hz & M1 & M2). exists z. split; [assumption|]. split; [assumption|]. right; assumption.
  - destruct (K b <? K c) eqn:BC.
    + destruct (IH i' ((c, d) :: j') (K b + 2) lj) as [P Q]; try assumption; [cbn [length]; lia|].
      split.
      * intros H z [M1|M1] M2; [|eapply P; eassumption].
        cbn in M1, M2. destruct M2 as [M2|M2]; [lia|]. pose proof (memk_lo B _ _ _ Nj' M2). lia.
      * intros H. destruct (Q H) as (z & Hz & M1 & M2). exists z. split; [assumption|]. split; [right; assumption|assumption].
    + split; [discriminate|]. intros _.
      exists (Z.min (Z.min (K b) (K d)) (B - 1)).
      split; [unfold BIG, LLONG_MAX in *; lia|]. split; left; cbn; lia.
Qed.

Lemma memk_unique : forall s t ls lt, nfk ls s -> nfk lt t ->
  (forall z, - B < z < B -> (memk z s <-> memk z t)) -> s = t.
Proof.
  induction s as [|[a b] s IH]; intros [|[c d] t] ls lt Ns Nt H.
  - reflexivity.
  - destruct Nt as (O & _). destruct (witness _ O) as (z & Hz & Z1). exfalso. apply (H z Hz). left; exact Z1.
  - destruct Ns as (O & _). destruct (witness _ O) as (z & Hz & Z1). exfalso. apply (H z Hz). left; exact Z1.
  - pose proof Ns as (Oi & Li & Ns'). pose proof Oi as (A1 & A2 & A3 & A4 & A5).
    pose proof Nt as (Oj & Lj & Nt'). pose proof Oj as (C1 & C2 & C3 & C4 & C5). cbn [fst snd] in *.
    pose proof (key_cases B HB a A1) as KA0. pose proof (key_cases B HB d C2) as KD.
    pose proof (key_cases B HB b A2) as KB. pose proof (key_cases B HB c C1) as KC0.
    unfold BIG, LLONG_MIN, LLONG_MAX in *.
    assert (KA : K a = K c).
    { destruct (Z.lt_trichotomy (K a) (K c)) as [L|[L|L]]; [exfalso|assumption|exfalso].
      - assert (X : memk (Z.min (K c - 1) (K b)) ((a, b) :: s)) by (left; cbn; lia).
        apply H in X; [|lia]. destruct X as [X|X]; [cbn in X; lia|].
        pose proof (memk_lo B _ _ _ Nt' X). lia.
      - assert (X : memk (Z.min (K a - 1) (K d)) ((c, d) :: t)) by (left; cbn; lia).
        apply H in X; [|lia]. destruct X as [X|X]; [cbn in X; lia|].
        pose proof (memk_lo B _ _ _ Ns' X). lia. }
    assert (KE : K b = K d).
    { destruct (Z.lt_trichotomy (K b) (K d)) as [L|[L|L]]; [exfalso|assumption|exfalso].
      - assert (X : memk (K b + 1) ((c, d) :: t)) by (left; cbn; lia).
        apply H in X; [|lia]. destruct X as [X|X]; [cbn in X; lia|].
        pose proof (memk_lo B _ _ _ Ns' X). lia.
      - assert (X : memk (K d + 1) ((a, b) :: s)) by (left; cbn; lia).
        apply H in X; [|lia]. destruct X as [X|X]; [cbn in X; lia|].
        pose proof (memk_lo B _ _ _ Nt' X). lia. }
    rewrite (key_inj B a c A1 C1 HB KA), (key_inj B b d A2 C2 HB KE). f_equal.
    eapply IH; [exact Ns'|exact Nt'|].
    intros z Hz. specialize (H z Hz). cbn in H. split; intros M.
    + pose proof (memk_lo B _ _ _ Ns' M). destruct H as [H _]. destruct (H (or_intror M)); [lia|assumption].
    + pose proof (memk_lo B _ _ _ Nt' M). destruct H as [_ H]. destruct (H (or_intror M)); [lia|assumption].
Qed.

(** ** bounded iterators *)
Lemma bounded_max_ok : forall s lo m, nfk lo s -> wfv m -> - B < K m ->
  nfk lo (bounded_max s m) /\ forall z, memk z (bounded_max s m) <-> memk z s /\ z <= K m.
Proof.
  induction s as [|[a b] s IH]; intros lo m N W Hm; cbn [bounded_max].
  - cbn; tauto.
  - pose proof N as (O & L & N'). pose proof O as (W1 & W2 & O1 & O2 & O3). cbn [fst snd] in *.
    rewrite (le_k B HB) by assumption. destruct (K a <=? K m) eqn:C.
    + destruct (min_k B HB m b W W2) as [Wn Kn].
      destruct (IH (K b + 2) m N' W Hm) as [P Q].
      split.
      * cbn [SetProofs.nfk fst snd]. split; [repeat split; cbn; try assumption; lia|]. split; [assumption|].
        eapply nfk_weaken; [|exact P]. lia.
      * intros z. cbn [SetProofs.memk fst snd]. rewrite Q, Kn. split; [|intuition lia].
        intros [X|X]; [split; [left|]; lia|]. tauto.
    + split; [exact I|]. intros z; cbn. split; [tauto|]. intros [[X|X] Y]; [lia|].
      pose proof (memk_lo B _ _ _ N' X). lia.
Qed.

Lemma bounded_min_ok : forall s lo m, nfk lo s -> wfv m -> K m < B ->
  nfk lo (bounded_min s m) /\ forall z, memk z (bounded_min s m) <-> memk z s /\ K m <= z.
Proof.
  induction s as [|[a b] s IH]; intros lo m N W Hm; cbn [bounded_min].
  - cbn; tauto.
  - pose proof N as (O & L & N'). pose proof O as (W1 & W2 & O1 & O2 & O3). cbn [fst snd] in *.
    rewrite (lt_k B HB) by assumption.
    destruct (IH (K b + 2) m N' W Hm) as [P Q].
    destruct (K b <? K m) eqn:C.
    + split; [eapply nfk_weaken; [|exact P]; lia|]. intros z. rewrite Q. cbn [SetProofs.memk fst snd]. intuition lia.
    + destruct (max_k B HB m a W W1) as [Wx Kx]. split.
      * cbn [SetProofs.nfk fst snd]. split; [repeat split; cbn; try assumption; lia|]. split; [lia|assumption].
      * intros z. cbn [SetProofs.memk fst snd]. rewrite Q, Kx.
        split; [|intuition lia]. intros [X|X]; [split; [left|]; lia|]. tauto.
Qed.

Lemma const_range_ok : forall a b, wfv a -> wfv b -> K a < B -> - B < K b ->
  (exists l, nfk l (const_range a b)) /\ nfk (- B) (const_range a b) /\ forall z, memk z (const_range a b) <-> K a <= z <= K b.
Proof.
  intros a b Wa Wb Ha Hb. unfold const_range, iv_gt. rewrite (lt_k B HB) by assumption.
  destruct (K b <? K a) eqn:C.
  - split; [exists 0; exact I|]. split; [exact I|]. intros z; cbn; lia.
  - assert (N : nfk (- B) [(a, b)]).
    { cbn. split; [repeat split; cbn; try assumption; lia|]. split; [apply (key_bounds B HB); assumption|exact I]. }
    split; [exists (- B); exact N|]. split; [exact N|]. intros z; cbn; intuition lia.
Qed.

(** ** contains, has_range *)
Lemma contains_k : forall s lo v, nfk lo s -> wfv v -> - B < K v < B ->
  (set_contains s v = true <-> memk (K v) s).
Proof.
  induction s as [|[a b] s IH]; intros lo v N W Hv; cbn [set_contains].
  - cbn; split; [discriminate|tauto].
  - pose proof N as (O & L & N'). pose proof O as (W1 & W2 & O1 & O2 & O3). cbn [fst snd] in *.
    rewrite (lt_k B HB), (le_k B HB) by assumption.
    destruct (K v <? K a) eqn:C1.
    { split; [discriminate|]. cbn. intros [X|X]; [lia|]. pose proof (memk_lo B _ _ _ N' X). lia. }
    destruct (K v <=? K b) eqn:C2.
    { split; [|reflexivity]. intros _. left; cbn; lia. }
    rewrite (IH _ v N' W Hv). cbn [SetProofs.memk fst snd]. intuition lia.
Qed.

Lemma has_range_k : forall s lo a b, nfk lo s -> okr (a, b) ->
  (set_has_range s (a, b) = true <-> forall z, - B < z < B -> K a <= z <= K b -> memk z s).
Proof.
  induction s as [|[c d] s IH]; intros lo a b N O; cbn [set_has_range].
  - split; [discriminate|]. intros H. destruct (witness _ O) as (z & Hz & Z1). exfalso. exact (H z Hz Z1).
  - pose proof N as (Os & L & N'). pose proof Os as (W1 & W2 & O1 & O2 & O3).
    pose proof O as (A1 & A2 & A3 & A4 & A5). cbn [fst snd] in *.
    rewrite !(le_k B HB) by assumption.
    pose proof (key_cases B HB d W2) as KD.
    pose proof (key_cases B HB b A2) as KB. pose proof (key_cases B HB a A1) as KA. pose proof (key_cases B HB c W1) as KC.
    unfold BIG, LLONG_MIN, LLONG_MAX in *.
    destruct (set_has_range s (a, b)) eqn:R.
    + split; [|reflexivity]. intros _ z Hz Z1. right. apply (proj1 (IH _ a b N' O) R); assumption.
    + split.
      * intros C z Hz Z1. left. cbn. lia.
      * intros H1.
        assert (NR : ~ (forall z, - B < z < B -> K a <= z <= K b -> memk z s)).
        { intros X. apply (IH _ a b N' O) in X. congruence. }
        destruct (K c <=? K a) eqn:CA; cbn [andb].
        2:{ exfalso. assert (X : memk (Z.min (K c - 1) (K b)) ((c, d) :: s)) by (apply H1; lia).
            destruct X as [X|X]; [cbn in X; lia|]. pose proof (memk_lo B _ _ _ N' X). lia. }
        destruct (K b <=? K d) eqn:BD; [reflexivity|]. exfalso.
        destruct (Z.le_gt_cases (K a) (K d + 1)) as [C|C].
        -- assert (X : memk (K d + 1) ((c, d) :: s)) by (apply H1; lia).
           destruct X as [X|X]; [cbn in X; lia|]. pose proof (memk_lo B _ _ _ N' X). lia.
        -- apply NR. intros z Hz Z1. destruct (H1 z Hz Z1) as [X|X]; [cbn in X; lia|assumption].
Qed.

End K.
Unset Default Proof Using.

(** ** compare *)
Lemma compare_unfold : forall i j sub dis, set_compare_loop i j sub dis =
    match i, j with
    | (a, b) :: i', (c, d) :: j' =>
        if iv_lt d a then set_compare_loop i j' sub dis
        else if iv_lt b c then set_compare_loop i' j false dis
        else if iv_ge a c && iv_le b d then set_compare_loop i' j sub false
        else if iv_le b d then set_compare_loop i' j false false
        else set_compare_loop i j' false false
    | _, _ =>
        let sub := match i with [] => sub | _ => false end in
        if sub then CS_SUBSET else if dis then CS_DISJOINT else CS_NONE
    end.
Proof using. intros [|[a b] i] [|[c d] j]; reflexivity. Qed.

Lemma compare_none : forall n i j, (length i + length j <= n)%nat -> set_compare_loop i j false false = CS_NONE.
Proof.
  induction n as [|n IH]; intros i j Hn; rewrite compare_unfold.
  - destruct i; [|cbn in Hn; lia]. reflexivity.
  - destruct i as [|[a b] i]; [reflexivity|]. destruct j as [|[c d] j]; [reflexivity|]. cbn [length] in Hn.
    repeat match goal with |- (if ?b then _ else _) = _ => destruct b end; apply IH; cbn [length]; lia.
Qed.

(** all values of the range list are well-formed *)
Definition wfs (s : iset) : Prop := forall r, In r s -> wfv (fst r) /\ wfv (snd r) /\ key BIG (fst r) <= key BIG (snd r).

Lemma compare_k : forall n i j sub dis, (length i + length j <= n)%nat -> wfs i -> wfs j ->
  set_compare_loop i j sub dis =
  if sub && set_subset i j then CS_SUBSET else if dis && set_disjoint i j then CS_DISJOINT else CS_NONE.
Proof.
  induction n as [|n IH]; intros i j sub dis Hn Wi Wj; rewrite compare_unfold, subset_unfold, disjoint_unfold.
  - destruct i; [|cbn in Hn; lia]. rewrite !andb_true_r. reflexivity.
  - destruct i as [|[a b] i]; [rewrite !andb_true_r; reflexivity|].
    destruct j as [|[c d] j]; [rewrite andb_false_r, andb_true_r; reflexivity|]. cbn [length] in Hn.
    destruct (Wi (a, b) (or_introl eq_refl)) as (Wa & Wb & Wab). destruct (Wj (c, d) (or_introl eq_refl)) as (Wc & Wd & Wcd).
    cbn [fst snd] in *.
    assert (Wi' : wfs i) by (intros r Hr; apply Wi; right; assumption).
    assert (Wj' : wfs j) by (intros r Hr; apply Wj; right; assumption).
    destruct (iv_lt d a) eqn:E1.
    { apply IH; try assumption. cbn [length]; lia. }
    destruct (iv_lt b c) eqn:E2.
    { rewrite IH; try assumption; [|cbn [length]; lia].
      assert (E3 : iv_ge a c && iv_le b d = false).
      { unfold iv_ge. rewrite (iv_lt_key BIG) in E1, E2 by (assumption || lia). rewrite !(iv_le_key BIG) by (assumption || lia). lia. }
      rewrite E3, andb_false_r. reflexivity. }
    destruct (iv_ge a c && iv_le b d) eqn:E3.
    { rewrite IH; try assumption; [|cbn [length]; lia]. rewrite andb_false_r. reflexivity. }
    rewrite !andb_false_r.
    destruct (iv_le b d); apply (compare_none n); cbn [length]; lia.
Qed.

(** * Finite sets and their element lists *)
Fixpoint zseq (a : Z) (n : nat) : list Z := match n with O => [] | S n' => a :: zseq (a + 1) n' end.
Fixpoint elems (s : iset) : list Z :=
  match s with [] => [] | (a, b) :: s' => zseq (iv_v a) (Z.to_nat (iv_v b - iv_v a + 1)) ++ elems s' end.
Definition all_finite (s : iset) : Prop := forall r, In r s -> iv_inf (fst r) = false /\ iv_inf (snd r) = false.

Lemma zseq_In : forall n a z, In z (zseq a n) <-> a <= z < a + Z.of_nat n.
Proof.
  induction n as [|n IH]; intros a z; cbn [zseq In].
  - lia.
  - rewrite IH. lia.
Qed.
Lemma zseq_length : forall n a, length (zseq a n) = n.
Proof. induction n; intros; cbn; [reflexivity|]. f_equal; auto. Qed.
Lemma zseq_app : forall n m a, zseq a (n + m) = zseq a n ++ zseq (a + Z.of_nat n) m.
Proof.
  induction n as [|n IH]; intros m a; cbn [zseq app Nat.add].
  - f_equal; lia.
  - f_equal. rewrite IH. f_equal. f_equal; lia.
Qed.

(** head lower bound form of increasing *)
Fixpoint incr_from (lo : Z) (l : list Z) : Prop :=
  match l with [] => True | x :: l' => lo <= x /\ incr_from (x + 1) l' end.
Lemma incr_weaken : forall l lo lo', lo' <= lo -> incr_from lo l -> incr_from lo' l.
Proof. destruct l; cbn; intros; auto. split; [lia|tauto]. Qed.
Lemma incr_lo : forall l lo z, incr_from lo l -> In z l -> lo <= z.
Proof.
  induction l as [|x l IH]; cbn; intros; [contradiction|]. destruct H. destruct H0; [lia|].
  specialize (IH _ _ H1 H0). lia.
Qed.
Lemma increasing_from : forall l, increasing l <-> (l = [] \/ exists lo, incr_from lo l).
Proof.
  induction l as [|x l IH]; [split; [auto|constructor]|].
  split.
  - intros H. right. exists x. cbn. split; [lia|]. destruct l as [|y l]; [exact I|].
    cbn in H. destruct H as [H1 H2]. apply IH in H2. destruct H2 as [H2|[lo H2]]; [discriminate|].
    cbn in H2 |- *. split; [lia|tauto].
  - intros [H|[lo H]]; [discriminate|]. cbn in H. destruct H as [H1 H2].
    destruct l as [|y l]; [exact I|]. cbn [increasing]. cbn in H2. split; [lia|].
    apply IH. right. exists y. cbn. split; [lia|tauto].
Qed.
Lemma zseq_incr : forall n a l, incr_from (a + Z.of_nat n) l -> incr_from a (zseq a n ++ l).
Proof.
  induction n as [|n IH]; intros a l H; cbn [zseq app].
  - eapply incr_weaken; [|exact H]. lia.
  - cbn [incr_from]. split; [lia|]. apply IH. eapply incr_weaken; [|exact H]. lia.
Qed.
Lemma incr_unique : forall l m lo lo', incr_from lo l -> incr_from lo' m -> (forall z, In z l <-> In z m) -> l = m.
Proof.
  induction l as [|x l IH]; intros [|y m] lo lo' Hl Hm H.
  - reflexivity.
  - exfalso. apply (H y). left; reflexivity.
  - exfalso. apply (H x). left; reflexivity.
  - cbn in Hl, Hm. destruct Hl as [Hl1 Hl2], Hm as [Hm1 Hm2].
    assert (x = y).
    { assert (X : In x (y :: m)) by (apply H; left; reflexivity).
      assert (Y : In y (x :: l)) by (apply H; left; reflexivity).
      destruct X as [X|X]; [auto|]. destruct Y as [Y|Y]; [auto|].
      pose proof (incr_lo _ _ _ Hm2 X). pose proof (incr_lo _ _ _ Hl2 Y). lia. }
    subst y. f_equal. eapply IH; [exact Hl2|exact Hm2|].
    intros z. specialize (H z). cbn in H. split; intros M.
    + pose proof (incr_lo _ _ _ Hl2 M). destruct H as [H _]. destruct (H (or_intror M)); [lia|assumption].
    + pose proof (incr_lo _ _ _ Hm2 M). destruct H as [_ H]. destruct (H (or_intror M)); [lia|assumption].
Qed.

Lemma enumerates_unique : forall l m s, enumerates l s -> enumerates m s -> l = m.
Proof.
  intros l m s [H1 H2] [H3 H4]. apply increasing_from in H1, H3.
  assert (E : forall z, In z l <-> In z m) by (intros z; rewrite H2, H4; tauto).
  destruct H1 as [->|[lo H1]].
  - destruct m as [|y m]; [reflexivity|]. exfalso. apply (E y). left; reflexivity.
  - destruct H3 as [->|[lo' H3]].
    + destruct l as [|y l]; [reflexivity|]. exfalso. apply (E y). left; reflexivity.
    + eapply incr_unique; eassumption.
Qed.

Lemma all_finite_tail : forall r s, all_finite (r :: s) -> all_finite s.
Proof. intros r s H r' Hr. apply H. right; assumption. Qed.

Lemma key_finite : forall B x, iv_inf x = false -> key B x = iv_v x.
Proof. intros B x H; unfold key; rewrite H; reflexivity. Qed.

Lemma elems_incr : forall B s lo, BIG <= B -> nfk B lo s -> all_finite s -> incr_from lo (elems s).
Proof.
  intros B. induction s as [|[a b] s IH]; intros lo HB N F; cbn; [exact I|].
  pose proof N as (O & L & N'). pose proof O as (W1 & W2 & O1 & O2 & O3). cbn [fst snd] in *.
  destruct (F _ (or_introl eq_refl)) as [Fa Fb]. cbn [fst snd] in *.
  rewrite (key_finite B a Fa) in *. rewrite (key_finite B b Fb) in *.
  apply incr_weaken with (lo := iv_v a); [assumption|].
  apply zseq_incr. eapply incr_weaken; [|apply (IH _ HB N' (all_finite_tail _ _ F))]. lia.
Qed.
Lemma elems_memk : forall B s lo z, BIG <= B -> nfk B lo s -> all_finite s -> (In z (elems s) <-> memk B z s).
Proof.
  intros B. induction s as [|[a b] s IH]; intros lo z HB N F; cbn [elems memk SetProofs.memk fst snd]; [cbn; tauto|].
  pose proof N as (O & L & N'). pose proof O as (W1 & W2 & O1 & O2 & O3). cbn [fst snd] in *.
  destruct (F _ (or_introl eq_refl)) as [Fa Fb]. cbn [fst snd] in *.
  rewrite in_app_iff, zseq_In, (IH _ z HB N' (all_finite_tail _ _ F)).
  rewrite (key_finite B a Fa) in *. rewrite (key_finite B b Fb) in *.
  intuition lia.
Qed.

(** ** cardinality *)
Lemma cardinality_fin : forall B s lo acc, BIG <= B -> nfk B lo s -> all_finite s -> 0 <= acc <= LLONG_MAX ->
  cardinality_loop s (ofZ acc) =
  let n := acc + Z.of_nat (length (elems s)) in
  if n <=? LLONG_MAX then Ok (ofZ n) else Err ArithmeticError.
Proof.
  intros B. induction s as [|[a b] s IH]; intros lo acc HB N F Ha; cbn [cardinality_loop elems].
  - cbn zeta. cbn [length]. replace (acc + Z.of_nat 0) with acc by lia. replace (_ <=? _) with true by lia. reflexivity.
  - pose proof N as (O & L & N'). pose proof O as (W1 & W2 & O1 & O2 & O3). cbn [fst snd] in *.
    destruct (F _ (or_introl eq_refl)) as [Fa Fb]. cbn [fst snd] in *.
    rewrite (key_finite B a Fa) in *. rewrite (key_finite B b Fb) in *.
    unfold width, isFinite. cbn [fst snd]. rewrite Fa, Fb. cbn [negb andb].
    destruct a as [va ia], b as [vb ib]. cbn [iv_v iv_inf] in *. subst ia ib.
    unfold wfv in W1, W2. cbn in W1, W2.
    change (mkIV vb false) with (ofZ vb). change (mkIV va false) with (ofZ va).
    rewrite (iv_sub_spec _ _ vb va) by (apply is_int_ofZ; assumption).
    rewrite app_length, zseq_length. cbv zeta.
    unfold outcome at 1. destruct (fits64b (vb - va)) eqn:E1; cbn [bind].
    2:{ unfold fits64b, fits64, LLONG_MIN, LLONG_MAX in *. replace (_ <=? _) with false by lia. reflexivity. }
    rewrite (iv_add_spec _ _ (vb - va) 1); [| apply is_int_ofZ; unfold fits64b, fits64 in *; lia | apply is_int_ofZ; apply fits1].
    unfold outcome at 1. destruct (fits64b (vb - va + 1)) eqn:E2; cbn [bind isFinite ofZ iv_inf negb].
    2:{ unfold fits64b, fits64, LLONG_MIN, LLONG_MAX in *. replace (_ <=? _) with false by lia. reflexivity. }
    change (add_assign (ofZ acc) (ofZ (vb - va + 1))) with (iv_add (ofZ acc) (ofZ (vb - va + 1))).
    rewrite (iv_add_spec _ _ acc (vb - va + 1)); [| apply is_int_ofZ; unfold fits64, LLONG_MIN in *; lia | apply is_int_ofZ; unfold fits64b, fits64 in *; lia].
    unfold outcome at 1. destruct (fits64b (acc + (vb - va + 1))) eqn:E3; cbn [bind].
    2:{ unfold fits64b, fits64, LLONG_MIN, LLONG_MAX in *. replace (_ <=? _) with false by lia. reflexivity. }
    rewrite (IH _ _ HB N' (all_finite_tail _ _ F)); [|unfold fits64b, fits64 in *; lia]. cbv zeta.
    replace (acc + (vb - va + 1) + Z.of_nat (length (elems s))) with
            (acc + Z.of_nat (Z.to_nat (vb - va + 1) + length (elems s))) by lia.
    reflexivity.
Qed.

Lemma cardinality_inf : forall B s lo acc, BIG <= B -> nfk B lo s -> ~ all_finite s -> 0 <= acc <= LLONG_MAX ->
  cardinality_loop s (ofZ acc) = Ok iv_infinity \/ cardinality_loop s (ofZ acc) = Err ArithmeticError.
Proof.
  intros B. induction s as [|[a b] s IH]; intros lo acc HB N F Ha; cbn [cardinality_loop].
  - exfalso. apply F. intros r [].
  - pose proof N as (O & L & N'). pose proof O as (W1 & W2 & O1 & O2 & O3). cbn [fst snd] in *.
    unfold width, isFinite. cbn [fst snd].
    destruct (iv_inf a) eqn:Fa; [left; reflexivity|]. destruct (iv_inf b) eqn:Fb; [left; reflexivity|].
    cbn [negb andb].
    destruct a as [va ia], b as [vb ib]. cbn [iv_v iv_inf] in *. subst ia ib.
    unfold wfv in W1, W2. cbn in W1, W2.
    change (mkIV vb false) with (ofZ vb). change (mkIV va false) with (ofZ va).
    rewrite (iv_sub_spec _ _ vb va) by (apply is_int_ofZ; assumption).
    unfold outcome. destruct (fits64b (vb - va)) eqn:E1; cbn [bind]; [|right; reflexivity].
    rewrite (iv_add_spec _ _ (vb - va) 1); [| apply is_int_ofZ; unfold fits64b, fits64 in *; lia | apply is_int_ofZ; apply fits1].
    unfold outcome. destruct (fits64b (vb - va + 1)) eqn:E2; cbn [bind isFinite ofZ iv_inf negb]; [|right; reflexivity].
    change (add_assign (mkIV acc false) (mkIV (vb - va + 1) false)) with (iv_add (ofZ acc) (ofZ (vb - va + 1))).
    rewrite (iv_add_spec _ _ acc (vb - va + 1)); [| apply is_int_ofZ; unfold fits64, LLONG_MIN in *; lia | apply is_int_ofZ; unfold fits64b, fits64 in *; lia].
    unfold outcome. destruct (fits64b (acc + (vb - va + 1))) eqn:E3; cbn [bind]; [|right; reflexivity].
    cbn in O1. apply (IH _ _ HB N').
    + intros X. apply F. intros r [<-|Hr]; [split; reflexivity|apply X; assumption].
    + unfold fits64b, fits64 in *; lia.
Qed.

(** ** values *)
Lemma range_values_ok : forall n a b, (iv_inf a = false) -> (iv_inf b = false) -> fits64 (iv_v a) -> iv_v b < LLONG_MAX ->
  fits64 (iv_v b) -> iv_v a <= iv_v b + 1 -> n = Z.to_nat (iv_v b - iv_v a + 1) ->
  range_values n a b = Ok (map ofZ (zseq (iv_v a) n)).
Proof.
  induction n as [|n IH]; intros a b Fa Fb Wa Hb Wb Hab Hn.
  - cbn [range_values]. replace (iv_le a b) with false; [reflexivity|].
    symmetry. unfold iv_le, isPlusInfinity, isMinusInfinity, isFinite. rewrite Fa, Fb. cbn. lia.
  - cbn [range_values]. replace (iv_le a b) with true.
    2:{ symmetry. unfold iv_le, isPlusInfinity, isMinusInfinity, isFinite. rewrite Fa, Fb. cbn. lia. }
    unfold iv_incr, isFinite. rewrite Fa. cbn [negb].
    rewrite safePlus_spec; [|assumption|apply fits1].
    replace (fits64b (iv_v a + 1)) with true by (symmetry; unfold fits64b, fits64 in *; lia). cbn [bind].
    rewrite IH; cbn [ofZ iv_v iv_inf]; try assumption; try reflexivity; try (unfold fits64 in *; lia).
    cbn [bind zseq map]. do 2 f_equal. destruct a; cbn in *; subst; reflexivity.
Qed.

Lemma to_values_ok : forall B s lo, BIG <= B -> nfk B lo s -> all_finite s ->
  (forall r, In r s -> snd r <> ofZ LLONG_MAX) ->
  to_values s = Ok (map ofZ (elems s)).
Proof.
  intros B. induction s as [|[a b] s IH]; intros lo HB N F M; cbn [to_values elems]; [reflexivity|].
  pose proof N as (O & L & N'). pose proof O as (W1 & W2 & O1 & O2 & O3). cbn [fst snd] in *.
  destruct (F _ (or_introl eq_refl)) as [Fa Fb]. cbn [fst snd] in *.
  rewrite (key_finite B a Fa) in *. rewrite (key_finite B b Fb) in *.
  unfold wfv in W1, W2. rewrite Fa in W1. rewrite Fb in W2.
  rewrite range_values_ok; try assumption; try reflexivity; [|  |lia].
  - cbn [bind]. rewrite (IH _ HB N' (all_finite_tail _ _ F)) by (intros; apply M; right; assumption).
    cbn [bind]. rewrite map_app. reflexivity.
  - pose proof (M _ (or_introl eq_refl)) as M0. cbn in M0. destruct (Z.eq_dec (iv_v b) LLONG_MAX) as [e|e].
    + exfalso. apply M0. destruct b; cbn in *; subst; reflexivity.
    + unfold fits64 in W2. lia.
Qed.

(** ** lexicographic order *)
Lemma lex_app : forall p l m, lex_lt (p ++ l) (p ++ m) <-> lex_lt l m.
Proof.
  induction p as [|x p IH]; intros l m; cbn; [tauto|].
  rewrite <- (IH l m). split; intros H.
  - inversion H; subst; [lia|assumption].
  - constructor; assumption.
Qed.
Lemma lex_nil_r : forall l, ~ lex_lt l [].
Proof. intros l H; inversion H. Qed.
Lemma lex_irrefl : forall l, ~ lex_lt l l.
Proof. induction l as [|x l IH]; intros H; inversion H; subst; [lia|auto]. Qed.

Lemma zseq_cons : forall a n, (0 < n)%nat -> zseq a n = a :: zseq (a + 1) (n - 1).
Proof. intros a [|n] H; [lia|]. cbn. rewrite Nat.sub_0_r. reflexivity. Qed.

Lemma less_lex : forall B s t ls lt, BIG <= B -> nfk B ls s -> nfk B lt t -> all_finite s -> all_finite t ->
  (set_less s t = true <-> lex_lt (elems s) (elems t)) /\
  (set_less_eq s t = true <-> (lex_lt (elems s) (elems t) \/ s = t)).
Proof.
  intros B. induction s as [|[a b] s IH]; intros t ls lt HB Ns Nt Fs Ft.
  { destruct t as [|[c d] t]; cbn [set_less set_less_eq elems].
    - split; [split; [discriminate|intros X; inversion X]|]. split; [auto|reflexivity].
    - pose proof Nt as (O & _). pose proof O as (W1 & W2 & O1 & _). cbn [fst snd] in *.
      destruct (Ft _ (or_introl eq_refl)) as [Fc Fd]. cbn [fst snd] in *.
      rewrite (key_finite B c Fc), (key_finite B d Fd) in O1.
      rewrite zseq_cons by lia. split; (split; [intros _|reflexivity]); [constructor|left; constructor]. }
  pose proof Ns as (Oi & Li & Ns'). pose proof Oi as (A1 & A2 & A3 & A4 & A5). cbn [fst snd] in *.
  destruct (Fs _ (or_introl eq_refl)) as [Fa Fb]. cbn [fst snd] in *.
  rewrite (key_finite B a Fa), (key_finite B b Fb) in *.
  destruct t as [|[c d] t].
  { cbn [set_less set_less_eq elems]. rewrite zseq_cons by lia. cbn [app].
    split; (split; [discriminate|]); [intros X; inversion X|intros [X|X]; [inversion X|discriminate]]. }
  pose proof Nt as (Oj & Lj & Nt'). pose proof Oj as (C1 & C2 & C3 & C4 & C5). cbn [fst snd] in *.
  destruct (Ft _ (or_introl eq_refl)) as [Fc Fd]. cbn [fst snd] in *.
  rewrite (key_finite B c Fc), (key_finite B d Fd) in *.
  pose proof (all_finite_tail _ _ Fs) as Fs'. pose proof (all_finite_tail _ _ Ft) as Ft'.
  cbn [set_less set_less_eq elems]. unfold iv_gt.
  rewrite !(iv_lt_key B) by assumption.
  rewrite (key_finite B a Fa), (key_finite B b Fb), (key_finite B c Fc), (key_finite B d Fd).
  destruct (iv_v a <? iv_v c) eqn:E1.
  { rewrite zseq_cons by lia. rewrite (zseq_cons (iv_v c)) by lia. cbn [app].
    split; (split; [intros _|reflexivity]); [|left]; apply lex_head; lia. }
  destruct (iv_v c <? iv_v a) eqn:E2.
  { rewrite zseq_cons by lia. rewrite (zseq_cons (iv_v c)) by lia. cbn [app].
    split; (split; [discriminate|]).
    - intros X; inversion X; lia.
    - intros [X|X]; [inversion X; lia|]. inversion X; subst; lia. }
  assert (EA : iv_v a = iv_v c) by lia.
  destruct (iv_v b <? iv_v d) eqn:E3.
  { (* the second first range extends further *)
    replace (Z.to_nat (iv_v d - iv_v c + 1)) with (Z.to_nat (iv_v b - iv_v a + 1) + Z.to_nat (iv_v d - iv_v b))%nat by lia.
    rewrite <- EA. rewrite zseq_app, <- app_assoc.
    replace (iv_v a + Z.of_nat (Z.to_nat (iv_v b - iv_v a + 1))) with (iv_v b + 1) by lia.
    rewrite (zseq_cons (iv_v b + 1)) by lia.
    destruct s as [|[a' b'] s'].
    - cbn [elems]. split; (split; [intros _|reflexivity]); [|left]; apply lex_app; constructor.
    - pose proof Ns' as (Oi' & Li' & _). pose proof Oi' as (A1' & A2' & A3' & _). cbn [fst snd] in *.
      destruct (Fs' _ (or_introl eq_refl)) as [Fa' Fb']. cbn [fst snd] in *.
      rewrite (key_finite B a' Fa') in *. rewrite (key_finite B b' Fb') in A3'.
      assert (NO : ~ lex_lt (zseq (iv_v a) (Z.to_nat (iv_v b - iv_v a + 1)) ++ elems ((a', b') :: s'))
                   (zseq (iv_v a) (Z.to_nat (iv_v b - iv_v a + 1)) ++ (iv_v b + 1 :: zseq (iv_v b + 1 + 1) (Z.to_nat (iv_v d - iv_v b) - 1)) ++ elems t)).
      { intros X. apply lex_app in X. cbn [elems] in X. rewrite zseq_cons in X by lia. cbn [app] in X. inversion X; lia. }
      split; (split; [discriminate|]); [intros X; contradiction|].
      intros [X|X]; [contradiction|]. inversion X; subst; lia. }
  destruct (iv_v d <? iv_v b) eqn:E4.
  { replace (Z.to_nat (iv_v b - iv_v a + 1)) with (Z.to_nat (iv_v d - iv_v c + 1) + Z.to_nat (iv_v b - iv_v d))%nat by lia.
    rewrite EA. rewrite zseq_app, <- app_assoc.
    replace (iv_v c + Z.of_nat (Z.to_nat (iv_v d - iv_v c + 1))) with (iv_v d + 1) by lia.
    rewrite (zseq_cons (iv_v d + 1)) by lia.
    destruct t as [|[c' d'] t'].
    - cbn [elems].
      assert (NO : ~ lex_lt (zseq (iv_v c) (Z.to_nat (iv_v d - iv_v c + 1)) ++ (iv_v d + 1 :: zseq (iv_v d + 1 + 1) (Z.to_nat (iv_v b - iv_v d) - 1)) ++ elems s)
                      (zseq (iv_v c) (Z.to_nat (iv_v d - iv_v c + 1)) ++ [])).
      { intros X. apply lex_app in X. inversion X. }
      split; (split; [discriminate|]); [intros X; contradiction|].
      intros [X|X]; [contradiction|]. inversion X; subst; lia.
    - pose proof Nt' as (Oj' & Lj' & _). pose proof Oj' as (C1' & C2' & C3' & _). cbn [fst snd] in *.
      destruct (Ft' _ (or_introl eq_refl)) as [Fc' Fd']. cbn [fst snd] in *.
      rewrite (key_finite B c' Fc') in *. rewrite (key_finite B d' Fd') in C3'.
      cbn [elems]. rewrite (zseq_cons (iv_v c')) by lia. cbn [app].
      split; (split; [intros _|reflexivity]); [|left]; apply lex_app; apply lex_head; lia. }
  assert (EB : iv_v b = iv_v d) by lia.
  rewrite EA, EB. rewrite !lex_app.
  destruct (IH t _ _ HB Ns' Nt' Fs' Ft') as [P Q]. split; [exact P|].
  rewrite Q. split; (intros [X|X]; [left; exact X|right]).
  - subst. f_equal. destruct a, b, c, d; cbn in *; subst; reflexivity.
  - inversion X; reflexivity.
Qed.

(** ** sets from vectors *)
Lemma insert_In : forall x l y, In y (insert_iv x l) <-> y = x \/ In y l.
Proof.
  induction l as [|z l IH]; intros y; cbn; [intuition congruence|].
  destruct (iv_lt z x); cbn; [rewrite IH; intuition congruence|intuition congruence].
Qed.
Lemma sort_In : forall l y, In y (sort_iv l) <-> In y l.
Proof. induction l as [|x l IH]; intros y; cbn; [tauto|]. rewrite insert_In, IH. intuition congruence. Qed.
Lemma sort_perm : forall l, Permutation (sort_iv l) l.
Proof.
  assert (INS : forall x l, Permutation (insert_iv x l) (x :: l)).
  { induction l as [|z l IH]; cbn; [reflexivity|]. destruct (iv_lt z x); [|reflexivity].
    rewrite IH. apply perm_swap. }
  induction l as [|x l IH]; cbn; [reflexivity|]. rewrite INS, IH. reflexivity.
Qed.
Lemma insert_length : forall x l, length (insert_iv x l) = S (length l).
Proof. induction l as [|z l IH]; cbn; [reflexivity|]. destruct (iv_lt z x); cbn; auto. Qed.
Lemma sort_length : forall l, length (sort_iv l) = length l.
Proof. induction l; cbn; [reflexivity|]. rewrite insert_length. auto. Qed.

Fixpoint sortedv (lo : Z) (l : list IntVal) : Prop :=
  match l with [] => True | x :: l' => lo <= iv_v x /\ sortedv (iv_v x) l' end.
Lemma sortedv_weaken : forall l lo lo', lo' <= lo -> sortedv lo l -> sortedv lo' l.
Proof. destruct l; cbn; intros; auto. split; [lia|tauto]. Qed.
Lemma insert_sorted : forall x l lo, iv_inf x = false -> (forall y, In y l -> iv_inf y = false) ->
  lo <= iv_v x -> sortedv lo l -> sortedv lo (insert_iv x l).
Proof.
  induction l as [|z l IH]; intros lo Fx Fl Hx Hl; cbn; [auto|].
  cbn in Hl. destruct Hl as [H1 H2]. pose proof (Fl z (or_introl eq_refl)) as Fz.
  assert (LT : iv_lt z x = (iv_v z <? iv_v x)).
  { unfold iv_lt, isPlusInfinity, isMinusInfinity, isFinite. rewrite Fx, Fz. cbn. reflexivity. }
  rewrite LT. destruct (iv_v z <? iv_v x) eqn:E; cbn.
  - split; [assumption|]. apply IH; [assumption| |lia|assumption]. intros; apply Fl; right; assumption.
  - split; [assumption|]. split; [lia|assumption].
Qed.
Lemma sort_sorted : forall l, (forall y, In y l -> iv_inf y = false) ->
  exists lo, sortedv lo (sort_iv l).
Proof.
  induction l as [|x l IH]; intros F; [exists 0; exact I|].
  destruct IH as [lo H]; [intros; apply F; right; assumption|].
  exists (Z.min lo (iv_v x)). cbn. apply insert_sorted.
  - apply F; left; reflexivity.
  - intros y Hy. apply F. right. apply sort_In; assumption.
  - lia.
  - eapply sortedv_weaken; [|exact H]. lia.
Qed.

Lemma ranges_of_sorted_ok : forall B (E : Prop), BIG <= B -> forall l mn mx,
  (forall y, In y l -> iv_inf y = false /\ wfv y) -> iv_inf mn = false -> iv_inf mx = false -> wfv mn -> wfv mx ->
  iv_v mn <= iv_v mx -> sortedv (iv_v mx) l -> (l <> [] -> mx = ofZ LLONG_MAX -> E) ->
  (forall x l1 l2, l = l1 ++ x :: l2 -> l2 <> [] -> x = ofZ LLONG_MAX -> E) ->
  post (fun r => nfk B (iv_v mn) r /\ all_finite r /\
        forall z, memk B z r <-> iv_v mn <= z <= iv_v mx \/ In (ofZ z) l) E (ranges_of_sorted mn mx l).
Proof.
  intros B E HB. induction l as [|x l IH]; intros mn mx Hl Fn Fx Wn Wx Hnx S HE HE2; cbn [ranges_of_sorted].
  - cbn [post SetProofs.nfk SetProofs.memk fst snd In]. rewrite (key_finite B mn Fn), (key_finite B mx Fx).
    split; [split; [|split; [lia|exact I]]|].
    + unfold okr; cbn [fst snd]. rewrite (key_finite B mn Fn), (key_finite B mx Fx).
      unfold wfv in Wn, Wx. pose proof Wn as Wn'. pose proof Wx as Wx'. rewrite Fn in Wn'. rewrite Fx in Wx'.
      unfold wfv. rewrite Fn, Fx. unfold fits64, BIG, LLONG_MIN, LLONG_MAX in *. lia.
    + split; [intros r [<-|[]]; auto|]. intros; tauto.
  - destruct (Hl x (or_introl eq_refl)) as [Fxx Wxx]. cbn in S. destruct S as [S1 S2].
    assert (Wx' : fits64 (iv_v mx)) by (unfold wfv in Wx; rewrite Fx in Wx; exact Wx).
    assert (Ix : is_int mx (iv_v mx)).
    { apply is_int_iff. split; [destruct mx; cbn in *; subst; reflexivity|assumption]. }
    rewrite (iv_add_spec mx (ofZ 1) (iv_v mx) 1 Ix); [|apply is_int_ofZ, fits1].
    unfold outcome. destruct (fits64b (iv_v mx + 1)) eqn:F.
    2:{ cbn [bind post]. apply HE; [discriminate|]. destruct mx as [v i]; cbn in *. subst i. unfold ofZ. f_equal.
        unfold fits64b, fits64, LLONG_MIN, LLONG_MAX in *. lia. }
    cbn [bind].
    assert (GT : iv_gt x (ofZ (iv_v mx + 1)) = (iv_v mx + 1 <? iv_v x)).
    { unfold iv_gt, iv_lt, isPlusInfinity, isMinusInfinity, isFinite. rewrite Fxx. cbn. reflexivity. }
    rewrite GT.
    assert (HLx : forall y, In y l -> iv_inf y = false /\ wfv y) by (intros; apply Hl; right; assumption).
    assert (HE2' : forall x0 l1 l2, l = l1 ++ x0 :: l2 -> l2 <> [] -> x0 = ofZ LLONG_MAX -> E).
    { intros x0 l1 l2 -> N EQ. apply (HE2 x0 (x :: l1) l2); [reflexivity|assumption|assumption]. }
    assert (HEx : l <> [] -> x = ofZ LLONG_MAX -> E) by (intros NL EQ; apply (HE2 x [] l); [reflexivity|assumption|assumption]).
    assert (XZ : forall z, ofZ z = x <-> z = iv_v x).
    { intros z. destruct x as [v i]; cbn in *; subst i. unfold ofZ. split; [intros X; inversion X; reflexivity|intros ->; reflexivity]. }
    destruct (iv_v mx + 1 <? iv_v x) eqn:C.
    + eapply post_bind; [apply (IH x x HLx Fxx Fxx Wxx Wxx ltac:(lia) S2 HEx HE2')|].
      intros r (N & AF & M). cbn [post SetProofs.nfk SetProofs.memk fst snd].
      rewrite (key_finite B mn Fn), (key_finite B mx Fx).
      split; [split; [|split; [lia|]]|].
      * unfold okr; cbn [fst snd]. rewrite (key_finite B mn Fn), (key_finite B mx Fx).
        unfold wfv in Wn. pose proof Wn as Wn'. rewrite Fn in Wn'.
        unfold wfv. rewrite Fn, Fx. unfold fits64, BIG, LLONG_MIN, LLONG_MAX in *. lia.
      * eapply nfk_weaken; [|exact N]. lia.
      * split; [intros r0 [<-|Hr]; auto|]. intros z. rewrite M. cbn [In].
        assert (x = ofZ z <-> z = iv_v x) by (rewrite <- XZ; split; congruence).
        rewrite H. intuition lia.
    + eapply post_weaken; [apply (IH mn x HLx Fn Fxx Wn Wxx ltac:(lia) S2 HEx HE2')| |auto].
      intros r (N & AF & M). split; [assumption|]. split; [assumption|].
      intros z. rewrite M. cbn [In]. assert (x = ofZ z <-> z = iv_v x) by (rewrite <- XZ; split; congruence).
      rewrite H. intuition lia.
Qed.
