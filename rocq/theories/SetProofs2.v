Require Import ZArith List Bool Lia ZifyBool.
From Verif Require Import Base IntValModel IntValSpec IntValProofs SetModel SetProofs.
Import ListNotations.
Open Scope Z_scope.

Section K.
Context (B : Z) (HB : BIG <= B).
Notation K := (key B).
Notation okr := (okr B).
Notation nfk := (nfk B).
Notation memk := (memk B).

(** ** Intersection *)
Lemma skip_below_ok : forall i m lo, nfk lo i -> wfv m ->
  nfk lo (skip_below i m) /\ (length (skip_below i m) <= length i)%nat /\
  (forall z, K m <= z -> (memk z i <-> memk z (skip_below i m))) /\
  (forall z, memk z (skip_below i m) -> memk z i) /\
  (forall r t, skip_below i m = r :: t -> K m <= K (snd r)) /\
  (length (skip_below i m) = length i -> skip_below i m = i) /\
  (forall r, In r (skip_below i m) -> In r i).
Proof.
  induction i as [|[a b] i IH]; intros m lo N W; cbn [skip_below].
  - repeat split; auto; try tauto. discriminate.
  - pose proof N as N0. cbn in N. destruct N as (O & L & N). pose proof O as (W1 & W2 & O1 & O2 & O3). cbn [fst snd] in *.
    rewrite (lt_k B HB) by assumption.
    destruct (K b <? K m) eqn:C.
    + assert (N' : nfk lo i) by (eapply nfk_weaken; [|exact N]; lia).
      destruct (IH m lo N' W) as (H1 & H2 & H3 & H4 & H5 & H6 & H7).
      split; [assumption|]. split; [cbn; lia|]. split.
      { intros z Hz. cbn [memk SetProofs.memk fst snd]. rewrite <- (H3 z Hz). intuition lia. }
      split; [cbn; auto|]. split; [assumption|]. split; [cbn; lia|]. intros; right; auto.
    + split; [assumption|]. split; [lia|]. split; [tauto|]. split; [tauto|].
      split; [|split; [reflexivity|auto]]. intros r t H; inversion H; subst. cbn. lia.
Qed.

Lemma inter_align_ok : forall n i j li lj, (length i + length j <= n)%nat ->
  nfk li i -> nfk lj j -> j <> [] ->
  exists o, inter_align n i j = Ok o /\
   match o with
   | None => forall z, memk z i -> memk z j -> False
   | Some ((a, b) :: i', (c, d) :: j') =>
       nfk li ((a, b) :: i') /\ nfk lj ((c, d) :: j') /\ K c <= K b /\ K a <= K d /\
       (length i' + length j' + 2 <= length i + length j)%nat /\
       (forall z, (memk z i /\ memk z j) <-> (memk z ((a, b) :: i') /\ memk z ((c, d) :: j')))
   | Some _ => False
   end.
Proof.
  induction n as [|n IH]; intros i j li lj Hn Ni Nj Hj.
  { destruct j; [contradiction|]. cbn in Hn. lia. }
  cbn [inter_align]. destruct j as [|[c d] j]; [contradiction|].
  pose proof Nj as (Oj & Lj & Nj'). pose proof Oj as (C1 & C2 & C3 & C4 & C5). cbn [fst snd] in *.
  destruct (skip_below_ok i c li Ni C1) as (H1 & H2 & H3 & H4 & H5 & _ & _).
  destruct (skip_below i c) as [|[a b] i'] eqn:SI.
  { eexists; split; [reflexivity|]. intros z Mi Mj. cbn.
    assert (K c <= z). { cbn in Mj. destruct Mj as [Mj|Mj]; [lia|]. pose proof (memk_lo B _ _ _ Nj' Mj). lia. }
    apply (H3 z H) in Mi. exact Mi. }
  specialize (H5 _ _ eq_refl). cbn [fst snd] in H5.
  pose proof H1 as (Oi & Li & Ni'). pose proof Oi as (A1 & A2 & A3 & A4 & A5). cbn [fst snd] in *.
  destruct (skip_below_ok ((c, d) :: j) a lj Nj A1) as (J1 & J2 & J3 & J4 & J5 & J6 & _).
  set (j0 := (c, d) :: j) in *.
  assert (EQ : forall z, memk z i /\ memk z j0 <-> memk z ((a, b) :: i') /\ memk z (skip_below j0 a)).
  { intros z. split.
    - intros [Mi Mj]. assert (K c <= z). { unfold j0 in Mj; cbn in Mj. destruct Mj as [Mj|Mj]; [lia|]. pose proof (memk_lo B _ _ _ Nj' Mj). lia. }
      apply (H3 z H) in Mi. split; [assumption|]. apply J3; [|assumption].
      cbn in Mi. destruct Mi as [Mi|Mi]; [lia|]. pose proof (memk_lo B _ _ _ Ni' Mi). lia.
    - intros [Mi Mj]. split; auto. }
  destruct (skip_below j0 a) as [|[c' d'] j'] eqn:SJ.
  { eexists; split; [reflexivity|]. intros z Mi Mj. destruct (proj1 (EQ z) (conj Mi Mj)) as [_ X]. exact X. }
  specialize (J5 _ _ eq_refl). cbn [fst snd] in J5.
  pose proof J1 as (Oj' & Lj' & Nj''). pose proof Oj' as (D1 & D2 & D3 & D4 & D5). cbn [fst snd] in *.
  rewrite (lt_k B HB) by assumption.
  destruct (K b <? K c') eqn:C.
  - assert (LT : (length ((c', d') :: j') < length j0)%nat).
    { apply Nat.le_neq. split; [exact J2|]. intros e.
      specialize (J6 e). unfold j0 in J6. injection J6 as X Y Z0. subst c'. lia. }
    destruct (IH ((a, b) :: i') ((c', d') :: j') li lj) as (o & Ho & Po); try assumption; try discriminate; [unfold j0 in *; cbn [length] in *; lia|].
    exists o. split; [exact Ho|].
    destruct o as [[[|[a2 b2] i2] [|[c2 d2] j2]]|]; try contradiction.
    + destruct Po as (P1 & P2 & P3 & P4 & P5 & P6).
      repeat (split; [first [assumption|unfold j0 in *; cbn [length] in *; lia]|]). intros z. rewrite EQ. apply P6.
    + intros z Mi Mj. destruct (proj1 (EQ z) (conj Mi Mj)) as [X Y]. exact (Po z X Y).
  - eexists; split; [reflexivity|]. cbn iota.
    split; [assumption|]. split; [assumption|]. split; [lia|]. split; [lia|].
    split; [unfold j0 in *; cbn [length] in *; lia|]. exact EQ.
Qed.

Definition both (i j : iset) (z : Z) : Prop := memk z i /\ memk z j.

Lemma inter_next_ok : forall i j li lj, nfk li i -> nfk lj j ->
  exists st, inter_next i j = Ok st /\
   ((K (ma st) < K (mi st) /\ wfv (mi st) /\ wfv (ma st) /\ forall z, ~ both i j z) \/
    (okr (mi st, ma st) /\ Z.max li lj <= K (mi st) /\
     (exists li' lj', nfk li' (ii st) /\ nfk lj' (jj st) /\ K (ma st) + 2 <= Z.max li' lj') /\
     (length (ii st) + length (jj st) < length i + length j)%nat /\
     forall z, both i j z <-> K (mi st) <= z <= K (ma st) \/ both (ii st) (jj st) z)).
Proof.
  intros i j li lj Ni Nj.
  destruct i as [|[a0 b0] i0].
  { eexists; split; [reflexivity|]. left. destruct (finish_k B [] j) as (F1 & F2 & F3).
    repeat (split; [assumption|]). intros z [M _]; exact M. }
  destruct j as [|[c0 d0] j0].
  { eexists; split; [reflexivity|]. left. destruct (finish_k B ((a0, b0) :: i0) []) as (F1 & F2 & F3).
    repeat (split; [assumption|]). intros z [_ M]; exact M. }
  set (i := (a0, b0) :: i0) in *. set (j := (c0, d0) :: j0) in *.
  destruct (inter_align_ok (length i + length j) i j li lj) as (o & Ho & Po); try assumption; [lia|discriminate|].
  change (inter_next i j) with (do o <- inter_align (length i + length j) i j;
      match o with
      | Some ((a, b) :: i', (c, d) :: j') =>
          if iv_lt b d then Ok (mkIt (iv_max a c) (iv_min b d) i' ((c, d) :: j'))
          else Ok (mkIt (iv_max a c) (iv_min b d) ((a, b) :: i') j')
      | _ => Ok (finish i j)
      end).
  rewrite Ho. cbn [bind].
  destruct o as [[[|[a b] i'] [|[c d] j']]|]; try contradiction.
  2:{ eexists; split; [reflexivity|]. left. destruct (finish_k B i j) as (F1 & F2 & F3).
      repeat (split; [assumption|]). intros z [M1 M2]. exact (Po z M1 M2). }
  destruct Po as (P1 & P2 & P3 & P4 & P5 & P6).
  pose proof P1 as (Oi & Li & Ni'). pose proof Oi as (A1 & A2 & A3 & A4 & A5).
  pose proof P2 as (Oj & Lj & Nj'). pose proof Oj as (C1 & C2 & C3 & C4 & C5). cbn [fst snd] in *.
  destruct (max_k B HB a c A1 C1) as [Wx Kx]. destruct (min_k B HB b d A2 C2) as [Wn Kn].
  assert (OK : okr (iv_max a c, iv_min b d)).
  { repeat split; cbn [fst snd]; try assumption; rewrite ?Kx, ?Kn; lia. }
  rewrite (lt_k B HB) by assumption.
  destruct (K b <? K d) eqn:C.
  - eexists; split; [reflexivity|]. right. cbn [mi ma ii jj].
    split; [exact OK|]. split; [rewrite Kx; lia|]. split.
    { exists (K b + 2), lj. split; [assumption|]. split; [assumption|]. rewrite Kn. lia. }
    split; [cbn [length]; lia|].
    intros z. unfold both. rewrite P6. rewrite Kx, Kn. cbn [memk SetProofs.memk fst snd].
    split.
    + intros [[M1|M1] [M2|M2]]; [left; lia | | right; auto | right; auto].
      exfalso. pose proof (memk_lo B _ _ _ Nj' M2). lia.
    + intros [M|[M1 M2]]; [split; left; lia|]. split; [right; assumption|exact M2].
  - eexists; split; [reflexivity|]. right. cbn [mi ma ii jj].
    split; [exact OK|]. split; [rewrite Kx; lia|]. split.
    { exists li, (K d + 2). split; [assumption|]. split; [assumption|]. rewrite Kn. lia. }
    split; [cbn [length]; lia|].
    intros z. unfold both. rewrite P6. rewrite Kx, Kn. cbn [memk SetProofs.memk fst snd].
    split.
    + intros [[M1|M1] [M2|M2]]; [left; lia | right; auto | | right; auto].
      exfalso. pose proof (memk_lo B _ _ _ Ni' M1). lia.
    + intros [M|[M1 M2]]; [split; left; lia|]. split; [exact M1|right; assumption].
Qed.

Lemma inter_drain_ok : forall n st lo,
  (K (ma st) < K (mi st) /\ wfv (mi st) /\ wfv (ma st)) \/
  (okr (mi st, ma st) /\ lo <= K (mi st) /\
   (exists li' lj', nfk li' (ii st) /\ nfk lj' (jj st) /\ K (ma st) + 2 <= Z.max li' lj') /\
   (length (ii st) + length (jj st) < n)%nat) ->
  exists s, drain (fun st => inter_next (ii st) (jj st)) n st = Ok s /\ nfk lo s /\
    forall z, memk z s <-> K (mi st) <= z <= K (ma st) \/ (K (mi st) <= K (ma st) /\ both (ii st) (jj st) z).
Proof.
  induction n as [|n IH]; intros st lo H.
  - cbn [drain]. destruct H as [(H & W1 & W2)|H]; [|lia].
    rewrite (le_k B HB) by assumption. replace (_ <=? _) with false by lia.
    eexists; split; [reflexivity|]. split; [exact I|]. cbn; intuition lia.
  - cbn [drain]. destruct H as [(H & W1 & W2)|(O & L & (li & lj & N1 & N2 & LL) & Hn)].
    { rewrite (le_k B HB) by assumption. replace (_ <=? _) with false by lia.
      eexists; split; [reflexivity|]. split; [exact I|]. cbn; intuition lia. }
    pose proof O as (W1 & W2 & O1 & O2 & O3). cbn [fst snd] in *.
    rewrite (le_k B HB) by assumption. replace (_ <=? _) with true by lia.
    destruct (inter_next_ok _ _ li lj N1 N2) as (st' & Es & H). rewrite Es. cbn [bind].
    destruct (IH st' (K (ma st) + 2)) as (l & El & Nl & Ml).
    { destruct H as [(H1 & H2 & H3 & H4)|(H1 & H2 & H3 & H4 & H5)]; [left; auto|right].
      split; [assumption|]. split; [lia|]. split; [assumption|]. lia. }
    rewrite El. cbn [bind]. eexists; split; [reflexivity|].
    split; [cbn; auto|]. intros z. cbn [memk SetProofs.memk fst snd]. rewrite Ml.
    destruct H as [(H1 & H2 & H3 & H4)|(H1 & H2 & H3 & H4 & H5)].
    + specialize (H4 z). intuition lia.
    + unfold SetProofs.okr in H1; cbn [fst snd] in H1. rewrite (H5 z). clear H5 Ml. intuition lia.
Qed.

Lemma set_inter_ok : forall s t lo, nfk lo s -> nfk lo t ->
  exists r, set_inter s t = Ok r /\ nfk lo r /\ forall z, memk z r <-> memk z s /\ memk z t.
Proof.
  intros s t lo Ns Nt. unfold set_inter.
  destruct (inter_next_ok s t lo lo Ns Nt) as (st & Es & H). rewrite Es. cbn [bind].
  destruct (inter_drain_ok (length s + length t) st lo) as (r & Er & Nr & Mr).
  { destruct H as [(H1 & H2 & H3 & H4)|(H1 & H2 & H3 & H4 & H5)]; [left; auto|right].
    split; [assumption|]. split; [lia|]. split; assumption. }
  exists r. split; [assumption|]. split; [assumption|]. intros z. rewrite Mr.
  destruct H as [(H1 & H2 & H3 & H4)|(H1 & H2 & H3 & H4 & H5)].
  - specialize (H4 z). unfold both in *. intuition lia.
  - unfold SetProofs.okr in H1; cbn [fst snd] in H1. fold (both s t z). rewrite (H5 z). clear H5 Mr. intuition lia.
Qed.

(** ** Difference *)
Definition loE (E : Prop) (s : iset) : Prop := forall r, In r s -> fst r = ofZ LLONG_MIN -> E.

(** elements of i beyond m that are not in j *)
Definition rest (m : Z) (i j : iset) (z : Z) : Prop := m < z /\ memk z i /\ ~ memk z j.

(** state between two calls: m is where the last delivered range ended *)
Definition dinv (m : IntVal) (i j : iset) : Prop :=
  match i with
  | [] => True
  | (a, b) :: _ =>
      (K b <= K m \/ match j with (c, d) :: _ => K c = K m + 1 | [] => False end)
  end.

Lemma wfv_0 : wfv (ofZ 0).
Proof. unfold wfv, fits64, LLONG_MIN, LLONG_MAX; cbn; lia. Qed.

(** result of operator++ *)
Definition dpost (E : Prop) (init : bool) (lo : Z) (m : IntVal) (i j : iset) (st : it2) : Prop :=
  (K (ma st) < K (mi st) /\ wfv (mi st) /\ wfv (ma st) /\ forall z, - B < z < B -> ~ rest (K m) i j z) \/
  (okr (mi st, ma st) /\ lo <= K (mi st) /\
   (exists a b i', ii st = (a, b) :: i' /\ K a <= K (mi st) /\ K (ma st) <= K b) /\
   (exists l, nfk l (jj st)) /\ (exists l, nfk l (ii st)) /\ dinv (ma st) (ii st) (jj st) /\
   hiE E (ii st) /\ hiE E (jj st) /\ loE E (jj st) /\ (ma st = ofZ LLONG_MAX -> E) /\
   (length (ii st) + length (jj st) <= length i + length j)%nat /\
   (init = false -> length (ii st) + length (jj st) < length i + length j)%nat /\
   forall z, - B < z < B -> (rest (K m) i j z <-> K (mi st) <= z <= K (ma st) \/ rest (K (ma st)) (ii st) (jj st) z)).

Lemma loE_sub : forall E s s', loE E s -> (forall r, In r s' -> In r s) -> loE E s'.
Proof. unfold loE; intros; eapply H; eauto. Qed.
Lemma hiE_sub : forall E s s', hiE E s -> (forall r, In r s' -> In r s) -> hiE E s'.
Proof. unfold hiE; intros; eapply H; eauto. Qed.

(* the part of the iteration after the current interval [mi2, b2] of i has been determined *)
Definition diff_tail (n : nat) (mi2 ma2 : IntVal) (i2 j : iset) : res it2 :=
            let j2 := skip_below j mi2 in
            match j2 with
            | (c, d) :: j3 =>
                if iv_le c ma2 then
                  if iv_ge mi2 c && iv_le ma2 d then diff_next n ma2 i2 j2
                  else if iv_le c mi2 then
                    do mi3 <- next_higher d;
                    match j3 with
                    | (c', d') :: _ =>
                        if iv_le c' ma2 then
                          do ma3 <- next_lower c'; Ok (mkIt mi3 ma3 i2 j3)
                        else Ok (mkIt mi3 ma2 i2 j3)
                    | [] => Ok (mkIt mi3 ma2 i2 j3)
                    end
                  else
                    do ma3 <- next_lower c; Ok (mkIt mi2 ma3 i2 j2)
                else Ok (mkIt mi2 ma2 i2 j2)
            | [] => Ok (mkIt mi2 ma2 i2 j2)
            end.

Definition dnext_spec (E : Prop) (n : nat) : Prop := forall init lo m i j a b i',
  i = (a, b) :: i' -> wfv m -> (exists l, nfk l i) -> (exists l, nfk l j) ->
  hiE E i -> hiE E j -> loE E j -> (m = ofZ LLONG_MAX -> E) ->
  K a <= K m + 1 -> K m <= K b ->
  (init = true /\ lo <= K a /\ (K m + 1 = K a \/ (K m = - B /\ K a = - B)) \/
   init = false /\ lo <= K m + 2 /\ dinv m i j) ->
  ((length i < n)%nat \/ ((length i <= n)%nat /\ K b <= K m)) ->
  post (dpost E init lo m i j) E (diff_next n m i j).

Lemma diff_tail_ok : forall (E : Prop) n, dnext_spec E n ->
  forall lo mi2 a2 b2 i2' j,
  let i2 := (a2, b2) :: i2' in
  wfv mi2 -> (exists l, nfk l i2) -> (exists l, nfk l j) ->
  hiE E i2 -> hiE E j -> loE E j ->
  K a2 <= K mi2 -> K mi2 <= K b2 -> K mi2 < B ->
  lo <= K mi2 + 1 ->
  (lo <= K mi2 \/ match j with (c, d) :: _ => K c = K mi2 | [] => False end) ->
  (length i2 <= n)%nat ->
  post (fun st =>
   (K (ma st) < K (mi st) /\ wfv (mi st) /\ wfv (ma st) /\ forall z, - B < z < B -> ~ (K mi2 <= z /\ memk z i2 /\ ~ memk z j)) \/
   (okr (mi st, ma st) /\ lo <= K (mi st) /\
    (exists a b i', ii st = (a, b) :: i' /\ K a <= K (mi st) /\ K (ma st) <= K b) /\
    (exists l, nfk l (jj st)) /\ (exists l, nfk l (ii st)) /\ dinv (ma st) (ii st) (jj st) /\
    hiE E (ii st) /\ hiE E (jj st) /\ loE E (jj st) /\ (ma st = ofZ LLONG_MAX -> E) /\
    (length (ii st) + length (jj st) <= length i2 + length j)%nat /\
    (match j with (c, d) :: _ => K c = K mi2 | [] => False end -> length (ii st) + length (jj st) < length i2 + length j)%nat /\
    forall z, - B < z < B -> ((K mi2 <= z /\ memk z i2 /\ ~ memk z j) <-> K (mi st) <= z <= K (ma st) \/ rest (K (ma st)) (ii st) (jj st) z)))
   E (diff_tail n mi2 b2 i2 j).
Proof.
  intros E n IH lo mi2 a2 b2 i2' j i2 Wm [l2 Ni2] [lj Nj] Ei Ej Fj Ha Hb Hm Hlo1 Hlo Hn.
  pose proof Ni2 as (Oi & Li & Ni2'). pose proof Oi as (A1 & A2 & A3 & A4 & A5). cbn [fst snd] in *.
  destruct (skip_below_ok j mi2 lj Nj Wm) as (S1 & S2 & S3 & S4 & S5 & S6 & S7).
  unfold diff_tail. cbv zeta.
  assert (Ej2 : hiE E (skip_below j mi2)) by (eapply hiE_sub; eassumption).
  assert (Fj2 : loE E (skip_below j mi2)) by (eapply loE_sub; eassumption).
  assert (SAME : match j with (c, d) :: _ => K c = K mi2 | [] => False end -> skip_below j mi2 = j).
  { destruct j as [|[c d] j]; [contradiction|]. intros HC. cbn [skip_below].
    pose proof Nj as (Oj & _ & _). pose proof Oj as (C1 & C2 & C3 & C4 & C5). cbn [fst snd] in *.
    rewrite (lt_k B HB) by assumption. replace (_ <? _) with false by lia. reflexivity. }
  assert (EMB : b2 = ofZ LLONG_MAX -> E) by (intros; eapply (hiE_head E _ _ Ei); assumption).
  (* the case where the whole interval is delivered *)
  assert (WHOLE : (forall z, K mi2 <= z <= K b2 -> ~ memk z (skip_below j mi2)) -> lo <= K mi2 ->
    ~ (match j with (c, d) :: _ => K c = K mi2 | [] => False end) ->
    post (fun st =>
   (K (ma st) < K (mi st) /\ wfv (mi st) /\ wfv (ma st) /\ forall z, - B < z < B -> ~ (K mi2 <= z /\ memk z i2 /\ ~ memk z j)) \/
   (okr (mi st, ma st) /\ lo <= K (mi st) /\
    (exists a b i', ii st = (a, b) :: i' /\ K a <= K (mi st) /\ K (ma st) <= K b) /\
    (exists l, nfk l (jj st)) /\ (exists l, nfk l (ii st)) /\ dinv (ma st) (ii st) (jj st) /\
    hiE E (ii st) /\ hiE E (jj st) /\ loE E (jj st) /\ (ma st = ofZ LLONG_MAX -> E) /\
    (length (ii st) + length (jj st) <= length i2 + length j)%nat /\
    (match j with (c, d) :: _ => K c = K mi2 | [] => False end -> length (ii st) + length (jj st) < length i2 + length j)%nat /\
    forall z, - B < z < B -> ((K mi2 <= z /\ memk z i2 /\ ~ memk z j) <-> K (mi st) <= z <= K (ma st) \/ rest (K (ma st)) (ii st) (jj st) z)))
   E (Ok (mkIt mi2 b2 i2 (skip_below j mi2)))).
  { intros HW HL HN. cbn [post]. right. cbn [mi ma ii jj].
    split; [repeat split; cbn; (assumption || lia)|]. split; [assumption|].
    split; [exists a2, b2, i2'; repeat split; (assumption || lia)|].
    split; [eexists; eassumption|]. split; [eexists; eassumption|].
    split; [cbn; left; lia|]. split; [assumption|]. split; [assumption|]. split; [assumption|]. split; [assumption|].
    split; [lia|]. split; [tauto|].
    intros z Hz. unfold rest. split.
    - intros (Z1 & Z2 & Z3). destruct (Z.le_gt_cases z (K b2)); [left; lia|].
      right. split; [lia|]. split; [assumption|]. rewrite <- S3 by lia. assumption.
    - intros [Z1|(Z1 & Z2 & Z3)].
      + split; [lia|]. split; [cbn; left; lia|]. rewrite S3 by lia. apply HW; lia.
      + split; [lia|]. split; [assumption|]. rewrite S3 by lia. assumption. }
  destruct (skip_below j mi2) as [|[c d] j3] eqn:SK.
  { apply WHOLE; [intros; cbn; tauto| |].
    - destruct Hlo as [Hlo|Hlo]; [assumption|]. pose proof (SAME Hlo). subst j. contradiction.
    - intros HC. pose proof (SAME HC). subst j. contradiction. }
  pose proof S1 as (Oj & Lj & Nj3). pose proof Oj as (C1 & C2 & C3 & C4 & C5). cbn [fst snd] in *.
  specialize (S5 _ _ eq_refl). cbn [fst snd] in S5.
  assert (HEADC : match j with (c, d) :: _ => K c = K mi2 | [] => False end -> K c = K mi2).
  { intros HC. pose proof (SAME HC). subst j. exact HC. }
  rewrite (le_k B HB c b2) by assumption.
  destruct (K c <=? K b2) eqn:CB.
  2:{ apply WHOLE.
      - intros z Hz [X|X]; cbn in X; [lia|]. pose proof (memk_lo B _ _ _ Nj3 X). lia.
      - destruct Hlo as [Hlo|Hlo]; [assumption|]. specialize (HEADC Hlo). lia.
      - intros HC. specialize (HEADC HC). lia. }
  clear WHOLE. unfold iv_ge. rewrite (le_k B HB c mi2) by assumption. rewrite (le_k B HB b2 d) by assumption.
  destruct (K c <=? K mi2) eqn:CM; cbn [andb].
  - destruct (K b2 <=? K d) eqn:BD.
    + (* completely consumed *)
      eapply post_weaken with (E := E).
      * apply (IH false lo b2 i2 ((c, d) :: j3) a2 b2 i2').
        -- reflexivity.
        -- assumption.
        -- eexists; eassumption.
        -- eexists; eassumption.
        -- assumption.
        -- assumption.
        -- assumption.
        -- assumption.
        -- lia.
        -- lia.
        -- right. split; [reflexivity|]. split; [lia|]. cbn. left; lia.
        -- right. split; [assumption|lia].
      * intros st H. unfold dpost in H.
        destruct H as [(H1 & H2 & H3 & H4)|(H1 & H2 & H3 & H4 & H5 & H6 & H7 & H8 & H9 & H10 & H11 & H12 & H13)].
        -- left. repeat (split; [assumption|]). intros z Hz (Z1 & Z2 & Z3). apply (H4 z Hz).
           unfold rest. assert (~ memk z ((c, d) :: j3)) by (rewrite <- S3 by lia; assumption).
           split; [|split; assumption]. cbn in H. lia.
        -- right. repeat (split; [assumption|]).
           split; [rewrite <- (Nat.add_comm (length j)) in *; cbn [length] in *; lia|].
           split; [intros _; specialize (H12 eq_refl); cbn [length] in *; lia|].
           intros z Hz. rewrite <- (H13 z Hz). unfold rest. split.
           ++ intros (Z1 & Z2 & Z3). assert (~ memk z ((c, d) :: j3)) by (rewrite <- S3 by lia; assumption).
              split; [|split; assumption]. cbn in H. lia.
           ++ intros (Z1 & Z2 & Z3). split; [lia|]. split; [assumption|]. rewrite S3 by lia. assumption.
      * auto.
    + (* overlap on the left *)
      eapply post_bind; [apply (plus1 B HB E d C2); intros; eapply (hiE_head E _ _ Ej2); assumption|].
      intros mi3 (W3 & H3). assert (K3 : K mi3 = K d + 1 /\ - B < K mi3 < B).
      { pose proof (key_bounds B HB b2 A2). destruct H3 as [H3|[_ H3]]; lia. }
      clear H3. destruct K3 as [K3 K3'].
      assert (FIN : forall ma3, wfv ma3 -> K d + 1 <= K ma3 -> K ma3 <= K b2 -> 
         (forall z, K d < z <= K ma3 -> ~ memk z j3) ->
         (K b2 <= K ma3 \/ match j3 with (c', d') :: _ => K c' = K ma3 + 1 | [] => False end) ->
         (ma3 = ofZ LLONG_MAX -> E) ->
         post (fun st =>
   (K (ma st) < K (mi st) /\ wfv (mi st) /\ wfv (ma st) /\ forall z, - B < z < B -> ~ (K mi2 <= z /\ memk z i2 /\ ~ memk z j)) \/
   (okr (mi st, ma st) /\ lo <= K (mi st) /\
    (exists a b i', ii st = (a, b) :: i' /\ K a <= K (mi st) /\ K (ma st) <= K b) /\
    (exists l, nfk l (jj st)) /\ (exists l, nfk l (ii st)) /\ dinv (ma st) (ii st) (jj st) /\
    hiE E (ii st) /\ hiE E (jj st) /\ loE E (jj st) /\ (ma st = ofZ LLONG_MAX -> E) /\
    (length (ii st) + length (jj st) <= length i2 + length j)%nat /\
    (match j with (c, d) :: _ => K c = K mi2 | [] => False end -> length (ii st) + length (jj st) < length i2 + length j)%nat /\
    forall z, - B < z < B -> ((K mi2 <= z /\ memk z i2 /\ ~ memk z j) <-> K (mi st) <= z <= K (ma st) \/ rest (K (ma st)) (ii st) (jj st) z)))
         E (Ok (mkIt mi3 ma3 i2 j3))).
      { intros ma3 W4 M1 M2 M3 M4 M5. cbn [post]. right. cbn [mi ma ii jj].
        split; [repeat split; cbn; (assumption || lia)|]. split; [lia|].
        split; [exists a2, b2, i2'; repeat split; (assumption || lia)|].
        split; [eexists; eassumption|]. split; [eexists; eassumption|].
        split; [cbn; exact M4|]. split; [assumption|]. split; [eapply hiE_tail; eassumption|].
        split; [eapply loE_sub; [exact Fj2|]; intros; right; assumption|]. split; [assumption|].
        split; [cbn [length] in *; lia|]. split; [cbn [length] in *; lia|].
        intros z Hz. unfold rest. split.
        - intros (Z1 & Z2 & Z3). rewrite S3 in Z3 by lia. cbn [memk SetProofs.memk fst snd] in Z3.
          destruct (Z.le_gt_cases z (K ma3)); [left; lia|].
          right. split; [lia|]. split; [assumption|]. tauto.
        - intros [Z1|(Z1 & Z2 & Z3)].
          + split; [lia|]. split; [cbn; left; lia|]. rewrite S3 by lia. cbn [memk SetProofs.memk fst snd].
            intros [X|X]; [lia|]. eapply M3; [|exact X]. lia.
          + split; [lia|]. split; [assumption|]. rewrite S3 by lia. cbn [memk SetProofs.memk fst snd].
            intros [X|X]; [lia|]. contradiction. }
      destruct j3 as [|[c' d'] j4].
      * apply FIN; try assumption; try lia. intros; cbn; tauto.
      * pose proof Nj3 as (Oj' & Lj' & Nj4). pose proof Oj' as (D1 & D2 & D3 & D4 & D5). cbn [fst snd] in *.
        rewrite (le_k B HB c' b2) by assumption.
        destruct (K c' <=? K b2) eqn:CB'.
        -- assert (NM : c' = ofZ LLONG_MIN -> E).
           { intros ->. pose proof (key_cases B HB d C2). change (K (ofZ LLONG_MIN)) with LLONG_MIN in *.
             unfold BIG, LLONG_MIN, LLONG_MAX in *. lia. }
           eapply post_bind; [apply (minus1 B HB E c' D1 NM)|].
           intros ma3 (W4 & H4). apply FIN.
           ++ assumption.
           ++ destruct H4 as [H4|[_ H4]]; lia.
           ++ destruct H4 as [H4|[_ H4]]; lia.
           ++ intros z Hz [X|X]; cbn in X; [destruct H4 as [H4|[_ H4]]; lia|].
              pose proof (memk_lo B _ _ _ Nj4 X). destruct H4 as [H4|[_ H4]]; lia.
           ++ right. destruct H4 as [H4|[_ H4]]; lia.
           ++ intros ->. pose proof (key_cases B HB c' D1). destruct H4 as [H4|[_ H4]]; [|lia].
              exfalso. change (K (ofZ LLONG_MAX)) with LLONG_MAX in *. unfold BIG, LLONG_MIN, LLONG_MAX in *. lia.
        -- apply FIN; try assumption; try lia.
           intros z Hz [X|X]; cbn in X; [lia|]. pose proof (memk_lo B _ _ _ Nj4 X). lia.
  - (* overlap on the right *)
    assert (LOOK : lo <= K mi2) by (destruct Hlo as [Hlo|Hlo]; [assumption|specialize (HEADC Hlo); lia]).
    eapply post_bind; [apply (minus1 B HB E c C1); intros; eapply (Fj2 (c, d)); [left; reflexivity|assumption]|].
    intros ma3 (W4 & H4).
    pose proof (key_bounds B HB mi2 Wm) as KBm.
    assert (K4 : K ma3 = K c - 1) by (destruct H4 as [H4|[_ H4]]; lia).
    assert (M5 : ma3 = ofZ LLONG_MAX -> E).
    { intros ->. pose proof (key_cases B HB c C1). exfalso. change (K (ofZ LLONG_MAX)) with LLONG_MAX in *.
      unfold BIG, LLONG_MIN, LLONG_MAX in *. lia. }
    cbn [post]. right. cbn [mi ma ii jj].
    split. { repeat split; cbn; try assumption; try lia. }
    split; [assumption|].
    split; [exists a2, b2, i2'; repeat split; (assumption || lia)|].
    split; [eexists; eassumption|]. split; [eexists; eassumption|].
    split; [cbn; right; lia|]. split; [assumption|]. split; [assumption|].
    split; [assumption|]. split; [assumption|].
    split; [cbn [length] in *; lia|]. split; [intros HC; specialize (HEADC HC); lia|].
    intros z Hz. unfold rest. split.
    + intros (Z1 & Z2 & Z3). destruct (Z.le_gt_cases z (K ma3)); [left; lia|].
      right. split; [lia|]. split; [assumption|]. rewrite <- S3 by lia. assumption.
    + intros [Z1|(Z1 & Z2 & Z3)].
      * split; [lia|]. split; [cbn; left; lia|]. rewrite S3 by lia. cbn [memk SetProofs.memk fst snd].
        intros [X|X]; [lia|]. pose proof (memk_lo B _ _ _ Nj3 X). lia.
      * split; [lia|]. split; [assumption|]. rewrite S3 by lia. assumption.
Qed.

Lemma diff_next_ok : forall (E : Prop) n, dnext_spec E n.
Proof.
  intros E. induction n as [|n IH]; intros init lo m i j a b i' -> Wm [l Ni] [lj Nj] Ei Ej Fj Em Ha Hb Hst Hn.
  { cbn [length] in Hn. lia. }
  pose proof Ni as (Oi & Li & Ni'). pose proof Oi as (A1 & A2 & A3 & A4 & A5). cbn [fst snd] in *.
  cbn [diff_next].
  eapply post_bind; [apply (plus1 B HB E m Wm Em)|]. intros mi1 (W1 & H1).
  pose proof (key_bounds B HB b A2) as KB. pose proof (key_bounds B HB m Wm) as KM.
  assert (INF : negb (isFinite m) && iv_gt m (ofZ 0) = (K m =? B)).
  { unfold iv_gt. rewrite (lt_k B HB) by (assumption || apply wfv_0).
    destruct m as [v f]; unfold wfv, key, isFinite, fits64 in *; cbn in *. unfold BIG, LLONG_MIN, LLONG_MAX in *.
    destruct f; cbn; lia. }
  rewrite INF. clear INF.
  unfold iv_gt. rewrite (lt_k B HB) by assumption.
  assert (POPPED : (K m =? B) || (K b <? K mi1) = (K b <=? K m)).
  { destruct H1 as [H1|[-> H1]]; lia. }
  rewrite POPPED.
  destruct (K b <=? K m) eqn:POP.
  - destruct i' as [|[a' b'] i''].
    + cbn [post]. left. destruct (finish_k B [] j) as (F1 & F2 & F3). repeat (split; [assumption|]).
      intros z Hz (Z1 & Z2 & Z3). cbn in Z2. lia.
    + pose proof Ni' as (Oi' & Li' & Ni''). pose proof Oi' as (D1 & D2 & D3 & D4 & D5). cbn [fst snd] in *.
      eapply post_weaken with (E := E); [apply (diff_tail_ok E n IH lo a' a' b' i'' j)| |auto].
      * assumption.
      * eexists; eassumption.
      * eexists; eassumption.
      * eapply hiE_tail; eassumption.
      * assumption.
      * assumption.
      * lia.
      * lia.
      * lia.
      * destruct Hst as [Hst|Hst]; lia.
      * left. destruct Hst as [Hst|Hst]; lia.
      * cbn [length] in *. lia.
      * intros st H. unfold dpost.
        assert (EQ : forall z, rest (K m) ((a, b) :: (a', b') :: i'') j z <-> K a' <= z /\ memk z ((a', b') :: i'') /\ ~ memk z j).
        { intros z. unfold rest. cbn [memk SetProofs.memk fst snd]. split.
          - intros (Z1 & Z2 & Z3). destruct Z2 as [Z2|Z2]; [lia|]. split; [|split; assumption].
            destruct Z2 as [Z2|Z2]; [lia|]. pose proof (memk_lo B _ _ _ Ni'' Z2). lia.
          - intros (Z1 & Z2 & Z3). split; [lia|]. split; [right; assumption|assumption]. }
        destruct H as [(H2 & H3 & H4 & H5)|(H2 & H3 & H4 & H5 & H6 & H7 & H8 & H9 & H10 & H11 & H12 & H13 & H14)].
        -- left. repeat (split; [assumption|]). intros z Hz. rewrite EQ. auto.
        -- right. repeat (split; [assumption|]). split; [cbn [length] in *; lia|].
           split; [cbn [length] in *; lia|]. intros z Hz. rewrite EQ. auto.
  - change (post (dpost E init lo m ((a, b) :: i') j) E (diff_tail n mi1 b ((a, b) :: i') j)).
    assert (KK : K a <= K mi1 /\ K mi1 <= K b /\ K mi1 < B /\ K m <= K mi1 /\ (forall z, - B < z -> (K m < z <-> K mi1 <= z)) /\
                 (K mi1 = K m + 1 \/ (K mi1 = K m /\ K m = - B))).
    { destruct H1 as [H1|[-> H1]].
      - repeat split; lia.
      - pose proof (key_cases B HB a A1). unfold BIG, LLONG_MIN, LLONG_MAX in *. repeat split; try lia. }
    destruct KK as (K1 & K2 & K3 & K4 & K5 & K6).
    eapply post_weaken with (E := E); [apply (diff_tail_ok E n IH lo mi1 a b i' j)| |auto].
    * assumption.
    * eexists; eassumption.
    * eexists; eassumption.
    * assumption.
    * assumption.
    * assumption.
    * assumption.
    * assumption.
    * assumption.
    * destruct Hst as [Hst|Hst]; [lia|]. destruct Hst as (S1 & S2 & S3). cbn in S3.
      destruct S3 as [S3|S3]; [lia|]. destruct j as [|[c d] j]; [contradiction|].
      pose proof Nj as (Oj & _ & _). pose proof Oj as (C1 & _). cbn [fst snd] in *.
      pose proof (key_cases B HB c C1). unfold BIG, LLONG_MIN, LLONG_MAX in *. lia.
    * destruct Hst as [Hst|Hst]; [left; lia|]. destruct Hst as (S1 & S2 & S3). cbn in S3.
      destruct S3 as [S3|S3]; [lia|]. right. destruct j as [|[c d] j]; [contradiction|].
      pose proof Nj as (Oj & _ & _). pose proof Oj as (C1 & _). cbn [fst snd] in *.
      pose proof (key_cases B HB c C1). unfold BIG, LLONG_MIN, LLONG_MAX in *. lia.
    * cbn [length] in *. lia.
    * intros st H. unfold dpost.
      assert (EQ : forall z, - B < z -> (rest (K m) ((a, b) :: i') j z <-> K mi1 <= z /\ memk z ((a, b) :: i') /\ ~ memk z j)).
      { intros z Hz. unfold rest. rewrite (K5 z Hz). tauto. }
      destruct H as [(H2 & H3 & H4 & H5)|(H2 & H3 & H4 & H5 & H6 & H7 & H8 & H9 & H10 & H11 & H12 & H13 & H14)].
      -- left. repeat (split; [assumption|]). intros z Hz. rewrite EQ by lia. auto.
      -- right. repeat (split; [assumption|]).
         split.
         { intros ->. apply H13. destruct Hst as [Hst|Hst]; [destruct Hst; discriminate|].
           destruct Hst as (S1 & S2 & S3). cbn in S3. destruct S3 as [S3|S3]; [lia|].
           destruct j as [|[c d] j]; [contradiction|]. 
           pose proof Nj as (Oj & _ & _). pose proof Oj as (C1 & _). cbn [fst snd] in *.
           pose proof (key_cases B HB c C1). unfold BIG, LLONG_MIN, LLONG_MAX in *. lia. }
         intros z Hz. rewrite EQ by lia. auto.
Qed.

Lemma diff_drain_ok : forall (E : Prop) n st lo,
  (K (ma st) < K (mi st) /\ wfv (mi st) /\ wfv (ma st)) \/
  (okr (mi st, ma st) /\ lo <= K (mi st) /\
   (exists a b i', ii st = (a, b) :: i' /\ K a <= K (mi st) /\ K (ma st) <= K b) /\
   (exists l, nfk l (jj st)) /\ (exists l, nfk l (ii st)) /\ dinv (ma st) (ii st) (jj st) /\
   hiE E (ii st) /\ hiE E (jj st) /\ loE E (jj st) /\ (ma st = ofZ LLONG_MAX -> E) /\
   (length (ii st) + length (jj st) <= n)%nat) ->
  post (fun s => nfk lo s /\
        forall z, - B < z < B -> (memk z s <-> K (mi st) <= z <= K (ma st) \/ (K (mi st) <= K (ma st) /\ rest (K (ma st)) (ii st) (jj st) z)))
    E (drain (fun st => diff_next (diff_fuel (ii st)) (ma st) (ii st) (jj st)) n st).
Proof.
  intros E. induction n as [|n IH]; intros st lo H.
  - cbn [drain]. destruct H as [(H & W1 & W2)|H].
    + rewrite (le_k B HB) by assumption. replace (_ <=? _) with false by lia. cbn. split; [exact I|]. intros; intuition lia.
    + exfalso. destruct H as (_ & _ & (a & b & i' & Hi & _) & H). rewrite Hi in H. cbn [length] in H. lia.
  - cbn [drain]. destruct H as [(H & W1 & W2)|(O & L & (a & b & i' & Hi & Ha & Hb) & N1 & N2 & D & E1 & E2 & E3 & E4 & Hn)].
    { rewrite (le_k B HB) by assumption. replace (_ <=? _) with false by lia. cbn. split; [exact I|]. intros; intuition lia. }
    pose proof O as (W1 & W2 & O1 & O2 & O3). cbn [fst snd] in *.
    rewrite (le_k B HB) by assumption. replace (_ <=? _) with true by lia.
    eapply post_bind.
    { apply (diff_next_ok E (diff_fuel (ii st)) false (K (ma st) + 2) (ma st) (ii st) (jj st) a b i'); try assumption.
      - lia.
      - right. split; [reflexivity|]. split; [lia|assumption].
      - unfold diff_fuel. lia. }
    intros st' H. unfold dpost in H.
    eapply post_bind; [apply (IH st' (K (ma st) + 2))|].
    { destruct H as [(H1 & H2 & H3 & H4)|(H2 & H3 & H4 & H5 & H6 & H7 & H8 & H9 & H10 & H11 & H12 & H13 & H14)].
      - left; auto.
      - right. repeat (split; [assumption|]). specialize (H13 eq_refl). lia. }
    intros l (Nl & Ml). cbn [post SetProofs.nfk SetProofs.memk fst snd]. split.
    + split; [assumption|]. split; [assumption|]. assumption.
    + intros z Hz. rewrite (Ml z Hz).
      destruct H as [(H1 & H2 & H3 & H4)|(H2 & H3 & H4 & H5 & H6 & H7 & H8 & H9 & H10 & H11 & H12 & H13 & H14)].
      * specialize (H4 z Hz). intuition lia.
      * unfold SetProofs.okr in H2. cbn [fst snd] in H2. rewrite (H14 z Hz). clear Ml H14. intuition lia.
Qed.

Lemma set_diff_ok : forall (E : Prop) s t lo, nfk lo s -> (exists l, nfk l t) ->
  hiE E s -> hiE E t -> loE E s -> loE E t ->
  post (fun r => nfk lo r /\ forall z, - B < z < B -> (memk z r <-> memk z s /\ ~ memk z t)) E (set_diff s t).
Proof.
  intros E s t lo Ns Nt Es Et Fs Ft. unfold set_diff.
  destruct s as [|[a b] s'].
  { cbn [bind]. eapply post_weaken; [apply (diff_drain_ok E _ _ lo); left; apply finish_k| |auto].
    intros r (N & M). split; [assumption|]. intros z Hz. rewrite (M z Hz). cbn. intuition lia. }
  pose proof Ns as (Oi & Li & Ni'). pose proof Oi as (A1 & A2 & A3 & A4 & A5). cbn [fst snd] in *.
  assert (FA : a = ofZ LLONG_MIN -> E) by (intros; eapply (Fs (a, b)); [left; reflexivity|assumption]).
  eapply post_bind with (Q := fun st => dpost E true lo (mkIV (-1) true) ((a, b) :: s') t st).
  { eapply post_bind; [apply (minus1 B HB E a A1 FA)|]. intros m (W & H).
    assert (KM : K m + 1 = K a \/ (K m = - B /\ K a = - B)).
    { destruct H as [H|[-> H]]; [left; lia|right; lia]. }
    eapply post_weaken with (E := E).
    - apply (diff_next_ok E (diff_fuel ((a, b) :: s')) true lo m ((a, b) :: s') t a b s'); try assumption.
      + reflexivity.
      + eexists; eassumption.
      + intros ->. exfalso. pose proof (key_cases B HB a A1). change (K (ofZ LLONG_MAX)) with LLONG_MAX in *.
        unfold BIG, LLONG_MIN, LLONG_MAX in *. lia.
      + lia.
      + lia.
      + left. auto.
      + unfold diff_fuel. lia.
    - unfold dpost.
      assert (EQ : forall z, - B < z -> (rest (K m) ((a, b) :: s') t z <-> rest (K (mkIV (-1) true)) ((a, b) :: s') t z)).
      { intros z Hz. unfold rest. change (K (mkIV (-1) true)) with (-1 * B).
        split; intros (Z1 & Z2 & Z3); (split; [|split; assumption]); [lia|].
        assert (K a <= z).
        { apply (memk_lo B ((a, b) :: s') (K a) z); [|assumption].
          cbn [SetProofs.nfk fst snd]. split; [assumption|]. split; [lia|assumption]. }
        lia. }
      intros st [(H1 & H2 & H3 & H4)|(H2 & H3 & H4 & H5 & H6 & H7 & H8 & H9 & H10 & H11 & H12 & H13 & H14)].
      + left. repeat (split; [assumption|]). intros z Hz. rewrite <- EQ by lia. auto.
      + right. repeat (split; [assumption|]). intros z Hz. rewrite <- EQ by lia. auto.
    - auto. }
  intros st H. unfold dpost in H.
  eapply post_weaken; [apply (diff_drain_ok E _ st lo)| |auto].
  - destruct H as [(H1 & H2 & H3 & H4)|(H2 & H3 & H4 & H5 & H6 & H7 & H8 & H9 & H10 & H11 & H12 & H13 & H14)].
    + left; auto.
    + right. repeat (split; [assumption|]). exact H12.
  - intros r (N & M). split; [assumption|]. intros z Hz. rewrite (M z Hz).
    assert (EQ : rest (K (mkIV (-1) true)) ((a, b) :: s') t z <-> memk z ((a, b) :: s') /\ ~ memk z t).
    { unfold rest. change (K (mkIV (-1) true)) with (-1 * B). intuition lia. }
    rewrite <- EQ.
    destruct H as [(H1 & H2 & H3 & H4)|(H2 & H3 & H4 & H5 & H6 & H7 & H8 & H9 & H10 & H11 & H12 & H13 & H14)].
    + specialize (H4 z Hz). intuition lia.
    + unfold SetProofs.okr in H2. cbn [fst snd] in H2. rewrite (H14 z Hz). clear M H14. intuition lia.
Qed.
End K.
