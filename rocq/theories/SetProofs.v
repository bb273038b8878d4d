Require Import ZArith List Bool Lia ZifyBool.
From Verif Require Import Base IntValModel IntValSpec IntValProofs SetModel.
Import ListNotations.
Open Scope Z_scope.

Definition post {A} (Q : A -> Prop) (E : Prop) (r : res A) : Prop :=
  match r with Ok a => Q a | Err ArithmeticError => E | _ => False end.

Lemma post_bind : forall A C (Q : A -> Prop) (R : C -> Prop) (E : Prop) r f,
  post Q E r -> (forall a, Q a -> post R E (f a)) -> post R E (bind r f).
Proof. intros A C Q R E r f H H'. destruct r as [a|e|]; cbn in *; auto. Qed.
Lemma post_weaken : forall A (Q R : A -> Prop) (E F : Prop) r,
  post Q E r -> (forall a, Q a -> R a) -> (E -> F) -> post R F r.
Proof. intros A Q R E F [a|[]|] H H1 H2; cbn in *; auto. Qed.

Section K.
Context (B : Z) (HB : BIG <= B).
Notation K := (key B).

Definition okr (r : range) : Prop :=
  wfv (fst r) /\ wfv (snd r) /\ K (fst r) <= K (snd r) /\ K (fst r) < B /\ - B < K (snd r).
Fixpoint nfk (lo : Z) (s : iset) : Prop :=
  match s with [] => True | r :: t => okr r /\ lo <= K (fst r) /\ nfk (K (snd r) + 2) t end.
Fixpoint memk (z : Z) (s : iset) : Prop :=
  match s with [] => False | r :: t => K (fst r) <= z <= K (snd r) \/ memk z t end.
Definition hiE (E : Prop) (s : iset) : Prop := forall r, In r s -> snd r = ofZ LLONG_MAX -> E.

Lemma key_bounds : forall x, wfv x -> - B <= K x <= B.
Proof.
  intros [v i] H; unfold wfv, key, fits64, BIG, LLONG_MIN, LLONG_MAX in *; cbn in *; destruct i; lia.
Qed.
Lemma key_fin : forall x, wfv x -> - B < K x < B -> iv_inf x = false /\ K x = iv_v x /\ fits64 (iv_v x).
Proof.
  intros [v i] H; unfold wfv, key, fits64, BIG, LLONG_MIN, LLONG_MAX in *; cbn in *; destruct i; lia.
Qed.
Lemma key_pinf : forall x, wfv x -> K x = B -> x = iv_infinity.
Proof.
  intros [v i] H; unfold iv_infinity, wfv, key, fits64, BIG, LLONG_MIN, LLONG_MAX in *; cbn in *; destruct i; intros.
  - destruct H; subst; [reflexivity|lia].
  - lia.
Qed.
Lemma key_minf : forall x, wfv x -> K x = - B -> x = mkIV (-1) true.
Proof.
  intros [v i] H; unfold iv_infinity, wfv, key, fits64, BIG, LLONG_MIN, LLONG_MAX in *; cbn in *; destruct i; intros.
  - destruct H; subst; [lia|reflexivity].
  - lia.
Qed.

Lemma key_cases : forall x, wfv x -> K x = B \/ K x = - B \/ LLONG_MIN <= K x <= LLONG_MAX.
Proof.
  intros [v i] H; unfold wfv, key, fits64, BIG, LLONG_MIN, LLONG_MAX in *; cbn in *; destruct i; lia.
Qed.

Lemma le_k : forall x y, wfv x -> wfv y -> iv_le x y = (K x <=? K y).
Proof. intros; apply iv_le_key; assumption. Qed.
Lemma lt_k : forall x y, wfv x -> wfv y -> iv_lt x y = (K x <? K y).
Proof. intros; apply iv_lt_key; assumption. Qed.
Lemma eq_k : forall x y, wfv x -> wfv y -> iv_eq x y = (K x =? K y).
Proof. intros; apply iv_eq_key; assumption. Qed.

Lemma min_k : forall x y, wfv x -> wfv y -> wfv (iv_min x y) /\ K (iv_min x y) = Z.min (K x) (K y).
Proof. intros x y Hx Hy; unfold iv_min. rewrite lt_k by assumption. destruct (_ <? _) eqn:E; split; auto; lia. Qed.
Lemma max_k : forall x y, wfv x -> wfv y -> wfv (iv_max x y) /\ K (iv_max x y) = Z.max (K x) (K y).
Proof. intros x y Hx Hy; unfold iv_max. rewrite lt_k by assumption. destruct (_ <? _) eqn:E; split; auto; lia. Qed.
Lemma max_cases : forall x y, iv_max x y = x \/ iv_max x y = y.
Proof. intros; unfold iv_max; destruct (iv_lt x y); auto. Qed.

Lemma fits1 : fits64 1. Proof. unfold fits64, LLONG_MIN, LLONG_MAX; lia. Qed.

(** x.plus(1) *)
Lemma plus1 : forall (E : Prop) x, wfv x -> (x = ofZ LLONG_MAX -> E) ->
  post (fun y => wfv y /\ ((- B < K x < B /\ K y = K x + 1 /\ - B < K y < B) \/ (y = x /\ (K x = B \/ K x = - B)))) E (iv_plus x 1).
Proof.
  intros E x W HE. rewrite iv_plus_spec by (auto using fits1).
  destruct x as [v i]; unfold wfv, key in *; cbn in *. destruct i.
  - cbn. split; [assumption|]. right. split; [reflexivity|]. lia.
  - unfold outcome. destruct (fits64b (v + 1)) eqn:F; cbn.
    + unfold wfv; cbn. unfold fits64b, fits64, BIG, LLONG_MIN, LLONG_MAX in *. split; [lia|]. left; lia.
    + apply HE. unfold ofZ. f_equal. unfold fits64b, fits64, LLONG_MIN, LLONG_MAX in *. lia.
Qed.
Lemma minus1 : forall (E : Prop) x, wfv x -> (x = ofZ LLONG_MIN -> E) ->
  post (fun y => wfv y /\ ((- B < K x < B /\ K y = K x - 1 /\ - B < K y < B) \/ (y = x /\ (K x = B \/ K x = - B)))) E (iv_minus x 1).
Proof.
  intros E x W HE. rewrite iv_minus_spec by (auto using fits1).
  destruct x as [v i]; unfold wfv, key in *; cbn in *. destruct i.
  - cbn. split; [assumption|]. right. split; [reflexivity|]. lia.
  - unfold outcome. destruct (fits64b (v - 1)) eqn:F; cbn.
    + unfold wfv; cbn. unfold fits64b, fits64, BIG, LLONG_MIN, LLONG_MAX in *. split; [lia|]. left; lia.
    + apply HE. unfold ofZ. f_equal. unfold fits64b, fits64, LLONG_MIN, LLONG_MAX in *. lia.
Qed.

Lemma overlaps_k : forall (E : Prop) x y, wfv x -> wfv y -> (x = ofZ LLONG_MAX -> E) ->
  post (fun b => b = (K y <=? K x + 1)) E (overlaps x y).
Proof.
  intros E x y Hx Hy HE. unfold overlaps. eapply post_bind; [apply (plus1 E x Hx HE)|].
  intros x1 (W1 & H). cbn. unfold iv_ge. rewrite le_k by assumption.
  pose proof (key_cases y Hy). unfold BIG, LLONG_MIN, LLONG_MAX in *. destruct H as [H|[-> H]]; [f_equal; lia|].
  destruct H as [H|H]; rewrite H; lia.
Qed.

Lemma nfk_weaken : forall s lo lo', lo' <= lo -> nfk lo s -> nfk lo' s.
Proof. destruct s; cbn; intros; auto. intuition lia. Qed.
Lemma nfk_from : forall s lo lo', nfk lo s -> (forall r t, s = r :: t -> lo' <= K (fst r)) -> nfk lo' s.
Proof. destruct s; cbn; intros; auto. specialize (H0 _ _ eq_refl). intuition lia. Qed.
Lemma memk_lo : forall s lo z, nfk lo s -> memk z s -> lo <= z.
Proof.
  induction s as [|r s IH]; cbn; intros; [contradiction|].
  destruct H as (H1 & H2 & H3). destruct H0 as [H0|H0]; [lia|].
  specialize (IH _ _ H3 H0). unfold okr in H1. lia.
Qed.
Lemma hiE_tail : forall E r s, hiE E (r :: s) -> hiE E s.
Proof. unfold hiE; intros; eapply H; [right|]; eassumption. Qed.
Lemma hiE_head : forall E r s, hiE E (r :: s) -> snd r = ofZ LLONG_MAX -> E.
Proof. unfold hiE; intros; eapply H; [left; reflexivity|assumption]. Qed.
Lemma nfk_top : forall s lo, B <= lo -> nfk lo s -> s = [].
Proof. destruct s; cbn; intros; [reflexivity|]. unfold okr in *. lia. Qed.

(** ** Union *)
Definition absorb_post (E : Prop) (lo : Z) (i : iset) (m : IntVal) (j : iset) (o : IntVal * iset * iset) : Prop :=
  let '(m', i', j') := o in
  wfv m' /\ K m <= K m' /\ nfk (K m' + 2) i' /\ nfk (K m' + 2) j' /\
  (length i' + length j' <= length i + length j)%nat /\
  hiE E i' /\ hiE E j' /\ (m' = ofZ LLONG_MAX -> E) /\
  forall l, l <= lo -> l <= K m -> forall z,
    (l <= z <= K m \/ memk z i \/ memk z j) <-> (l <= z <= K m' \/ memk z i' \/ memk z j').

Lemma absorb_unfold : forall i m j, absorb i m j =
    (do oi <- (match i with [] => Ok false | (a, _) :: _ => overlaps m a end);
    match i, oi with
    | (_, b) :: i', true => absorb i' (iv_max m b) j
    | _, _ =>
        match j with
        | [] => Ok (m, i, j)
        | (c, d) :: j' =>
            do oj <- overlaps m c;
            if oj : bool then absorb i (iv_max m d) j' else Ok (m, i, j)
        end
    end).
Proof. intros i m j; destruct i, j; reflexivity. Qed.

Lemma absorb_ok : forall (E : Prop) n i m j lo, (length i + length j <= n)%nat ->
  wfv m -> nfk lo i -> nfk lo j -> hiE E i -> hiE E j -> (m = ofZ LLONG_MAX -> E) ->
  post (absorb_post E lo i m j) E (absorb i m j).
Proof.
  intros E. induction n as [|n IH]; intros i m j lo Hn Wm Ni Nj Ei Ej Em.
  - destruct i; [|cbn in Hn; lia]. destruct j; [|cbn in Hn; lia]. cbn.
    split; [assumption|]. split; [lia|]. repeat (split; [first [exact I | assumption | lia]|]). intros; tauto.
  - rewrite absorb_unfold.
    eapply post_bind with (Q := fun oi => oi = match i with [] => false | r :: _ => K (fst r) <=? K m + 1 end).
    { destruct i as [|[a b] i]; [reflexivity|]. cbn in Ni. apply overlaps_k; [assumption| |assumption].
      destruct Ni as [Ni _]; apply Ni. }
    intros oi ->.
    assert (JCASE : (match i with [] => true | r :: _ => K m + 1 <? K (fst r) end = true) ->
       post (absorb_post E lo i m j) E
        match j with
        | [] => Ok (m, i, j)
        | (c, d) :: j' =>
            do oj <- overlaps m c;
            if oj : bool then absorb i (iv_max m d) j' else Ok (m, i, j)
        end).
    { intros Hi.
      assert (Ni' : nfk (K m + 2) i) by (eapply nfk_from; [exact Ni|]; intros; subst; lia).
      destruct j as [|[c d] j'].
      - cbn. split; [assumption|]. split; [lia|]. split; [assumption|].
        repeat (split; [first [exact I | assumption | lia]|]). intros; tauto.
      - cbn in Nj. destruct Nj as (Oj & Lj & Nj). destruct Oj as (W1 & W2 & O1 & O2 & O3). cbn in *.
        eapply post_bind; [apply (overlaps_k E m c Wm W1 Em)|]. intros oj ->.
        destruct (K c <=? K m + 1) eqn:C.
        + destruct (max_k m d Wm W2) as [Wx Kx].
          eapply post_weaken with (E := E); [apply (IH i (iv_max m d) j' lo)| |auto].
          * lia.
          * assumption.
          * assumption.
          * eapply nfk_weaken; [|exact Nj]; lia.
          * assumption.
          * eapply hiE_tail; eassumption.
          * destruct (max_cases m d) as [-> | ->]; [assumption|]. intros; eapply (hiE_head E _ _ Ej); assumption.
          * intros [[m' i2] j2]. unfold absorb_post. rewrite Kx. cbn [length memk fst snd].
            intros (H1 & H2 & H3 & H4 & H5 & H6 & H7 & H8 & H9).
            repeat (split; [first [assumption|lia]|]).
            intros l Hl Hl2 z. rewrite <- (H9 l Hl ltac:(lia) z).
            clear H9. intuition lia.
        + cbn. split; [assumption|]. split; [lia|]. split; [assumption|].
          split; [split; [repeat split; assumption|split; [cbn; lia|assumption]]|].
          repeat (split; [first [exact I | assumption | lia]|]). intros; tauto. }
    destruct i as [|[a b] i']; [apply JCASE; reflexivity|].
    cbn [fst snd] in *.
    destruct (K a <=? K m + 1) eqn:C; [|apply JCASE; cbn; lia].
    clear JCASE. cbn in Ni. destruct Ni as (Oi & Li & Ni). destruct Oi as (W1 & W2 & O1 & O2 & O3). cbn [fst snd] in *.
    destruct (max_k m b Wm W2) as [Wx Kx].
    eapply post_weaken with (E := E); [apply (IH i' (iv_max m b) j lo)| |auto].
    * cbn in Hn; lia.
    * assumption.
    * eapply nfk_weaken; [|exact Ni]; lia.
    * assumption.
    * eapply hiE_tail; eassumption.
    * assumption.
    * destruct (max_cases m b) as [-> | ->]; [assumption|]. intros; eapply (hiE_head E _ _ Ei); assumption.
    * intros [[m' i2] j2]. unfold absorb_post. rewrite Kx. cbn [length memk fst snd].
      intros (H1 & H2 & H3 & H4 & H5 & H6 & H7 & H8 & H9).
      repeat (split; [first [assumption|lia]|]).
      intros l Hl Hl2 z. rewrite <- (H9 l Hl ltac:(lia) z).
      clear H9. intuition lia.
Qed.

(** what a merge step delivers: either it is finished, or a range and the remaining inputs *)
Definition step_post (E : Prop) (lo : Z) (P : Z -> Prop) (i j : iset) (M : iset -> iset -> Z -> Prop) (st : it2) : Prop :=
  (K (ma st) < K (mi st) /\ wfv (mi st) /\ wfv (ma st) /\ forall z, ~ P z) \/
  (okr (mi st, ma st) /\ lo <= K (mi st) /\
   forall z, - B < z < B -> (P z <-> K (mi st) <= z <= K (ma st) \/ M (ii st) (jj st) z)).

Lemma finish_k : forall i j, K (ma (finish i j)) < K (mi (finish i j)) /\ wfv (mi (finish i j)) /\ wfv (ma (finish i j)).
Proof. intros; cbn. unfold wfv, fits64, LLONG_MIN, LLONG_MAX; cbn. lia. Qed.

Lemma union_next_ok : forall (E : Prop) i j lo, nfk lo i -> nfk lo j -> hiE E i -> hiE E j ->
  post (fun st =>
    (K (ma st) < K (mi st) /\ wfv (mi st) /\ wfv (ma st) /\ i = [] /\ j = []) \/
    (okr (mi st, ma st) /\ lo <= K (mi st) /\ nfk (K (ma st) + 2) (ii st) /\ nfk (K (ma st) + 2) (jj st) /\
     hiE E (ii st) /\ hiE E (jj st) /\ (length (ii st) + length (jj st) < length i + length j)%nat /\
     forall z, (memk z i \/ memk z j) <-> (K (mi st) <= z <= K (ma st) \/ memk z (ii st) \/ memk z (jj st))))
   E (union_next i j).
Proof.
  intros E i j lo Ni Nj Ei Ej. unfold union_next.
  destruct i as [|[a b] i']; destruct j as [|[c d] j'].
  - cbn. left. split; [lia|]. unfold wfv, fits64, LLONG_MIN, LLONG_MAX; cbn. repeat split; lia.
  - cbn in Nj. destruct Nj as (Oj & Lj & Nj). cbn. right. cbn in Lj, Nj.
    split; [assumption|]. split; [assumption|]. split; [exact I|]. split; [assumption|].
    split; [assumption|]. split; [eapply hiE_tail; eassumption|]. split; [lia|]. intros; tauto.
  - cbn in Ni. destruct Ni as (Oi & Li & Ni). cbn. right. cbn in Li, Ni.
    split; [assumption|]. split; [assumption|]. split; [assumption|]. split; [exact I|].
    split; [eapply hiE_tail; eassumption|]. split; [assumption|]. split; [lia|]. intros; tauto.
  - cbn in Ni, Nj. destruct Nj as (Oj & Lj & Nj), Ni as (Oi & Li & Ni).
    pose proof Oi as (A1 & A2 & A3 & A4 & A5). pose proof Oj as (C1 & C2 & C3 & C4 & C5).
    cbn [fst snd] in *.
    eapply post_bind; [apply (overlaps_k E d a); [assumption|assumption|]|].
    { intros; eapply (hiE_head E _ _ Ej); assumption. }
    intros o1 ->. destruct (K a <=? K d + 1) eqn:O1; cbn [negb].
    2:{ cbn. right. split; [assumption|]. split; [assumption|].
        split; [split; [assumption|split; [cbn; lia|assumption]]|]. split; [assumption|].
        split; [assumption|]. split; [eapply hiE_tail; eassumption|]. split; [lia|]. intros; tauto. }
    eapply post_bind; [apply (overlaps_k E b c); [assumption|assumption|]|].
    { intros; eapply (hiE_head E _ _ Ei); assumption. }
    intros o2 ->. destruct (K c <=? K b + 1) eqn:O2; cbn [negb].
    2:{ cbn. right. split; [assumption|]. split; [assumption|].
        split; [assumption|]. split; [split; [assumption|split; [cbn; lia|assumption]]|].
        split; [eapply hiE_tail; eassumption|]. split; [assumption|]. split; [lia|]. intros; tauto. }
    destruct (max_k b d A2 C2) as [Wx Kx]. destruct (min_k a c A1 C1) as [Wn Kn].
    set (lo' := Z.min (K b) (K d) + 2).
    eapply post_bind.
    { apply (absorb_ok E (length i' + length j') i' (iv_max b d) j' lo'); try assumption.
      - lia.
      - eapply nfk_weaken; [|exact Ni]. lia.
      - eapply nfk_weaken; [|exact Nj]. lia.
      - eapply hiE_tail; eassumption.
      - eapply hiE_tail; eassumption.
      - destruct (max_cases b d) as [-> | ->]; intros; [eapply (hiE_head E _ _ Ei)|eapply (hiE_head E _ _ Ej)]; assumption. }
    intros [[m i2] j2] (H1 & H2 & H3 & H4 & H5 & H6 & H7 & H8 & H9). cbn [post]. right. cbn [mi ma ii jj fst snd length memk].
    rewrite Kx in *.
    split; [repeat split; cbn; try assumption; lia|].
    split; [lia|]. split; [assumption|]. split; [assumption|]. split; [assumption|]. split; [assumption|].
    split; [lia|].
    intros z. rewrite <- (H9 (K (iv_min a c)) ltac:(lia) ltac:(lia) z). rewrite Kn.
    clear H9. intuition lia.
Qed.

Lemma union_drain_ok : forall (E : Prop) n st lo,
  (K (ma st) < K (mi st) /\ wfv (mi st) /\ wfv (ma st)) \/
  (okr (mi st, ma st) /\ lo <= K (mi st) /\ nfk (K (ma st) + 2) (ii st) /\ nfk (K (ma st) + 2) (jj st) /\
     hiE E (ii st) /\ hiE E (jj st) /\ (length (ii st) + length (jj st) < n)%nat) ->
  post (fun s => nfk lo s /\
        forall z, memk z s <-> K (mi st) <= z <= K (ma st) \/ (K (mi st) <= K (ma st) /\ (memk z (ii st) \/ memk z (jj st))))
    E (drain (fun st => union_next (ii st) (jj st)) n st).
Proof.
  intros E. induction n as [|n IH]; intros st lo H.
  - cbn [drain]. destruct H as [(H & W1 & W2)|H]; [|lia].
    rewrite le_k by assumption. replace (_ <=? _) with false by lia. cbn. split; [exact I|]. intros; intuition lia.
  - cbn [drain]. destruct H as [(H & W1 & W2)|(O & L & N1 & N2 & E1 & E2 & Hn)].
    { rewrite le_k by assumption. replace (_ <=? _) with false by lia. cbn. split; [exact I|]. intros; intuition lia. }
    pose proof O as (W1 & W2 & O1 & O2 & O3). cbn [fst snd] in *.
    rewrite le_k by assumption. replace (_ <=? _) with true by lia.
    eapply post_bind; [apply (union_next_ok E _ _ (K (ma st) + 2)); assumption|].
    intros st' H. cbn beta in H.
    eapply post_bind; [apply (IH st' (K (ma st) + 2))|].
    { destruct H as [(H1 & H2 & H3 & H4 & H5)|(H1 & H2 & H3 & H4 & H5 & H6 & H7 & H8)].
      - left; auto.
      - right. repeat (split; [assumption|]). lia. }
    intros l (Nl & Ml). cbn [post nfk memk fst snd]. split.
    + split; [assumption|]. split; [assumption|]. assumption.
    + intros z. rewrite Ml.
      destruct H as [(H1 & H2 & H3 & H4 & H5)|(H1 & H2 & H3 & H4 & H5 & H6 & H7 & H8)].
      * rewrite H4, H5. cbn. intuition lia.
      * unfold okr in H1. cbn in H1. rewrite H8. clear Ml H8. intuition lia.
Qed.

Lemma set_union_ok : forall (E : Prop) s t lo, nfk lo s -> nfk lo t -> hiE E s -> hiE E t ->
  post (fun r => nfk lo r /\ forall z, memk z r <-> memk z s \/ memk z t) E (set_union s t).
Proof.
  intros E s t lo Ns Nt Es Et. unfold set_union.
  eapply post_bind; [apply (union_next_ok E s t lo); assumption|].
  intros st H. cbn beta in H.
  eapply post_weaken; [apply (union_drain_ok E (length s + length t) st lo)| |auto].
  - destruct H as [(H1 & H2 & H3 & H4 & H5)|(H1 & H2 & H3 & H4 & H5 & H6 & H7 & H8)].
    + left; auto.
    + right. repeat (split; [assumption|]). lia.
  - intros r (N & M). split; [assumption|]. intros z. rewrite M.
    destruct H as [(H1 & H2 & H3 & H4 & H5)|(H1 & H2 & H3 & H4 & H5 & H6 & H7 & H8)].
    + subst; cbn. intuition lia.
    + unfold okr in H1. cbn in H1. rewrite H8. clear M H8. intuition lia.
Qed.

End K.
