Require Import ZArith List Bool Lia ZifyBool.
From Verif Require Import Base IntValModel IntValSpec IntValProofs SetModel SetSpec PropertiesSet FSetModel FSetSpec FSetProofs.
Import ListNotations.
Open Scope Z_scope.

(** ** On spaced sets the float iterators do what the integer iterators do on the ranks *)
Definition emb (x : fval) : IntVal :=
  match x with FMinus => mkIV (-1) true | FNum z => ofZ z | FPlus => mkIV 1 true end.
Definition embr (r : frange) : range := (emb (fst r), emb (snd r)).
Definition embs (s : fset) : iset := map embr s.
Definition embit (st : fit) : it2 := mkIt (emb (fmi st)) (emb (fma st)) (embs (fi st)) (embs (fj st)).

Lemma DMAX_fits : forall z, - BB < z < BB -> LLONG_MIN < z < LLONG_MAX.
Proof. intros z H. assert (E : BB <= LLONG_MAX) by (vm_compute; discriminate). unfold LLONG_MIN, LLONG_MAX in *. lia. Qed.

Lemma lt_emb : forall x y, iv_lt (emb x) (emb y) = f_lt x y.
Proof. intros [] []; reflexivity. Qed.
Lemma le_emb : forall x y, iv_le (emb x) (emb y) = f_le x y.
Proof. intros [] []; reflexivity. Qed.
Lemma emb_inj : forall x y, emb x = emb y -> x = y.
Proof. intros [] [] H; inversion H; reflexivity. Qed.

(** bounds strictly inside the range of the finite doubles *)
Definition inside (x : fval) : Prop := match x with FNum z => - BB + 1 < z < BB - 1 | _ => True end.
Lemma inside_wff : forall x, inside x -> wff x. Proof. intros [] H; cbn in *; try exact I; lia. Qed.
Definition insides (s : fset) : Prop := Forall (fun r => inside (fst r) /\ inside (snd r)) s.
(** the next double exists *)
Definition low (x : fval) : Prop := match x with FNum z => - BB < z < BB - 1 | _ => True end.

Lemma fits1 : fits64 1. Proof. unfold fits64, LLONG_MIN, LLONG_MAX; lia. Qed.
Lemma fits64b_in : forall z, LLONG_MIN <= z <= LLONG_MAX -> fits64b z = true.
Proof. intros z H. unfold fits64b. lia. Qed.
Lemma higher_emb : forall x, low x -> exists y, f_next_higher x = Ok y /\ next_higher (emb x) = Ok (emb y) /\ wff y.
Proof.
  intros [|z|] H; cbn [low] in H; try (eexists; split; [reflexivity|split; [reflexivity|exact I]]).
  exists (FNum (z + 1)). unfold f_next_higher. rewrite DMAX_BB. replace (z + 1 <=? BB - 1) with true by lia.
  split; [reflexivity|]. pose proof (DMAX_fits z ltac:(lia)). split; [|cbn; lia].
  unfold next_higher, emb. rewrite iv_plus_spec; [|unfold wfv, fits64, LLONG_MIN, LLONG_MAX in *; cbn; lia|exact fits1]. cbn.
  rewrite fits64b_in by lia. reflexivity.
Qed.
Lemma lower_emb : forall x, inside x -> exists y, f_next_lower x = Ok y /\ next_lower (emb x) = Ok (emb y) /\ low y.
Proof.
  intros [|z|] H; cbn [inside] in H; try (eexists; split; [reflexivity|split; [reflexivity|exact I]]).
  exists (FNum (z - 1)). unfold f_next_lower. rewrite DMAX_BB. replace (- (BB - 1) <=? z - 1) with true by lia.
  split; [reflexivity|]. pose proof (DMAX_fits z ltac:(lia)). split; [|cbn; lia].
  unfold next_lower, emb. rewrite iv_minus_spec; [|unfold wfv, fits64, LLONG_MIN, LLONG_MAX in *; cbn; lia|exact fits1]. cbn.
  rewrite fits64b_in by lia. reflexivity.
Qed.
Lemma inside_low : forall x, inside x -> low x. Proof. intros [] H; cbn in *; try exact I; lia. Qed.
Lemma low_wff : forall x, low x -> wff x. Proof. intros [] H; cbn in *; try exact I; lia. Qed.

Lemma skip_emb : forall i m, skip_below (embs i) (emb m) = embs (f_skip_below i m).
Proof.
  induction i as [|[a b] i IH]; intros m; [reflexivity|]. cbn [embs map embr fst snd skip_below f_skip_below].
  rewrite lt_emb. destruct (f_lt b m); [apply IH|reflexivity].
Qed.
Lemma skip_inside : forall i m, insides i -> insides (f_skip_below i m).
Proof.
  induction i as [|[a b] i IH]; intros m H; cbn [f_skip_below]; [assumption|].
  destruct (f_lt b m); [apply IH; inversion H; assumption|assumption].
Qed.

Definition sgood (st : fit) : Prop := wff (fmi st) /\ low (fma st) /\ insides (fi st) /\ insides (fj st).
Lemma diff_next_emb : forall n m i j, low m -> insides i -> insides j ->
  match f_diff_next n m i j with
  | Ok st => diff_next n (emb m) (embs i) (embs j) = Ok (embit st) /\ sgood st
  | Err OutOfFuel => diff_next n (emb m) (embs i) (embs j) = Err OutOfFuel
  | _ => False
  end.
Proof.
  assert (FIN : forall i j, insides i -> insides j -> sgood (f_finish i j)).
  { intros i j H1 H2. assert (3 < BB) by reflexivity. repeat split; cbn; try lia; assumption. }
  induction n as [|n IH]; intros m i j Lm Ii Ij; [reflexivity|].
  cbn [f_diff_next diff_next]. destruct i as [|[a b] i'].
  { split; [reflexivity|apply FIN; assumption]. }
  destruct (higher_emb m Lm) as (m1 & F1 & E1 & W1). rewrite F1. cbn [bind].
  pose proof Ii as Ii0. unfold insides in Ii0. rewrite Forall_cons_iff in Ii0. destruct Ii0 as [[Ia Ib] Ii']. cbn [fst snd] in *.
  cbn [embs map embr fst snd]. fold (embs i'). fold (embs j). rewrite E1. cbn [bind].
  replace (negb (isFinite (emb m)) && iv_gt (emb m) (ofZ 0)) with (negb (fIsFinite m) && f_gt m (FNum 0)) by (destruct m; reflexivity).
  unfold iv_gt, f_gt in *. rewrite lt_emb.
  set (cnd := negb (fIsFinite m) && f_lt (FNum 0) m || f_lt b m1).
  (* the rest of the iteration *)
  assert (TAIL : forall mi2 ma2 i2, wff mi2 -> inside ma2 -> insides i2 ->
    match
      match f_skip_below j mi2 with
            | (c, d) :: j3 =>
                if f_le c ma2 then
                  if f_ge mi2 c && f_le ma2 d then f_diff_next n ma2 i2 (f_skip_below j mi2)
                  else if f_le c mi2 then
                    do mi3 <- f_next_higher d;
                    match j3 with
                    | (c', d') :: _ =>
                        if f_le c' ma2 then
                          do ma3 <- f_next_lower c'; Ok (mkFit mi3 ma3 i2 j3)
                        else Ok (mkFit mi3 ma2 i2 j3)
                    | [] => Ok (mkFit mi3 ma2 i2 j3)
                    end
                  else
                    do ma3 <- f_next_lower c; Ok (mkFit mi2 ma3 i2 (f_skip_below j mi2))
                else Ok (mkFit mi2 ma2 i2 (f_skip_below j mi2))
            | [] => Ok (mkFit mi2 ma2 i2 (f_skip_below j mi2))
            end
    with
    | Ok st => 
      match skip_below (embs j) (emb mi2) with
            | (c, d) :: j3 =>
                if iv_le c (emb ma2) then
                  if iv_ge (emb mi2) c && iv_le (emb ma2) d then diff_next n (emb ma2) (embs i2) (skip_below (embs j) (emb mi2))
                  else if iv_le c (emb mi2) then
                    do mi3 <- next_higher d;
                    match j3 with
                    | (c', d') :: _ =>
                        if iv_le c' (emb ma2) then
                          do ma3 <- next_lower c'; Ok (mkIt mi3 ma3 (embs i2) j3)
                        else Ok (mkIt mi3 (emb ma2) (embs i2) j3)
                    | [] => Ok (mkIt mi3 (emb ma2) (embs i2) j3)
                    end
                  else
                    do ma3 <- next_lower c; Ok (mkIt (emb mi2) ma3 (embs i2) (skip_below (embs j) (emb mi2)))
                else Ok (mkIt (emb mi2) (emb ma2) (embs i2) (skip_below (embs j) (emb mi2)))
            | [] => Ok (mkIt (emb mi2) (emb ma2) (embs i2) (skip_below (embs j) (emb mi2)))
            end = Ok (embit st) /\ sgood st
    | Err OutOfFuel => 
      match skip_below (embs j) (emb mi2) with
            | (c, d) :: j3 =>
                if iv_le c (emb ma2) then
                  if iv_ge (emb mi2) c && iv_le (emb ma2) d then diff_next n (emb ma2) (embs i2) (skip_below (embs j) (emb mi2))
                  else if iv_le c (emb mi2) then
                    do mi3 <- next_higher d;
                    match j3 with
                    | (c', d') :: _ =>
                        if iv_le c' (emb ma2) then
                          do ma3 <- next_lower c'; Ok (mkIt mi3 ma3 (embs i2) j3)
                        else Ok (mkIt mi3 (emb ma2) (embs i2) j3)
                    | [] => Ok (mkIt mi3 (emb ma2) (embs i2) j3)
                    end
                  else
                    do ma3 <- next_lower c; Ok (mkIt (emb mi2) ma3 (embs i2) (skip_below (embs j) (emb mi2)))
                else Ok (mkIt (emb mi2) (emb ma2) (embs i2) (skip_below (embs j) (emb mi2)))
            | [] => Ok (mkIt (emb mi2) (emb ma2) (embs i2) (skip_below (embs j) (emb mi2)))
            end = Err OutOfFuel
    | _ => False
    end).
  { intros mi2 ma2 i2 W2 I2 Is2. rewrite skip_emb. pose proof (skip_inside j mi2 Ij) as Ik.
    destruct (f_skip_below j mi2) as [|[c d] j3] eqn:SK.
    { cbn [embs map]. split; [reflexivity|]. repeat split; cbn; auto using inside_low. }
    pose proof Ik as Ik0. unfold insides in Ik0. rewrite Forall_cons_iff in Ik0. destruct Ik0 as [[Ic Id] Ij3]. cbn [fst snd] in *.
    cbn [embs map embr fst snd]. fold (embs j3). unfold iv_ge, f_ge. rewrite !le_emb.
    destruct (f_le c ma2); [|split; [reflexivity|]; repeat split; cbn; auto using inside_low].
    destruct (f_le c mi2 && f_le ma2 d).
    { pose proof (IH ma2 i2 ((c, d) :: j3) (inside_low _ I2) Is2 Ik) as H. exact H. }
    destruct (f_le c mi2).
    - destruct (higher_emb d (inside_low _ Id)) as (mi3 & F3 & E3 & W3). rewrite F3, E3. cbn [bind].
      destruct j3 as [|[c' d'] j4]; [cbn [embs map]; split; [reflexivity|]; repeat split; cbn; auto using inside_low|].
      pose proof Ij3 as Ij30. unfold insides in Ij30. rewrite Forall_cons_iff in Ij30. destruct Ij30 as [[Ic' Id'] Ij4]. cbn [fst snd] in *.
      cbn [embs map embr fst snd]. rewrite le_emb. destruct (f_le c' ma2).
      + destruct (lower_emb c' Ic') as (ma3 & F4 & E4 & W4). rewrite F4, E4. cbn [bind].
        split; [reflexivity|]. repeat split; cbn; auto using inside_low.
      + split; [reflexivity|]. repeat split; cbn; auto using inside_low.
    - destruct (lower_emb c Ic) as (ma3 & F4 & E4 & W4). rewrite F4, E4. cbn [bind].
      split; [reflexivity|]. repeat split; cbn; auto using inside_low. }
  destruct cnd.
  - destruct i' as [|[a' b'] i'']; cbn [embs map embr fst snd].
    + split; [reflexivity|apply FIN; assumption].
    + pose proof Ii' as Ii0. unfold insides in Ii0. rewrite Forall_cons_iff in Ii0. destruct Ii0 as [[Ia' Ib'] _]. cbn [fst snd] in *.
      apply (TAIL a' b' ((a', b') :: i'') (inside_wff _ Ia') Ib' Ii').
  - apply (TAIL m1 b ((a, b) :: i') W1 Ib Ii).
Qed.

Lemma diff_drain_emb : forall n st, sgood st ->
  match f_drain (fun st => f_diff_next (S (length (fi st))) (fma st) (fi st) (fj st)) n st with
  | Ok r => drain (fun st => diff_next (diff_fuel (ii st)) (ma st) (ii st) (jj st)) n (embit st) = Ok (embs r) /\
            Forall (fun x => wff (fst x) /\ wff (snd x)) r
  | Err OutOfFuel => drain (fun st => diff_next (diff_fuel (ii st)) (ma st) (ii st) (jj st)) n (embit st) = Err OutOfFuel
  | _ => False
  end.
Proof.
  induction n as [|n IH]; intros st (W1 & L2 & Ii & Ij); cbn [f_drain drain embit mi ma ii jj]; rewrite le_emb.
  - destruct (f_le (fmi st) (fma st)); [reflexivity|]. split; [reflexivity|constructor].
  - destruct (f_le (fmi st) (fma st)); [|split; [reflexivity|constructor]].
    pose proof (diff_next_emb (S (length (fi st))) (fma st) (fi st) (fj st) L2 Ii Ij) as H.
    replace (diff_fuel (embs (fi st))) with (S (length (fi st))) by (unfold diff_fuel, embs; rewrite map_length; reflexivity).
    destruct (f_diff_next (S (length (fi st))) (fma st) (fi st) (fj st)) as [st'|[]|]; try contradiction.
    + destruct H as [E G]. rewrite E. cbn [bind]. specialize (IH st' G).
      destruct (f_drain _ n st') as [r|[]|]; try contradiction.
      * destruct IH as [E2 F]. rewrite E2. cbn [bind]. split; [reflexivity|]. constructor; [cbn; auto using low_wff|assumption].
      * rewrite IH. reflexivity.
    + rewrite H. reflexivity.
Qed.

Lemma f_diff_emb : forall s t, insides s -> insides t ->
  match f_diff s t with
  | Ok r => set_diff (embs s) (embs t) = Ok (embs r) /\ Forall (fun x => wff (fst x) /\ wff (snd x)) r
  | Err OutOfFuel => set_diff (embs s) (embs t) = Err OutOfFuel
  | _ => False
  end.
Proof.
  intros s t Is It. unfold f_diff, set_diff. 
  assert (LEN : forall u, length (embs u) = length u) by (intros; apply map_length). rewrite !LEN.
  destruct s as [|[a b] s].
  - cbn [bind embs map]. change (finish [] (map embr t)) with (embit (f_finish [] t)).
    apply diff_drain_emb. repeat split; cbn; try (assert (3 < BB) by reflexivity; lia); [constructor|assumption].
  - pose proof Is as Is0. unfold insides in Is0. rewrite Forall_cons_iff in Is0. destruct Is0 as [[Ia Ib] Is']. cbn [fst snd] in *.
    destruct (lower_emb a Ia) as (m & F & E & L). rewrite F. cbn [bind].
    change (embs ((a, b) :: s)) with ((emb a, emb b) :: embs s). cbv iota. rewrite E. cbn [bind].
    change ((emb a, emb b) :: embs s) with (embs ((a, b) :: s)).
    replace (diff_fuel (embs ((a, b) :: s))) with (S (length ((a, b) :: s))) by (unfold diff_fuel, embs; rewrite map_length; reflexivity).
    pose proof (diff_next_emb (S (length ((a, b) :: s))) m ((a, b) :: s) t L Is It) as H.
    destruct (f_diff_next (S (length ((a, b) :: s))) m ((a, b) :: s) t) as [st|[]|]; try contradiction.
    + destruct H as [E2 G]. rewrite E2. cbn [bind]. apply diff_drain_emb. exact G.
    + rewrite H. reflexivity.
Qed.

(** ** the specification on both sides *)
Lemma denote_emb : forall x, wff x -> denote (emb x) = Some match x with FMinus => MInf | FNum z => Fin z | FPlus => PInf end.
Proof.
  intros [|z|] W; cbn in *; try reflexivity. pose proof (DMAX_fits z W). unfold denote; cbn.
  replace ((LLONG_MIN <=? z) && (z <=? LLONG_MAX)) with true by lia. reflexivity.
Qed.
Lemma between_emb : forall z a b, wff a -> wff b -> (between z (emb a) (emb b) <-> below a z /\ above z b).
Proof.
  intros z a b Wa Wb. unfold between. rewrite (denote_emb a Wa), (denote_emb b Wb). split.
  - intros (x & y & E1 & E2 & L1 & L2). inversion E1; inversion E2; subst. destruct a, b; cbn in *; auto.
  - intros [L1 L2]. do 2 eexists. split; [reflexivity|]. split; [reflexivity|]. destruct a, b; cbn in *; auto.
Qed.
Definition wffs (s : fset) : Prop := Forall (fun x => wff (fst x) /\ wff (snd x)) s.
Lemma elem_emb : forall z s, wffs s -> (elem z (embs s) <-> felem z s).
Proof.
  intros z s W. unfold elem, felem. split.
  - intros (a & b & I & B). unfold embs in I. apply in_map_iff in I. destruct I as ([a' b'] & E & I). inversion E; subst.
    unfold wffs in W. rewrite Forall_forall in W. specialize (W _ I). cbn [fst snd] in *.
    apply between_emb in B; [|apply W|apply W]. exists a', b'. auto.
  - intros (a & b & I & B). exists (emb a), (emb b). split; [apply (in_map embr _ _ I)|].
    unfold wffs in W. rewrite Forall_forall in W. specialize (W _ I). apply between_emb; try apply W. exact B.
Qed.
Lemma good_emb : forall r, wff (fst r) -> wff (snd r) -> (good_range (embr r) <-> okr r).
Proof.
  intros [a b] Wa Wb. unfold good_range, embr, okr; cbn [fst snd] in *. pose proof BB_pos. split.
  - intros (z & B). apply between_emb in B; [|assumption|assumption].
    destruct a, b; cbn in *; repeat split; try assumption; lia.
  - intros (_ & _ & L & L1 & L2). exists (Z.max (K a) (- BB + 1)). apply between_emb; [assumption|assumption|].
    destruct a, b; cbn in *; lia.
Qed.
Lemma gap_emb : forall r1 r2, okr r1 -> okr r2 -> (gap (embr r1) (embr r2) <-> K (snd r1) + 2 <= K (fst r2)).
Proof.
  intros [a b] [c d] (_ & Wb & O1 & O2 & O3) (Wc & _ & P1 & P2 & P3). unfold gap, embr; cbn [fst snd] in *.
  rewrite (denote_emb b Wb), (denote_emb c Wc). pose proof BB_pos. split.
  - intros (z & x & y & E1 & E2 & [L1 N1] & [L2 N2]). inversion E1; inversion E2; subst.
    destruct b as [|b|], c as [|c|]; cbn in *; try contradiction; try lia.
    assert (b <> z) by congruence. assert (z <> c) by congruence. lia.
  - intros L. exists (K b + 1). do 2 eexists. split; [reflexivity|]. split; [reflexivity|].
    destruct b as [|b|], c as [|c|]; cbn in *; try lia. unfold ext_lt; cbn.
    split; (split; [lia|intros E; injection E; lia]).
Qed.
Lemma nf_emb : forall s, wffs s -> (nf (embs s) <-> exists lo, nfk 2 lo s).
Proof.
  intros s W. split.
  - intros N. assert (X : match s with [] => True | r :: t => nfk 2 (K (fst r)) s end).
    { induction s as [|r1 s IH]; [exact I|]. unfold wffs in W. rewrite Forall_cons_iff in W. destruct W as [[W1 W2] W].
      destruct s as [|r2 s].
      - inversion N as [|? Gd|? ? ? Gd Gp Nx]; subst. apply good_emb in Gd; try assumption. split; [assumption|]. split; [lia|exact I].
      - inversion N as [|? Gd|? ? ? Gd Gp Nx]; subst. apply good_emb in Gd; try assumption. specialize (IH W Nx). destruct IH as (O2 & L2 & N2).
        apply (gap_emb r1 r2 Gd O2) in Gp. split; [assumption|]. split; [lia|]. split; [assumption|]. split; assumption. }
    destruct s; [exists 0; exact I|eauto].
  - intros [lo N]. revert lo N. induction s as [|r1 s IH]; intros lo N; [constructor|].
    unfold wffs in W. rewrite Forall_cons_iff in W. destruct W as [[W1 W2] W]. destruct N as (O & L & N).
    destruct s as [|r2 s].
    + apply nf_one. apply good_emb; assumption.
    + apply nf_cons; [apply good_emb; assumption| |eapply (IH W); exact N].
      apply gap_emb; [assumption|apply N|]. destruct N as (_ & X & _). lia.
Qed.
Lemma nfk_wffs : forall g s lo, nfk g lo s -> wffs s.
Proof.
  intros g. induction s as [|r s IH]; intros lo N; [constructor|]. destruct N as (O & L & N).
  constructor; [split; apply O|eapply IH; exact N].
Qed.
Lemma interior_insides : forall s, interior s -> insides s.
Proof.
  intros s H. unfold insides. apply Forall_forall. intros [a b] I. specialize (H a b I). rewrite DMAX_BB in H. cbn [fst snd].
  split; [destruct a as [|x|]|destruct b as [|x|]]; cbn; try exact Logic.I; specialize (H x ltac:(auto)); lia.
Qed.

Lemma f_diff_ok : forall s t, (exists lo, nfk 2 lo s) -> (exists lo, nfk 2 lo t) -> interior s -> interior t ->
  exists r, f_diff s t = Ok r /\ (exists lo, nfk 2 lo r) /\ forall z, felem z r <-> felem z s /\ ~ felem z t.
Proof.
  intros s t Ns Nt Is It. pose proof Ns as [l1 N1]. pose proof Nt as [l2 N2].
  pose proof (nfk_wffs _ _ _ N1) as Ws. pose proof (nfk_wffs _ _ _ N2) as Wt.
  pose proof (proj2 (nf_emb s Ws) Ns) as Fs. pose proof (proj2 (nf_emb t Wt) Nt) as Ft.
  pose proof (f_diff_emb s t (interior_insides s Is) (interior_insides t It)) as H.
  destruct (C06_difference_exact _ _ Fs Ft) as [(r' & E & N & M)|[E _]].
  - rewrite E in H. destruct (f_diff s t) as [r|[]|]; try contradiction; try discriminate.
    destruct H as [H W]. inversion H; subst r'. exists r. split; [reflexivity|]. split; [apply nf_emb; assumption|].
    intros z. rewrite <- (elem_emb z r W), <- (elem_emb z s Ws), <- (elem_emb z t Wt). apply M.
  - rewrite E in H. destruct (f_diff s t) as [r|[]|]; try contradiction; try discriminate. destruct H as [H _]. discriminate.
Qed.

(** ** subset *)
Lemma subset_emb : forall s t, set_subset (embs s) (embs t) = f_subset s t.
Proof.
  induction s as [|[a b] s IH]; intros t; [destruct t; reflexivity|].
  induction t as [|[c d] t IHt]; [reflexivity|].
  cbn [embs map embr fst snd set_subset f_subset] in *. unfold iv_ge, f_ge in *. rewrite lt_emb, !le_emb.
  destruct (f_lt d a); [exact IHt|]. destruct (f_le c a && f_le b d); [|reflexivity].
  apply (IH ((c, d) :: t)).
Qed.
Lemma elem_far : forall s z, interior s -> (DMAX < z -> felem z s -> felem DMAX s) /\ (felem DMAX s -> DMAX < z -> felem z s) /\
  (z < - DMAX -> felem z s -> felem (- DMAX) s) /\ (felem (- DMAX) s -> z < - DMAX -> felem z s).
Proof.
  intros s z H. assert (P : 3 < DMAX) by reflexivity. split; [|split; [|split]].
  - intros L (a & b & I & B1 & B2). exists a, b. split; [assumption|]. specialize (H a b I).
    destruct a as [|x|], b as [|y|]; cbn [below above] in *; try contradiction; auto;
      try (pose proof (H y ltac:(auto))); try (pose proof (H x ltac:(auto))); lia.
  - intros (a & b & I & B1 & B2) L. exists a, b. split; [assumption|]. specialize (H a b I).
    destruct a as [|x|], b as [|y|]; cbn [below above] in *; try contradiction; auto;
      try (pose proof (H y ltac:(auto))); try (pose proof (H x ltac:(auto))); lia.
  - intros L (a & b & I & B1 & B2). exists a, b. split; [assumption|]. specialize (H a b I).
    destruct a as [|x|], b as [|y|]; cbn [below above] in *; try contradiction; auto;
      try (pose proof (H y ltac:(auto))); try (pose proof (H x ltac:(auto))); lia.
  - intros (a & b & I & B1 & B2) L. exists a, b. split; [assumption|]. specialize (H a b I).
    destruct a as [|x|], b as [|y|]; cbn [below above] in *; try contradiction; auto;
      try (pose proof (H y ltac:(auto))); try (pose proof (H x ltac:(auto))); lia.
Qed.
Lemma f_subset_ok : forall s t, (exists lo, nfk 2 lo s) -> (exists lo, nfk 2 lo t) -> interior s -> interior t ->
  (f_subset s t = true <-> forall z, double z -> felem z s -> felem z t).
Proof.
  intros s t Ns Nt Is It. pose proof Ns as [l1 N1]. pose proof Nt as [l2 N2].
  pose proof (nfk_wffs _ _ _ N1) as Ws. pose proof (nfk_wffs _ _ _ N2) as Wt.
  rewrite <- subset_emb. rewrite (C07_subset_exact _ _ (proj2 (nf_emb s Ws) Ns) (proj2 (nf_emb t Wt) Nt)). split.
  - intros H z _ M. rewrite <- (elem_emb z s Ws) in M. rewrite <- (elem_emb z t Wt). apply H; assumption.
  - intros H z M. rewrite (elem_emb z s Ws) in M. rewrite (elem_emb z t Wt).
    destruct (elem_far s z Is) as (S1 & _ & S3 & _). destruct (elem_far t z It) as (_ & T2 & _ & T4).
    assert (P : 3 < DMAX) by reflexivity.
    destruct (Z.lt_ge_cases DMAX z) as [L|L].
    { apply T2; [|exact L]. apply H; [unfold double; lia|]. apply S1; assumption. }
    destruct (Z.lt_ge_cases z (- DMAX)) as [L'|L'].
    { apply T4; [|exact L']. apply H; [unfold double; lia|]. apply S3; assumption. }
    apply H; [unfold double; lia|assumption].
Qed.
