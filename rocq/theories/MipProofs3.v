(** Proofs for C84, part 2: flags, linear constraints and the whole decomposition. *)
Require Import ZArith List Bool Lia.
From Verif Require Import Base IntValSpec MipModel MipSpec MipProofs MipProofs2.
Import ListNotations.
Open Scope Z_scope.

(** * Sets with finite ends *)
Definition finite (s : soi) : Prop := forall v, In v s -> exists a b, v = Iv (Fin a) (Fin b).
Lemma finite_of_bounds : forall s, separate s -> proper s -> finite_bounds s = true -> finite s.
Proof.
  intros s SS PS FB. destruct s as [|v0 t] eqn:Es; [discriminate|]. cbn [finite_bounds bounds fst snd] in FB. rewrite <- Es in *.
  apply andb_true_iff in FB. destruct FB as [F1 F2]. apply xlt_iff in F1, F2.
  assert (LO : forall v, In v s -> ext_le (lf v0) (lf v)).
  { intros v I. rewrite Es in I, SS. destruct I as [<- | I]; [xl|]. destruct SS as (N & H & _). specialize (H v I). xl. }
  assert (HI : forall v, In v s -> ext_le (rt v) (rt (last s dflt))).
  { intros v I. destruct (last_case s) as [-> | (p & x & E)]; [destruct I|]. rewrite E, last_last. rewrite E in I, SS. apply in_app_or in I. destruct I as [I | [<- | []]]; [|xl].
    apply sep_app in SS. destruct SS as (_ & (N & _) & X). specialize (X v x I (or_introl eq_refl)). xl. }
  intros v I. specialize (LO v I). specialize (HI v I). destruct (PS v I) as [P1 P2]. destruct v as [[|a|] [|b|]]; cbn [lf rt] in *; try tauto; eauto.
  - exfalso. unfold ext_lt in F1. destruct (lf v0); cbn in *; tauto.
  - exfalso. unfold ext_lt in F1. destruct (lf v0); cbn in *; tauto.
  - exfalso. unfold ext_lt in F2. destruct (rt (last s dflt)); cbn in *; tauto.
Qed.
Lemma bounds_ok : forall s, separate s -> finite s -> s <> [] -> exists L U, bounds s = (Fin L, Fin U) /\
  (forall x, member x s -> L <= x <= U) /\ member L s /\ member U s.
Proof.
  intros s SS F NE. destruct s as [|v0 t] eqn:Es; [tauto|]. cbn [bounds]. rewrite <- Es in *.
  destruct (last_case s) as [-> | (p & x & E)]; [discriminate|].
  assert (Ix : In x s) by (rewrite E; apply in_or_app; right; now left). assert (I0 : In v0 s) by (rewrite Es; now left).
  assert (LA : last s dflt = x) by (rewrite E; apply last_last). rewrite LA.
  pose proof (sep_nonempty s v0 SS I0) as N0. pose proof (sep_nonempty s x SS Ix) as Nx.
  assert (LO : forall v, In v s -> ext_le (lf v0) (lf v)).
  { intros v I. rewrite Es in I, SS. destruct I as [<- | I]; [xl|]. destruct SS as (N & H & _). specialize (H v I). xl. }
  assert (HI : forall v, In v s -> ext_le (rt v) (rt x)).
  { intros v I. rewrite E in I, SS. apply in_app_or in I. destruct I as [I | [<- | []]]; [|xl].
    apply sep_app in SS. destruct SS as (_ & (N & _) & X). specialize (X v x I (or_introl eq_refl)). xl. }
  destruct (F v0 I0) as (a & b & E0). destruct (F x Ix) as (c & d & Ex). exists a, d. rewrite E0, Ex. cbn [lf rt]. split; auto.
  split; [|split; [exists v0|exists x]; split; auto; rewrite ?E0, ?Ex in *; unfold within; cbn [lf rt] in *; split; xl].
  intros y (v & I & W1 & W2). specialize (LO v I). specialize (HI v I). rewrite E0 in LO. rewrite Ex in HI. xl.
Qed.

(** * Splitting into single values *)
Lemma singles_in : forall l r v, In v (singles l r) <-> exists z, l <= z <= r /\ v = Iv (Fin z) (Fin z).
Proof.
  intros l r v. unfold singles. rewrite in_map_iff. split.
  - intros (k & <- & I). apply in_seq in I. exists (l + Z.of_nat k). split; [lia|auto].
  - intros (z & B & ->). exists (Z.to_nat (z - l)). split; [rewrite Z2Nat.id by lia; now replace (l + (z - l)) with z by lia|]. apply in_seq. lia.
Qed.
Lemma singles_sep : forall l r, separate (singles l r).
Proof.
  intros l r. unfold singles. set (n := Z.to_nat (r - l + 1)). clearbody n.
  assert (G : forall m i, separate (map (fun k => Iv (Fin (l + Z.of_nat k)) (Fin (l + Z.of_nat k))) (seq i m))).
  { induction m as [|m IH]; intros i; cbn [seq map separate]; auto. split; [cbn; lia|]. split; auto.
    intros w I. apply in_map_iff in I. destruct I as (k & <- & I). apply in_seq in I. cbn [lf rt]. xl. }
  apply G.
Qed.
Lemma to_int_same : forall z r, to_int z = Done r -> r = z.
Proof. unfold to_int. intros z r H. destruct (_ && _); [now injection H|discriminate]. Qed.
Lemma split_bits_ok : forall s s', separate s -> finite s -> split_bits s = Done s' ->
  separate s' /\ finite s' /\ refines s' s /\ (forall z, member z s' <-> member z s).
Proof.
  induction s as [|v s IH]; intros s' SS F H.
  { injection H as <-. split; [cbn; auto|]. split; [intros v []|]. split; [intros v []|tauto]. }
  cbn [split_bits] in H. destruct (F v (or_introl eq_refl)) as (a & b & Ev).
  destruct (to_int (zof (lf v))) as [l| | | |] eqn:E1; try discriminate. cbn [obind] in H.
  destruct (to_int (zof (rt v) + 1)) as [r1| | | |] eqn:E2; try discriminate. cbn [obind] in H.
  destruct (split_bits s) as [t| | | |] eqn:E3; try discriminate. cbn [obind] in H. injection H as <-.
  apply to_int_same in E1, E2. rewrite Ev in E1, E2. cbn [lf rt zof] in E1, E2. subst l r1. replace (b + 1 - 1) with b by lia.
  destruct SS as (N & HS & SS'). destruct (IH t SS' (fun u I => F u (or_intror I)) eq_refl) as (A & B & C & D). rewrite Ev in N. cbn [lf rt] in N.
  split. { apply sep_app. split; [apply singles_sep|]. split; auto. intros x y Ix Iy. apply singles_in in Ix. destruct Ix as (z & Bz & ->).
    destruct (C y Iy) as (w & Iw & W1 & W2). specialize (HS w Iw). rewrite Ev in HS. cbn [lf rt] in *. xl. }
  split. { intros u I. apply in_app_or in I. destruct I as [I | I]; [apply singles_in in I; destruct I as (z & _ & ->); eauto|auto]. }
  split. { intros u I. apply in_app_or in I. destruct I as [I | I].
    - apply singles_in in I. destruct I as (z & Bz & ->). exists v. split; [now left|]. rewrite Ev. cbn [lf rt]. split; xl.
    - destruct (C u I) as (w & Iw & W). exists w. split; [now right|auto]. }
  intros z. rewrite member_app, member_cons, D. assert (Q : member z (singles a b) <-> within z v); [|tauto]. rewrite Ev. unfold within. cbn [lf rt]. split.
  - intros (u & I & W1 & W2). apply singles_in in I. destruct I as (y & By & ->). cbn [lf rt] in *. split; xl.
  - intros [W1 W2]. exists (Iv (Fin z) (Fin z)). split; [apply singles_in; exists z; split; [xl|auto]|]. split; cbn; lia.
Qed.
Lemma split_bits_nonempty : forall s s', separate s -> finite s -> s <> [] -> split_bits s = Done s' -> s' <> [].
Proof.
  intros s s' SS F NE H. destruct (split_bits_ok s s' SS F H) as (_ & _ & _ & M). destruct (bounds_ok s SS F NE) as (L & U & _ & _ & ML & _).
  apply M in ML. destruct ML as (v & I & _). intros ->. destruct I.
Qed.

(** * Sums over flags *)
Lemma total_app : forall x fl bs a b, total x fl bs (a ++ b) = total x fl bs a + total x fl bs b.
Proof. intros. unfold total. rewrite map_app. induction (map _ a) as [|h t IH]; cbn; lia. Qed.
Lemma total_filter : forall x fl bs ts, total x fl bs (filter (fun t => negb (fst t =? 0)) ts) = total x fl bs ts.
Proof.
  intros x fl bs. induction ts as [|[c m] ts IH]; [auto|]. cbn [filter]. unfold total in *. cbn [map fold_right fst snd] in *.
  destruct (Z.eqb_spec c 0); cbn [negb]; [subst; rewrite IH; lia|]. cbn [map fold_right fst snd]. rewrite IH. reflexivity.
Qed.
Lemma add_lin_holds : forall x fl bs ts e r, lin_holds x fl bs (add_lin ts e r) <-> if e then total x fl bs ts = r else total x fl bs ts <= r.
Proof. intros. unfold lin_holds, add_lin. cbn [is_eq terms MipModel.rhs]. rewrite total_filter. tauto. Qed.

(** exactly the K-th value of val below n is 1, the others are 0 *)
Definition picks (val : nat -> Z) (n K : nat) : Prop := (K < n)%nat /\ forall k, (k < n)%nat -> val k = if (k =? K)%nat then 1 else 0.
Definition ft (f : intv -> Z) (i : nat) (s : soi) : list (Z * mvar) := map (fun kv => (f (snd kv), MFlag (fst kv))) (combine (seq i (length s)) s).
Lemma flags_sum : forall x fl bs f s i K, (K < length s)%nat -> (forall k, (k < length s)%nat -> fl (i + k)%nat = if (k =? K)%nat then 1 else 0) ->
  total x fl bs (ft f i s) = f (nth K s dflt).
Proof.
  intros x fl bs f. assert (Z0 : forall s i, (forall k, (k < length s)%nat -> fl (i + k)%nat = 0) -> total x fl bs (ft f i s) = 0).
  { induction s as [|v s IH]; intros i H; [reflexivity|]. unfold ft. cbn [length seq combine map]. fold (ft f (S i) s). unfold total. cbn [map fold_right fst snd value].
    change (f v * fl i + total x fl bs (ft f (S i) s) = 0). rewrite IH.
    - pose proof (H 0%nat ltac:(cbn; lia)) as Q. rewrite Nat.add_0_r in Q. rewrite Q. lia.
    - intros k Hk. replace (S i + k)%nat with (i + S k)%nat by lia. apply H. cbn. lia. }
  induction s as [|v s IH]; intros i K HK H; [cbn in HK; lia|].
  change (f v * fl i + total x fl bs (ft f (S i) s) = f (nth K (v :: s) dflt)).
  pose proof (H 0%nat ltac:(cbn; lia)) as Q. rewrite Nat.add_0_r in Q. destruct K as [|K].
  - cbn [Nat.eqb] in Q. rewrite Q, Z0; [cbn; lia|]. intros k Hk. replace (S i + k)%nat with (i + S k)%nat by lia. now rewrite H by (cbn; lia).
  - cbn [Nat.eqb] in Q. rewrite Q, (IH (S i) K); [cbn [nth]; lia|cbn in HK; lia|]. intros k Hk. replace (S i + k)%nat with (i + S k)%nat by lia. rewrite H by (cbn; lia). reflexivity.
Qed.
Lemma one_flag : forall x fl bs s i, (forall k, (k < length s)%nat -> fl (i + k)%nat = 0 \/ fl (i + k)%nat = 1) ->
  0 <= total x fl bs (ft (fun _ => 1) i s) /\
  (total x fl bs (ft (fun _ => 1) i s) = 0 -> forall k, (k < length s)%nat -> fl (i + k)%nat = 0) /\
  (total x fl bs (ft (fun _ => 1) i s) = 1 -> exists K, (K < length s)%nat /\ forall k, (k < length s)%nat -> fl (i + k)%nat = if (k =? K)%nat then 1 else 0).
Proof.
  intros x fl bs. induction s as [|v s IH]; intros i H.
  { cbn. split; [lia|]. split; [intros; lia|lia]. }
  assert (ET : total x fl bs (ft (fun _ => 1) i (v :: s)) = fl i + total x fl bs (ft (fun _ => 1) (S i) s)).
  { change (1 * fl i + total x fl bs (ft (fun _ => 1) (S i) s) = fl i + total x fl bs (ft (fun _ => 1) (S i) s)). lia. }
  rewrite ET. pose proof (H 0%nat ltac:(cbn; lia)) as Q. rewrite Nat.add_0_r in Q.
  destruct (IH (S i)) as (A & B & C). { intros k Hk. replace (S i + k)%nat with (i + S k)%nat by lia. apply H. cbn. lia. }
  split; [lia|]. split.
  - intros T k Hk. destruct k as [|k]; [rewrite Nat.add_0_r; lia|]. replace (i + S k)%nat with (S i + k)%nat by lia. apply B; [lia|cbn in Hk; lia].
  - intros T. destruct Q as [Q | Q].
    + destruct C as (K & HK & HC); [lia|]. exists (S K). split; [cbn; lia|]. intros [|k] Hk; [rewrite Nat.add_0_r; auto|]. replace (i + S k)%nat with (S i + k)%nat by lia. rewrite HC by (cbn in Hk; lia). reflexivity.
    + exists 0%nat. split; [cbn; lia|]. intros [|k] Hk; [rewrite Nat.add_0_r; auto|]. replace (i + S k)%nat with (S i + k)%nat by lia. cbn. apply B; [lia|cbn in Hk; lia].
Qed.
Lemma max_interval_le : forall s v, In v s -> width v <= max_interval s.
Proof.
  intros s v I. unfold max_interval. assert (G : forall s a, (In v s \/ width v <= a) -> width v <= fold_left (fun a v => Z.max a (width v)) s a).
  { induction s0 as [|w s0 IH]; intros a [H | H]; cbn; try contradiction; auto; apply IH; [destruct H as [<- | H]; [right; lia|auto]|right; lia]. }
  apply G. auto.
Qed.
Lemma domain_flags_ok : forall x fl bs s, separate s -> finite s -> s <> [] ->
  (((forall k, (k < length s)%nat -> fl k = 0 \/ fl k = 1) /\ Forall (lin_holds x fl bs) (domain_flags s)) ->
     exists K, picks fl (length s) K /\ within x (nth K s dflt)) /\
  (forall K, picks fl (length s) K -> within x (nth K s dflt) -> Forall (lin_holds x fl bs) (domain_flags s)).
Proof.
  intros x fl bs s SS F NE.
  assert (EF : forall f, flag_terms f s = ft f 0 s) by reflexivity.
  assert (TR : forall c, total x fl bs [(c, MRef)] = c * x) by (intros; unfold total; cbn; lia).
  assert (KEY : forall K, picks fl (length s) K -> (Forall (lin_holds x fl bs) (tl (domain_flags s)) <-> within x (nth K s dflt))).
  { intros K (HK & HP). assert (I : In (nth K s dflt) s) by now apply nth_In. destruct (F _ I) as (a & b & E).
    pose proof (sep_nonempty s _ SS I) as N. pose proof (max_interval_le s _ I) as W. unfold width in W. rewrite E in *. cbn [lf rt zof] in *.
    unfold within. cbn [lf rt]. unfold domain_flags. cbn [tl].
    assert (S1 : total x fl bs (flag_terms (fun v => zof (lf v)) s) = a) by (rewrite EF, (flags_sum x fl bs _ s 0 K); auto; now rewrite E).
    assert (S2 : total x fl bs (flag_terms (fun v => - zof (rt v)) s) = - b) by (rewrite EF, (flags_sum x fl bs _ s 0 K); auto; now rewrite E).
    destruct (Z.ltb_spec 0 (max_interval s)).
    - rewrite !Forall_cons_iff, !add_lin_holds, !total_app, !TR, S1, S2. split; [intros (A & B & _); split; xl|intros [A B]; repeat split; auto; xl].
    - rewrite Forall_cons_iff, add_lin_holds, total_app, TR, S1. split; [intros (A & _); split; xl|intros [A B]; split; auto; xl]. }
  assert (HD : lin_holds x fl bs (hd (Lin [] true 0) (domain_flags s)) <-> total x fl bs (ft (fun _ => 1) 0 s) = 1).
  { unfold domain_flags. cbn [hd]. rewrite add_lin_holds. rewrite EF. tauto. }
  assert (SP : forall P, Forall P (domain_flags s) <-> P (hd (Lin [] true 0) (domain_flags s)) /\ Forall P (tl (domain_flags s))).
  { intros P. unfold domain_flags. cbn [hd tl]. apply Forall_cons_iff. }
  split.
  - intros (B & H). apply SP in H. destruct H as [H1 H2]. apply HD in H1. destruct (one_flag x fl bs s 0) as (_ & _ & C); [intros k Hk; now apply B|].
    destruct (C H1) as (K & HK & HC). exists K. assert (P : picks fl (length s) K) by (split; auto). split; auto. now apply KEY.
  - intros K P W. apply SP. split; [|now apply (KEY K)]. apply HD. destruct P as (HK & HP). now rewrite (flags_sum x fl bs _ s 0 K).
Qed.

(** * Relating a 0/1 variable to flags *)
Section Relate.
Variables (s : soi) (hf : bool) (x : Z) (fl bs : nat -> Z) (K : nat).
Hypothesis SS : separate s.
Hypothesis HP : picks (fun k => if hf then fl k else 1) (length s) K.
Hypothesis HW : within x (nth K s dflt).

Lemma nth_order : forall i j, (i < j)%nat -> (j < length s)%nat -> ext_lt (rt (nth i s dflt)) (lf (nth j s dflt)).
Proof using SS.
  clear HP HW. intros i j L B. revert i j L B. induction s as [|v t IH]; intros i j L B; [cbn in B; lia|].
  destruct SS as (N & H & SS'). destruct j as [|j]; [lia|]. cbn [length] in B. destruct i as [|i].
  - cbn [nth]. apply H. apply nth_In. lia.
  - cbn [nth]. apply IH; auto; lia.
Qed.
Lemma nth_nonempty : forall i, (i < length s)%nat -> ext_le (lf (nth i s dflt)) (rt (nth i s dflt)).
Proof using SS. intros i H. apply (sep_nonempty s); auto. now apply nth_In. Qed.
Lemma prefix_pos : forall p, (forall i j, (i <= j)%nat -> (j < length s)%nat -> p (nth j s dflt) = true -> p (nth i s dflt) = true) ->
  (prefix p s <= length s)%nat /\ forall i, (i < length s)%nat -> ((i < prefix p s)%nat <-> p (nth i s dflt) = true).
Proof using.
  clear. intros p M. destruct (prefix_cut p s) as (A & B & E & EP & HA & HB). rewrite EP.
  assert (EL : length s = (length A + length B)%nat) by (rewrite E; apply app_length). split; [lia|].
  intros i Hi. split.
  - intros L. rewrite E, app_nth1 by lia. apply HA. now apply nth_In.
  - intros Q. destruct (Nat.lt_ge_cases i (length A)); auto. exfalso. destruct B as [|b B]; [cbn in EL; lia|].
    assert (P : p (nth (length A) s dflt) = true) by (apply (M _ i); auto; lia). rewrite E, nth_len in P. congruence.
Qed.
Lemma lower_pos : forall e, (lower_bound s e <= length s)%nat /\ forall i, (i < length s)%nat -> ((i < lower_bound s e)%nat <-> ext_lt (lf (nth i s dflt)) e).
Proof using SS.
  clear HP HW. intros e. destruct (prefix_pos (fun v => xlt (lf v) e)) as (A & B).
  - intros i j L H Q. apply xlt_iff in Q. apply xlt_iff. destruct (Nat.eq_dec i j) as [-> | NE]; auto. pose proof (nth_order i j ltac:(lia) H). pose proof (nth_nonempty i ltac:(lia)). xl.
  - split; auto. intros i H. unfold lower_bound. rewrite B by auto. apply xlt_iff.
Qed.
Lemma upper_pos : forall e, (upper_bound s e <= length s)%nat /\ forall i, (i < length s)%nat -> ((i < upper_bound s e)%nat <-> ext_le (lf (nth i s dflt)) e).
Proof using SS.
  clear HP HW. intros e. destruct (prefix_pos (fun v => xle (lf v) e)) as (A & B).
  - intros i j L H Q. apply xle_iff in Q. apply xle_iff. destruct (Nat.eq_dec i j) as [-> | NE]; auto. pose proof (nth_order i j ltac:(lia) H). pose proof (nth_nonempty i ltac:(lia)). xl.
  - split; auto. intros i H. unfold upper_bound. rewrite B by auto. apply xle_iff.
Qed.
(** the flags between the positions say whether x is in u *)
Lemma positions : forall u, (match lower_bound s (lf u) with O => true | S k => xlt (rt (nth k s dflt)) (lf u) end) = true ->
  (match upper_bound s (rt u) with O => true | S k => xle (rt (nth k s dflt)) (rt u) end) = true ->
  ((lower_bound s (lf u) <= K < upper_bound s (rt u))%nat <-> within x u).
Proof using SS HP HW.
  intros u A1 A2. destruct (lower_pos (lf u)) as (B1 & C1). destruct (upper_pos (rt u)) as (B2 & C2). destruct HP as (HK & _). destruct HW as (W1 & W2).
  specialize (C1 K HK). specialize (C2 K HK). split.
  - intros [L R]. pose proof (proj1 C2 R) as R'. assert (NL : ~ ext_lt (lf (nth K s dflt)) (lf u)) by (rewrite <- C1; lia). split; [xl|].
    destruct (upper_bound s (rt u)) as [|k] eqn:E2; [lia|]. apply xle_iff in A2. assert (ext_le (rt (nth K s dflt)) (rt (nth k s dflt))); [|xl].
    destruct (Nat.eq_dec K k) as [-> | NE]; [xl|]. pose proof (nth_order K k ltac:(lia) ltac:(lia)). pose proof (nth_nonempty k ltac:(lia)). xl.
  - intros [V1 V2]. split; [|apply C2; xl]. destruct (Nat.le_gt_cases (lower_bound s (lf u)) K); auto. exfalso.
    destruct (lower_bound s (lf u)) as [|k] eqn:E1; [lia|]. apply xlt_iff in A1. assert (ext_le (rt (nth K s dflt)) (rt (nth k s dflt))); [|xl].
    destruct (Nat.eq_dec K k) as [-> | NE]; [xl|]. pose proof (nth_order K k ltac:(lia) ltac:(lia)). pose proof (nth_nonempty k ltac:(lia)). xl.
Qed.
Definition fsum (fs : list mvar) : Z := fold_right Z.add 0 (map (value x fl bs) fs).
Lemma fsum_app : forall a b, fsum (a ++ b) = fsum a + fsum b.
Proof using. unfold fsum. intros a b. rewrite map_app. generalize (map (value x fl bs) b) as m. induction (map (value x fl bs) a) as [|h t IH]; intros m; cbn [app fold_right]; [lia|rewrite IH; lia]. Qed.
Lemma fsum_seq : forall n i, (i + n <= length s)%nat ->
  fsum (map (fun k => if hf then MFlag k else MOne) (seq i n)) = if ((i <=? K) && (K <? i + n))%nat then 1 else 0.
Proof using HP.
  induction n as [|n IH]; intros i B.
  - unfold fsum. cbn [seq map fold_right]. destruct (Nat.leb_spec i K), (Nat.ltb_spec K (i + 0)); cbn [andb]; lia.
  - cbn [seq map]. unfold fsum. cbn [map fold_right]. change (value x fl bs (if hf then MFlag i else MOne) + fsum (map (fun k => if hf then MFlag k else MOne) (seq (S i) n)) = if ((i <=? K) && (K <? i + S n))%nat then 1 else 0).
    rewrite IH by lia. destruct HP as (HK & HV). specialize (HV i ltac:(lia)).
    replace (value x fl bs (if hf then MFlag i else MOne)) with (if hf then fl i else 1) by (destruct hf; reflexivity). rewrite HV.
    destruct (Nat.eqb_spec i K), (Nat.leb_spec i K), (Nat.ltb_spec K (i + S n)), (Nat.leb_spec (S i) K), (Nat.ltb_spec K (S i + n)); cbn [andb]; lia.
Qed.
Lemma related_ok : forall SS' fs, (forall a u t, SS' = a ++ u :: t -> within x u -> ~ member x t) -> related s hf SS' = Done fs ->
  (member x SS' /\ fsum fs = 1) \/ (~ member x SS' /\ fsum fs = 0).
Proof using SS HP HW.
  induction SS' as [|u t IH]; intros fs DJ H.
  { injection H as <-. right. split; [apply member_nil|reflexivity]. }
  cbn [related] in H. cbv zeta in H.
  destruct (match lower_bound s (lf u) with O => true | S k => xlt (rt (nth k s dflt)) (lf u) end) eqn:A1; [|discriminate]. cbn [negb] in H.
  destruct (match upper_bound s (rt u) with O => true | S k => xle (rt (nth k s dflt)) (rt u) end) eqn:A2; [|discriminate]. cbn [negb] in H.
  destruct (upper_bound s (rt u) <? lower_bound s (lf u))%nat eqn:A3; [discriminate|]. apply Nat.ltb_ge in A3.
  destruct (_ && _ && _); [discriminate|]. destruct (related s hf t) as [gs| | | |] eqn:E; try discriminate. cbn [obind] in H. injection H as <-.
  pose proof (positions u A1 A2) as P. destruct (upper_pos (rt u)) as (B2 & _).
  rewrite fsum_app, fsum_seq by lia. replace (lower_bound s (lf u) + (upper_bound s (rt u) - lower_bound s (lf u)))%nat with (upper_bound s (rt u)) by lia.
  assert (IH' := IH gs (fun a w r Q => DJ (u :: a) w r (f_equal (cons u) Q)) eq_refl).
  rewrite member_cons. destruct (Nat.leb_spec (lower_bound s (lf u)) K), (Nat.ltb_spec K (upper_bound s (rt u))); cbn [andb].
  - assert (W : within x u) by (apply P; lia). left. split; auto. pose proof (DJ [] u t eq_refl W). destruct IH' as [[M _] | [_ ->]]; [tauto|lia].
  - assert (W : ~ within x u) by (rewrite <- P; lia). destruct IH' as [[M ->] | [M ->]]; [left|right]; split; auto; tauto.
  - assert (W : ~ within x u) by (rewrite <- P; lia). destruct IH' as [[M ->] | [M ->]]; [left|right]; split; auto; tauto.
  - assert (W : ~ within x u) by (rewrite <- P; lia). destruct IH' as [[M ->] | [M ->]]; [left|right]; split; auto; tauto.
Qed.
Definition added_holds (a : added) : Prop := Forall (lin_holds x fl bs) (fst a) /\ forall b, In b (snd a) -> bs b = 0.
Lemma rel_total : forall b fs, total x fl bs (map (fun f => (-1, f)) fs ++ [(1, MB b)]) = - fsum fs + bs b.
Proof using.
  intros b fs. rewrite total_app. replace (total x fl bs [(1, MB b)]) with (bs b).
  - f_equal. unfold total, fsum. induction fs as [|g l IH]; [reflexivity|]. cbn [map fold_right fst snd]. rewrite IH. lia.
  - unfold total. cbn [map fold_right fst snd value]. lia.
Qed.
Lemma relate_ok : forall b SS' full a, (forall a u t, SS' = a ++ u :: t -> within x u -> ~ member x t) -> bs b = 0 \/ bs b = 1 ->
  relate s hf b SS' full = Done a -> (added_holds a <-> if full then says bs b (member x SS') else (bs b = 1 -> member x SS')).
Proof using SS HP HW.
  intros b SS' full a DJ B H. unfold relate in H. destruct (related s hf SS') as [fs| | | |] eqn:E; try discriminate. cbn [obind] in H.
  destruct (related_ok SS' fs DJ E) as [[M S] | [M S]].
  - destruct fs as [|f fs]; [discriminate|]. injection H as <-. unfold added_holds. cbn [fst snd].
    pose proof (rel_total b (f :: fs)) as T. cbn [map app] in T.
    rewrite Forall_cons_iff, add_lin_holds, T, S. unfold says. destruct full.
    + split; [intros ((Q & _) & _); split; auto; lia|]. intros Q. split; [|intros ? []]. split; auto. apply Q in M. lia.
    + split; auto. intros _. split; [|intros ? []]. split; auto. lia.
  - assert (EQ : added_holds a <-> if full then bs b = 0 else bs b <= 0).
    { destruct fs as [|f fs].
      - injection H as <-. unfold added_holds. cbn [fst snd]. split; [intros (_ & Q); specialize (Q b (or_introl eq_refl)); destruct full; lia|].
        intros Q. split; auto. intros c [<- | []]. destruct full; lia.
      - injection H as <-. unfold added_holds. cbn [fst snd].
        pose proof (rel_total b (f :: fs)) as T. cbn [map app] in T.
        rewrite Forall_cons_iff, add_lin_holds, T, S. destruct full; (split; [intros ((Q & _) & _); lia|intros Q; split; [split; auto; lia|intros ? []]]). }
    rewrite EQ. unfold says. destruct B as [B | B]; rewrite B; destruct full; split; intros Q; try lia.
    + split; [lia|tauto].
    + exfalso. apply M, Q. reflexivity.
    + exfalso. apply M, Q. reflexivity.
Qed.
End Relate.

Lemma sep_disjoint : forall x S, separate S -> forall a u t, S = a ++ u :: t -> within x u -> ~ member x t.
Proof.
  intros x S SS a u t -> (W1 & W2) (w & I & V1 & V2). apply sep_app in SS. destruct SS as (_ & (N & H & _) & _). specialize (H w I). xl.
Qed.
Lemma member_one : forall x u, member x [u] <-> within x u.
Proof. intros. rewrite member_cons. pose proof (member_nil x). tauto. Qed.

Section Implement.
Variables (s : soi) (hf : bool) (x : Z) (fl bs : nat -> Z) (K : nat).
Hypothesis SS : separate s.
Hypothesis FS : finite s.
Hypothesis HP : picks (fun k => if hf then fl k else 1) (length s) K.
Hypothesis HW : within x (nth K s dflt).

Lemma relate1 : forall b u full a, bs b = 0 \/ bs b = 1 -> relate s hf b [u] full = Done a ->
  (added_holds x fl bs a <-> if full then says bs b (within x u) else (bs b = 1 -> within x u)).
Proof using SS HP HW.
  intros b u full a B H. assert (DJ : forall a v t, [u] = a ++ v :: t -> within x v -> ~ member x t).
  { intros [|y [|z l]] v t E W; cbn in E; try discriminate. injection E as <- <-. apply member_nil. }
  rewrite (relate_ok s hf x fl bs K SS HP HW b [u] full a DJ B H). unfold says. pose proof (member_one x u). destruct full; tauto.
Qed.
Lemma le_meaning : forall w v c, good_view w -> related_by w x v -> (within x (if num w <? 0 then Iv (Fin (up w c)) PInf else Iv MInf (Fin (down w c))) <-> v <= c).
Proof using.
  clear. intros w v c (D & N & _) R. unfold related_by in R. unfold within. destruct (Z.ltb_spec (num w) 0); cbn [lf rt ext_le].
  - rewrite up_le, R by auto. split; [intros []; nia|split; auto; nia].
  - rewrite le_down, R by auto. split; [intros []; nia|split; auto; nia].
Qed.
Lemma ge_meaning : forall w v c, good_view w -> related_by w x v -> (within x (if num w <? 0 then Iv MInf (Fin (down w c)) else Iv (Fin (up w c)) PInf) <-> c <= v).
Proof using.
  clear. intros w v c (D & N & _) R. unfold related_by in R. unfold within. destruct (Z.ltb_spec (num w) 0); cbn [lf rt ext_le].
  - rewrite le_down, R by auto. split; [intros []; nia|split; auto; nia].
  - rewrite up_le, R by auto. split; [intros []; nia|split; auto; nia].
Qed.
Lemma eq_meaning : forall w v c, good_view w -> related_by w x v -> (within x (Iv (Fin (up w c)) (Fin (down w c))) <-> v = c).
Proof using.
  clear. intros w v c (D & N & _) R. unfold related_by in R. unfold within. cbn [lf rt ext_le]. rewrite le_down, up_le, R by auto.
  split; [intros []; nia|intros ->; lia].
Qed.
Lemma holds1 : forall ts r, added_holds x fl bs ([add_lin ts false r], []) <-> total x fl bs ts <= r.
Proof using. clear. intros. unfold added_holds. cbn [fst snd]. rewrite Forall_cons_iff, add_lin_holds. split; [tauto|intros; split; [split; auto|intros ? []]]. Qed.
Lemma holds0 : added_holds x fl bs ([], []) <-> True.
Proof using. clear. unfold added_holds. cbn [fst snd]. split; auto. intros. split; auto. intros ? []. Qed.
Lemma holdsz : forall b, added_holds x fl bs ([], [b]) <-> bs b = 0.
Proof using. clear. intros. unfold added_holds. cbn [fst snd]. split; [intros (_ & H); apply H; now left|intros; split; auto; intros c [<- | []]; auto]. Qed.
Lemma impl_le0_ok : forall w v b a, good_view w -> related_by w x v -> bs b = 0 \/ bs b = 1 -> impl_le0 s hf w b = Done a ->
  (added_holds x fl bs a <-> (bs b = 1 -> v <= 0)).
Proof using SS FS HP HW.
  intros w v b a G R B H. pose proof (le_meaning w v 0 G R) as M. unfold impl_le0 in H. cbv zeta in H.
  destruct (negb _).
  { rewrite <- M. apply (relate1 b _ false a B). rewrite <- H. f_equal. destruct (num w <? 0); reflexivity. }
  assert (MX : member x s). { exists (nth K s dflt). split; auto. apply nth_In. destruct HP; auto. }
  assert (NE : s <> []) by (intros ->; destruct MX as (? & [] & _)).
  destruct (bounds_ok s SS FS NE) as (L & U & EB & BX & _). specialize (BX x MX). rewrite EB in H. cbn [fst snd zof] in H. rewrite <- M. clear M.
  destruct (num w <? 0); unfold within; cbn [lf rt ext_le].
  - destruct (Z.ltb_spec L (up w 0)); [|injection H as <-; rewrite holds0; split; auto; intros _ _; split; auto; lia].
    destruct (Z.leb_spec (up w 0) U); injection H as <-.
    + rewrite holds1. unfold total. cbn [map fold_right fst snd value]. destruct B as [B | B]; rewrite B; split; intros Q; lia.
    + rewrite holdsz. split; [intros; lia|]. intros Q. destruct B as [B | B]; auto. exfalso. destruct (Q B). lia.
  - destruct (Z.ltb_spec (down w 0) U); [|injection H as <-; rewrite holds0; split; auto; intros _ _; split; auto; lia].
    destruct (Z.leb_spec L (down w 0)); injection H as <-.
    + rewrite holds1. unfold total. cbn [map fold_right fst snd value]. destruct B as [B | B]; rewrite B; split; intros Q; lia.
    + rewrite holdsz. split; [intros; lia|]. intros Q. destruct B as [B | B]; auto. exfalso. destruct (Q B). lia.
Qed.
Lemma impl_call_ok : forall w v p a, good_view w -> Forall good_set (sets_of p) -> related_by w x v -> (forall b, In b (flags_of p) -> bs b = 0 \/ bs b = 1) ->
  impl_call s hf w p = Done a -> (added_holds x fl bs a <-> dynamic p v bs).
Proof using SS FS HP HW.
  intros w v p a G GS R B H. destruct p as [c|D|D b|c b|c b|c b|b]; cbn [impl_call dynamic post_holds flags_of sets_of] in *.
  - injection H as <-. apply holds0.
  - injection H as <-. apply holds0.
  - inversion_clear GS. destruct (convert_ok w D G H0) as (SC & _). specialize (B b (or_introl eq_refl)).
    rewrite (relate_ok s hf x fl bs K SS HP HW b (convert w D) true a (sep_disjoint x _ SC) B H). unfold says. pose proof (convert_member w D x v G H0 R). tauto.
  - specialize (B b (or_introl eq_refl)). pose proof (le_meaning w v c G R) as M. unfold says. rewrite <- M.
    apply (relate1 b _ true a B). rewrite <- H. destruct (num w <? 0); reflexivity.
  - specialize (B b (or_introl eq_refl)). pose proof (ge_meaning w v c G R) as M. unfold says. rewrite <- M.
    apply (relate1 b _ true a B). rewrite <- H. destruct (num w <? 0); reflexivity.
  - specialize (B b (or_introl eq_refl)). pose proof (eq_meaning w v c G R) as M. unfold says. rewrite <- M. apply (relate1 b _ true a B H).
  - specialize (B b (or_introl eq_refl)). apply (impl_le0_ok w v b a G R B H).
Qed.
Lemma holds_both : forall a r, added_holds x fl bs (fst a ++ fst r, snd a ++ snd r) <-> added_holds x fl bs a /\ added_holds x fl bs r.
Proof using. clear. intros. unfold added_holds. cbn [fst snd]. rewrite Forall_app. setoid_rewrite in_app_iff. split; [intros ((A & B) & C); split; split; auto|]. intros ((A & B) & (C & D)). split; auto. intros b [I | I]; auto. Qed.
Lemma impl_calls_ok : forall w v ps a, good_view w -> Forall (fun p => Forall good_set (sets_of p)) ps -> related_by w x v ->
  (forall p b, In p ps -> In b (flags_of p) -> bs b = 0 \/ bs b = 1) ->
  impl_calls s hf w ps = Done a -> (added_holds x fl bs a <-> Forall (fun p => dynamic p v bs) ps).
Proof using SS FS HP HW.
  intros w v. induction ps as [|p ps IH]; intros a G GS R B H.
  { injection H as <-. rewrite holds0. split; auto. }
  cbn [impl_calls] in H. inversion_clear GS.
  destruct (impl_call s hf w p) as [a1| | | |] eqn:E1; try discriminate. cbn [obind] in H.
  destruct (impl_calls s hf w ps) as [a2| | | |] eqn:E2; try discriminate. cbn [obind] in H. injection H as <-.
  rewrite holds_both, Forall_cons_iff. rewrite (impl_call_ok w v p a1); auto; [|intros b I; apply (B p b); auto; now left].
  rewrite (IH a2); auto; [tauto|]. intros q b Iq Ib. apply (B q b); auto. now right.
Qed.
Definition dynamics (m : mvard) (v : Z) : Prop := Forall (fun p => dynamic p v bs) (mv_posts m).
Lemma impl_all_ok : forall vs vals a, Forall good_var vs -> linked vs x vals -> binary vs bs ->
  impl_all s hf vs = Done a -> (added_holds x fl bs a <-> Forall2 dynamics vs vals).
Proof using SS FS HP HW.
  induction vs as [|m vs IH]; intros vals a G L B H; inversion L as [|m' v vs' vals' R L' E1 E2]; subst.
  { injection H as <-. rewrite holds0. split; auto. }
  cbn [impl_all] in H. inversion_clear G. destruct H0 as (G1 & _ & G2).
  destruct (impl_calls s hf (mv_view m) (mv_posts m)) as [a1| | | |] eqn:E1; try discriminate. cbn [obind] in H.
  destruct (impl_all s hf vs) as [a2| | | |] eqn:E2; try discriminate. cbn [obind] in H. injection H as <-.
  rewrite holds_both. rewrite (impl_calls_ok (mv_view m) v (mv_posts m) a1); auto; [|intros p b Ip Ib; apply (B m p b); auto; now left].
  rewrite (IH vals' a2); auto; [|intros n p b I1 I2 I3; apply (B n p b); auto; now right].
  split; [intros [A C]; constructor; auto|intros Q; inversion Q; subst; auto].
Qed.
End Implement.

(** * New domains *)
Lemma range_contains : forall w x v L U, good_view w -> related_by w x v -> L <= x <= U -> fst (new_range w L U) <= v <= snd (new_range w L U).
Proof.
  intros w x v L U (D & N & _) R B. unfold new_range, related_by in *. cbv zeta. cbn [fst snd].
  set (a := Z.sgn (num w) * (den w * L - off w)). set (b := Z.sgn (num w) * (den w * U - off w)).
  set (n := Z.abs (num w)). assert (P : 0 < n) by (unfold n; lia).
  assert (Q : (if b <? a then b else a) <= n * v <= (if b <? a then a else b)).
  { unfold a, b, n. destruct (Z.lt_total (num w) 0) as [M | [M | M]]; [|lia|]; [rewrite Z.sgn_neg, Z.abs_neq by lia|rewrite Z.sgn_pos, Z.abs_eq by lia];
    match goal with |- context [?p <? ?q] => destruct (Z.ltb_spec p q) end; nia. }
  destruct Q as [Q1 Q2]. set (lo := if b <? a then b else a) in *. set (hi := if b <? a then a else b) in *.
  pose proof (Z.mul_div_le (- lo) n P). pose proof (Z.mul_succ_div_gt (- lo) n P). pose proof (Z.mul_div_le hi n P). pose proof (Z.mul_succ_div_gt hi n P). split; nia.
Qed.
Lemma range_reference : forall L U, L <= U -> new_range (View 1 0 1) L U = (L, U).
Proof.
  intros L U H. unfold new_range. cbn [num off den]. cbv zeta. change (Z.sgn 1) with 1. change (Z.abs 1) with 1.
  replace (1 * (1 * U - 0)) with U by lia. replace (1 * (1 * L - 0)) with L by lia. destruct (Z.ltb_spec U L); [lia|]. rewrite !Z.div_1_r. f_equal. lia.
Qed.

(** * The whole decomposition *)
Lemma original_split : forall vs vals bs, original vs vals bs <-> Forall2 statics vs vals /\ Forall2 (dynamics bs) vs vals.
Proof.
  intros vs vals bs. unfold original. revert vals. induction vs as [|m vs IH]; intros vals.
  { split; [intros H; inversion H; split; constructor|intros [H _]; inversion H; constructor]. }
  assert (ONE : forall v, ((forall D, mv_dom m = Some D -> member v D) /\ Forall (post_holds v bs) (mv_posts m)) <-> statics m v /\ dynamics bs m v).
  { intros v. unfold statics, dynamics. rewrite !Forall_forall. split.
    - intros [A B]. split; [split; auto|]; intros p I; apply B, post_split in I; tauto.
    - intros [[A B] C]. split; auto. intros p I. apply post_split. auto. }
  split.
  - intros H. inversion H as [|a b c d A B]; subst. apply ONE in A. apply IH in B. destruct A, B. split; constructor; auto.
  - intros [H1 H2]. destruct vals as [|v vals]; [inversion H1|]. inversion_clear H1. inversion_clear H2. constructor; [apply ONE; auto|apply IH; auto].
Qed.
Lemma proper_whole : proper [Iv MInf PInf]. Proof. intros v [<- | []]. split; discriminate. Qed.
Lemma separate_whole : separate [Iv MInf PInf]. Proof. split; [exact I|]. split; [intros w []|exact I]. Qed.
Lemma member_whole : forall x, member x [Iv MInf PInf]. Proof. intros x. exists (Iv MInf PInf). split; [now left|]. split; exact I. Qed.
Lemma ranges_hold : forall vs x vals L U, Forall good_var vs -> linked vs x vals -> L <= x <= U ->
  Forall2 (fun d v => fst d <= v <= snd d) (map (fun v => new_range (mv_view v) L U) vs) vals.
Proof.
  induction vs as [|m vs IH]; intros x vals L U G H B; inversion H; subst; constructor; inversion_clear G.
  - destruct H0 as (A & _). eapply range_contains; eauto.
  - eapply IH; eauto.
Qed.
Lemma ranges_reference : forall vs x vals L U, has_reference vs -> linked vs x vals -> L <= U ->
  Forall2 (fun d v => fst d <= v <= snd d) (map (fun v => new_range (mv_view v) L U) vs) vals -> L <= x <= U.
Proof.
  intros vs x vals L U (m & I & E) H LU. revert vals H. induction vs as [|n vs IH]; [destruct I|]. intros vals H Q. inversion H; subst. inversion Q; subst.
  destruct I as [-> | I]; [|eapply IH; eauto]. rewrite E in *. rewrite range_reference in * by auto. unfold related_by in *. cbn [num off den fst snd] in *. lia.
Qed.
(** no step but the projection reports that there are no solutions *)
Lemma obind_quiet : forall A B (o : out A) (f : A -> out B), o <> Unsat -> (forall a, f a <> Unsat) -> obind o f <> Unsat.
Proof. intros A B [a| | | |] f H K; cbn [obind]; auto; discriminate. Qed.
Lemma to_int_quiet : forall z, to_int z <> Unsat.
Proof. intros z. unfold to_int. destruct (_ && _); discriminate. Qed.
Lemma dense_quiet : forall s nmi dn dd, dense s nmi dn dd <> Unsat.
Proof.
  intros s nmi dn dd. assert (A : split_bits s <> Unsat).
  { induction s as [|u s IH]; cbn [split_bits]; [discriminate|]. apply obind_quiet; [apply to_int_quiet|intros l]. apply obind_quiet; [apply to_int_quiet|intros r]. apply obind_quiet; auto. discriminate. }
  unfold dense. destruct (_ <=? _); auto. apply obind_quiet; [|intros c; destruct (_ <=? _); [auto|discriminate]].
  unfold card_int. generalize 0. clear. induction s as [|u s IH]; intros n; cbn [card_loop]; [discriminate|].
  apply obind_quiet; [apply to_int_quiet|intros]. apply obind_quiet; [apply to_int_quiet|intros]. apply obind_quiet; [apply to_int_quiet|intros]. apply IH.
Qed.
Lemma impl_quiet : forall s hf vs, impl_all s hf vs <> Unsat.
Proof.
  intros s hf. assert (A : forall S, related s hf S <> Unsat).
  { induction S as [|u S IH]; cbn [related]; [discriminate|]. cbv zeta.
    destruct (negb _); [discriminate|]. destruct (negb _); [discriminate|]. destruct (_ <? _)%nat; [discriminate|]. destruct (_ && _ && _); [discriminate|]. apply obind_quiet; auto. discriminate. }
  assert (A' : forall b S full, relate s hf b S full <> Unsat).
  { intros b S full. unfold relate. apply obind_quiet; auto. intros [|f fs]; discriminate. }
  assert (C : forall w p, impl_call s hf w p <> Unsat).
  { intros w p. destruct p; cbn [impl_call]; try discriminate; try apply A'; try (destruct (num w <? 0); apply A').
    unfold impl_le0. cbv zeta. destruct (negb _); [apply A'|]. destruct (num w <? 0); destruct (_ <? _); try discriminate; destruct (_ <=? _); discriminate. }
  assert (C' : forall w ps, impl_calls s hf w ps <> Unsat).
  { intros w. induction ps as [|p ps IH]; cbn [impl_calls]; [discriminate|]. apply obind_quiet; auto. intros a. apply obind_quiet; auto. discriminate. }
  induction vs as [|m vs IH]; cbn [impl_all]; [discriminate|]. apply obind_quiet; auto. intros a. apply obind_quiet; auto. discriminate.
Qed.
Theorem process_ok : forall vs nmi dn dd x vals bs, Forall good_var vs -> has_reference vs -> linked vs x vals -> binary vs bs ->
  match process vs nmi dn dd with
  | Done r => original vs vals bs <-> decomposed r x vals bs
  | Unsat => ~ original vs vals bs
  | _ => True
  end.
Proof.
  intros vs nmi dn dd x vals bs G HR L B. unfold process.
  destruct (project_all_ok vs [Iv MInf PInf] G separate_whole proper_whole) as (s & -> & SS & PS & _ & M & _). cbn [obind].
  specialize (M x vals L). pose proof (member_whole x) as MW.
  destruct s as [|v0 t] eqn:Es. { rewrite original_split. pose proof (member_nil x). tauto. }
  destruct (negb (finite_bounds (v0 :: t))) eqn:FB; [auto|]. apply negb_false_iff in FB.
  destruct (negb (disjunct_strict (v0 :: t))); [auto|]. rewrite <- Es in *. cbv zeta.
  assert (NE : s <> []) by (rewrite Es; discriminate). clear Es v0 t.
  pose proof (finite_of_bounds s SS PS FB) as FS. destruct (bounds_ok s SS FS NE) as (lo & hi & EB & BX & ML & MU). rewrite EB. cbn [fst snd zof].
  assert (LH : lo <= hi) by (apply BX in ML; lia).
  set (hf := (2 <=? length s)%nat).
  assert (KEY : forall s1, separate s1 -> finite s1 -> s1 <> [] -> (forall z, member z s1 <-> member z s) -> (hf = false -> s1 = s) ->
    match obind (impl_all s1 hf vs) (fun a => Done (Res (if hf then length s1 else 0%nat) ((if hf then domain_flags s1 else []) ++ fst a) (snd a) (map (fun v => new_range (mv_view v) lo hi) vs)))
    with Done r => original vs vals bs <-> decomposed r x vals bs | Unsat => ~ original vs vals bs | _ => True end).
  { intros s1 S1 F1 N1 M1 E1. assert (NU : impl_all s1 hf vs <> Unsat).
    { apply impl_quiet. }
    destruct (impl_all s1 hf vs) as [a| | | |] eqn:EI; cbn [obind]; auto; try tauto.
    rewrite original_split. unfold decomposed. cbn [r_flags r_lins r_zero r_ranges].
    assert (IMP : forall fl K, picks (fun k => if hf then fl k else 1) (length s1) K -> within x (nth K s1 dflt) -> (added_holds x fl bs a <-> Forall2 (dynamics bs) vs vals)).
    { intros fl K P W. apply (impl_all_ok s1 hf x fl bs K S1 F1 P W vs vals a G L B EI). }
    split.
    - intros [ST DY]. assert (MX : member x s) by (apply M; auto). pose proof (proj2 (M1 x) MX) as MX1. destruct MX1 as (u & I & W). destruct (In_nth s1 u dflt I) as (K & HK & EK).
      assert (RG : Forall2 (fun d v => fst d <= v <= snd d) (map (fun v => new_range (mv_view v) lo hi) vs) vals) by (eapply ranges_hold; eauto).
      set (fl := fun k : nat => if (k =? K)%nat then 1 else 0).
      assert (P : picks (fun k => if hf then fl k else 1) (length s1) K).
      { split; auto. intros k Hk. destruct hf eqn:EH; [reflexivity|]. rewrite (E1 eq_refl) in *. apply Nat.leb_gt in EH. assert (k = K) by lia. subst. now rewrite Nat.eqb_refl. }
      assert (AH : added_holds x fl bs a). { apply (IMP fl K P); auto. now rewrite EK. }
      destruct AH as [A1 A2]. split; [|auto]. exists fl. split; [intros k _; unfold fl; destruct (k =? K)%nat; auto|]. apply Forall_app. split; auto.
      destruct hf; [|auto]. apply (proj2 (domain_flags_ok x fl bs s1 S1 F1 N1) K); auto. now rewrite EK.
    - intros ((fl & FL & LI) & ZR & RG). apply Forall_app in LI. destruct LI as [LD LA].
      pose proof (ranges_reference vs x vals lo hi HR L LH RG) as XB.
      assert (EX : exists K, picks (fun k => if hf then fl k else 1) (length s1) K /\ within x (nth K s1 dflt)).
      { destruct hf eqn:EH.
        - destruct (proj1 (domain_flags_ok x fl bs s1 S1 F1 N1) (conj FL LD)) as (K & P & W). eauto.
        - rewrite (E1 eq_refl) in *. apply Nat.leb_gt in EH. destruct s as [|u [|u' t]] eqn:Es; [tauto| |cbn in EH; lia]. exists 0%nat. split; [split; [cbn; lia|]|].
          + intros k Hk. cbn [length] in Hk. assert (k = 0%nat) by lia. subst. reflexivity.
          + cbn [nth]. destruct (F1 u (or_introl eq_refl)) as (p & q & Eu). rewrite Eu in *. cbn in EB. injection EB as -> ->. unfold within. cbn [lf rt ext_le]. lia. }
      destruct EX as (K & P & W). assert (MX : member x s). { apply M1. exists (nth K s1 dflt). split; auto. apply nth_In. destruct P; auto. }
      split; [apply M; auto|]. apply (IMP fl K P W). split; auto. }
  destruct hf eqn:EH.
  - pose proof (dense_quiet s nmi dn dd) as Q. destruct (dense s nmi dn dd) as [s1| | | |] eqn:ED; cbn [obind]; auto; try tauto.
    unfold dense in ED. assert (C : split_bits s = Done s1 \/ s1 = s).
    { destruct (max_interval s <=? nmi); auto. destruct (card_int s) as [c| | | |]; cbn [obind] in ED; try discriminate. destruct (_ <=? _); auto. right. now injection ED. }
    destruct C as [ES | ->].
    + destruct (split_bits_ok s s1 SS FS ES) as (A1 & A2 & _ & A4). apply KEY; auto; try discriminate. exact (split_bits_nonempty s s1 SS FS NE ES).
    + apply KEY; auto; tauto.
  - cbn [obind]. apply KEY; auto; tauto.
Qed.
