(** Proofs for C84, part 3: when the decomposition succeeds. *)
Require Import ZArith List Bool Lia.
From Verif Require Import Base IntValSpec MipModel MipSpec MipProofs MipProofs2 MipProofs3.
Import ListNotations.
Open Scope Z_scope.

Lemma representable_whole : forall w p, good_view w -> representable w p -> whole w p.
Proof.
  intros w p (D & _) H. assert (E : forall z c, related_by w z c -> exact w c = true).
  { intros z c R. unfold related_by in R. unfold exact. rewrite <- R, Z.mul_comm, Z.mod_mul by lia. reflexivity. }
  destruct p; cbn in *; auto. { destruct H as [z H]. eauto. } intros N. destruct (H N) as [z Q]. eauto.
Qed.
(** positions of a set relative to a clean interval *)
Lemma clean_related : forall s hf S, separate s -> (hf = false -> length s = 1%nat) -> Forall (clean s) S -> Forall (fun u => ext_le (lf u) (rt u)) S ->
  exists fs, related s hf S = Done fs.
Proof.
  intros s hf S SS H1. induction S as [|u S IH]; intros C N; [cbn; eauto|]. inversion_clear C. inversion_clear N. cbn [related]. cbv zeta.
  destruct (lower_pos s SS (lf u)) as (B1 & C1). destruct (upper_pos s SS (rt u)) as (B2 & C2).
  assert (A1 : (match lower_bound s (lf u) with O => true | S k => xlt (rt (nth k s dflt)) (lf u) end) = true).
  { destruct (lower_bound s (lf u)) as [|k] eqn:E; auto. apply xlt_iff. destruct (C1 k ltac:(lia)) as [Q _]. specialize (Q ltac:(lia)).
    destruct (H (nth k s dflt) ltac:(apply nth_In; lia)) as [K _]. destruct K; [intros X; rewrite X in Q; unfold ext_lt in Q; destruct (lf (nth k s dflt)); cbn in Q; tauto|auto|]. exfalso. xl. }
  assert (A2 : (match upper_bound s (rt u) with O => true | S k => xle (rt (nth k s dflt)) (rt u) end) = true).
  { destruct (upper_bound s (rt u)) as [|k] eqn:E; auto. apply xle_iff. destruct (C2 k ltac:(lia)) as [Q _]. specialize (Q ltac:(lia)).
    destruct (H (nth k s dflt) ltac:(apply nth_In; lia)) as [_ K]. destruct (rt u) as [|z|] eqn:EU.
    - destruct (K ltac:(discriminate)); auto. exfalso. xl.
    - destruct (K ltac:(discriminate)); auto. exfalso. xl.
    - destruct (rt (nth k s dflt)); exact I. }
  rewrite A1, A2. cbn [negb]. assert (A3 : (upper_bound s (rt u) <? lower_bound s (lf u))%nat = false).
  { apply Nat.ltb_ge. destruct (Nat.le_gt_cases (lower_bound s (lf u)) (upper_bound s (rt u))) as [|X]; auto. exfalso.
    destruct (C1 (upper_bound s (rt u)) ltac:(lia)) as [Q _]. specialize (Q X). destruct (C2 (upper_bound s (rt u)) ltac:(lia)) as [_ P]. assert (upper_bound s (rt u) < upper_bound s (rt u))%nat; [|lia]. apply P. xl. }
  rewrite A3. assert (A4 : ((lower_bound s (lf u) <? upper_bound s (rt u))%nat && negb hf && negb (length s =? 1)%nat) = false).
  { destruct hf; cbn [negb]; [now rewrite andb_false_r|]. rewrite (H1 eq_refl). cbn. now rewrite andb_false_r. }
  rewrite A4. destruct (IH H0 H3) as [fs ->]. cbn [obind]. eauto.
Qed.
Lemma relate_done : forall s hf b S full, (exists fs, related s hf S = Done fs) -> exists a, relate s hf b S full = Done a.
Proof. intros s hf b S full [fs E]. unfold relate. rewrite E. cbn [obind]. destruct fs; eauto. Qed.
Lemma order_rt : forall s i j, separate s -> (i <= j)%nat -> (j < length s)%nat -> ext_le (rt (nth i s dflt)) (rt (nth j s dflt)).
Proof.
  intros s i j SS L B. destruct (Nat.eq_dec i j) as [-> | NE]; [xl|]. pose proof (nth_order s SS i j ltac:(lia) B). pose proof (nth_nonempty s SS j B). xl.
Qed.
Lemma impl_call_done : forall s hf w p, separate s -> good_view w -> Forall good_set (sets_of p) -> (hf = false -> length s = 1%nat) ->
  Forall (clean s) (rel_set w p) -> whole w p -> exists a, impl_call s hf w p = Done a.
Proof.
  intros s hf w p SS G GS H1 C W. assert (ONE : forall u b full, ext_le (lf u) (rt u) -> clean s u -> exists a, relate s hf b [u] full = Done a).
  { intros u b full N K. apply relate_done. apply clean_related; auto. }
  destruct p as [c|D|D b|c b|c b|c b|b]; cbn [impl_call rel_set whole sets_of] in *; eauto.
  - apply relate_done. apply clean_related; auto. inversion_clear GS. destruct (convert_ok w D G H) as (_ & _ & I). apply Forall_forall. intros u Iu. apply I in Iu. destruct Iu as (t & _ & _ & N). auto.
  - destruct (num w <? 0); inversion_clear C; apply ONE; auto; exact I.
  - destruct (num w <? 0); inversion_clear C; apply ONE; auto; exact I.
  - inversion_clear C. apply ONE; auto. destruct G as (D & _). destruct (exact_eq w c D W) as [-> _]. cbn. lia.
  - unfold impl_le0. cbv zeta. destruct G as (D & N & _). pose proof (up_down w 0 D) as UD. destruct (Z.ltb_spec (num w) 0) as [NG | NG].
    + destruct (exact_eq w 0 D (W NG)) as [EU _]. destruct (negb (match lower_bound s (Fin (down w 0)) with O => false | S k => xle (Fin (up w 0)) (rt (nth k s dflt)) end)) eqn:EI.
      * apply relate_done. cbn [related]. cbv zeta. cbn [lf rt]. rewrite EU in *. apply negb_true_iff in EI.
        destruct (upper_pos s SS PInf) as (B2 & C2). destruct (lower_pos s SS (Fin (down w 0))) as (B1 & C1).
        assert (E2 : upper_bound s PInf = length s).
        { destruct (Nat.eq_dec (upper_bound s PInf) (length s)) as [|X]; auto. exfalso. destruct (C2 (upper_bound s PInf) ltac:(lia)) as [_ P]. assert (upper_bound s PInf < upper_bound s PInf)%nat; [|lia]. apply P. destruct (lf _); exact I. }
        assert (A1 : (match lower_bound s (Fin (down w 0)) with O => true | S k => xlt (rt (nth k s dflt)) (Fin (down w 0)) end) = true).
        { destruct (lower_bound s (Fin (down w 0))) as [|k]; auto. apply xle_false in EI. apply xlt_iff. exact EI. }
        rewrite A1, E2. cbn [negb].
        assert (A2 : (match length s with O => true | S k => xle (rt (nth k s dflt)) PInf end) = true) by (destruct (length s); auto; destruct (rt _); auto).
        rewrite A2. cbn [negb]. rewrite (proj2 (Nat.ltb_ge _ _) B1).
        assert (A4 : ((lower_bound s (Fin (down w 0)) <? length s)%nat && negb hf && negb (length s =? 1)%nat) = false).
        { destruct hf; cbn [negb]; [now rewrite andb_false_r|]. rewrite (H1 eq_refl). cbn. now rewrite andb_false_r. }
        rewrite A4. cbn [obind]. eauto.
      * destruct (_ <? _); [destruct (_ <=? _)|]; eauto.
    + destruct (negb (match upper_bound s (Fin (up w 0)) with O => false | S k => xlt (Fin (down w 0)) (rt (nth k s dflt)) end)) eqn:EI.
      * apply relate_done. cbn [related]. cbv zeta. cbn [lf rt]. apply negb_true_iff in EI.
        destruct (upper_pos s SS (Fin (up w 0))) as (B1 & C1). destruct (upper_pos s SS (Fin (down w 0))) as (B2 & C2). destruct (lower_pos s SS MInf) as (B3 & C3).
        assert (E3 : lower_bound s MInf = 0%nat).
        { destruct (lower_bound s MInf) as [|k]; auto. exfalso. destruct (C3 k ltac:(lia)) as [P _]. specialize (P ltac:(lia)). unfold ext_lt in P. destruct (lf (nth k s dflt)); cbn in P; tauto. }
        rewrite E3. cbn [negb].
        assert (A2 : (match upper_bound s (Fin (down w 0)) with O => true | S k => xle (rt (nth k s dflt)) (Fin (down w 0)) end) = true).
        { destruct (upper_bound s (Fin (down w 0))) as [|k] eqn:E; auto. destruct (C2 k ltac:(lia)) as [P _]. specialize (P ltac:(lia)).
          assert (P' : ext_le (lf (nth k s dflt)) (Fin (up w 0))) by xl. apply (C1 k ltac:(lia)) in P'. destruct (upper_bound s (Fin (up w 0))) as [|k'] eqn:E'; [lia|].
          apply xlt_false in EI. apply xle_iff. pose proof (order_rt s k k' SS ltac:(lia) ltac:(lia)). xl. }
        rewrite A2. cbn [negb]. change (upper_bound s (Fin (down w 0)) <? 0)%nat with false. cbv iota.
        assert (A4 : ((0 <? upper_bound s (Fin (down w 0)))%nat && negb hf && negb (length s =? 1)%nat) = false).
        { destruct hf; cbn [negb]; [now rewrite andb_false_r|]. rewrite (H1 eq_refl). cbn [Nat.eqb negb]. now rewrite andb_false_r. }
        rewrite A4. cbn [obind]. eauto.
      * destruct (_ <? _); [destruct (_ <=? _)|]; eauto.
Qed.
Lemma impl_calls_done : forall s hf w ps, separate s -> good_view w -> Forall (fun p => Forall good_set (sets_of p)) ps -> (hf = false -> length s = 1%nat) ->
  cleans s w ps -> Forall (whole w) ps -> exists a, impl_calls s hf w ps = Done a.
Proof.
  intros s hf w ps SS G. induction ps as [|p ps IH]; intros GS H1 C W; [cbn; eauto|]. inversion_clear GS. inversion_clear C. inversion_clear W. cbn [impl_calls].
  destruct (impl_call_done s hf w p) as [a ->]; auto. cbn [obind]. destruct IH as [r ->]; auto. cbn [obind]. eauto.
Qed.
Lemma impl_all_done : forall s hf vs, separate s -> Forall good_var vs -> (hf = false -> length s = 1%nat) ->
  all_clean s vs -> Forall (fun m => Forall (whole (mv_view m)) (mv_posts m)) vs -> exists a, impl_all s hf vs = Done a.
Proof.
  intros s hf vs SS. induction vs as [|m vs IH]; intros G H1 C W; [cbn; eauto|]. inversion_clear G. inversion_clear C. inversion_clear W. cbn [impl_all].
  destruct H as (G1 & _ & G2). destruct (impl_calls_done s hf (mv_view m) (mv_posts m)) as [a ->]; auto. cbn [obind]. destruct IH as [r ->]; auto. cbn [obind]. eauto.
Qed.

(** * Sizes *)
Definition inside (s : soi) : Prop := forall v, In v s -> exists a b, v = Iv (Fin a) (Fin b) /\ - 10 ^ 9 <= a /\ b <= 10 ^ 9.
Lemma inside_of_members : forall s, separate s -> proper s -> (forall z, member z s -> - 10 ^ 9 <= z <= 10 ^ 9) -> inside s.
Proof.
  intros s SS PS H v I. destruct (PS v I) as [P1 P2]. pose proof (sep_nonempty s v SS I) as N.
  assert (W : forall z, within z v -> - 10 ^ 9 <= z <= 10 ^ 9) by (intros z K; apply H; exists v; auto). unfold within in W.
  destruct v as [[|a|] [|b|]]; cbn [lf rt ext_le] in *; try tauto.
  - specialize (W (Z.min b (- 10 ^ 9 - 1)) ltac:(split; auto; lia)). lia.
  - specialize (W (- 10 ^ 9 - 1) ltac:(auto)). lia.
  - exists a, b. split; auto. pose proof (W a ltac:(lia)). pose proof (W b ltac:(lia)). lia.
  - specialize (W (Z.max a (10 ^ 9 + 1)) ltac:(split; auto; lia)). lia.
Qed.
Lemma inside_refines : forall s s', separate s' -> proper s' -> refines s' s -> inside s -> inside s'.
Proof.
  intros s s' SS PS R H. apply inside_of_members; auto. intros z (v & I & W1 & W2). destruct (R v I) as (y & Iy & Y1 & Y2). destruct (H y Iy) as (a & b & -> & A & B). cbn [lf rt] in *. xl.
Qed.
Lemma to_int_done : forall z, -2147483648 <= z <= 2147483647 -> to_int z = Done z.
Proof. intros z H. unfold to_int, int_max. replace (_ && _) with true; auto. symmetry. apply andb_true_iff. lia. Qed.
Lemma card_done : forall s n lo, separate s -> inside s -> 0 <= n <= lo + 10 ^ 9 -> (forall v, In v s -> ext_le (Fin lo) (lf v)) -> exists c, card_loop s n = Done c.
Proof.
  induction s as [|v s IH]; intros n lo SS IN B L; [cbn; eauto|]. cbn [card_loop]. destruct (IN v (or_introl eq_refl)) as (a & b & E & A1 & A2).
  destruct SS as (N & H & SS). specialize (L v (or_introl eq_refl)). rewrite E in N, H, L. cbn [lf rt ext_le] in N, H, L. unfold width. rewrite E. cbn [lf rt zof].
  rewrite to_int_done by lia. cbn [obind]. rewrite to_int_done by lia. cbn [obind]. rewrite to_int_done by lia. cbn [obind].
  apply (IH _ (b + 1)); auto; [intros u I; apply IN; now right|lia|]. intros u I. specialize (H u I). xl.
Qed.
Lemma split_done : forall s, separate s -> inside s -> exists s', split_bits s = Done s'.
Proof.
  induction s as [|v s IH]; intros SS IN; [cbn; eauto|]. cbn [split_bits]. destruct (IN v (or_introl eq_refl)) as (a & b & E & A1 & A2). destruct SS as (N & _ & SS).
  destruct IH as [t ->]; [auto|intros u I; apply IN; now right|]. rewrite E in *. cbn [lf rt zof ext_le] in *. rewrite !to_int_done by lia. cbn [obind]. eauto.
Qed.
Lemma dense_done : forall s nmi dn dd, separate s -> inside s -> exists s', dense s nmi dn dd = Done s' /\ (split_bits s = Done s' \/ s' = s).
Proof.
  intros s nmi dn dd SS IN. destruct (split_done s SS IN) as [t E]. unfold dense. destruct (_ <=? _); [eauto|].
  destruct (card_done s 0 (- 10 ^ 9)) as [c EC]; auto; [lia|intros v I; destruct (IN v I) as (a & b & -> & A & _); exact A|].
  unfold card_int. rewrite EC. cbn [obind]. destruct (_ <=? _); eauto.
Qed.
(** after the reference is projected the set lies in its domain *)
Lemma project_inside : forall vs s s', Forall good_var vs -> separate s -> proper s -> bounded_reference vs -> project_all s vs = Done s' -> inside s'.
Proof.
  induction vs as [|n vs IH]; intros s s' G SS PS (m & D & I & E & ED & H) P; [destruct I|].
  inversion G as [|? ? G1 G2]; subst. cbn [project_all] in P. destruct (project_var_ok n s G1 SS PS) as (s1 & Q & A1 & A2 & A3 & M & _). rewrite Q in P. cbn [obind] in P.
  destruct I as [-> | I]; [|apply (IH s1 s'); auto; exists m, D; auto].
  destruct (project_all_ok vs s1 G2 A1 A2) as (s2 & Q2 & B1 & B2 & B3 & _). rewrite Q2 in P. injection P as <-. apply (inside_refines s1); auto.
  apply inside_of_members; auto. intros z Z1. apply H. apply (M z z) in Z1; [|rewrite E; unfold related_by; cbn [num off den]; lia]. destruct Z1 as (_ & K & _). auto.
Qed.
Theorem process_done : forall vs nmi dn dd, Forall good_var vs -> bounded_reference vs ->
  Forall (fun m => Forall (representable (mv_view m)) (mv_posts m)) vs ->
  process vs nmi dn dd = Unsat \/ exists r, process vs nmi dn dd = Done r.
Proof.
  intros vs nmi dn dd G BR W.
  assert (W' : Forall (fun m => Forall (whole (mv_view m)) (mv_posts m)) vs).
  { rewrite Forall_forall in *. intros m I. specialize (W m I). destruct (G m I) as (G1 & _). eapply Forall_impl; [|exact W]. intros p R. now apply representable_whole. }
  unfold process. destruct (project_all_ok vs [Iv MInf PInf] G separate_whole proper_whole) as (s & EP & SS & PS & _ & _ & C). specialize (C W').
  pose proof (project_inside vs _ s G separate_whole proper_whole BR EP) as IN. rewrite EP. cbn [obind].
  destruct s as [|v0 t] eqn:Es; [now left|]. right. rewrite <- Es in *. assert (NE : s <> []) by (rewrite Es; discriminate).
  assert (FS : finite s) by (intros v I; destruct (IN v I) as (a & b & -> & _); eauto).
  assert (FB : finite_bounds s = true).
  { destruct (bounds_ok s SS FS NE) as (L & U & EB & _). unfold finite_bounds. destruct s; [tauto|]. rewrite EB. reflexivity. }
  rewrite FB, (proj2 (disjunct_iff s) SS). cbn [negb]. cbv zeta. clear Es v0 t.
  destruct (2 <=? length s)%nat eqn:EH.
  - destruct (dense_done s nmi dn dd SS IN) as (s1 & -> & K). cbn [obind].
    assert (S1 : separate s1 /\ refines s1 s).
    { destruct K as [K | ->]; [|split; auto using refines_refl]. destruct (split_bits_ok s s1 SS FS K) as (A & _ & B & _). auto. }
    destruct S1 as [S1 R1]. destruct (impl_all_done s1 true vs S1 G) as [a ->]; auto; [discriminate| |cbn [obind]; eauto].
    unfold all_clean in *. eapply Forall_impl; [|exact C]. intros m. cbn beta. intros H. eapply cleans_refines; eauto.
  - cbn [obind]. apply Nat.leb_gt in EH. destruct (impl_all_done s false vs SS G) as [a ->]; auto; [|cbn [obind]; eauto].
    intros _. destruct s as [|u [|u' t]]; cbn in *; try lia.
Qed.

(** * The new domains are the bounds of the reference, projected back *)
Lemma range_exact : forall w L U v, good_view w -> L <= U ->
  (fst (new_range w L U) <= v <= snd (new_range w L U) <-> den w * L <= num w * v + off w <= den w * U).
Proof.
  intros w L U v (D & N & _) LU. unfold new_range. cbv zeta. cbn [fst snd].
  set (a := Z.sgn (num w) * (den w * L - off w)). set (b := Z.sgn (num w) * (den w * U - off w)).
  set (n := Z.abs (num w)). assert (P : 0 < n) by (unfold n; lia).
  set (lo := if b <? a then b else a). set (hi := if b <? a then a else b).
  pose proof (Z.mul_div_le (- lo) n P). pose proof (Z.mul_succ_div_gt (- lo) n P). pose proof (Z.mul_div_le hi n P). pose proof (Z.mul_succ_div_gt hi n P).
  assert (E : - (- lo / n) <= v <= hi / n <-> lo <= n * v <= hi) by (split; intros; nia). rewrite E. clear - D N LU P. unfold lo, hi, a, b, n in *.
  assert (M : den w * L <= den w * U) by nia.
  destruct (Z.lt_total (num w) 0) as [G | [G | G]]; [|lia|]; [rewrite Z.sgn_neg, Z.abs_neq by lia|rewrite Z.sgn_pos, Z.abs_eq by lia];
  match goal with |- context [?p <? ?q] => destruct (Z.ltb_spec p q) end; nia.
Qed.
Theorem process_ranges : forall vs nmi dn dd r, Forall good_var vs -> process vs nmi dn dd = Done r ->
  exists lo hi, lo <= hi /\ Forall2 (fun m d => forall v, fst d <= v <= snd d <-> den (mv_view m) * lo <= num (mv_view m) * v + off (mv_view m) <= den (mv_view m) * hi) vs (r_ranges r).
Proof.
  intros vs nmi dn dd r G H. unfold process in H.
  destruct (project_all_ok vs [Iv MInf PInf] G separate_whole proper_whole) as (s & EP & SS & PS & _). rewrite EP in H. cbn [obind] in H.
  destruct s as [|v0 t] eqn:Es; [discriminate|]. rewrite <- Es in *. destruct (finite_bounds s) eqn:FB; [|discriminate]. cbn [negb] in H.
  destruct (negb (disjunct_strict s)); [discriminate|]. cbv zeta in H.
  destruct (bounds_ok s SS (finite_of_bounds s SS PS FB)) as (lo & hi & EB & BX & ML & _); [rewrite Es; discriminate|]. exists lo, hi. split; [apply BX in ML; lia|].
  rewrite EB in H. cbn [fst snd zof] in H.
  destruct (if (2 <=? length s)%nat then dense s nmi dn dd else Done s) as [s1| | | |]; try discriminate. cbn [obind] in H.
  destruct (impl_all s1 (2 <=? length s)%nat vs) as [a| | | |]; try discriminate. cbn [obind] in H. injection H as <-. cbn [r_ranges].
  assert (LH : lo <= hi) by (apply BX in ML; lia). clear - G LH. induction vs as [|m vs IH]; constructor; inversion_clear G; auto. destruct H as (A & _). intros v. now apply range_exact.
Qed.
