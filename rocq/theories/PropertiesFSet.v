(** * C93: sets of floats *)
Require Import ZArith List Bool Lia.
From Verif Require Import Base FSetModel FSetSpec FSetProofs FSetProofs2.
Import ListNotations.
Open Scope Z_scope.

(** a set written as a list of values has exactly these elements *)
Theorem C93_values : forall l, (forall z, In z l -> double z) ->
  ordered (f_of_values (map FNum l)) /\
  (forall z, double z -> (felem z (f_of_values (map FNum l)) <-> In z l)) /\
  ((forall z, In z l -> ~ In (z + 1) l) -> spaced (f_of_values (map FNum l))).
Proof.
  intros l D. destruct (of_values_ok l D) as (N & M & _). split; [apply ordered_nfk; exact N|]. split.
  - intros z Dz. destruct N as [lo N]. rewrite (felem_K _ _ _ z N Dz). apply M.
  - intros H. apply spaced_nfk. apply ordered_single_spaced; [exact N|]. intros z. rewrite !M. apply H.
Qed.
Print Assumptions C93_values.

(** a..b has exactly the doubles from a to b *)
Theorem C93_interval : forall a b z, double a -> double b -> double z ->
  spaced (f_interval (FNum a) (FNum b)) /\ (felem z (f_interval (FNum a) (FNum b)) <-> a <= z <= b).
Proof.
  intros a b z Da Db Dz. unfold f_interval, f_gt. cbn [f_lt]. destruct (b <? a) eqn:C.
  - split; [constructor|]. apply Z.ltb_lt in C. split; [intros (x & y & [] & _)|lia].
  - apply Z.ltb_ge in C. split.
    + constructor. split; [exact Da|]. split; [exact Db|]. exists a. split; [assumption|]. cbn; lia.
    + split; [intros (x & y & [E|[]] & B1 & B2); inversion E; subst; cbn in *; lia|].
      intros H. exists (FNum a), (FNum b). split; [left; reflexivity|exact H].
Qed.
Print Assumptions C93_interval.

Theorem C93_member : forall s z, ordered s -> double z -> (f_contains s (FNum z) = true <-> felem z s).
Proof.
  intros s z O D. apply ordered_nfk in O. destruct O as [lo N]. rewrite (felem_K _ _ _ z N D).
  apply (f_contains_ok 1 ltac:(lia) s lo (FNum z) N). apply stored_wff. exact D.
Qed.
Print Assumptions C93_member.

Theorem C93_union : forall s t, ordered s -> ordered t ->
  exists r, f_union s t = Ok r /\ ordered r /\ (forall z, double z -> (felem z r <-> felem z s \/ felem z t)) /\
            (spaced s -> spaced t -> spaced r).
Proof.
  intros s t Os Ot. apply ordered_nfk in Os, Ot. destruct (two_nfk 1 s t Os Ot) as (lo & Ns & Nt).
  destruct (f_union_ok 1 ltac:(lia) s t lo Ns Nt) as (r & E & N & M). exists r. split; [exact E|].
  split; [apply ordered_nfk; eauto|]. split.
  - intros z D. rewrite (felem_K _ _ _ z N D), (felem_K _ _ _ z Ns D), (felem_K _ _ _ z Nt D). apply M.
  - intros Ss St. apply spaced_nfk in Ss, St. destruct (two_nfk 2 s t Ss St) as (l2 & Ns2 & Nt2).
    destruct (f_union_ok 2 ltac:(lia) s t l2 Ns2 Nt2) as (r2 & E2 & N2 & _). rewrite E in E2. inversion E2; subst.
    apply spaced_nfk. eauto.
Qed.
Print Assumptions C93_union.

Theorem C93_intersection : forall s t, ordered s -> ordered t ->
  exists r, f_inter s t = Ok r /\ ordered r /\ (forall z, double z -> (felem z r <-> felem z s /\ felem z t)) /\
            (spaced s -> spaced t -> spaced r).
Proof.
  intros s t Os Ot. apply ordered_nfk in Os, Ot. destruct (two_nfk 1 s t Os Ot) as (lo & Ns & Nt).
  destruct (f_inter_ok 1 ltac:(lia) s t lo Ns Nt) as (r & E & N & M). exists r. split; [exact E|].
  split; [apply ordered_nfk; eauto|]. split.
  - intros z D. rewrite (felem_K _ _ _ z N D), (felem_K _ _ _ z Ns D), (felem_K _ _ _ z Nt D). apply M.
  - intros Ss St. apply spaced_nfk in Ss, St. destruct (two_nfk 2 s t Ss St) as (l2 & Ns2 & Nt2).
    destruct (f_inter_ok 2 ltac:(lia) s t l2 Ns2 Nt2) as (r2 & E2 & N2 & _). rewrite E in E2. inversion E2; subst.
    apply spaced_nfk. eauto.
Qed.
Print Assumptions C93_intersection.

(** partial: sets in which no two neighbouring ranges touch and whose bounds are not the extreme doubles *)
Theorem C93_difference_partial : forall s t, spaced s -> spaced t -> interior s -> interior t ->
  exists r, f_diff s t = Ok r /\ spaced r /\ (forall z, felem z r <-> felem z s /\ ~ felem z t).
Proof.
  intros s t Ss St Is It. apply spaced_nfk in Ss, St. destruct (f_diff_ok s t Ss St Is It) as (r & E & N & M).
  exists r. split; [exact E|]. split; [apply spaced_nfk; exact N|exact M].
Qed.
Print Assumptions C93_difference_partial.

Theorem C93_subset_partial : forall s t, spaced s -> spaced t -> interior s -> interior t ->
  (f_subset s t = true <-> forall z, double z -> felem z s -> felem z t).
Proof. intros s t Ss St Is It. apply spaced_nfk in Ss, St. apply f_subset_ok; assumption. Qed.
Print Assumptions C93_subset_partial.

(** card of a set written as a list of values counts its ranges, which are its elements *)
Theorem C93_card_partial : forall l, (forall z, In z l -> double z) -> NoDup l ->
  f_card (f_of_values (map FNum l)) 0 = Some (Z.of_nat (length l)).
Proof.
  intros l D ND. destruct (of_values_ok l D) as ([lo N] & M & S). rewrite (card_values _ 0 S). f_equal. cbn [Z.add]. f_equal.
  set (s := f_of_values (map FNum l)) in *. clearbody s. revert l lo D ND N M.
  induction s as [|r s IH]; intros l lo D ND N M.
  - destruct l as [|z l]; [reflexivity|]. exfalso. apply (proj2 (M z)). left; reflexivity.
  - destruct (S r (or_introl eq_refl)) as [z ->]. destruct N as (O & L & N). cbn [fst snd K] in *.
    assert (I : In z l) by (apply M; left; cbn; lia).
    destruct (in_split _ _ I) as (l1 & l2 & ->). rewrite app_length. cbn [length]. rewrite Nat.add_succ_r, <- app_length.
    f_equal. apply (IH (fun r H => S r (or_intror H)) (l1 ++ l2) (z + 1)).
    + intros x H. apply D. rewrite in_app_iff in *. cbn. tauto.
    + apply NoDup_remove_1 in ND. exact ND.
    + exact N.
    + intros x. specialize (M x). cbn [memk fst snd K] in M. rewrite in_app_iff in M. cbn [In] in M.
      rewrite in_app_iff. apply NoDup_remove_2 in ND. rewrite in_app_iff in ND. split.
      * intros H. assert (z + 1 <= x) by (eapply (memk_lo 1); [lia|exact N|exact H]).
        destruct (proj1 M (or_intror H)) as [?|[?|?]]; auto. lia.
      * intros H. assert (x <> z) by (intros ->; tauto). destruct (proj2 M ltac:(tauto)) as [?|?]; [lia|assumption].
Qed.
Print Assumptions C93_card_partial.

(** FINDING: subtracting a set literal with two neighbouring doubles drops everything above them *)
Theorem C93_difference_refuted : forall lo r hi, - DMAX < lo -> lo < r -> r + 1 < hi -> hi < DMAX ->
  let s := f_interval (FNum lo) (FNum hi) in
  let t := f_of_values [FNum r; FNum (r + 1)] in
  felem hi s /\ ~ felem hi t /\ exists d, f_diff s t = Ok d /\ ~ felem hi d.
Proof.
  intros lo r hi H1 H2 H3 H4. cbv zeta.
  assert (Es : f_interval (FNum lo) (FNum hi) = [(FNum lo, FNum hi)]).
  { unfold f_interval, f_gt; cbn [f_lt]. replace (hi <? lo) with false by lia. reflexivity. }
  assert (Et : f_of_values [FNum r; FNum (r + 1)] = [(FNum r, FNum r); (FNum (r + 1), FNum (r + 1))]).
  { unfold f_of_values. cbn [f_sort f_insert f_lt]. replace (r + 1 <? r) with false by lia. cbn [f_ranges]. unfold f_gt. cbn [f_lt].
    replace (r <? r + 1) with true by lia. reflexivity. }
  rewrite Es, Et. split; [exists (FNum lo), (FNum hi); cbn; split; [auto|lia]|].
  split; [intros (a & b & [E|[E|[]]] & B1 & B2); inversion E; subst; cbn in *; lia|].
  exists [(FNum lo, FNum (r - 1))]. split.
  - unfold f_diff. cbn [f_next_lower]. replace (- DMAX <=? lo - 1) with true by lia. cbn [bind length plus].
    cbn [f_diff_next f_next_higher fIsFinite negb andb orb]. replace (lo - 1 + 1) with lo by lia.
    replace (lo <=? DMAX) with true by lia. cbn [bind]. unfold f_gt, f_ge. cbn [f_lt].
    replace (hi <? lo) with false by lia. cbn [f_skip_below f_lt]. replace (r <? lo) with false by lia. cbn [f_le].
    replace (r <=? hi) with true by lia. replace (r <=? lo) with false by lia. cbn [andb f_next_lower].
    replace (- DMAX <=? r - 1) with true by lia. cbn [bind].
    cbn [f_drain fmi fma fi fj f_le]. replace (lo <=? r - 1) with true by lia. cbn [length].
    cbn [f_diff_next f_next_higher fIsFinite negb andb orb]. replace (r - 1 + 1) with r by lia.
    replace (r <=? DMAX) with true by lia. cbn [bind]. unfold f_gt, f_ge. cbn [f_lt].
    replace (hi <? r) with false by lia. cbn [f_skip_below f_lt]. replace (r <? r) with false by lia. cbn [f_le].
    replace (r <=? hi) with true by lia. replace (r <=? r) with true by lia. cbn [andb].
    replace (hi <=? r) with false by lia. cbn [f_next_higher]. replace (r + 1 <=? DMAX) with true by lia. cbn [bind].
    replace (r + 1 <=? hi) with true by lia. cbn [f_next_lower]. replace (r + 1 - 1) with r by lia.
    replace (- DMAX <=? r) with true by lia. cbn [bind f_drain fmi fma fi fj f_le].
    replace (r + 1 <=? r) with false by lia. reflexivity.
  - intros (a & b & [E|[]] & B1 & B2). inversion E; subst; cbn in *. lia.
Qed.
Print Assumptions C93_difference_refuted.

(** FINDING: a difference whose first operand starts at the smallest finite double raises an error *)
Theorem C93_difference_edge_refuted :
  f_diff (f_interval (FNum (- DMAX)) (FNum 5)) (f_of_values [FNum 3]) = Err ArithmeticError.
Proof. vm_compute. reflexivity. Qed.
Print Assumptions C93_difference_edge_refuted.

(** FINDING: the union of two neighbouring doubles is stored as one range, the literal as two; so the union
    is not a subset of the literal although both have the same elements, and its cardinality is infinite *)
Theorem C93_subset_refuted : forall r, - DMAX < r -> r + 1 < DMAX ->
  exists u, f_union (f_of_values [FNum r]) (f_of_values [FNum (r + 1)]) = Ok u /\
    (forall z, felem z u <-> felem z (f_of_values [FNum r; FNum (r + 1)])) /\
    f_subset u (f_of_values [FNum r; FNum (r + 1)]) = false /\
    f_card u 0 = None /\ f_card (f_of_values [FNum r; FNum (r + 1)]) 0 = Some 2.
Proof.
  intros r H1 H2.
  assert (Et : f_of_values [FNum r; FNum (r + 1)] = [(FNum r, FNum r); (FNum (r + 1), FNum (r + 1))]).
  { unfold f_of_values. cbn [f_sort f_insert f_lt]. replace (r + 1 <? r) with false by lia. cbn [f_ranges]. unfold f_gt. cbn [f_lt].
    replace (r <? r + 1) with true by lia. reflexivity. }
  rewrite Et. exists [(FNum r, FNum (r + 1))].
  change (f_of_values [FNum r]) with [(FNum r, FNum r)]. change (f_of_values [FNum (r + 1)]) with [(FNum (r + 1), FNum (r + 1))].
  split; [|split; [|split; [|split]]].
  - unfold f_union. cbn [f_union_next length plus f_overlaps]. replace (r <=? r + 1 + 1) with true by lia.
    replace (r + 1 <=? r + 1) with true by lia. cbn [negb]. unfold f_max, f_min. cbn [f_lt].
    replace (r <? r + 1) with true by lia. replace (r + 1 <? r) with false by lia. cbn [f_absorb f_drain fmi fma fi fj f_le].
    replace (r <=? r + 1) with true by lia. cbn [bind f_union_next f_drain f_finish fmi fma f_le]. reflexivity.
  - intros z. split.
    + intros (a & b & [E|[]] & B1 & B2). inversion E; subst; cbn in *.
      destruct (Z.eq_dec z r) as [->|n]; [exists (FNum r), (FNum r); cbn; split; [auto|lia]|].
      exists (FNum (r + 1)), (FNum (r + 1)); cbn; split; [auto|lia].
    + intros (a & b & [E|[E|[]]] & B1 & B2); inversion E; subst; cbn in *;
        exists (FNum r), (FNum (r + 1)); cbn; (split; [auto|lia]).
  - cbn [f_subset f_lt]. replace (r <? r) with false by lia. unfold f_ge. cbn [f_le].
    replace (r <=? r) with true by lia. replace (r + 1 <=? r) with false by lia. reflexivity.
  - cbn [f_card]. unfold f_width. cbn [fst snd fIsFinite f_eq andb]. replace (r =? r + 1) with false by lia. reflexivity.
  - cbn [f_card]. unfold f_width. cbn [fst snd fIsFinite f_eq andb]. rewrite !Z.eqb_refl. reflexivity.
Qed.
Print Assumptions C93_subset_refuted.

Example C93_nonvacuous :
  let s := f_interval (FNum 10) (FNum 50) in let t := f_of_values [FNum 70; FNum 20; FNum 30; FNum 20] in
  spaced s /\ spaced t /\ interior s /\ interior t /\
  t = [(FNum 20, FNum 20); (FNum 30, FNum 30); (FNum 70, FNum 70)] /\
  f_union s t = Ok [(FNum 10, FNum 50); (FNum 70, FNum 70)] /\
  f_inter s t = Ok [(FNum 20, FNum 20); (FNum 30, FNum 30)] /\
  f_diff s t = Ok [(FNum 10, FNum 19); (FNum 21, FNum 29); (FNum 31, FNum 50)] /\
  f_diff [(FMinus, FPlus)] t = Ok [(FMinus, FNum 19); (FNum 21, FNum 29); (FNum 31, FNum 69); (FNum 71, FPlus)].
Proof.
  cbv zeta.
  assert (P : 100 < DMAX) by reflexivity.
  assert (D : forall z, In z [70; 20; 30; 20] -> double z) by (intros z [<-|[<-|[<-|[<-|[]]]]]; unfold double; lia).
  split; [apply (C93_interval 10 50 10); unfold double; lia|].
  split; [apply (C93_values [70; 20; 30; 20] D); intros z [<-|[<-|[<-|[<-|[]]]]] [X|[X|[X|[X|[]]]]]; lia|].
  split; [intros a b [E|[]] x H; injection E as <- <-; destruct H as [H|H]; injection H as <-; lia|].
  split; [intros a b [E|[E|[E|[]]]] x H; injection E as <- <-; destruct H as [H|H]; injection H as <-; lia|].
  vm_compute. repeat split.
Qed.
