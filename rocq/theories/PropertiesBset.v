(** C73: array_union and array_intersect give the union and the intersection of an array of integer sets.
    Specification: BsetSpec.v. *)
Require Import ZArith List Bool Lia.
From Verif Require Import Base IntValModel IntValSpec SetModel SetSpec BsetModel BsetSpec BsetProofs2.
Import ListNotations.
Open Scope Z_scope.

Local Definition R (a b : Z) : range := (ofZ a, ofZ b).
(** The union of an array is exact; an arithmetic error is possible only if a set ends at the edge of the 64-bit
    range. *)
Theorem C73_union : forall l, Forall nf l ->
  (exists r, array_union l = Ok r /\ nf r /\ forall z, elem z r <-> in_some z l) \/
  (array_union l = Err ArithmeticError /\ exists s, In s l /\ at_edge s).
Proof.
  intros [|s l] N.
  - left. exists []. split; [reflexivity|]. split; [constructor|]. intros z. split.
    + intros (a & b & [] & _).
    + intros (s & [] & _).
  - destruct (union_loop_ok (s :: l) s) as [(r & E & Nr & H)|[E H]]; [now inversion N|assumption| |].
    + left. exists r. split; [exact E|]. split; [assumption|]. intros z. rewrite H. split; [|auto].
      intros [A|A]; [exists s; cbn; auto|assumption].
    + right. split; [exact E|]. destruct H as [H|H]; [exists s; cbn; auto|assumption].
Qed.
Print Assumptions C73_union.
Example C73_union_nonvacuous :
  array_union [[R 1 3; R 7 9]; [R 4 4]; [R 12 20]] = Ok [R 1 4; R 7 9; R 12 20].
Proof. reflexivity. Qed.

(** Whatever array_intersect returns holds common elements only. *)
Theorem C73_intersection_sound : forall fuel l r, Forall nf l -> array_intersect fuel l = Ok r ->
  forall z, elem z r -> in_all z l.
Proof. exact intersect_sound. Qed.
Print Assumptions C73_intersection_sound.

(** Full property: array_intersect returns the intersection of every non-empty array.  Proved: without [overrun] the
    loop ends, and the result is the intersection in normal form, or an arithmetic error that is possible only
    if the intersection has an element from 2^63 - 2 on.  Missing: both conditions are needed (below). *)
Theorem C73_intersection_partial : forall l, l <> [] -> Forall nf l -> ~ overrun l ->
  exists n, forall m, (n <= m)%nat ->
   (exists r, array_intersect m l = Ok r /\ nf r /\ forall z, elem z r <-> in_all z l) \/
   (array_intersect m l = Err ArithmeticError /\ exists z, LLONG_MAX - 1 <= z /\ in_all z l).
Proof. exact intersect_ok. Qed.
Print Assumptions C73_intersection_partial.

(** An array with one set, or one whose first set is one range, never overruns. *)
Theorem C73_no_overrun : forall l, (exists s, l = [s]) \/ (exists r0 rest, l = [r0] :: rest) -> ~ overrun l.
Proof.
  intros l [(s & ->)|(r0 & rest & ->)]; [apply no_overrun_single|apply no_overrun_range].
Qed.
Print Assumptions C73_no_overrun.

Example C73_intersection_nonvacuous :
  ~ overrun [[R 1 10]; [R 2 3; R 5 7; R 9 20]; [R 0 6; R 8 9]] /\
  array_intersect 100 [[R 1 10]; [R 2 3; R 5 7; R 9 20]; [R 0 6; R 8 9]] = Ok [R 2 3; R 5 6; R 9 9].
Proof. split; [apply no_overrun_range|reflexivity]. Qed.

(** array_intersect([{1,3,5}, 2..6]) never returns. *)
Local Lemma fin a : 0 < a < 10 -> denote (ofZ a) = Some (Fin a).
Proof.
  intros H. unfold denote, ofZ. cbn [iv_inf iv_v].
  replace ((LLONG_MIN <=? a) && (a <=? LLONG_MAX)) with true; [reflexivity|].
  symmetry. apply andb_true_intro. split; apply Z.leb_le; unfold LLONG_MIN, LLONG_MAX; lia.
Qed.
Local Lemma R_good a b : 0 < a -> a <= b -> b < 10 -> good_range (R a b).
Proof. intros. exists a, (Fin a), (Fin b). cbn [fst snd R]. rewrite !fin by lia. cbn. repeat split; lia. Qed.
Local Lemma R_gap a b c d : 0 < b -> b + 2 <= c -> c < 10 -> gap (R a b) (R c d).
Proof.
  intros. exists (b + 1), (Fin b), (Fin c). cbn [fst snd R]. rewrite !fin by lia. unfold ext_lt, ext_le.
  repeat split; try lia; intros Q; inversion Q; lia.
Qed.
Theorem C73_intersection_loops_refuted : exists l,
  l <> [] /\ Forall nf l /\ (forall s r, In s l -> In r s -> exists a b, r = R a b /\ 0 < a /\ b < 10) /\
  forall fuel, array_intersect fuel l = Err OutOfFuel.
Proof.
  exists [[R 1 1; R 3 3; R 5 5]; [R 2 6]]. split; [discriminate|]. split; [|split].
  - repeat constructor; try (apply R_good; lia); apply R_gap; lia.
  - intros s r [<-|[<-|[]]] Hr; repeat destruct Hr as [<-|Hr]; try destruct Hr; eexists _, _; (split; [reflexivity|lia]).
  - set (L := rev [[R 1 1; R 3 3; R 5 5]; [R 2 6]]).
    assert (G : forall n acc, meet_loop n L (ofZ 1) (ofZ 2) (ofZ 6) acc = Err OutOfFuel /\
      meet_loop n L (ofZ 1) (ofZ 5) (ofZ 1) acc = Err OutOfFuel).
    { induction n as [|n IH]; intros acc; [split; reflexivity|]. split.
      - exact (proj2 (IH (acc ++ [R 3 3]))).
      - exact (proj1 (IH acc)). }
    intros [|n]; [reflexivity|]. exact (proj1 (G n [])).
Qed.
Print Assumptions C73_intersection_loops_refuted.

(** The intersection of an array that holds one infinite set only is an arithmetic error. *)
Theorem C73_intersection_infinite_refuted : exists s, nf s /\
  forall fuel, array_intersect (S fuel) [s] = Err ArithmeticError.
Proof.
  exists [(ofZ 1, iv_infinity)]. split.
  - apply nf_one. exists 1, (Fin 1), PInf. cbn. repeat split; try reflexivity; lia.
  - reflexivity.
Qed.
Print Assumptions C73_intersection_infinite_refuted.
