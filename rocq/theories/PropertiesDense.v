(** C48 and C56: identifier maps and variable occurrences.  Statements only; proofs are in DenseProofs.v and
    DenseProofs2.v. *)
Require Import ZArith List Bool Lia.
From Verif Require Import Base DenseModel DenseSpec DenseProofs DenseProofs2.
Import ListNotations.
Open Scope Z_scope.

(** C48: after any sequence of operations on identifiers with indices below 1431655765 (so that the vector sizes fit
    int), nothing is undefined and find returns the value specified by [value]: the last value inserted for an integer
    identifier, the first one since its last removal for a named identifier. *)
Theorem C48_find : forall T (dflt : T) h, Forall mop_ok h ->
  exists d, mrun dflt dense0 h = Ok d /\ forall k, id_ok k -> find d k = Ok (value (rev h) k).
Proof. exact C48_find_l. Qed.
Print Assumptions C48_find.
(** get returns the value of every present identifier *)
Theorem C48_get : forall T (dflt : T) h, Forall mop_ok h ->
  exists d, mrun dflt dense0 h = Ok d /\ forall k t, id_ok k -> value (rev h) k = Some t -> get d k = Ok t.
Proof. exact C48_get_l. Qed.
Print Assumptions C48_get.
(** Iteration, if the integer identifiers present are 0..m-1 without gaps: it visits the value of every present
    identifier exactly once, and then possibly one default value that belongs to no identifier.
    Missing from the full property: maps with gaps, where it is false (C48_iterate_refuted). *)
Theorem C48_iterate_partial : forall T (dflt : T) h d m, Forall mop_ok h -> mrun dflt dense0 h = Ok d ->
  0 <= m < 1431655765 -> (forall n, id_ok (KInt n) -> (value (rev h) (KInt n) <> None <-> n < m)) ->
  exists ks vs extra, iterate d = Ok (vs ++ extra) /\ (extra = [] \/ extra = [dflt]) /\
    NoDup ks /\ Forall2 (fun k v => value (rev h) k = Some v) ks vs /\
    (forall k, id_ok k -> value (rev h) k <> None -> In k ks).
Proof. exact C48_iterate_l. Qed.
Print Assumptions C48_iterate_partial.
(** FINDING: operator++ of the iterator steps onto the next entry even if it is absent, and from an absent entry it
    steps over the next present one.  With identifiers 0 and 2 present the loop visits the value of 0 and two
    default values, never the value of 2. *)
Theorem C48_iterate_refuted : exists h d, Forall mop_ok h /\ mrun 0 dense0 h = Ok d /\
  find d (KInt 0) = Ok (Some 10) /\ find d (KInt 2) = Ok (Some 30) /\ iterate d = Ok [10; 0; 0].
Proof.
  exists [MInsert (KInt 0) 10; MInsert (KInt 2) 30]. eexists. split; [repeat constructor; cbn; lia|].
  split; [vm_compute; reflexivity|]. vm_compute. auto.
Qed.
Print Assumptions C48_iterate_refuted.
(** FINDING: from 2863311530 on the conversion of the new size to unsigned int is undefined *)
Theorem C48_large_refuted : forall n, 2863311530 <= n <= LLONG_MAX - 1 -> insert 0 dense0 (KInt n) 1 = UB.
Proof.
  intros n H. unfold LLONG_MAX in H. cbn. unfold ll, fits64b, LLONG_MIN, LLONG_MAX.
  replace ((-9223372036854775808 <=? n + 1) && (n + 1 <=? 9223372036854775807)) with true
    by (symmetry; apply andb_true_intro; split; apply Z.leb_le; lia).
  cbn. unfold grows. cbn. replace (0 <? n + 1) with true by (symmetry; apply Z.ltb_lt; lia).
  unfold newSize. replace (3 * (n + 1) / 2 <? 4294967296) with false; [reflexivity|].
  symmetry. apply Z.ltb_ge. apply Z.div_le_lower_bound; lia.
Qed.
Print Assumptions C48_large_refuted.

Example C48_nonvacuous :
  let h := [MInsert (KName 7) 70; MInsert (KInt 1) 11; MInsert (KInt 0) 5; MInsert (KInt 1) 12; MInsert (KName 7) 71;
            MInsert (KInt 5) 50; MRemove (KInt 5); MInsert (KName 8) 80] in
  Forall mop_ok h /\ value (rev h) (KName 7) = Some 70 /\ value (rev h) (KInt 1) = Some 12 /\
  value (rev h) (KInt 5) = None /\
  (exists d, mrun 0 dense0 h = Ok d /\ iterate d = Ok [70; 80; 5; 12; 0]).
Proof.
  cbv zeta. split; [repeat constructor; cbn; lia|]. vm_compute. repeat split; auto. eexists; split; reflexivity.
Qed.
(* the gap hypothesis of C48_iterate_partial is met by this map *)
Example C48_iterate_nonvacuous :
  let h := [MInsert (KInt 0) 5; MInsert (KName 3) 9; MInsert (KInt 1) 6] in
  forall n, id_ok (KInt n) -> (value (rev h) (KInt n) <> None <-> n < 2).
Proof.
  cbv zeta. intros n H. cbn in H. cbn [rev app value].
  destruct (key_dec (KInt 1) (KInt n)) as [e|e]; [injection e as <-; split; [lia|discriminate]|].
  destruct (key_dec (KName 3) (KInt n)) as [e'|e']; [discriminate|].
  destruct (key_dec (KInt 0) (KInt n)) as [e''|e'']; [injection e'' as <-; split; [lia|discriminate]|].
  split; [congruence|]. intros L. exfalso. assert (n = 0 \/ n = 1) as [->| ->] by lia; congruence.
Qed.

(** C56: after any sequence of additions, removals, unifications and clears that the code carries out, occurrences(v)
    is the number of distinct items that were added to v or a variable unified with it and not removed since. *)
Theorem C56_occurrences : forall h s v, Forall (fun o => Forall id_ok (vop_ids o)) h -> vrun vocc0 h = Ok s -> id_ok v ->
  exists l, NoDup l /\ (forall i, In i l <-> occurs (rev h) v i) /\
    (Z.of_nat (length l) <= INT_MAX -> occurrences s v = Ok (Z.of_nat (length l))).
Proof. exact C56_occurrences_l. Qed.
Print Assumptions C56_occurrences.
(** remove(v, i) returns the new number of occurrences of v *)
Theorem C56_remove_count : forall h s v i s' n,
  Forall (fun o => Forall id_ok (vop_ids o)) h -> vrun vocc0 h = Ok s -> id_ok v ->
  vremove s v i = Ok (s', n) -> occurrences s' v = Ok n.
Proof. exact C56_remove_count_l. Qed.
Print Assumptions C56_remove_count.
(** The operations are defined if the assertions of the code hold ([legal]) and the variable with the largest
    index is used first.  Missing from the full property: histories in which unify makes the vector grow, where it
    is false (C56_unify_refuted). *)
Theorem C56_defined_partial : forall N i h, 0 < N <= 1431655765 ->
  Forall (fun o => Forall (fun k => id_ok k /\ match k with KName _ => True | KInt n => n < N end) (vop_ids o)) h ->
  legal (rev (VAdd (KInt (N - 1)) i :: h)) ->
  exists s, vrun vocc0 (VAdd (KInt (N - 1)) i :: h) = Ok s.
Proof. exact C56_defined_l. Qed.
Print Assumptions C56_defined_partial.
(** FINDING: unify(v0, v1) passes a reference into the vector to insert, which may reallocate that vector; if v1 has no
    items yet and a larger index than any seen before, the reference dangles *)
Theorem C56_unify_refuted : legal (rev [VAdd (KInt 0) 7; VUnify (KInt 0) (KInt 1)]) /\
  vrun vocc0 [VAdd (KInt 0) 7; VUnify (KInt 0) (KInt 1)] = UB.
Proof. split; [cbn; auto|]. vm_compute. reflexivity. Qed.
Print Assumptions C56_unify_refuted.

Example C56_nonvacuous :
  let h := [VAdd (KInt 3) 1; VAdd (KInt 0) 2; VAdd (KName 9) 2; VAdd (KName 9) 3; VUnify (KInt 0) (KInt 1);
            VUnify (KName 9) (KInt 1); VRemove (KInt 0) 3; VAdd (KInt 0) 4; VRemoveAll (KInt 3)] in
  Forall (fun o => Forall (fun k => id_ok k /\ match k with KName _ => True | KInt n => n < 4 end) (vop_ids o)) h /\
  legal (rev h) /\ occurs (rev h) (KName 9) 4 /\
  exists s, vrun vocc0 h = Ok s /\ occurrences s (KName 9) = Ok 2 /\ occurrences s (KInt 1) = Ok 2 /\
            occurrences s (KInt 3) = Ok 0.
Proof.
  cbv zeta. split; [repeat constructor; cbn; auto; lia|]. split.
  { cbn. repeat split.
    - exists (KInt 3), 1. tauto.
    - exists (KInt 0), 2. tauto. }
  split; [cbn; split; [left; split; [intuition|reflexivity]|intuition discriminate]|].
  eexists. split; [vm_compute; reflexivity|]. vm_compute. auto.
Qed.
