(** C75-C76: reshaping, joining and selecting from arrays.  Statements only; proofs are in BarrProofs.v to BarrProofs4.v. *)
Require Import ZArith List Bool Lia.
From Verif Require Import Base IntValModel IntValSpec SetModel SetSpec ArrModel ArrSpec BarrModel BarrSpec BarrProofs BarrProofs2 BarrProofs3 BarrProofs4.
Import ListNotations.
Open Scope Z_scope.
Notation card := ArrSpec.card.
Definition equivalence {E : Type} (eqb : E -> E -> bool) (same : E -> E -> Prop) : Prop :=
  (forall e, same e e) /\ (forall a b, same a b -> same b a) /\ (forall a b c, same a b -> same b c -> same a c) /\
  (forall a b, eqb a b = true -> same a b).

(** ** C75: array1d to array6d and arrayXd *)
(** with range index sets, the result has these index sets and the same elements; a wrong number of elements is an error *)
Theorem C75_reshape_partial : forall (E : Type) (eqb : E -> E -> bool) (same : E -> E -> Prop), equivalence eqb same ->
  forall a sh el sets sh', built eqb a sh el -> sh' <> [] -> Forall2 range_of sets sh' -> Forall range_ok sh' -> card sh' < 2 ^ 32 ->
  if card sh' =? len el then exists a', arrayXd sets a = Ok a' /\ built eqb a' sh' el else arrayXd sets a = Err EvalError.
Proof. intros E eqb same (H1 & H2 & H3 & H4). exact (arrayXd_finite E eqb same H1 H2 H3 H4). Qed.
Print Assumptions C75_reshape_partial.
(** one index set may be l..infinity: its upper end follows from the number of elements *)
Theorem C75_open_reshape : forall (E : Type) (eqb : E -> E -> bool) (same : E -> E -> Prop), equivalence eqb same ->
  forall a sh el sets1 s sets2 sh1 l sh2, built eqb a sh el ->
  Forall2 range_of sets1 sh1 -> from s l -> Forall2 range_of sets2 sh2 -> Forall range_ok (sh1 ++ sh2) ->
  let p := card sh1 * card sh2 in 0 < p < 2 ^ 32 -> INT_MIN < l -> l + len el / p - 1 <= INT_MAX -> l <= INT_MAX ->
  if len el mod p =? 0 then exists a', arrayXd (sets1 ++ s :: sets2) a = Ok a' /\ built eqb a' (sh1 ++ (l, l + len el / p - 1) :: sh2) el
  else arrayXd (sets1 ++ s :: sets2) a = Err EvalError.
Proof. intros E eqb same (H1 & H2 & H3 & H4). exact (arrayXd_infinite E eqb same H1 H2 H3 H4). Qed.
Print Assumptions C75_open_reshape.
(** index sets with holes, without a least element, and two unbounded index sets are errors *)
Theorem C75_bad_index_sets : forall (E : Type) (a : arr E) sets1 sh1 s rest, Forall2 range_of sets1 sh1 -> Forall range_ok sh1 ->
  (2 <= len s \/ exists x y, s = [(x, y)] /\ denote x = Some MInf) -> arrayXd (sets1 ++ s :: rest) a = Err EvalError.
Proof.
  intros E a sets1 sh1 s rest HF Hok Hs.
  exact (arrayXd_bad E (fun _ _ => false) (fun x y => True) (fun _ => I) (fun _ _ _ => I) (fun _ _ _ _ _ => I) (fun _ _ _ => I) a sets1 s rest sh1 HF Hok Hs).
Qed.
Print Assumptions C75_bad_index_sets.
Theorem C75_two_unbounded : forall (E : Type) (a : arr E) sets1 s1 sets2 s2 rest sh1 l1 sh2 l2, Forall2 range_of sets1 sh1 -> from s1 l1 ->
  Forall2 range_of sets2 sh2 -> from s2 l2 -> Forall range_ok (sh1 ++ sh2) -> INT_MIN <= l1 <= INT_MAX ->
  arrayXd (sets1 ++ s1 :: sets2 ++ s2 :: rest) a = Err EvalError.
Proof.
  intros E a. exact (arrayXd_two_infinite E (fun _ _ => false) (fun x y => True) (fun _ => I) (fun _ _ _ => I) (fun _ _ _ _ _ => I) (fun _ _ _ => I) a).
Qed.
Print Assumptions C75_two_unbounded.
(** array1d of an array alone numbers its elements from 1 *)
Theorem C75_list : forall (E : Type) (eqb : E -> E -> bool) (same : E -> E -> Prop), equivalence eqb same ->
  forall a sh el, built eqb a sh el -> exists a', array1d_list a = Ok a' /\ built eqb a' [(1, len el)] el.
Proof. intros E eqb same (H1 & H2 & H3 & H4). exact (array1d_list_ok E eqb same H1 H2 H3 H4). Qed.
Print Assumptions C75_list.
(** arrayXd(x, y) gives y the index sets of x, if they have equally many elements *)
Theorem C75_like_partial : forall (E : Type) (eqb : E -> E -> bool) (same : E -> E -> Prop), equivalence eqb same ->
  forall a0 sh0 el0 a1 sh1 el1, built eqb a0 sh0 el0 -> built eqb a1 sh1 el1 -> len el0 = len el1 ->
  exists a', arrayXd2 a0 a1 = Ok a' /\ built eqb a' sh0 el1.
Proof. intros E eqb same (H1 & H2 & H3 & H4). exact (arrayXd2_ok E eqb same H1 H2 H3 H4). Qed.
Print Assumptions C75_like_partial.

Definition R (l u : Z) : iset := [(ofZ l, ofZ u)].
(** FINDING: arrayXd(x, y) does not compare the numbers of elements: arrayXd(array1d(2..4, [1,2,3]), [7]) has the
    index set 2..4 and one element; reading the second is undefined *)
Theorem C75_like_refuted : exists x y z, arrayXd [R 2 4] (Vec false [1; 2; 3] []) = Ok x /\ mk1 Z.eqb [7] = Ok y /\ arrayXd2 x y = Ok z /\
  amin z 0 = Ok 2 /\ amax z 0 = Ok 4 /\ get z 1 = UB.
Proof. do 3 eexists. repeat (split; [vm_compute; reflexivity|]). vm_compute; reflexivity. Qed.
Print Assumptions C75_like_refuted.
(** FINDING: the number of elements expected is computed modulo 2^32: array2d(1..65536, 1..65536, []) is accepted *)
Theorem C75_product_refuted : exists a z, mk1 Z.eqb [] = Ok a /\ arrayXd [R 1 65536; R 1 65536] a = Ok z /\
  amax z 0 = Ok 65536 /\ amax z 1 = Ok 65536 /\ asize z = Ok 0 /\ get z 0 = UB.
Proof. do 2 eexists. repeat (split; [vm_compute; reflexivity|]). vm_compute; reflexivity. Qed.
Print Assumptions C75_product_refuted.
(** FINDING: the ends of an index set are reduced to 32 bits: array1d(4294967297..4294967299, [1,2,3]) has the index set 1..3 *)
Theorem C75_truncated_refuted : exists a z, mk1 Z.eqb [1; 2; 3] = Ok a /\ arrayXd [R 4294967297 4294967299] a = Ok z /\
  amin z 0 = Ok 1 /\ amax z 0 = Ok 3.
Proof. do 2 eexists. repeat (split; [vm_compute; reflexivity|]). vm_compute; reflexivity. Qed.
Print Assumptions C75_truncated_refuted.
(** FINDING: array2d({}, 1..infinity, []) divides by zero *)
Theorem C75_division_refuted : exists a, mk1 Z.eqb [] = Ok a /\ arrayXd [[]; [(ofZ 1, iv_infinity)]] a = UB.
Proof. eexists. split; [vm_compute; reflexivity|]. vm_compute. reflexivity. Qed.
Print Assumptions C75_division_refuted.

Example C75_nonvacuous :
  equivalence Z.eqb eq /\
  (exists a z, mk1 Z.eqb [1; 2; 3; 4; 5; 6] = Ok a /\ built Z.eqb a [(1, 6)] [1; 2; 3; 4; 5; 6] /\
    Forall2 range_of [R 0 1; R 5 7] [(0, 1); (5, 7)] /\ arrayXd [R 0 1; R 5 7] a = Ok z /\ dims z = 2 /\ get z 4 = Ok 5 /\
    arrayXd [R 0 1; R 5 8] a = Err EvalError /\ from [(ofZ 5, iv_infinity)] 5 /\
    arrayXd [R 0 1; [(ofZ 5, iv_infinity)]] a = Ok z /\ arrayXd [R 1 4; [(ofZ 5, iv_infinity)]] a = Err EvalError /\
    arrayXd [[(ofZ 1, ofZ 2); (ofZ 4, ofZ 7)]] a = Err EvalError /\ arrayXd2 z a = Ok z /\ array1d_list z = Ok a).
Proof.
  split.
  - split; [auto|]. split; [auto|]. split; [intros; congruence|]. intros a b H. apply Z.eqb_eq in H. exact H.
  - do 2 eexists. split; [vm_compute; reflexivity|]. split; [exact (b_mk1 Z Z.eqb [1; 2; 3; 4; 5; 6] _ eq_refl)|].
    split; [repeat constructor; vm_compute; congruence|]. split; [vm_compute; reflexivity|].
    split; [vm_compute; reflexivity|]. split; [vm_compute; reflexivity|]. split; [vm_compute; reflexivity|].
    split; [do 2 eexists; split; [reflexivity|]; split; reflexivity|].
    split; [vm_compute; reflexivity|]. split; [vm_compute; reflexivity|]. split; [vm_compute; reflexivity|]. split; vm_compute; reflexivity.
Qed.

(** ** C76: concat_index and select_from_index *)
(** joining two arrays along one dimension: the other index sets stay, that dimension is numbered from 1 and holds
    first the elements of the first array, then those of the second *)
Theorem C76_concat_partial : forall (E : Type) (eqb : E -> E -> bool) (same : E -> E -> Prop), equivalence eqb same ->
  forall a0 a1 pre r0 r1 post el0 el1, built eqb a0 (pre ++ r0 :: post) el0 -> built eqb a1 (pre ++ r1 :: post) el1 ->
  INT_MIN <= wid r0 + snd r1 <= INT_MAX -> shape_ok (pre ++ (1, wid r0 + wid r1) :: post) ->
  exists a el, concat_index eqb (len pre + 1) a0 a1 = Ok a /\ built eqb a (pre ++ (1, wid r0 + wid r1) :: post) el /\
    joined same pre r0 r1 post el0 el1 el.
Proof. intros E eqb same (H1 & H2 & H3 & H4). exact (concat_ok E eqb same H1 H2 H3 H4). Qed.
Print Assumptions C76_concat_partial.
(** arrays that differ in another index set, or in the number of dimensions, are not joined *)
Theorem C76_concat_mismatch : forall (E : Type) (eqb : E -> E -> bool) (same : E -> E -> Prop), equivalence eqb same ->
  forall a0 a1 sh0 sh1 el0 el1 k r0 r1, built eqb a0 sh0 el0 -> built eqb a1 sh1 el1 -> length sh0 = length sh1 ->
  nth_error sh0 k = Some r0 -> nth_error sh1 k = Some r1 -> INT_MIN <= wid r0 + snd r1 <= INT_MAX -> wid r0 + wid r1 <= INT_MAX ->
  (exists j, j <> k /\ nth_error sh0 j <> nth_error sh1 j) -> concat_index eqb (Z.of_nat k + 1) a0 a1 = Err EvalError.
Proof. intros E eqb same (H1 & H2 & H3 & H4). exact (concat_mismatch E eqb same H1 H2 H3 H4). Qed.
Print Assumptions C76_concat_mismatch.
Theorem C76_concat_dimensions : forall (E : Type) (eqb : E -> E -> bool) (same : E -> E -> Prop), equivalence eqb same ->
  forall idx a0 a1 sh0 sh1 el0 el1, built eqb a0 sh0 el0 -> built eqb a1 sh1 el1 -> length sh0 <> length sh1 ->
  concat_index eqb idx a0 a1 = Err EvalError.
Proof. intros E eqb same (H1 & H2 & H3 & H4). exact (concat_dims_differ E eqb same H1 H2 H3 H4). Qed.
Print Assumptions C76_concat_dimensions.
(** selecting a set with holes keeps the elements at these indices, in order, renumbered from 1; a selection that is not
    a subset of the index set is an error *)
Theorem C76_select_set : forall (E : Type) (eqb : E -> E -> bool) (same : E -> E -> Prop), equivalence eqb same ->
  forall al pre r post el s l, built eqb al (pre ++ r :: post) el -> nf s -> 2 <= len s -> enumerates l s ->
  (forall z, elem z s -> fst r <= z <= snd r) ->
  exists a el', select_from_index eqb (len pre + 1) al s = Ok a /\ built eqb a (pre ++ (1, len l) :: post) el' /\ selected same pre r post l el el'.
Proof. intros E eqb same (H1 & H2 & H3 & H4). exact (select_general E eqb same H1 H2 H3 H4). Qed.
Print Assumptions C76_select_set.
Theorem C76_select_set_outside : forall (E : Type) (eqb : E -> E -> bool) (same : E -> E -> Prop), equivalence eqb same ->
  forall al pre r post el s, built eqb al (pre ++ r :: post) el -> nf s -> 2 <= len s ->
  (exists z, elem z s /\ ~ fst r <= z <= snd r) -> select_from_index eqb (len pre + 1) al s = Err EvalError.
Proof. intros E eqb same (H1 & H2 & H3 & H4). exact (select_general_err E eqb same H1 H2 H3 H4). Qed.
Print Assumptions C76_select_set_outside.
(** selecting a range keeps the elements at these indices without renumbering; an infinite end is the end of the index
    set; a range that is not within the index set is an error *)
Theorem C76_select_range_partial : forall (E : Type) (eqb : E -> E -> bool) (same : E -> E -> Prop), equivalence eqb same ->
  forall al pre r post el x y r', built eqb al (pre ++ r :: post) el -> ends x y r r' -> 0 <= wid r' ->
  if (fst r <=? fst r') && (snd r' <=? snd r)
  then exists a el', select_from_index eqb (len pre + 1) al [(x, y)] = Ok a /\ built eqb a (pre ++ r' :: post) el' /\ restricted same pre r post r' el el'
  else select_from_index eqb (len pre + 1) al [(x, y)] = Err EvalError.
Proof. intros E eqb same (H1 & H2 & H3 & H4). exact (select_range E eqb same H1 H2 H3 H4). Qed.
Print Assumptions C76_select_range_partial.
Theorem C76_select_nothing : forall (E : Type) (eqb : E -> E -> bool) (same : E -> E -> Prop), equivalence eqb same ->
  forall al pre r post el, built eqb al (pre ++ r :: post) el ->
  exists a el', select_from_index eqb (len pre + 1) al [] = Ok a /\ built eqb a (pre ++ (1, 0) :: post) el'.
Proof. intros E eqb same (H1 & H2 & H3 & H4). exact (select_empty E eqb same H1 H2 H3 H4). Qed.
Print Assumptions C76_select_nothing.

(** FINDING: a selection l..infinity beyond the end of the index set is not an error: select_from_index_1([1,2,3,4,5],
    10..infinity) is an array with the index set 10..5 and 4294967292 elements *)
Theorem C76_open_selection_refuted : exists a z, mk1 Z.eqb [1; 2; 3; 4; 5] = Ok a /\
  select_from_index Z.eqb 1 a [(ofZ 10, iv_infinity)] = Ok z /\ amin z 0 = Ok 10 /\ amax z 0 = Ok 5 /\ asize z = Ok 4294967292.
Proof. do 2 eexists. repeat (split; [vm_compute; reflexivity|]). vm_compute; reflexivity. Qed.
Print Assumptions C76_open_selection_refuted.
(** FINDING: the ends of a selection are reduced to 32 bits: selecting 4294967297..4294967299 selects 1..3 *)
Theorem C76_truncated_refuted : exists a z, mk1 Z.eqb [1; 2; 3; 4; 5] = Ok a /\
  select_from_index Z.eqb 1 a (R 4294967297 4294967299) = Ok z /\ amin z 0 = Ok 1 /\ amax z 0 = Ok 3 /\ get z 0 = Ok 1.
Proof. do 2 eexists. repeat (split; [vm_compute; reflexivity|]). vm_compute; reflexivity. Qed.
Print Assumptions C76_truncated_refuted.
(** FINDING: joining [1,2,3] to an array whose index set ends at the largest int overflows *)
Theorem C76_concat_overflow_refuted : exists a b c, mk1 Z.eqb [1; 2; 3] = Ok a /\ mk1 Z.eqb [4; 5] = Ok b /\
  arrayXd [R 2147483646 2147483647] b = Ok c /\ concat_index Z.eqb 1 a c = UB.
Proof. do 3 eexists. repeat (split; [vm_compute; reflexivity|]). vm_compute; reflexivity. Qed.
Print Assumptions C76_concat_overflow_refuted.

Example C76_nonvacuous : exists a b c d e,
  built Z.eqb (mk Z.eqb [1; 2; 3; 4; 5; 6] [(1, 2); (0, 2)]) ([(1, 2)] ++ (0, 2) :: []) [1; 2; 3; 4; 5; 6] /\
  a = mk Z.eqb [1; 2; 3; 4; 5; 6] [(1, 2); (0, 2)] /\ b = mk Z.eqb [7; 8] [(1, 2); (5, 5)] /\
  concat_index Z.eqb 2 a b = Ok c /\ (dims c = 2 /\ amin c 1 = Ok 1 /\ amax c 1 = Ok 4 /\ get c 3 = Ok 7 /\ get c 4 = Ok 4) /\
  concat_index Z.eqb 1 a b = Err EvalError /\
  select_from_index Z.eqb 2 a [(ofZ 0, ofZ 0); (ofZ 2, ofZ 2)] = Ok d /\ (amin d 1 = Ok 1 /\ amax d 1 = Ok 2 /\ get d 1 = Ok 3 /\ get d 2 = Ok 4) /\
  select_from_index Z.eqb 2 a [(ofZ 0, ofZ 0); (ofZ 2, ofZ 3)] = Err EvalError /\
  ends (ofZ 1) iv_infinity (0, 2) (1, 2) /\
  select_from_index Z.eqb 2 a [(ofZ 1, iv_infinity)] = Ok e /\ (amin e 1 = Ok 1 /\ amax e 1 = Ok 2 /\ get e 0 = Ok 2 /\ get e 2 = Ok 5).
Proof.
  do 5 eexists. split; [apply b_mk; [|reflexivity]; split; [discriminate|]; split; [repeat constructor; vm_compute; congruence | vm_compute; congruence]|].
  split; [reflexivity|]. split; [reflexivity|]. split; [vm_compute; reflexivity|]. split; [repeat (split; [vm_compute; reflexivity|]); vm_compute; reflexivity|].
  split; [vm_compute; reflexivity|]. split; [vm_compute; reflexivity|]. split; [repeat (split; [vm_compute; reflexivity|]); vm_compute; reflexivity|].
  split; [vm_compute; reflexivity|].
  split; [split; [left; split; [reflexivity | vm_compute; split; congruence] | right; split; reflexivity]|].
  split; [vm_compute; reflexivity|]. repeat (split; [vm_compute; reflexivity|]); vm_compute; reflexivity.
Qed.
