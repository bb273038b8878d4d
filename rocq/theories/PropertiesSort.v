(** C79-C80: sorting and inverting arrays, and sets as arrays.  Statements only; proofs are in SortProofs.v and SortProofs2.v. *)
Require Import ZArith List Bool Lia Permutation.
From Verif Require Import Base IntValModel IntValSpec SetModel SetSpec ArrModel ArrSpec RedModel RedSpec SortModel SortSpec SortProofs SortProofs2.
Import ListNotations.
Open Scope Z_scope.

(** ** C79: sort_by, sort, inverse *)
Section Statements.
Variable E : Type.
Variable eqb : E -> E -> bool.
Variable same : E -> E -> Prop.
Variable ev_int : E -> res IntVal.
Variable ev_bool : E -> res bool.
Variable int_lit : IntVal -> E.
Variable std_sort : (E -> E -> bool) -> list E -> list E.

(** sort_by takes the elements of the array in the order of their keys; elements with equal keys keep their order.  The result
    is numbered from 1.  PARTIAL: as many keys as elements (see C79_sort_by_refuted) *)
Theorem C79_sort_by_partial : equivalence eqb same -> respects same ev_int -> forall a sh el o sh' keys xs,
  built eqb a sh el -> built eqb o sh' keys -> ints ev_int keys xs -> length keys = length el ->
  exists a' el' p, sort_by_int eqb ev_int a o = Ok a' /\ built eqb a' [(1, len el)] el' /\ ordered xs p /\ taken same el p el'.
Proof. intros (H1 & H2 & H3 & H4). exact (sort_by_ok E eqb same H1 H2 H3 H4 ev_int). Qed.
(** sort gives the same elements in non-decreasing order, whatever permutation std::sort chooses among equal elements *)
Theorem C79_sort_int : equivalence eqb same -> respects same ev_int -> sorts std_sort -> forall a sh el xs,
  built eqb a sh el -> ints ev_int el xs ->
  exists a' el' xs', sort eqb std_sort (int_less ev_int) a = Ok a' /\ built eqb a' [(1, len el)] el' /\ ints ev_int el' xs' /\ Permutation xs xs' /\
  (exists l, Forall2 same l el /\ Permutation l el') /\
  forall i j x y, (i < j)%nat -> nth_error xs' i = Some x -> nth_error xs' j = Some y -> ext_le x y.
Proof. intros (H1 & H2 & H3 & H4) Hr Hs. exact (sort_int_ok E eqb same H1 H2 H3 H4 ev_int Hr std_sort Hs). Qed.
Theorem C79_sort_bool : equivalence eqb same -> respects same ev_bool -> sorts std_sort -> forall a sh el bs,
  built eqb a sh el -> bools ev_bool el bs ->
  exists a' el', sort eqb std_sort (bool_less ev_bool) a = Ok a' /\ built eqb a' [(1, len el)] el' /\
  (exists l, Forall2 same l el /\ Permutation l el') /\
  forall i j x y, (i < j)%nat -> nth_error el' i = Some x -> nth_error el' j = Some y -> ~ (ev_bool x = Ok true /\ ev_bool y = Ok false).
Proof. intros (H1 & H2 & H3 & H4) Hr Hs. exact (sort_bool_ok E eqb same H1 H2 H3 H4 ev_bool std_sort Hr Hs). Qed.
(** inverse: an array that takes every value of m..m+n-1 once becomes the array over m..m+n-1 that maps each value to its
    index.  PARTIAL: indices are not negative, and values are within int (see C79_inverse_negative_refuted, C79_inverse_large_refuted) *)
Theorem C79_inverse_partial : equivalence eqb same -> respects same ev_int -> forall a r el zs m,
  built eqb a [r] el -> ints ev_int el (map Fin zs) -> el <> [] -> one_to_one zs m ->
  0 <= fst r -> INT_MIN <= m -> m + len el - 1 <= INT_MAX ->
  exists a' el', inverse eqb ev_int int_lit a = Ok a' /\ built eqb a' [(m, m + len el - 1)] el' /\
  forall k z, nth_error zs k = Some z -> elem_at el' (z - m) = Some (int_lit (ofZ (fst r + Z.of_nat k))).
Proof. intros (H1 & H2 & H3 & H4) Hr a r el zs m HB HI Hn. exact (proj1 (inverse_gen E eqb same H1 H2 H3 H4 int_lit ev_int Hr a r el zs HB HI Hn) m). Qed.
(** inverse is undefined for any other array of integers *)
Theorem C79_inverse_undefined : equivalence eqb same -> respects same ev_int -> forall a r el zs,
  built eqb a [r] el -> ints ev_int el (map Fin zs) -> el <> [] -> (forall m, ~ one_to_one zs m) ->
  inverse eqb ev_int int_lit a = Err EvalError \/ inverse eqb ev_int int_lit a = Err ArithmeticError.
Proof. intros (H1 & H2 & H3 & H4) Hr a r el zs HB HI Hn. exact (proj2 (inverse_gen E eqb same H1 H2 H3 H4 int_lit ev_int Hr a r el zs HB HI Hn)). Qed.
Theorem C79_inverse_empty : equivalence eqb same -> forall a sh, built eqb a sh [] -> inverse eqb ev_int int_lit a = Ok a.
Proof. intros (H1 & H2 & H3 & H4). exact (inverse_empty E eqb same H1 H2 H3 H4 int_lit ev_int). Qed.

(** ** C80: sets as arrays, and enumerated types *)
(** set2array lists the elements in increasing order *)
Theorem C80_set2array : forall s l, nf s -> enumerates l s -> ~ In LLONG_MAX l -> len l <= INT_MAX ->
  exists a, set2array eqb int_lit s = Ok a /\ built eqb a [(1, len l)] (map (fun z => int_lit (ofZ z)) l).
Proof. exact (set2array_ok E eqb int_lit). Qed.
(** set_to_sparse_inverse maps the k-th element of the set to k, and the other integers between its ends to 1.  PARTIAL: the
    elements are within int (see C80_sparse_refuted) *)
Theorem C80_sparse_partial : forall s l m M, nf s -> enumerates l s -> In m l -> In M l -> (forall z, In z l -> m <= z <= M) ->
  INT_MIN <= m -> M < INT_MAX -> M - m < INT_MAX ->
  exists a el, set_sparse_inverse eqb int_lit s = Ok a /\ built eqb a [(m, M)] el /\
  (forall k z, nth_error l k = Some z -> elem_at el (z - m) = Some (int_lit (ofZ (Z.of_nat k + 1)))) /\
  (forall z, m <= z <= M -> ~ In z l -> elem_at el (z - m) = Some (int_lit (ofZ 1))).
Proof. exact (sparse_ok E eqb int_lit). Qed.
(** set_to_ranges lists the ends of disjoint, non-adjacent ranges in increasing order that cover exactly the set *)
Theorem C80_ranges : forall s, nf s -> 2 * len s <= INT_MAX -> exists a vs xs, set_to_ranges eqb int_lit s = Ok a /\
  built eqb a [(1, 2 * len s)] (map int_lit vs) /\ Forall2 (fun v x => denote v = Some x) vs xs /\ apart xs /\ forall z, in_ranges z xs <-> elem z s.
Proof. exact (ranges_ok E eqb int_lit). Qed.
End Statements.
Print Assumptions C79_sort_by_partial.
Print Assumptions C79_sort_int.
Print Assumptions C79_sort_bool.
Print Assumptions C79_inverse_partial.
Print Assumptions C79_inverse_undefined.
Print Assumptions C79_inverse_empty.
Print Assumptions C80_set2array.
Print Assumptions C80_sparse_partial.
Print Assumptions C80_ranges.
(** to_enum checks membership *)
Theorem C80_to_enum : forall s v k, nf s -> is_int v k -> (elem k s -> to_enum s v = Ok v) /\ (~ elem k s -> to_enum s v = Err EvalError).
Proof. exact to_enum_ok. Qed.
Print Assumptions C80_to_enum.
(** enum_next and enum_prev give the next and the previous integer if it is in the set, and are undefined otherwise *)
Theorem C80_enum_next : forall s v k, nf s -> is_int v k -> k < LLONG_MAX ->
  (elem (k + 1) s -> exists r, enum_next s v = Ok r /\ is_int r (k + 1)) /\ (~ elem (k + 1) s -> enum_next s v = Err EvalError).
Proof. exact enum_next_ok. Qed.
Print Assumptions C80_enum_next.
Theorem C80_enum_prev : forall s v k, nf s -> is_int v k -> LLONG_MIN < k ->
  (elem (k - 1) s -> exists r, enum_prev s v = Ok r /\ is_int r (k - 1)) /\ (~ elem (k - 1) s -> enum_prev s v = Err EvalError).
Proof. exact enum_prev_ok. Qed.
Print Assumptions C80_enum_prev.

(** elements that are literals *)
Definition lit (z : Z) : res IntVal := Ok (ofZ z).
(** FINDING: sort_by([10], [2,1]) reads outside the array: the lengths are not compared *)
Theorem C79_sort_by_refuted : exists a o, mk1 Z.eqb [10] = Ok a /\ mk1 Z.eqb [2; 1] = Ok o /\ sort_by_int Z.eqb lit a o = UB.
Proof. do 2 eexists. split; [vm_compute; reflexivity|]. split; [vm_compute; reflexivity|]. vm_compute; reflexivity. Qed.
Print Assumptions C79_sort_by_refuted.
(** FINDING: inverse(array1d(-1..0, [1,2])) contains 4294967295 instead of -1 *)
Theorem C79_inverse_negative_refuted : exists a', inverse Z.eqb lit iv_v (mk Z.eqb [1; 2] [(-1, 0)]) = Ok a' /\ a' = mk Z.eqb [4294967295; 0] [(1, 2)].
Proof. eexists. split; [vm_compute; reflexivity|]. vm_compute; reflexivity. Qed.
Print Assumptions C79_inverse_negative_refuted.
(** FINDING: inverse([3000000000]) is indexed by -1294967296 *)
Theorem C79_inverse_large_refuted : exists a', inverse Z.eqb lit iv_v (mk Z.eqb [3000000000] [(1, 1)]) = Ok a' /\ a' = mk Z.eqb [1] [(-1294967296, -1294967296)].
Proof. eexists. split; [vm_compute; reflexivity|]. vm_compute; reflexivity. Qed.
Print Assumptions C79_inverse_large_refuted.
(** FINDING: and so is set_to_sparse_inverse({3000000000}) *)
Theorem C80_sparse_refuted : exists a', set_sparse_inverse Z.eqb iv_v [(ofZ 3000000000, ofZ 3000000000)] = Ok a' /\ a' = mk Z.eqb [1] [(-1294967296, -1294967296)].
Proof. eexists. split; [vm_compute; reflexivity|]. vm_compute; reflexivity. Qed.
Print Assumptions C80_sparse_refuted.
(** FINDING: enum_next({1,3}, 1) is undefined although the set has a next element, and enum_next({2,3}, 1) is 2 although 1 is not
    in the set *)
Theorem C80_enum_next_refuted : enum_next [(ofZ 1, ofZ 1); (ofZ 3, ofZ 3)] (ofZ 1) = Err EvalError /\ enum_next [(ofZ 2, ofZ 3)] (ofZ 1) = Ok (ofZ 2).
Proof. split; vm_compute; reflexivity. Qed.
Print Assumptions C80_enum_next_refuted.

Example C79_nonvacuous : equivalence Z.eqb eq /\ respects eq lit /\ @sorts Z stable_sort /\
  exists a o, a = mk Z.eqb [30; 10; 20] [(0, 2)] /\ o = mk Z.eqb [2; 1; 2] [(5, 7)] /\
  built Z.eqb a [(0, 2)] [30; 10; 20] /\ built Z.eqb o [(5, 7)] [2; 1; 2] /\ ints lit [2; 1; 2] (map Fin [2; 1; 2]) /\
  sort_by_int Z.eqb lit a o = Ok (mk Z.eqb [10; 30; 20] [(1, 3)]) /\
  sort Z.eqb stable_sort (int_less lit) a = Ok (mk Z.eqb [10; 20; 30] [(1, 3)]) /\
  sort Z.eqb stable_sort (bool_less (fun z => Ok (z =? 2))) o = Ok (mk Z.eqb [1; 2; 2] [(1, 3)]) /\
  (exists b, b = mk Z.eqb [7; 5; 6] [(0, 2)] /\ built Z.eqb b [(0, 2)] [7; 5; 6] /\ one_to_one [7; 5; 6] 5 /\
    inverse Z.eqb lit iv_v b = Ok (mk Z.eqb [1; 2; 0] [(5, 7)])) /\
  inverse Z.eqb lit iv_v o = Err EvalError.
Proof.
  assert (B : forall v sh, (sh <> [] /\ Forall range_ok sh /\ ArrSpec.card sh <= INT_MAX) -> ArrSpec.card sh = len v -> built Z.eqb (mk Z.eqb v sh) sh v) by (intros; apply b_mk; assumption).
  split; [repeat split; try congruence; intros; apply Z.eqb_eq; assumption|]. split; [intros x y ->; reflexivity|]. split; [apply stable_sorts|].
  do 2 eexists. split; [reflexivity|]. split; [reflexivity|].
  split. { apply B; [|reflexivity]. split; [discriminate|]. split; [repeat constructor; vm_compute; congruence|vm_compute; congruence]. }
  split. { apply B; [|reflexivity]. split; [discriminate|]. split; [repeat constructor; vm_compute; congruence|vm_compute; congruence]. }
  split. { repeat constructor; eexists; split; reflexivity. }
  split; [vm_compute; reflexivity|]. split; [vm_compute; reflexivity|]. split; [vm_compute; reflexivity|]. split; [|vm_compute; reflexivity].
  eexists. split; [reflexivity|]. split. { apply B; [|reflexivity]. split; [discriminate|]. split; [repeat constructor; vm_compute; congruence|vm_compute; congruence]. }
  split; [|vm_compute; reflexivity]. split; [repeat constructor; cbn; intuition lia|]. intros z. unfold len. cbn [In length]. lia.
Qed.
Example C80_nonvacuous : let s := [(ofZ 2, ofZ 3); (ofZ 6, ofZ 6)] in nf s /\ enumerates [2; 3; 6] s /\
  set2array Z.eqb iv_v s = Ok (mk Z.eqb [2; 3; 6] [(1, 3)]) /\ set_sparse_inverse Z.eqb iv_v s = Ok (mk Z.eqb [1; 2; 1; 1; 3] [(2, 6)]) /\
  set_to_ranges Z.eqb iv_v s = Ok (mk Z.eqb [2; 3; 6; 6] [(1, 4)]) /\ to_enum s (ofZ 3) = Ok (ofZ 3) /\ to_enum s (ofZ 4) = Err EvalError /\
  enum_next s (ofZ 2) = Ok (ofZ 3) /\ enum_next s (ofZ 6) = Err EvalError /\ enum_prev s (ofZ 3) = Ok (ofZ 2) /\ set_sparse_inverse Z.eqb iv_v [] = Err EvalError.
Proof.
  assert (Bt : forall z a b, fits64 a -> fits64 b -> a <= z <= b -> between z (ofZ a) (ofZ b)).
  { intros z a b Fa Fb H. exists (Fin a), (Fin b). split; [apply AccessProofs.int_of_Z, Fa|]. split; [apply AccessProofs.int_of_Z, Fb|]. cbn. lia. }
  assert (F : forall z, -10 <= z <= 10 -> fits64 z) by (unfold fits64, LLONG_MIN, LLONG_MAX; lia).
  cbv zeta. split.
  { apply nf_cons; [exists 2; apply Bt; [apply F|apply F|]; cbn; lia| |apply nf_one; exists 6; apply Bt; [apply F|apply F|]; cbn; lia].
    exists 4, (Fin 3), (Fin 6). split; [reflexivity|]. split; [reflexivity|]. split; (split; [cbn; lia|intros H; injection H; lia]). }
  split.
  { split; [cbn; lia|]. intros z. split.
    - intros H. assert (Hz : z = 2 \/ z = 3 \/ z = 6) by (cbn in H; lia). destruct Hz as [-> | [-> | ->]].
      + exists (ofZ 2), (ofZ 3). split; [left; reflexivity|]. apply Bt; [apply F; lia|apply F; lia|lia].
      + exists (ofZ 2), (ofZ 3). split; [left; reflexivity|]. apply Bt; [apply F; lia|apply F; lia|lia].
      + exists (ofZ 6), (ofZ 6). split; [right; left; reflexivity|]. apply Bt; [apply F; lia|apply F; lia|lia].
    - intros (a & b & Hin & x & y & Hx & Hy & H1 & H2). destruct Hin as [Heq|[Heq|[]]]; injection Heq as <- <-; cbn in Hx, Hy; injection Hx as <-; injection Hy as <-; cbn in *; lia. }
  repeat (split; [vm_compute; reflexivity|]). vm_compute; reflexivity.
Qed.
