(** C05-C10: integer sets and domains.  Statements only; proofs are in SetPropProofs.v. *)
Require Import ZArith List Bool Lia.
From Verif Require Import Base IntValModel IntValSpec IntValProofs SetModel SetSpec SetPropProofs.
Import ListNotations.
Open Scope Z_scope.

Definition R (a b : Z) : range := (ofZ a, ofZ b).
Definition minf : IntVal := mkIV (-1) true.

(** ** C05: normal form *)
(** construction from an unsorted vector with duplicates *)
Theorem C05_from_vector : forall l, (forall z, In z l -> fits64 z) ->
  (exists s, set_of_vector (map ofZ l) = Ok s /\ nf s /\ forall z, elem z s <-> In z l) \/
  (set_of_vector (map ofZ l) = Err ArithmeticError /\ exists l1 l2 l3, l = l1 ++ LLONG_MAX :: l2 ++ LLONG_MAX :: l3).
Proof. exact C05_vector_l. Qed.
Print Assumptions C05_from_vector.

Theorem C05_from_interval : forall a b, wf a -> wf b -> denote a <> Some PInf -> denote b <> Some MInf ->
  nf (set_interval a b) /\ forall z, elem z (set_interval a b) <-> between z a b.
Proof. exact C05_interval_l. Qed.
Print Assumptions C05_from_interval.

(** the normal form is unique: equal sets have identical representations *)
Theorem C05_representation_unique : forall s t, nf s -> nf t -> (forall z, elem z s <-> elem z t) -> s = t.
Proof. exact C05_unique_l. Qed.
Print Assumptions C05_representation_unique.

(** FINDING: a vector holding the largest integer twice is rejected although the set is representable *)
Theorem C05_vector_refuted : set_of_vector (map ofZ [LLONG_MAX; LLONG_MAX]) = Err ArithmeticError.
Proof. vm_compute. reflexivity. Qed.
Print Assumptions C05_vector_refuted.

Example C05_nonvacuous :
  set_of_vector (map ofZ [7; 3; 5; 4; 3; -2]) = Ok [R (-2) (-2); R 3 5; R 7 7] /\
  set_of_vector (map ofZ [LLONG_MAX; 4]) = Ok [R 4 4; R LLONG_MAX LLONG_MAX].
Proof. vm_compute. repeat split. Qed.

(** ** C06: set operations; they keep the normal form (also C05) *)
Theorem C06_union_exact : forall s t, nf s -> nf t ->
  (exists r, set_union s t = Ok r /\ nf r /\ forall z, elem z r <-> elem z s \/ elem z t) \/
  (set_union s t = Err ArithmeticError /\ (at_edge s \/ at_edge t)).
Proof. exact C06_union_l. Qed.
Print Assumptions C06_union_exact.

Theorem C06_intersection_exact : forall s t, nf s -> nf t ->
  exists r, set_inter s t = Ok r /\ nf r /\ forall z, elem z r <-> elem z s /\ elem z t.
Proof. exact C06_inter_l. Qed.
Print Assumptions C06_intersection_exact.

Theorem C06_difference_exact : forall s t, nf s -> nf t ->
  (exists r, set_diff s t = Ok r /\ nf r /\ forall z, elem z r <-> elem z s /\ ~ elem z t) \/
  (set_diff s t = Err ArithmeticError /\ (at_edge s \/ at_edge t)).
Proof. exact C06_diff_l. Qed.
Print Assumptions C06_difference_exact.

(** FINDING: sets that contain the largest (smallest) 64-bit integer make union (difference) raise an
    arithmetic error although operands and result are representable *)
Theorem C06_union_edge_refuted : set_union [R 5 5] [R LLONG_MAX LLONG_MAX] = Err ArithmeticError.
Proof. vm_compute. reflexivity. Qed.
Print Assumptions C06_union_edge_refuted.
Theorem C06_difference_edge_refuted : set_diff [R LLONG_MIN 5] [R 3 3] = Err ArithmeticError.
Proof. vm_compute. reflexivity. Qed.
Print Assumptions C06_difference_edge_refuted.

Lemma ex_nf : nf [R 1 3; R 7 9] /\ nf [(minf, ofZ 1); R 3 4; (ofZ 8, iv_infinity)].
Proof.
  split; repeat (apply nf_cons || apply nf_one || apply nf_nil).
  - exists 1, (Fin 1), (Fin 3). cbn. repeat split; lia.
  - exists 4, (Fin 3), (Fin 7). unfold ext_lt; cbn. repeat split; try lia; discriminate.
  - exists 8, (Fin 7), (Fin 9). cbn. repeat split; lia.
  - exists 0, MInf, (Fin 1). cbn. repeat split; lia.
  - exists 2, (Fin 1), (Fin 3). unfold ext_lt; cbn. repeat split; try lia; discriminate.
  - exists 3, (Fin 3), (Fin 4). cbn. repeat split; lia.
  - exists 5, (Fin 4), (Fin 8). unfold ext_lt; cbn. repeat split; try lia; discriminate.
  - exists 8, (Fin 8), PInf. cbn. repeat split; lia.
Qed.
Example C06_nonvacuous :
  nf [R 1 3; R 7 9] /\ nf [(minf, ofZ 1); R 3 4; (ofZ 8, iv_infinity)] /\
  set_union [R 1 3; R 7 9] [(minf, ofZ 1); R 3 4; (ofZ 8, iv_infinity)] = Ok [(minf, ofZ 4); (ofZ 7, iv_infinity)] /\
  set_inter [R 1 3; R 7 9] [(minf, ofZ 1); R 3 4; (ofZ 8, iv_infinity)] = Ok [R 1 1; R 3 3; R 8 9] /\
  set_diff [R 1 3; R 7 9] [(minf, ofZ 1); R 3 4; (ofZ 8, iv_infinity)] = Ok [R 2 2; R 7 7] /\
  set_diff [(minf, ofZ 1); R 3 4; (ofZ 8, iv_infinity)] [R 1 3; R 7 9] = Ok [(minf, ofZ 0); R 4 4; (ofZ 10, iv_infinity)].
Proof. split; [apply ex_nf|]. split; [apply ex_nf|]. vm_compute. repeat split. Qed.

(** ** C07: predicates *)
Theorem C07_equal_exact : forall s t, nf s -> nf t -> (set_equal s t = true <-> forall z, elem z s <-> elem z t).
Proof. exact C07_equal_l. Qed.
Print Assumptions C07_equal_exact.
Theorem C07_subset_exact : forall s t, nf s -> nf t -> (set_subset s t = true <-> forall z, elem z s -> elem z t).
Proof. exact C07_subset_l. Qed.
Print Assumptions C07_subset_exact.
Theorem C07_disjoint_exact : forall s t, nf s -> nf t -> (set_disjoint s t = true <-> forall z, ~ (elem z s /\ elem z t)).
Proof. exact C07_disjoint_l. Qed.
Print Assumptions C07_disjoint_exact.
Theorem C07_compare_exact : forall s t, nf s -> nf t ->
  (set_compare s t = CS_SUBSET <-> forall z, elem z s -> elem z t) /\
  (set_compare s t = CS_DISJOINT <-> (~ (forall z, elem z s -> elem z t)) /\ forall z, ~ (elem z s /\ elem z t)).
Proof. exact C07_compare_l. Qed.
Print Assumptions C07_compare_exact.
Theorem C07_contains_exact : forall s v k, nf s -> is_int v k -> (set_contains s v = true <-> elem k s).
Proof. exact C07_contains_l. Qed.
Print Assumptions C07_contains_exact.
Theorem C07_range_subset_exact : forall s a b, nf s -> good_range (a, b) ->
  (set_has_range s (a, b) = true <-> forall z, between z a b -> elem z s).
Proof. exact C07_has_range_l. Qed.
Print Assumptions C07_range_subset_exact.

Example C07_nonvacuous :
  set_subset [R 1 3; R 7 9] [(minf, ofZ 4); R 7 10] = true /\ set_subset [R 1 3; R 7 9] [(minf, ofZ 4); R 8 10] = false /\
  set_disjoint [R 1 3; R 7 9] [R 4 6; R 10 11] = true /\ set_disjoint [R 1 3; R 7 9] [R 4 7] = false /\
  set_compare [R 1 3; R 7 9] [R 4 6; R 10 11] = CS_DISJOINT /\ set_compare [R 1 3] [R 2 6] = CS_NONE /\
  set_contains [R 1 3; R 7 9] (ofZ 8) = true /\ set_contains [R 1 3; R 7 9] (ofZ 5) = false.
Proof. vm_compute. repeat split. Qed.

(** ** C08: cardinality and enumeration *)
Theorem C08_bounded_sets_have_lists : forall s, nf s -> bounded s -> exists l, enumerates l s.
Proof. exact C08_has_list_l. Qed.
Print Assumptions C08_bounded_sets_have_lists.
Theorem C08_cardinality_exact : forall s l, nf s -> enumerates l s ->
  cardinality s = if Z.of_nat (length l) <=? LLONG_MAX then Ok (ofZ (Z.of_nat (length l))) else Err ArithmeticError.
Proof. exact C08_finite_l. Qed.
Print Assumptions C08_cardinality_exact.
Theorem C08_card_agrees : forall s l, nf s -> enumerates l s -> card s = cardinality s.
Proof. exact C08_card_l. Qed.
Print Assumptions C08_card_agrees.
Theorem C08_cardinality_unbounded : forall s, nf s -> ~ bounded s ->
  cardinality s = Ok iv_infinity \/ cardinality s = Err ArithmeticError.
Proof. exact C08_infinite_l. Qed.
Print Assumptions C08_cardinality_unbounded.
Theorem C08_values_in_order : forall s l, nf s -> enumerates l s -> ~ In LLONG_MAX l ->
  to_values s = Ok (map ofZ l).
Proof. exact C08_values_l. Qed.
Print Assumptions C08_values_in_order.
(** FINDING: iterating a set that contains the largest integer raises an error *)
Theorem C08_values_edge_refuted : to_values [R LLONG_MAX LLONG_MAX] = Err ArithmeticError.
Proof. vm_compute. reflexivity. Qed.
Print Assumptions C08_values_edge_refuted.

Example C08_nonvacuous :
  cardinality [R 1 3; R 7 9] = Ok (ofZ 6) /\ to_values [R 1 3; R 7 8] = Ok (map ofZ [1; 2; 3; 7; 8]) /\
  enumerates [1; 2; 3; 7; 8] [R 1 3; R 7 8].
Proof.
  split; [reflexivity|]. split; [reflexivity|]. split; [cbn; lia|].
  intros z. cbn [In]. split.
  - intros H. destruct (Z_le_dec z 3).
    + exists (ofZ 1), (ofZ 3). split; [left; reflexivity|]. exists (Fin 1), (Fin 3). cbn. repeat split; lia.
    + exists (ofZ 7), (ofZ 8). split; [right; left; reflexivity|]. exists (Fin 7), (Fin 8). cbn. repeat split; lia.
  - intros (a & b & [E|[E|[]]] & x & y & Hx & Hy & L1 & L2); inversion E; subst; cbn in *; inversion Hx; inversion Hy; subst; cbn in *; lia.
Qed.

(** ** C09: set ordering *)
Theorem C09_less_is_lexicographic : forall s t l m, nf s -> nf t -> enumerates l s -> enumerates m t ->
  (set_less s t = true <-> lex_lt l m) /\ (set_less_eq s t = true <-> lex_lt l m \/ l = m).
Proof. exact C09_less_l. Qed.
Print Assumptions C09_less_is_lexicographic.
Theorem C09_strict_total_order : forall s t u, nf s -> nf t -> nf u -> bounded s -> bounded t -> bounded u ->
  set_less s s = false /\
  (set_less s t = true -> set_less t u = true -> set_less s u = true) /\
  (set_less s t = true \/ s = t \/ set_less t s = true) /\
  (set_less_eq s t = true <-> set_less s t = true \/ s = t).
Proof. exact C09_order_l. Qed.
Print Assumptions C09_strict_total_order.

Example C09_nonvacuous :
  set_less [] [R 1 1] = true /\ set_less [R 1 2] [R 1 3] = true /\ set_less [R 1 2; R 5 5] [R 1 3] = false /\
  set_less [R 1 3] [R 1 2; R 5 5] = true.
Proof. vm_compute. repeat split. Qed.

(** ** C10: domains *)
Theorem C10_limit_domain_exact : forall op dom v k, nf dom -> is_int v k -> op <> BOT_EQ ->
  (exists r, limitDomain op dom v = Ok r /\ nf r /\ forall z, elem z r <-> elem z dom /\ allowed op z k) \/
  (limitDomain op dom v = Err ArithmeticError /\ (k = LLONG_MIN \/ k = LLONG_MAX \/ at_edge dom)).
Proof. exact C10_limit_l. Qed.
Print Assumptions C10_limit_domain_exact.
Theorem C10_intersect_interval_exact : forall dom v0 v1, nf dom -> wf v0 -> wf v1 ->
  denote v0 <> Some PInf -> denote v1 <> Some MInf ->
  exists r, intersectDomain_range dom v0 v1 = Ok r /\ nf r /\ forall z, elem z r <-> elem z dom /\ between z v0 v1.
Proof. exact C10_intersect_l. Qed.
Print Assumptions C10_intersect_interval_exact.
Theorem C10_intersect_domains_exact : forall s t, nf s -> nf t ->
  exists r, intersectDomain_dom s t = Ok r /\ nf r /\ forall z, elem z r <-> elem z s /\ elem z t.
Proof. exact C06_inter_l. Qed.
Print Assumptions C10_intersect_domains_exact.
Theorem C10_domain_equals_exact : forall dom v k, nf dom -> is_int v k ->
  (domainEquals_val dom v = true <-> forall z, elem z dom <-> z = k).
Proof. exact C10_domain_equals_l. Qed.
Print Assumptions C10_domain_equals_exact.

Example C10_nonvacuous :
  limitDomain BOT_LE [R 1 3; R 7 9] (ofZ 8) = Ok [R 1 3; R 7 7] /\
  limitDomain BOT_GR [R 1 3; R 7 9] (ofZ 2) = Ok [R 3 3; R 7 9] /\
  limitDomain BOT_NQ [R 1 3; R 7 9] (ofZ 2) = Ok [R 1 1; R 3 3; R 7 9].
Proof. vm_compute. repeat split. Qed.
