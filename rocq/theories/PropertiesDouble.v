(** C15: division of bounds through doubles.  Statements only; proofs are in DoubleProofs.v. *)
Require Import ZArith List Bool Lia.
From Verif Require Import Base IntValModel IntValSpec SetModel SetSpec LinModel LinSpec LinProofs3
  DoubleModel DoubleSpec DoubleProofs PropertiesLinear.
Import ListNotations.
Open Scope Z_scope.

(** C15 for operands below 2^53 in magnitude: floorDiv and ceilDiv are exact.  Missing from the full
    property: larger operands, for which it is false (below). *)
Theorem C15_floor_ceiling_partial : forall x y a b, is_int x a -> is_int y b -> b <> 0 -> small a -> small b ->
  (exists r q, floorDiv x y = Ok r /\ is_int r q /\ is_floor a b q) /\
  (exists r q, ceilDiv x y = Ok r /\ is_int r q /\ is_ceiling a b q).
Proof. exact C15_small_l. Qed.
Print Assumptions C15_floor_ceiling_partial.

(** FINDING: 2^53 + 1 divided by 1 is not 2^53 *)
Theorem C15_floor_refuted :
  floorDiv (ofZ 9007199254740993) (ofZ 1) = Ok (ofZ 9007199254740992) /\
  floorDiv (ofZ 27021597764222975) (ofZ 3) = Ok (ofZ 9007199254740992) /\ ~ is_floor 27021597764222975 3 9007199254740992.
Proof. repeat split; try (vm_compute; reflexivity). unfold is_floor. lia. Qed.
Print Assumptions C15_floor_refuted.
Theorem C15_ceiling_refuted :
  ceilDiv (ofZ (2 ^ 60 + 1)) (ofZ 1) = Ok (ofZ (2 ^ 60)) /\ ~ is_ceiling (2 ^ 60 + 1) 1 (2 ^ 60).
Proof. repeat split; try (vm_compute; reflexivity). unfold is_ceiling. lia. Qed.
Print Assumptions C15_ceiling_refuted.
(** FINDING: the conversion back to an integer is undefined for the largest integers *)
Theorem C15_overflow_refuted : floorDiv (ofZ LLONG_MAX) (ofZ 1) = UB /\ ceilDiv (ofZ LLONG_MIN) (ofZ (-1)) = UB.
Proof. vm_compute. auto. Qed.
Print Assumptions C15_overflow_refuted.

(** what a comparison is flattened to (C13), with the code's own rounded divisions, as long as the
    divided bounds and coefficients are below 2^53 *)
Theorem C15_comparison_equivalent_partial : forall s fuel ds sort bnd dom revmap root dn rTrue own_id,
  in_bounds s bnd -> in_domains s dom -> (root = true -> dn = false) ->
  sorts sort -> fin_decls ds -> respects s ds ->
  forall bot le0 le1 a b o,
  side_ok le0 -> side_ok le1 -> side_value s le0 = Some a -> side_value s le1 = Some b ->
  (exists z, a = Fin z) \/ (exists z, b = Fin z) ->
  linexp_binop fuel ds sort bnd dom revmap (when_small floorDiv) (when_small ceilDiv) root dn rTrue own_id bot le0 le1 = Ok o ->
  expresses s dn (holds bot a b) o.
Proof.
  intros s fuel ds sort bnd dom revmap root dn rTrue own_id H1 H2 H3.
  exact (binop_ok s fuel ds sort bnd dom revmap _ _ root dn rTrue own_id H1 H2 H3 (proj1 small_rounds) (proj2 small_rounds)).
Qed.
Print Assumptions C15_comparison_equivalent_partial.

Example C15_nonvacuous :
  small 7 /\ small (-9007199254740991) /\
  floorDiv (ofZ 7) (ofZ (-2)) = Ok (ofZ (-4)) /\ ceilDiv (ofZ (-7)) (ofZ (-2)) = Ok (ofZ 4) /\
  floorDiv (ofZ (-9007199254740991)) (ofZ 9007199254740990) = Ok (ofZ (-2)) /\
  when_small floorDiv (ofZ 7) (ofZ 2) = Ok (ofZ 3).
Proof. repeat split; try (vm_compute; reflexivity). Qed.
