(** C47: structural comparison, equality and hashing of expressions.

    [compare], [equal] and [hash] model Expression::compare, Expression::equal and Expression::hash.  [same] (CmpSpec.v) says that two
    expressions have the same structure and types.  h stands for std::hash on integers, doubles and strings: the theorems hold for
    every such function, collisions included. *)
Require Import ZArith List.
From Verif Require Import Base IntValModel IntValSpec StrModel StrSpec CmpModel CmpSpec CmpProofs.
Import ListNotations.
Open Scope Z_scope.

(** Comparison is antisymmetric, so that any two expressions are ordered one way or the other. *)
Theorem C47_total : forall a b, everywhere clean a -> everywhere clean b -> compare b a = - compare a b.
Proof. exact compare_opp. Qed.
Print Assumptions C47_total.

(** Comparison is transitive, and strictly so.  Missing: set literals of different kinds, see C47_sets_refuted. *)
Theorem C47_transitive_partial : forall fl a b c, everywhere clean a -> everywhere clean b -> everywhere clean c ->
  everywhere (one_kind fl) a -> everywhere (one_kind fl) b -> everywhere (one_kind fl) c ->
  compare a b <= 0 -> compare b c <= 0 -> compare a c <= 0 /\ (compare a c = 0 -> compare a b = 0 /\ compare b c = 0).
Proof. exact C47_transitive_l. Qed.
Print Assumptions C47_transitive_partial.

(** Equal expressions have equal hashes. *)
Theorem C47_hash : forall h a b, equal h a b = true -> hash h a = hash h b.
Proof. exact equal_hash. Qed.
Print Assumptions C47_hash.

(** Equality means having the same structure.  Missing: compressed arrays and identifiers standing for the same flat variable under
    different names, see C47_compressed_refuted and C47_alias_refuted. *)
Theorem C47_equal_partial : forall h nm fl a b, no_alias nm fl -> everywhere clean a -> everywhere clean b ->
  everywhere uncompressed a -> everywhere uncompressed b -> everywhere (named nm fl) a -> everywhere (named nm fl) b ->
  (equal h a b = true <-> same a b).
Proof. exact C47_equal_l. Qed.
Print Assumptions C47_equal_partial.

(** Equal expressions compare equal. *)
Theorem C47_consistent : forall h nm fl a b, no_alias nm fl -> everywhere clean a -> everywhere clean b ->
  everywhere (named nm fl) a -> everywhere (named nm fl) b -> equal h a b = true -> compare a b = 0.
Proof. exact C47_equal_compare_l. Qed.
Print Assumptions C47_consistent.

(** Equality is an equivalence relation, as tables of expressions need.  Missing: identifiers without a declaration, see
    C47_unresolved_refuted. *)
Theorem C47_equivalence_partial : forall h nm fl, no_alias nm fl ->
  let ok := fun e => everywhere clean e /\ everywhere uncompressed e /\ everywhere (named nm fl) e /\ everywhere resolved e in
  (forall a, ok a -> equal h a a = true) /\
  (forall a b, ok a -> ok b -> equal h a b = true -> equal h b a = true) /\
  (forall a b c, ok a -> ok b -> ok c -> equal h a b = true -> equal h b c = true -> equal h a c = true).
Proof. exact C47_equivalence_l. Qed.
Print Assumptions C47_equivalence_partial.

(** An explicit empty set literal compares equal to every set of integers. *)
Theorem C47_sets_refuted : exists a b c, everywhere clean a /\ everywhere clean b /\ everywhere clean c /\
  compare a b = 0 /\ compare b c = 0 /\ compare a c < 0.
Proof. exact C47_sets_refuted_l. Qed.
Print Assumptions C47_sets_refuted.
(** An array and its compressed form are different. *)
Theorem C47_compressed_refuted : exists a b, everywhere clean a /\ everywhere clean b /\ same a b /\ compare a b = 0 /\ equal idhash a b = false.
Proof. exact C47_compressed_refuted_l. Qed.
Print Assumptions C47_compressed_refuted.
(** Two identifiers with the same flat variable, which equalInternal means to identify, differ by their hashes and in the order. *)
Theorem C47_alias_refuted : exists a b, everywhere clean a /\ everywhere clean b /\ everywhere uncompressed a /\ everywhere uncompressed b /\
  everywhere resolved a /\ everywhere resolved b /\ same a b /\ equal idhash a b = false /\ compare a b <> 0.
Proof. exact C47_alias_refuted_l. Qed.
Print Assumptions C47_alias_refuted.
(** An identifier without a declaration is equal to two identifiers that differ. *)
Theorem C47_unresolved_refuted : forall h, exists a b c, equal h a b = true /\ equal h b c = true /\ equal h a c = false.
Proof. exact C47_unresolved_refuted_l. Qed.
Print Assumptions C47_unresolved_refuted.

(** a call with an array, an operator and a comprehension, over two variables *)
Example C47_nonvacuous : forall d, d = 1%nat \/ d = 2%nat -> let e := ex_expr d in
  everywhere clean e /\ everywhere uncompressed e /\ everywhere (named ex_nm (fun _ => None)) e /\ everywhere resolved e /\ everywhere (one_kind false) e.
Proof. exact ex_ok. Qed.
Example C47_nonvacuous_alias : no_alias ex_nm (fun _ => None).
Proof. exact ex_alias. Qed.
Example C47_nonvacuous_values : compare (ex_expr 1) (ex_expr 2) = -1 /\ compare (ex_expr 2) (ex_expr 1) = 1 /\
  equal idhash (ex_expr 1) (ex_expr 1) = true /\ equal idhash (ex_expr 1) (ex_expr 2) = false.
Proof. vm_compute. repeat split. Qed.
