(** Properties C34, C35, C53, C54, C55: types, subtyping, the registry of struct types, common types. *)
Require Import ZArith List Bool.
From Verif Require Import Base TypeModel TypeSpec TypeProofs TypeProofs2 TypeProofs3 TypeProofs4.
Import ListNotations.
Open Scope Z_scope.

(** C34: the number that stands for a type determines the type (up to the flags cv and any) *)
Theorem C34_encoding_injective : forall a b, type_ok a -> type_ok b -> toInt a = toInt b -> same_type a b.
Proof. exact toInt_inj. Qed.
Print Assumptions C34_encoding_injective.
(** decoding gives the type back while its id is below 4096 *)
Theorem C34_decode_partial : forall t, type_ok t -> t_id t < 4096 ->
  fromInt (toInt t) = mkT (t_bt t) (t_ti t) (t_st t) (t_ot t) false false (t_id t) (t_dim t).
Proof. intros t H Hi. rewrite (fromInt_toInt t H), Z.mod_small; [reflexivity|]. destruct H. auto with zarith. Qed.
Print Assumptions C34_decode_partial.
(** from 4096 on it does not: two different types are decoded to the same one *)
Theorem C34_decode_refuted : exists t u, type_ok t /\ type_ok u /\ ~ same_type t u /\ fromInt (toInt t) = fromInt (toInt u).
Proof.
  exists (mk_ty false BT_TUPLE false 4097 0), (mk_ty false BT_TUPLE false 1 0).
  repeat split; cbn; try discriminate. intros (_ & _ & _ & _ & H & _). discriminate.
Qed.
Print Assumptions C34_decode_refuted.
(** the comparison of types is a total order whose equality is equality of types *)
Theorem C34_cmp_order : forall a b c, type_ok a -> type_ok b -> type_ok c ->
  (ty_cmp a b = 0 <-> same_type a b) /\ ty_cmp b a = - ty_cmp a b /\
  (ty_cmp a b <= 0 -> ty_cmp b c <= 0 -> ty_cmp a c <= 0) /\ (ty_cmp a b < 0 -> ty_cmp b c < 0 -> ty_cmp a c < 0).
Proof. exact C34_cmp_l. Qed.
Print Assumptions C34_cmp_order.
(** operator== compares everything but the ids of types that are not structs *)
Theorem C34_eq : forall a b, ty_eqb a b = true <->
  t_ti a = t_ti b /\ t_bt a = t_bt b /\ t_st a = t_st b /\ t_ot a = t_ot b /\ t_dim a = t_dim b /\ (is_struct a -> t_id a = t_id b).
Proof. exact C34_eq_l. Qed.
Print Assumptions C34_eq.
Theorem C34_cmp_eq : forall a b, type_ok a -> type_ok b -> ty_cmp a b = 0 -> ty_eqb a b = true.
Proof. exact C34_cmp_eq_l. Qed.
Print Assumptions C34_cmp_eq.
(** but equal types may be ordered: two enum types *)
Theorem C34_eq_cmp_refuted : exists a b, type_ok a /\ type_ok b /\ ty_eqb a b = true /\ ty_cmp a b <> 0.
Proof. exists (mk_ty false BT_INT false 1 0), (mk_ty false BT_INT false 2 0). repeat split; cbn; discriminate. Qed.
Print Assumptions C34_eq_cmp_refuted.
Example C34_nonvacuous :
  let t := mkT BT_INT true true false true false 700 (-1) in
  type_ok t /\ fromInt (toInt t) = mkT BT_INT true true false false false 700 (-1) /\
  ty_cmp t (mk_ty false BT_FLOAT false 0 2) = -1.
Proof. repeat split; vm_compute; congruence. Qed.

(** C35: subtyping *)
Theorem C35_reflexive : forall e strict t, subtype e strict t t.
Proof. exact C35_refl_l. Qed.
Print Assumptions C35_reflexive.
Theorem C35_transitive : forall e strict a b c, lang e a -> lang e b -> lang e c ->
  subtype e strict a b -> subtype e strict b c -> subtype e strict a c.
Proof. exact C35_trans_l. Qed.
Print Assumptions C35_transitive.
(** the test is the declarative relation [Sub] of TypeSpec.v *)
Theorem C35_declarative : forall e strict a b, lang e a -> lang e b -> (subtype e strict a b <-> Sub e strict a b).
Proof. exact C35_decl_l. Qed.
Print Assumptions C35_declarative.
(** the test terminates with one answer for all types of the language *)
Theorem C35_decided : forall e strict a b, lang e a -> lang e b ->
  (subtype e strict a b \/ not_subtype e strict a b) /\ ~ (subtype e strict a b /\ not_subtype e strict a b).
Proof. intros e s a b Ha Hb. split; [apply C35_decided_l; auto | intros [H1 H2]; exact (C35_unique_l e s a b H1 H2)]. Qed.
Print Assumptions C35_decided.
(** through the type of the empty array, int is a subtype of string *)
Theorem C35_bottom_refuted : exists a b c, subtype e_init false a b /\ subtype e_init false b c /\ not_subtype e_init false a c.
Proof. exists (mk_ty false BT_INT false 0 1), (t_bot 1), (mk_ty false BT_STRING false 0 1). repeat split; exists 1%nat; reflexivity. Qed.
Print Assumptions C35_bottom_refuted.
(** the strict test of the environment is not transitive: the enum of an index is only compared for
    arrays of integers, so array[E] of float is accepted for array[G] of float *)
Theorem C35_strict_refuted : exists e a b c, reach e /\ lang e a /\ lang e b /\ lang e c /\
  env_isSubtype 1 e a b true = Ok true /\ env_isSubtype 1 e b c true = Ok true /\ env_isSubtype 1 e a c true = Ok false.
Proof.
  exists (mkE [] [] [[1; 0]; [2; 0]]), (mk_ty false BT_INT false 1 1), (mk_ty false BT_FLOAT false 1 1), (mk_ty false BT_FLOAT false 2 1).
  split.
  { change (reach (fst (register_array (fst (register_array e_init [1; 0])) [2; 0]))). repeat (apply r_array || apply r_init); repeat constructor; discriminate. }
  assert (L : forall e t, t_bt t = BT_INT \/ t_bt t = BT_FLOAT -> t_any t = false -> lang e t).
  { intros e t [H|H] Ha; apply lang_scalar; auto; try (rewrite H; discriminate); unfold is_struct; rewrite H; intros [?|?]; discriminate. }
  repeat split; try reflexivity; apply L; cbn; auto.
Qed.
Print Assumptions C35_strict_refuted.
(* int array[int] <= var opt float array; a tuple (bool, {set}) is a subtype of (float, array) but not conversely *)
Definition T_fields : list ty := [mk_ty false BT_BOOL false 0 0; mk_ty false BT_INT true 0 0].
Definition U_fields : list ty := [mk_ty true BT_FLOAT false 0 0; mk_ty false BT_INT false 0 1].
Definition TU : env := fst (register_tuple (fst (register_tuple e_init T_fields)) U_fields).
Example C35_nonvacuous :
  subtype TU true (mk_ty false BT_TUPLE false 1 0) (mk_ty false BT_TUPLE false 2 0) /\
  not_subtype TU true (mk_ty false BT_TUPLE false 2 0) (mk_ty false BT_TUPLE false 1 0) /\
  lang TU (mk_ty false BT_TUPLE false 1 0).
Proof.
  split; [exists 2%nat; reflexivity|]. split; [exists 2%nat; reflexivity|].
  apply (lang_struct TU _ [] T_fields); [left; reflexivity | reflexivity | reflexivity | left; repeat split |].
  intros f [<-|[<-|[]]]; apply lang_scalar; cbn; try discriminate; auto; intros [H|H]; discriminate.
Qed.

(** C53: struct and array types are registered once; ids are stable and stand for the type *)
Theorem C53_tuple_partial : forall e fs, reach e -> Forall type_ok fs ->
  let (e', i) := register_tuple e fs in
  reach e' /\ keeps e e' /\
  (exists fs', at_ (e_tuples e') (i - 1) = Ok fs' /\ Forall2 same_type fs' fs) /\
  (forall j gs, at_ (e_tuples e) (j - 1) = Ok gs -> (i = j <-> Forall2 same_type gs fs)).
Proof. exact C53_tuple_l. Qed.
Print Assumptions C53_tuple_partial.
Theorem C53_record_partial : forall e fs, reach e -> Forall type_ok (map snd fs) ->
  let (e', i) := register_rec e (mk_rec fs) in
  reach e' /\ keeps e e' /\
  (exists r, at_ (e_records e') (i - 1) = Ok r /\ rec_names r = map fst fs /\ Forall2 same_type (rec_types r) (map snd fs)) /\
  (forall j r, at_ (e_records e) (j - 1) = Ok r -> (i = j <-> rec_names r = map fst fs /\ Forall2 same_type (rec_types r) (map snd fs))).
Proof. exact C53_record_l. Qed.
Print Assumptions C53_record_partial.
(** a record type with new field types is the record type with these names and types *)
Theorem C53_retype : forall e j r ts, reach e -> at_ (e_records e) (j - 1) = Ok r -> length ts = length (rec_types r) -> Forall type_ok ts ->
  rec_retype r ts = mk_rec (combine (rec_names r) ts).
Proof. exact C53_retype_l. Qed.
Print Assumptions C53_retype.
Theorem C53_array_partial : forall e ids, reach e -> Forall (fun i => 0 <= i) ids ->
  let (e', i) := register_array e ids in
  reach e' /\ keeps e e' /\ (i = 0 <-> Forall (fun x => x = 0) ids) /\ (i <> 0 -> get_array e' i = Ok ids) /\
  (forall j js, get_array e j = Ok js -> (i = j <-> js = ids)).
Proof. exact C53_array_l. Qed.
Print Assumptions C53_array_partial.
(** after 65536 tuple types the id stored in a type stands for another tuple type *)
Theorem C53_id_refuted : exists e fs gs, reach e /\ length fs <> length gs /\
  let (e', i) := register_tuple e fs in
  get_tuple e' (set_id (mk_ty false BT_TUPLE false 0 0) i) = Ok gs.
Proof. exact C53_truncation. Qed.
Print Assumptions C53_id_refuted.
Example C53_nonvacuous :
  (* names "ab", "c" and "a", "bc" are different record types although their concatenations agree *)
  let e1 := fst (register_rec e_init (mk_rec [([97; 98], t_parint 0); ([99], t_parint 0)])) in
  snd (register_rec e1 (mk_rec [([97], t_parint 0); ([98; 99], t_parint 0)])) = 2 /\
  snd (register_rec e1 (mk_rec [([97; 98], t_parint 0); ([99], set_cv (t_parint 0) true)])) = 1 /\
  snd (register_array (fst (register_array e_init [1; 12])) [11; 2]) = 2 /\ snd (register_array e_init [0; 0]) = 0.
Proof. repeat split. Qed.

(** C54 is false: the test whether two tuple types have the same base types, on which the insertion of
    coercions depends, answers yes for all tuples of the same length *)
Theorem C54_matches_refuted : forall n e a b, length a = length b -> Forall (fun t => t_bt t <> BT_BOT) a -> matchesBT (S n) e a b = Ok true.
Proof. exact C54_matches_l. Qed.
Print Assumptions C54_matches_refuted.
Example C54_nonvacuous : matchesBT 1 e_init [t_parint 0; mk_ty false BT_STRING false 0 0] [mk_ty true BT_FLOAT false 0 0; t_parint 1] = Ok true.
Proof. reflexivity. Qed.

(** C55: the common type of two types without structs is an upper bound of both ... *)
Theorem C55_upper_bound_partial : forall e a b strict e' c, simple a -> simple b -> t_dim a = t_dim b ->
  commonType 2 e a b strict = Ok (e', c) -> t_bt c <> BT_UNKNOWN -> subtype e' strict a c /\ subtype e' strict b c.
Proof. exact C55_upper_l. Qed.
Print Assumptions C55_upper_bound_partial.
(** ... and below every other upper bound; it is only unknown if there is none *)
Theorem C55_least_partial : forall e a b e' c u, simple a -> simple b -> t_dim a = t_dim b ->
  commonType 2 e a b false = Ok (e', c) -> plain u -> legal u -> subtype e false a u -> subtype e false b u ->
  t_bt c <> BT_UNKNOWN /\ subtype e' false c u.
Proof. exact C55_least_l. Qed.
Print Assumptions C55_least_partial.
(** a par set of discrete values and an array of one dimension, in both orders *)
Theorem C55_set_partial : forall e a b strict e' c, simple a -> simple b ->
  t_dim a = 0 -> t_st a = true -> t_ti a = false -> t_bt a <> BT_FLOAT -> t_dim b = 1 ->
  commonType 2 e a b strict = Ok (e', c) \/ commonType 2 e b a strict = Ok (e', c) ->
  t_bt c <> BT_UNKNOWN -> subtype e' strict a c /\ subtype e' strict b c.
Proof. intros e a b s e' c Ha Hb D S T F Db [H|H] Hc; [eapply C55_set_l | eapply C55_set_r_l]; eauto. Qed.
Print Assumptions C55_set_partial.
(** a variable set and an array have a common type that is no upper bound *)
Theorem C55_var_set_refuted : exists a b e' c, simple a /\ simple b /\
  commonType 2 e_init a b false = Ok (e', c) /\ t_bt c <> BT_UNKNOWN /\ not_subtype e' false a c.
Proof.
  exists (mk_ty true BT_INT true 0 0), (mk_ty true BT_INT false 0 1). eexists. eexists.
  split; [unfold simple, is_struct; cbn; intuition discriminate|]. split; [unfold simple, is_struct; cbn; intuition discriminate|].
  split; [vm_compute; reflexivity|]. split; [discriminate|]. exists 1%nat. reflexivity.
Qed.
Print Assumptions C55_var_set_refuted.
(** tuples: the common type of a par and a var tuple stays par *)
Theorem C55_tuple_refuted : exists e a b e' c, reach e /\ lang e a /\ lang e b /\
  commonType 2 e a b false = Ok (e', c) /\ t_bt c <> BT_UNKNOWN /\ not_subtype e' false b c.
Proof.
  set (i := mk_ty false BT_INT false 0 0). set (v := mk_ty true BT_INT false 0 0).
  exists (fst (register_tuple (fst (register_tuple e_init [i])) [v])), (mk_ty false BT_TUPLE false 1 0), (mk_ty true BT_TUPLE false 2 0). eexists. eexists.
  assert (L : forall e x, x = i \/ x = v -> lang e x) by (intros e x [->| ->]; apply lang_scalar; cbn; try discriminate; auto; intros [H|H]; discriminate).
  split. { repeat (apply r_tuple || apply r_init); repeat constructor; discriminate. }
  split. { apply (lang_struct _ _ [] [i]); [left; reflexivity | reflexivity | reflexivity | left; repeat split |]. intros f [<-|[]]. apply L. auto. }
  split. { apply (lang_struct _ _ [] [v]); [left; reflexivity | reflexivity | reflexivity | left; repeat split |]. intros f [<-|[]]. apply L. auto. }
  split; [vm_compute; reflexivity|]. split; [discriminate|]. exists 2%nat. reflexivity.
Qed.
Print Assumptions C55_tuple_refuted.
(** with strict enums two enums have no common type although both are subtypes of int *)
Theorem C55_strict_refuted : exists a b u, simple a /\ simple b /\ simple u /\
  commonType 2 e_init a b true = Ok (e_init, t_unknown) /\ subtype e_init true a u /\ subtype e_init true b u.
Proof.
  exists (mk_ty false BT_INT false 1 0), (mk_ty false BT_INT false 2 0), (mk_ty false BT_INT false 0 0).
  repeat split; try (unfold is_struct; cbn; intuition discriminate); try discriminate; exists 1%nat; reflexivity.
Qed.
Print Assumptions C55_strict_refuted.
Example C55_nonvacuous :
  (* array[E] of int and array[E] of opt bool: array[E] of opt int, whose index set keeps its enum *)
  let e := fst (register_array e_init [3; 0]) in
  let a := mk_ty false BT_INT false 1 1 in let b := set_ot (mk_ty false BT_BOOL false 1 1) true in
  simple a /\ simple b /\ commonType 2 e a b false = Ok (e, set_ot (mk_ty false BT_INT false 1 1) true).
Proof. cbv zeta. split; [|split; [|vm_compute; reflexivity]]; unfold simple, is_struct; cbn; intuition discriminate. Qed.

(** C58: an array type built from index types and an element type has that element type (with its enum or struct id), the
    dimensions and index ids it was built from, and building it changes no other type; while there are fewer than 65535 array types *)
Theorem C58_element : forall e el d e' t, reach e -> type_ok el -> t_dim el = 0 -> type_ok d -> t_dim d <> 0 ->
  arrType e d el = Ok (e', t) -> Z.of_nat (length (e_arrays e)) < 65535 ->
  elemType e' t = Ok el /\ t_dim t = t_dim d /\ reach e' /\ keeps e e' /\
  (t_id d <> 0 -> t_id t <> 0 -> exists ids, get_array e (t_id d) = Ok ids /\ get_array e' (t_id t) = Ok (removelast ids ++ [t_id el])).
Proof. exact C58_l. Qed.
Print Assumptions C58_element.
Example C58_nonvacuous :
  (* array[E3, int] of var int with the element type replaced by opt enum 7 *)
  let e := fst (register_array e_init [3; 0; 0]) in
  let d := mk_ty true BT_INT false 1 2 in let el := set_ot (mk_ty false BT_INT false 7 0) true in
  exists e' t, arrType e d el = Ok (e', t) /\ elemType e' t = Ok el /\ e_arrays e' = [[3; 0; 0]; [3; 0; 7]] /\ t_id t = 2 /\ t_dim t = 2.
Proof. eexists. eexists. vm_compute. repeat split. Qed.
