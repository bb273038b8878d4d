(** Independent vocabulary for the properties of types. *)
Require Import ZArith List Bool.
From Verif Require Import Base TypeModel.
Import ListNotations.
Open Scope Z_scope.

(** what fits in the bit fields *)
Definition type_ok (t : ty) : Prop := 0 <= t_id t < 65536 /\ -1 <= t_dim t <= 6.
(** the same type, up to the flags cv ("contains a variable") and any *)
Definition same_type (a b : ty) : Prop :=
  t_bt a = t_bt b /\ t_ti a = t_ti b /\ t_st a = t_st b /\ t_ot a = t_ot b /\ t_id a = t_id b /\ t_dim a = t_dim b.

Definition is_struct (t : ty) : Prop := t_bt t = BT_TUPLE \/ t_bt t = BT_RECORD.
(** the field names (none for tuples) and field types of a struct type *)
Definition has_fields (e : env) (t : ty) (names : list (list Z)) (fs : list ty) : Prop :=
  (t_bt t = BT_TUPLE /\ names = [] /\ get_tuple e t = Ok fs) \/
  (t_bt t = BT_RECORD /\ exists r, get_record e t = Ok r /\ names = rec_names r /\ fs = rec_types r).
(** types of the language: no top, bottom or any; struct types are registered and are not elements of sets *)
Inductive lang (e : env) : ty -> Prop :=
| lang_scalar : forall t, ~ is_struct t -> t_bt t <> BT_TOP -> t_bt t <> BT_BOT -> t_any t = false -> lang e t
| lang_struct : forall t names fs, is_struct t -> t_st t = false -> t_any t = false ->
    has_fields e t names fs -> (forall f, In f fs -> lang e f) -> lang e t.

Definition subtype (e : env) (strict : bool) (a b : ty) : Prop := exists fuel, isSubtypeOf fuel e a b strict = Ok true.
Definition not_subtype (e : env) (strict : bool) (a b : ty) : Prop := exists fuel, isSubtypeOf fuel e a b strict = Ok false.

(** Declarative subtyping: bool <= int <= float; a par type may be used for a var type, a present one for
    an optional one, an enum for int, a known number of dimensions for an unknown one, a par set of discrete
    values for an array; structs field by field *)
Inductive base_le : base -> base -> Prop :=
| b_refl : forall b, base_le b b | b_bi : base_le BT_BOOL BT_INT | b_bf : base_le BT_BOOL BT_FLOAT | b_if : base_le BT_INT BT_FLOAT.
Definition dims_ok (a t : ty) : Prop := t_dim a = t_dim t \/ (t_dim a <> 0 /\ t_dim t = -1).
Definition otsub (a t : ty) : Prop := t_ot a = false \/ t_ot a = t_ot t.
Definition tisub (a t : ty) : Prop := t_ti a = t_ti t \/ t_ti a = false.
Definition set_to_array (a t : ty) : Prop := t_dim a = 0 /\ t_dim t <> 0 /\ t_st a = true /\ t_st t = false /\ t_bt a <> BT_FLOAT.
Inductive Sub (e : env) (strict : bool) : ty -> ty -> Prop :=
| s_scalar : forall a b, ~ is_struct a -> base_le (t_bt a) (t_bt b) ->
    (strict = true -> t_bt a = t_bt b -> t_dim a = 0 -> t_id a = t_id b \/ t_id b = 0) ->
    dims_ok a b -> t_st a = t_st b -> tisub a b -> otsub a b -> Sub e strict a b
| s_set : forall a b, ~ is_struct a -> set_to_array a b -> base_le (t_bt a) (t_bt b) -> t_ti a = false -> otsub a b -> Sub e strict a b
| s_struct : forall a b names fa fb, is_struct a -> has_fields e a names fa -> has_fields e b names fb -> t_bt a = t_bt b ->
    dims_ok a b -> t_st a = t_st b -> tisub a b -> otsub a b -> Forall2 (Sub e strict) fa fb -> Sub e strict a b.

(** registries that arise from registering valid types; field names are strings of characters *)
Inductive reach : env -> Prop :=
| r_init : reach e_init
| r_tuple : forall e fs, reach e -> Forall type_ok fs -> reach (fst (register_tuple e fs))
| r_rec : forall e fs, reach e -> Forall type_ok (map snd fs) -> reach (fst (register_rec e (mk_rec fs)))
| r_retype : forall e i r ts, reach e -> nth_error (e_records e) i = Some r -> length ts = length (r_fields r) ->
    Forall type_ok ts -> reach (fst (register_rec e (rec_retype r ts)))
| r_array : forall e ids, reach e -> Forall (fun i => 0 <= i) ids -> reach (fst (register_array e ids)).

(** everything that could be looked up before can still be looked up, with the same answer *)
Definition keeps (e e' : env) : Prop :=
  (forall i x, at_ (e_tuples e) i = Ok x -> at_ (e_tuples e') i = Ok x) /\
  (forall i x, at_ (e_records e) i = Ok x -> at_ (e_records e') i = Ok x) /\
  (forall i x, at_ (e_arrays e) i = Ok x -> at_ (e_arrays e') i = Ok x).

(** types without struct, top, bottom or any, of a known number of dimensions *)
Definition simple (t : ty) : Prop :=
  ~ is_struct t /\ t_bt t <> BT_TOP /\ t_bt t <> BT_BOT /\ t_bt t <> BT_UNKNOWN /\ t_any t = false /\ 0 <= t_dim t.
(** var opt set types do not exist *)
Definition legal (t : ty) : Prop := ~ (t_ti t = true /\ t_ot t = true /\ t_st t = true).
