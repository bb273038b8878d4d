(** Independent vocabulary for the properties of overload resolution. *)
Require Import ZArith List Bool Arith.
From Verif Require Import Base TypeModel TypeSpec OvlModel.
Import ListNotations.
Open Scope nat_scope.

(** [test] answers the question "may a value of type a be used for a parameter of type b, with strict enums"
    for the types of the list *)
Definition decides_on (e : env) (test : ty -> ty -> bool) (ts : list ty) : Prop :=
  forall a b, In a ts -> In b ts -> (test a b = true <-> subtype e true a b).
(** a test with limited depth, for examples *)
Definition sub_at (n : nat) (e : env) (a b : ty) : bool := match isSubtypeOf n e a b true with Ok r => r | _ => false end.
Definition acc_at (n : nat) (e : env) (a b : ty) : bool := match env_isSubtype n e a b true with Ok r => r | _ => false end.

(** all types in a bucket *)
Definition bucket_types (v : list entry) : list ty := concat (map en_t v).
(** a bucket holds one type for each parameter *)
Definition well_formed (v : list entry) : Prop := forall x, In x v -> length (en_t x) = length (fn_params (en_fi x)).
(** types of the language that name no enum *)
Definition enum_free (e : env) (t : ty) : Prop := lang e t /\ (is_struct t \/ t_id t = 0%Z).

(** ** Positional calls *)
(** the declaration takes these arguments: none too many, each of a type that is accepted, and the parameters
    that get no argument have defaults *)
Definition takes (acc : ty -> ty -> bool) (args : list ty) (x : entry) : Prop :=
  length args <= length (en_t x) /\
  (forall j a t, nth_error args j = Some a -> nth_error (en_t x) j = Some t -> acc a t = true) /\
  (forall j p, length args <= j -> nth_error (fn_params (en_fi x)) j = Some p -> pa_def p <> None).

(** x is at least as specific as y for the first n parameters *)
Definition as_specific (e : env) (n : nat) (x y : list ty) : Prop :=
  forall j a b, j < n -> nth_error x j = Some a -> nth_error y j = Some b -> subtype e true a b.
Definition more_specific (e : env) (n : nat) (x y : list ty) : Prop := as_specific e n x y /\ ~ as_specific e n y x.

(** the bucket is sorted: no later entry is less than an earlier one *)
Definition sorted (sub : ty -> ty -> bool) (v : list entry) : Prop :=
  forall i j x y, i < j -> nth_error v i = Some x -> nth_error v j = Some y -> entry_less sub y x = false.
(** neighbours are in order *)
Definition neighbours_sorted (sub : ty -> ty -> bool) (v : list entry) : Prop :=
  forall i x y, nth_error v i = Some x -> nth_error v (S i) = Some y -> entry_less sub y x = false.

(** two declarations that differ only in the names of parameters *)
Definition differs_in_names_only (f g : func) : Prop :=
  f <> g /\ length (fn_params f) = length (fn_params g) /\
  (forall j p q, nth_error (fn_params f) j = Some p -> nth_error (fn_params g) j = Some q -> ty_eqb (pa_ty p) (pa_ty q) = true) /\
  (exists j p q m n, nth_error (fn_params f) j = Some p /\ nth_error (fn_params g) j = Some q /\ pa_name p = Some m /\ pa_name q = Some n /\ m <> n).

(** the order of std::sort for at most 16 elements (libstdc++, insertion sort): an element that is less than the
    first goes to the front, otherwise it moves left while it is less than its neighbour *)
Fixpoint move_left {A : Type} (less : A -> A -> bool) (x : A) (r : list A) : list A :=
  match r with
  | [] => [x]
  | y :: r' => if less x y then y :: move_left less x r' else x :: r
  end.
Definition insert {A : Type} (less : A -> A -> bool) (x : A) (l : list A) : list A :=
  match l with
  | [] => [x]
  | y :: _ => if less x y then x :: l else rev (move_left less x (rev l))
  end.
Definition insertion_sort {A : Type} (less : A -> A -> bool) (l : list A) : list A := fold_left (fun l x => insert less x l) l [].

(** ** Named arguments *)
Definition named_param (f : func) (j : nat) (n : str) : Prop := exists p, nth_error (fn_params f) j = Some p /\ pa_name p = Some n.
(** every argument goes to one parameter: the i-th positional argument to the i-th parameter, a named argument
    to the parameter of that name, which is none of those; the others have defaults *)
Definition binds (f : func) (pos : list nat) (named : list (str * nat)) (args : list nat) : Prop :=
  length args = length (fn_params f) /\
  (forall i a, nth_error pos i = Some a -> nth_error args i = Some a) /\
  (forall n a, In (n, a) named -> exists j, length pos <= j /\ named_param f j n /\ nth_error args j = Some a /\
     forall i, i < length pos -> ~ named_param f i n) /\
  (forall j p, length pos <= j -> nth_error (fn_params f) j = Some p -> (forall n a, In (n, a) named -> pa_name p <> Some n) ->
     exists d, pa_def p = Some d /\ nth_error args j = Some d).

(** the type of the parameter of that name, not among the first k *)
Definition type_of_name (k : nat) (x : entry) (n : str) (t : ty) : Prop :=
  exists j, k <= j /\ named_param (en_fi x) j n /\ nth_error (en_t x) j = Some t.
(** the declaration takes these positional and named arguments *)
Definition takes_named (acc : ty -> ty -> bool) (pos : list ty) (named : list (str * ty)) (x : entry) : Prop :=
  length pos + length named <= length (en_t x) /\
  (forall j a t, nth_error pos j = Some a -> nth_error (en_t x) j = Some t -> acc a t = true) /\
  (forall n a, In (n, a) named -> (exists t, type_of_name (length pos) x n t /\ acc a t = true) /\
     forall i, i < length pos -> ~ named_param (en_fi x) i n) /\
  (forall j p, length pos <= j -> nth_error (fn_params (en_fi x)) j = Some p -> pa_def p <> None \/ exists n a, In (n, a) named /\ pa_name p = Some n).
Definition as_specific_named (e : env) (k : nat) (names : list str) (x y : entry) : Prop :=
  as_specific e k (en_t x) (en_t y) /\
  (forall n a b, In n names -> type_of_name k x n a -> type_of_name k y n b -> subtype e true a b).
Definition distinct_names (f : func) : Prop :=
  forall i j p q n, nth_error (fn_params f) i = Some p -> nth_error (fn_params f) j = Some q -> pa_name p = Some n -> pa_name q = Some n -> i = j.
(** every parameter has a name *)
Definition no_anonymous (f : func) : Prop := forall p, In p (fn_params f) -> pa_name p <> Some [].

(** a call with named arguments only, for the names K, fits the declaration: every name can be written (it is
    not empty and does not start with an underscore) and is the name of a parameter, and every parameter without a
    default is named *)
Definition writable (n : str) : Prop := n <> [] /\ forall r, n <> 95%Z :: r.
Definition fits (f : func) (K : list str) : Prop :=
  (forall n, In n K -> writable n /\ exists j, named_param f j n) /\
  (forall p, In p (fn_params f) -> pa_def p = None -> exists n, pa_name p = Some n /\ In n K).
(** no call by names tells f from g: both fit, and the types of the parameters agree *)
Definition confusable (f g : func) : Prop :=
  exists K, fits f K /\ fits g K /\
    forall n p q, In n K -> In p (fn_params f) -> In q (fn_params g) -> pa_name p = Some n -> pa_name q = Some n -> ty_eqb (pa_ty p) (pa_ty q) = true.
