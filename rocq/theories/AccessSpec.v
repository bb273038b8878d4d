(** Specification for C31, C32, C33. *)
Require Import ZArith List Bool.
From Verif Require Import Base IntValModel IntValSpec ArrModel ArrSpec AccessModel.
Import ListNotations.
Open Scope Z_scope.

(** an index, possibly infinite, in a range *)
Definition inside (x : IntVal) (r : Z * Z) : Prop := exists i, is_int x i /\ fst r <= i <= snd r.
(** an index that may be absent: its dimension must not be empty *)
Definition usable (o : option IntVal) (r : Z * Z) : Prop :=
  match o with Some x => inside x r | None => fst r <= snd r end.
(** the first index that is out of its range, with its position *)
Inductive first_outside : nat -> list IntVal -> shape -> nat * (Z * Z) * IntVal -> Prop :=
| fo_here : forall k x xs r sh, ~ inside x r -> first_outside k (x :: xs) (r :: sh) (k, r, x)
| fo_later : forall k x xs r sh o, inside x r -> first_outside (S k) xs sh o -> first_outside k (x :: xs) (r :: sh) o.
(** the widths of the leading dimensions multiply to ints *)
Definition prefixes_fit (sh : shape) : Prop := forall k, card (firstn k sh) <= INT_MAX.

(** the ranges spanned by a list of index tuples: the least and the greatest index in every dimension *)
Definition spanned (l : list (list Z)) (sh : shape) : Prop :=
  forall k lo hi, nth_error sh k = Some (lo, hi) ->
    (exists t, In t l /\ nth_error t k = Some lo) /\ (exists t, In t l /\ nth_error t k = Some hi) /\
    (forall t i, In t l -> nth_error t k = Some i -> lo <= i <= hi).
(** every index tuple of the box is generated exactly once *)
Definition exact_cover (l : list (list Z)) (sh : shape) : Prop :=
  NoDup l /\ forall t, in_shape t sh -> In t l.

Section Comp.
Variable val : Type.
(** all assignments of values of l to the variables ds, the first variable varying slowest *)
Fixpoint tuples (ds : list nat) (l : list val) (env : nat -> option val) : list (nat -> option val) :=
  match ds with
  | [] => [env]
  | d :: ds => flat_map (fun v => tuples ds l (supd env d (Some v))) l
  end.
Fixpoint all_some {A B} (f : A -> option B) (l : list A) : option (list B) :=
  match l with
  | [] => Some []
  | x :: l => match f x, all_some f l with Some y, Some ys => Some (y :: ys) | _, _ => None end
  end.
(** the assignments for which the element of a comprehension is evaluated, in order; None: some evaluation fails *)
Fixpoint assignments (gs : list (gen val)) (env : nat -> option val) : option (list (nat -> option val)) :=
  match gs with
  | [] => Some [env]
  | GAsn d e :: gs => match e env with Some v => assignments gs (supd env d (Some v)) | None => None end
  | GIn ds e w :: gs =>
      match e env with
      | None => None
      | Some l =>
          option_map (@concat _)
            (all_some (fun env' =>
               match w with
               | None => assignments gs env'
               | Some w => match w env' with
                           | None => None
                           | Some true => assignments gs env'
                           | Some false => Some []
                           end
               end) (tuples ds l env))
      end
  end.
Definition comprehension {T} (body : (nat -> option val) -> option T) (gs : list (gen val)) (env : nat -> option val)
  : option (list T) :=
  match assignments gs env with Some l => all_some body l | None => None end.
(** every generator has a variable *)
Definition proper (gs : list (gen val)) : Prop := forall ds e w, In (GIn ds e w) gs -> ds <> [].
(** the value of an expression depends on the values of the variables only *)
Definition extensional {A} (f : (nat -> option val) -> A) : Prop := forall s s', (forall d, s d = s' d) -> f s = f s'.
Definition gen_extensional (g : gen val) : Prop :=
  match g with
  | GIn _ e w => extensional e /\ (forall f, w = Some f -> extensional f)
  | GAsn _ e => extensional e
  end.
(** the variables have their values back and the trail is as before *)
Definition restored (s s' : cstate val) : Prop := (forall d, cs_store s' d = cs_store s d) /\ cs_trail s' = cs_trail s.
End Comp.
Arguments extensional {val A}. Arguments gen_extensional {val}. Arguments restored {val}.
Arguments tuples {val}. Arguments assignments {val}. Arguments comprehension {val T}. Arguments proper {val}.
