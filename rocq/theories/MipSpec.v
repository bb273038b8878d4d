(** Independent specification of the decomposition of domains. *)
Require Import ZArith List Bool.
From Verif Require Import Base IntValSpec MipModel.
Import ListNotations.
Open Scope Z_scope.

(** z lies in an interval of s *)
Definition within (z : Z) (v : intv) : Prop := ext_le (lf v) (Fin z) /\ ext_le (Fin z) (rt v).
Definition member (z : Z) (s : list intv) : Prop := exists v, In v s /\ within z v.
(** l < z < r *)
Definition ext_lt (a b : ext) : Prop := ext_le a b /\ ~ ext_le b a.
Definition strictly_between (l r : ext) (z : Z) : Prop := ext_lt l (Fin z) /\ ext_lt (Fin z) r.
(** non-empty intervals in increasing order that do not touch *)
Fixpoint separate (s : list intv) : Prop :=
  match s with
  | [] => True
  | v :: t => ext_le (lf v) (rt v) /\ (forall w, In w t -> ext_lt (rt v) (lf w)) /\ separate t
  end.
(** every interval of s lies in an interval of t *)
Definition refines (s t : list intv) : Prop :=
  forall v, In v s -> exists w, In w t /\ ext_le (lf w) (lf v) /\ ext_le (rt v) (rt w).
(** the ends are integers or the infinities on their sides *)
Definition proper (s : list intv) : Prop := forall v, In v s -> lf v <> PInf /\ rt v <> MInf.

(** the 0/1 variable b says whether P holds *)
Definition says (bs : nat -> Z) (b : nat) (P : Prop) : Prop := bs b = 1 <-> P.
(** meaning of the constraints on a variable with value v *)
Definition post_holds (v : Z) (bs : nat -> Z) (p : post) : Prop :=
  match p with
  | NE c => v <> c
  | IN D => member v D
  | IN_R D b => says bs b (member v D)
  | LE_R c b => says bs b (v <= c)
  | GE_R c b => says bs b (c <= v)
  | EQ_R c b => says bs b (v = c)
  | LE0_IF b => bs b = 1 -> v <= 0
  end.
Definition flags_of (p : post) : list nat :=
  match p with IN_R _ b | LE_R _ b | GE_R _ b | EQ_R _ b | LE0_IF b => [b] | _ => [] end.
Definition sets_of (p : post) : list (list intv) := match p with IN D | IN_R D _ => [D] | _ => [] end.

(** the relation of a variable with value v to the reference with value x *)
Definition related_by (w : view) (x v : Z) : Prop := den w * x = num w * v + off w.
(** the group: the variables have the values vals, the reference has the value x *)
Definition linked (vs : list mvard) (x : Z) (vals : list Z) : Prop :=
  Forall2 (fun m v => related_by (mv_view m) x v) vs vals.
(** the domains and constraints of all variables hold *)
Definition original (vs : list mvard) (vals : list Z) (bs : nat -> Z) : Prop :=
  Forall2 (fun m v => (forall D, mv_dom m = Some D -> member v D) /\ Forall (post_holds v bs) (mv_posts m)) vs vals.
(** the factors are as chosen by the program, the sets of integers are lists of ranges in increasing order *)
Definition good_view (w : view) : Prop := 0 < den w /\ num w <> 0 /\ Z.abs (num w) <= den w.
Definition good_set (S : list intv) : Prop := separate S /\ proper S.
Definition good_var (m : mvard) : Prop :=
  good_view (mv_view m) /\ (forall D, mv_dom m = Some D -> good_set D) /\
  Forall (fun p => Forall good_set (sets_of p)) (mv_posts m).
(** the 0/1 variables of the constraints have the value 0 or 1 *)
Definition binary (vs : list mvard) (bs : nat -> Z) : Prop :=
  forall m p b, In m vs -> In p (mv_posts m) -> In b (flags_of p) -> bs b = 0 \/ bs b = 1.

(** meaning of the constraints that are added *)
Definition value (x : Z) (fl bs : nat -> Z) (m : mvar) : Z :=
  match m with MRef => x | MFlag k => fl k | MOne => 1 | MB b => bs b end.
Definition total (x : Z) (fl bs : nat -> Z) (ts : list (Z * mvar)) : Z :=
  fold_right Z.add 0 (map (fun t => fst t * value x fl bs (snd t)) ts).
Definition lin_holds (x : Z) (fl bs : nat -> Z) (c : lin) : Prop :=
  if is_eq c then total x fl bs (terms c) = rhs c else total x fl bs (terms c) <= rhs c.
(** the new model: some values of the flags satisfy the linear constraints, the variables lie in their new domains *)
Definition decomposed (r : result) (x : Z) (vals : list Z) (bs : nat -> Z) : Prop :=
  (exists fl, (forall k, (k < r_flags r)%nat -> fl k = 0 \/ fl k = 1) /\ Forall (lin_holds x fl bs) (r_lins r)) /\
  (forall b, In b (r_zero r) -> bs b = 0) /\
  Forall2 (fun d v => fst d <= v <= snd d) (r_ranges r) vals.
(** one of the variables is the reference itself *)
Definition has_reference (vs : list mvard) : Prop := exists m, In m vs /\ mv_view m = View 1 0 1.
(** the constant of a constraint is the value of v for an integer value of the reference, where the program needs it *)
Definition representable (w : view) (p : post) : Prop :=
  match p with
  | EQ_R c _ => exists z, related_by w z c
  | LE0_IF _ => num w < 0 -> exists z, related_by w z 0
  | _ => True
  end.
(** the reference has a domain within -10^9..10^9 *)
Definition bounded_reference (vs : list mvard) : Prop :=
  exists m D, In m vs /\ mv_view m = View 1 0 1 /\ mv_dom m = Some D /\ forall z, member z D -> - 10 ^ 9 <= z <= 10 ^ 9.
(** as `original` and `decomposed`, with the domains lo..hi of the 0/1 variables; a variable whose domain is replaced
    by 0..0 has no other domain *)
Definition original_in (dom : nat -> Z * Z) (vs : list mvard) (vals : list Z) (bs : nat -> Z) : Prop :=
  original vs vals bs /\ forall b, fst (dom b) <= bs b <= snd (dom b).
Definition decomposed_in (dom : nat -> Z * Z) (r : result) (x : Z) (vals : list Z) (bs : nat -> Z) : Prop :=
  decomposed r x vals bs /\ forall b, ~ In b (r_zero r) -> fst (dom b) <= bs b <= snd (dom b).
