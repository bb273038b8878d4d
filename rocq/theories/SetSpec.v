(** Independent specification for integer sets. *)
Require Import ZArith List.
From Verif Require Import Base IntValModel IntValSpec SetModel.
Import ListNotations.
Open Scope Z_scope.

(** z lies between two (possibly infinite) bounds *)
Definition between (z : Z) (a b : IntVal) : Prop :=
  exists x y, denote a = Some x /\ denote b = Some y /\ ext_le x (Fin z) /\ ext_le (Fin z) y.

(** z is an element of the set *)
Definition elem (z : Z) (s : iset) : Prop := exists a b, In (a, b) s /\ between z a b.

(** normal form: well-formed non-empty ranges, in increasing order, with a gap between neighbours *)
Definition good_range (r : range) : Prop :=
  exists z, between z (fst r) (snd r).
(** some integer lies strictly between the end of r1 and the start of r2 *)
Definition gap (r1 r2 : range) : Prop :=
  exists z x y, denote (snd r1) = Some x /\ denote (fst r2) = Some y /\
                ext_lt x (Fin z) /\ ext_lt (Fin z) y.
Inductive nf : iset -> Prop :=
| nf_nil : nf []
| nf_one : forall r, good_range r -> nf [r]
| nf_cons : forall r1 r2 s, good_range r1 -> gap r1 r2 -> nf (r2 :: s) -> nf (r1 :: r2 :: s).

(** some bound sits on the edge of the 64-bit range *)
Definition at_edge (s : iset) : Prop :=
  exists a b, In (a, b) s /\ (a = ofZ LLONG_MIN \/ b = ofZ LLONG_MAX).

(** lexicographic order on element sequences *)
Inductive lex_lt : list Z -> list Z -> Prop :=
| lex_nil : forall y l, lex_lt [] (y :: l)
| lex_head : forall x y l m, x < y -> lex_lt (x :: l) (y :: m)
| lex_tail : forall x l m, lex_lt l m -> lex_lt (x :: l) (x :: m).

(** l lists the elements of s in increasing order *)
Fixpoint increasing (l : list Z) : Prop :=
  match l with
  | x :: ((y :: _) as l') => x < y /\ increasing l'
  | _ => True
  end.
Definition enumerates (l : list Z) (s : iset) : Prop :=
  increasing l /\ forall z, In z l <-> elem z s.

(** the set has finitely many elements *)
Definition bounded (s : iset) : Prop := exists lo hi, forall z, elem z s -> lo <= z <= hi.

(** the meaning of the comparison operators *)
Definition allowed (op : cmp_op) (z k : Z) : Prop :=
  match op with
  | BOT_LE => z < k | BOT_LQ => z <= k | BOT_GR => z > k | BOT_GQ => z >= k | BOT_EQ => z = k | BOT_NQ => z <> k
  end.
