(** Shared vocabulary of the model: outcomes of C++ computations and machine integer ranges. *)
Require Import ZArith List Bool Lia.
Import ListNotations.
Open Scope Z_scope.

(** A C++ computation either returns, throws an exception, or has undefined behaviour.  The exception
    classes are the ones of include/minizinc/exception.hh that the modelled functions throw. *)
Inductive exn : Type :=
| ArithmeticError   (* include/minizinc/exception.hh: ArithmeticError *)
| EvalError         (* include/minizinc/exception.hh: EvalError and ResultUndefinedError *)
| SyntaxError       (* include/minizinc/exception.hh: SyntaxError / lexer and JSON errors *)
| InternalError
| TypeError         (* include/minizinc/exception.hh: TypeError *)
| OutOfFuel.        (* never produced by C++: loop bound of the model exhausted *)

Inductive res (A : Type) : Type :=
| Ok (a : A)
| Err (e : exn)
| UB.
Arguments Ok {A} a.
Arguments Err {A} e.
Arguments UB {A}.

Definition bind {A B} (x : res A) (f : A -> res B) : res B :=
  match x with
  | Ok a => f a
  | Err e => Err e
  | UB => UB
  end.

Notation "'do' x <- e1 ; e2" := (bind e1 (fun x => e2))
  (at level 200, x name, e1 at level 100, e2 at level 200, right associativity).
Notation "'do' ' p <- e1 ; e2" := (bind e1 (fun p => e2))
  (at level 200, p strict pattern, e1 at level 100, e2 at level 200, right associativity).

Lemma bind_ok : forall A B (x : res A) (f : A -> res B) b,
  bind x f = Ok b <-> exists a, x = Ok a /\ f a = Ok b.
Proof.
  intros A B x f b; destruct x; cbn; split.
  - intros H; exists a; auto.
  - intros (a' & H1 & H2); congruence.
  - discriminate.
  - intros (a' & H1 & H2); congruence.
  - discriminate.
  - intros (a' & H1 & H2); congruence.
Qed.

(** std::numeric_limits<long long int>, 64-bit two's complement *)
Definition LLONG_MAX : Z := 9223372036854775807.
Definition LLONG_MIN : Z := -9223372036854775808.
Definition INT_MAX : Z := 2147483647.
Definition INT_MIN : Z := -2147483648.
Definition UINT_MAX : Z := 4294967295.

Definition fits64 (z : Z) : Prop := LLONG_MIN <= z <= LLONG_MAX.
Definition fits64b (z : Z) : bool := (LLONG_MIN <=? z) && (z <=? LLONG_MAX).

(** arithmetic carried out in type long long: signed overflow is undefined behaviour *)
Definition ll (z : Z) : res Z := if fits64b z then Ok z else UB.
