(** C69: evaluation of par expressions. *)
Require Import ZArith List.
From Verif Require Import Base IntValModel SetModel SetSpec EvalModel EvalSpec EvalProofs EvalProofs8.
Import ListNotations.
Open Scope Z_scope.

(** C69: in every well-typed program, a well-typed expression that means a value evaluates to the literal of that value, and one that is
    undefined raises the error for undefined results; nothing else happens, and afterwards all local variables hold what they held before,
    and toplevel declarations hold their right-hand side or its value.  Partial: integers, Booleans and sets of integers only, without
    arrays, comprehensions, builtins and coercions, and without numbers at the end points of the 64-bit range. *)
Theorem C69_evaluation_partial : forall P r e o s, wt_prog P -> wt P e -> means P r e o -> store_ok P r s ->
  exists n s', store_kept P s s' /\
  match o with
  | Some v => exists lit, literal lit v /\ forall k, (n <= k)%nat -> eval_par P k e s = (s', Val lit)
  | None => forall k, (n <= k)%nat -> eval_par P k e s = (s', Und)
  end.
Proof. exact par_result. Qed.
Print Assumptions C69_evaluation_partial.

(** C69: the same for the evaluators of each type, eval_int, eval_bool and eval_intset. *)
Theorem C69_typed_partial : forall P r e v s, wt_prog P -> wt P e -> means P r e (Some v) -> store_ok P r s ->
  sval_ty v = type_of P e /\ exists n s', store_kept P s s' /\
  match v with
  | SInt z => forall k, (n <= k)%nat -> eval_int P k e s = (s', Val (ofZ z))
  | SBool b => forall k, (n <= k)%nat -> eval_bool P k e s = (s', Val b)
  | SSet l => exists t, nf t /\ enumerates l t /\ forall k, (n <= k)%nat -> eval_set P k e s = (s', Val t)
  end.
Proof. exact typed_result. Qed.
Print Assumptions C69_typed_partial.

(** C69: evaluation of any sequence of expressions, from the program as it was read: each result is the meaning of its expression, whatever
    was evaluated before, and also after errors. *)
Theorem C69_history_partial : forall P es os, wt_prog P -> Forall (wt P) es -> Forall2 (means P no_env) es os ->
  exists n, forall k, (n <= k)%nat -> Forall2 answers (eval_all P k es (start P)) os.
Proof. exact history. Qed.
Print Assumptions C69_history_partial.

(** C69: an expression has at most one meaning. *)
Theorem C69_meaning_unique : forall P r e o o', means P r e o -> means P r e o' -> o = o'.
Proof. exact means_unique. Qed.
Print Assumptions C69_meaning_unique.

(** C69: Boolean expressions are never undefined: an undefined part makes the closest enclosing Boolean expression false. *)
Theorem C69_boolean_partial : forall P r e s, wt_prog P -> wt P e -> store_ok P r s -> type_of P e = TBool -> ~ means P r e None.
Proof. exact bool_defined. Qed.
Print Assumptions C69_boolean_partial.

(** A recursive function with a local declaration and a parameter with a domain; a toplevel declaration that calls it.  The expression
    t + t = 12 /\ not (1 div 0 = 1) is true, sum(10) is undefined, and afterwards t is 6. *)
Example C69_nonvacuous : wt_prog w_prog /\ Forall (wt w_prog) [w_expr; ECall 0 [lit 10]; EId 2] /\
  Forall2 (means w_prog no_env) [w_expr; ECall 0 [lit 10]; EId 2] [Some (SBool true); None; Some (SInt 6)] /\
  store_ok w_prog no_env (start w_prog).
Proof. exact (conj w_prog_wt (conj w_wt (conj w_means (start_ok w_prog)))). Qed.
(** the evaluator run on it *)
Example C69_run : eval_all w_prog 60 [w_expr; ECall 0 [lit 10]; EId 2] (start w_prog) = [Val (EBool true); Und; Val (lit 6)].
Proof. vm_compute. reflexivity. Qed.
