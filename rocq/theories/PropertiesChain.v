(** C18: compression of implication chains. *)
Require Import List Bool Arith.
From Verif Require Import Base ChainModel ChainSpec ChainProofs7 ChainProofs8 ChainProofs9.
Import ListNotations.

(** C18: for every flat Boolean model in which no variable that implies something is an argument of a half-reified predicate, the
    result of compression is the same model without some variables: these are not output, and the solutions agree on all
    others.  Partial: comparison chains (int_lin_le) are not part of the model, and [separate] is needed
    (C18_control_refuted). *)
Theorem C18_sound_partial : forall V half_reif l fuel st, declared_once l -> separate V l ->
  compress V half_reif fuel (start V half_reif l) = Ok st -> exists E, same_without V E l (result st).
Proof. exact sound. Qed.
Print Assumptions C18_sound_partial.

(** C18: compression terminates, for every model without a clause in which a variable implies itself. *)
Theorem C18_stops_partial : forall V half_reif l, declared_once l -> no_loop l ->
  exists n, forall fuel, n <= fuel -> compress V half_reif fuel (start V half_reif l) <> Err OutOfFuel.
Proof. exact stops. Qed.
Print Assumptions C18_stops_partial.

(** C18: if in addition no clause has two negative literals, compression ends with a result. *)
Theorem C18_safe_partial : forall V half_reif l, declared_once l -> no_loop l -> short V l ->
  exists n, forall fuel, n <= fuel -> exists st, compress V half_reif fuel (start V half_reif l) = Ok st.
Proof. exact safe. Qed.
Print Assumptions C18_safe_partial.

Example C18_nonvacuous : declared_once ex_model /\ separate ex_V ex_model /\ no_loop ex_model /\ short ex_V ex_model /\
  exists st, compress ex_V true 30 (start ex_V true ex_model) = Ok st /\
  result st = [Decl 2; Clause [AVar 3] [AVar 1]; Clause [AVar 4] [AVar 1]; Clause [AVar 9; AVar 3] [AVar 5]].
Proof. exact (conj ex_once (conj ex_separate (conj ex_no_loop (conj ex_short ex_run)))). Qed.

(** With a variable that implies itself, compression does not terminate. *)
Theorem C18_loop_refuted : exists V l, forall half_reif fuel, compress V half_reif fuel (start V half_reif l) = Err OutOfFuel.
Proof. exists plain, loop_model. exact hangs. Qed.
Print Assumptions C18_loop_refuted.

(** With two negative literals in a clause, one of which implies the other, a removed constraint is processed again. *)
Theorem C18_merge_refuted : exists V l, no_loop l /\ declared_once l /\
  forall half_reif, compress V half_reif 10 (start V half_reif l) = UB.
Proof.
  exists plain, twice_model. split; [|split; [constructor|exact twice]].
  intros x [H|[H|[H|[H|[]]]]]; try discriminate; injection H; intros; subst; discriminate.
Qed.
Print Assumptions C18_merge_refuted.

(** With a half-reified predicate whose control variable is also one of its arguments, solutions appear that the original
    model does not have. *)
Theorem C18_control_refuted : exists V I l st, declared_once l /\ no_loop l /\
  compress V true 10 (start V true l) = Ok st /\
  exists s, solution V I s (result st) /\
    forall s', solution V I s' l -> ~ (forall v, v_out (V v) = true -> s' v = s v).
Proof.
  destruct imp_wrong as (st & H). exists outer, equality, self_model, st. split; [constructor|]. split; [|exact H].
  intros x [E|[E|[]]]; try discriminate; injection E; intros; subst; discriminate.
Qed.
Print Assumptions C18_control_refuted.
