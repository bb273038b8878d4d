(** C68: compression of chains of linear inequalities. *)
Require Import ZArith List.
From Verif Require Import Base IntValModel SetModel LinModel LinSpec LinProofs2 LeModel LeSpec LeProofs LeProofs2 LeProofs3 LeProofs5 LeProofs6.
Import ListNotations.
Open Scope Z_scope.

(** C68: for every flat model in which the variables can be put into groups such that each constraint x <= y is within a group and every
    other inequality has at most one variable of each group, compression ends, does not fail, and gives the same model without some
    variables: these are not output, and the solutions agree on all others.  Partial: without the groups it is false (C68_sign_refuted,
    C68_twice_refuted, C68_iterator_refuted); and float inequalities and int2float are not part of the model. *)
Theorem C68_run_partial : forall V sort group model, resolved V -> sorts sort -> Forall (tidy V) model -> Forall (apart group) model ->
  exists items, le_compress V sort model = Ok (Done items) /\ exists E, same_without V E model (rest items).
Proof. intros V sort group model HV Hs. exact (le_run V sort group HV Hs model). Qed.
Print Assumptions C68_run_partial.

(** C68: one replacement, of neg by pos because of pos <= neg, keeps the solutions in every model, if neg has no negative coefficient in the
    inequalities that are stored under it and each of them is stored once; and if a replaced inequality is false, there is no
    solution. *)
Theorem C68_step_partial : forall V sort items ix cur i neg pos pre post r, resolved V -> sorts sort ->
  good_slots items -> good_entries items neg ix -> present items (snd cur) i -> neg <> pos ->
  (forall cs xs c, i = Lin cs xs c -> Forall (fun a => iv_v a <> 0) cs) ->
  consider V items ix i = Ok (Go neg pos) -> replace_all V sort (with_key neg ix) neg pos cur items pre post = Ok r ->
  match r with
  | PFail => forall I s, ~ solves V I s (rest items)
  | PGo items' _ _ => same_without V [neg] (rest items) (rest (upd items' (snd cur) gone))
  end.
Proof. intros V sort items ix cur i neg pos pre post r HV Hs. exact (step_sound V sort HV Hs items ix cur i neg pos pre post r). Qed.
Print Assumptions C68_step_partial.

(** C68: from x1 <= x2, x2 - 2 x1 <= -5 and x3 <= x1 compression makes -x3 <= -5: the solution x1 = x2 = 5, x3 = 0 is lost, because a
    replaced inequality is stored under the new variable although its coefficient is negative. *)
Theorem C68_sign_refuted : exists V sort model, resolved V /\ sorts sort /\ Forall (tidy V) model /\
  exists items, le_compress V sort model = Ok (Done items) /\ ~ exists E, same_without V E model (rest items).
Proof. exact (ex_intro _ wV (ex_intro _ insertion (ex_intro _ w_sign (conj w_resolved (conj insertion_sorts (conj w_sign_tidy sign_bad)))))). Qed.
Print Assumptions C68_sign_refuted.

(** C68: from x1 <= x2, x2 + x1 <= 10, x3 <= x1 and x4 <= x1 - 5 compression makes 2 x3 <= 10 and x4 <= x1 - 5, which allows x4 = 3:
    an inequality that is stored twice under a variable counts as two occurrences of it. *)
Theorem C68_twice_refuted : exists V sort model, resolved V /\ sorts sort /\ Forall (tidy V) model /\
  exists items, le_compress V sort model = Ok (Done items) /\ ~ exists E, same_without V E model (rest items).
Proof. exact (ex_intro _ wV (ex_intro _ insertion (ex_intro _ w_twice (conj w_resolved (conj insertion_sorts (conj w_twice_tidy twice_bad)))))). Qed.
Print Assumptions C68_twice_refuted.

(** C68: with x1 <= x2, x3 + x2 - 2 x1 <= 0 and x4 <= x1 - 5 the loop erases the entry that its own iterator points to, and then
    uses the iterator. *)
Theorem C68_iterator_refuted : exists V sort model, resolved V /\ sorts sort /\ Forall (tidy V) model /\ le_compress V sort model = UB.
Proof. exact (ex_intro _ wV (ex_intro _ insertion (ex_intro _ w_iter (conj w_resolved (conj insertion_sorts (conj w_iter_tidy iter_bad)))))). Qed.
Print Assumptions C68_iterator_refuted.

(** x3 <= x1 <= x2 and x4 + 2 x2 <= 7 become x4 + 2 x3 <= 7 *)
Example C68_nonvacuous : resolved wV /\ sorts insertion /\ Forall (tidy wV) w_chain /\ Forall (apart w_group) w_chain /\
  exists items, le_compress wV insertion w_chain = Ok (Done items) /\ rest items = [wle [1; 2] [4; 3]%nat 7].
Proof. exact (conj w_resolved (conj insertion_sorts (conj w_chain_tidy (conj w_chain_apart w_chain_run)))). Qed.
(** the first replacement in it, of x2 by x1 *)
Example C68_step_nonvacuous : let items := map fresh w_chain in let ix := track_all wV 0 items [] in
  good_slots items /\ good_entries items (Num 2) ix /\ present items 1 (wle [1; -1] [1; 2]%nat 0) /\ consider wV items ix (wle [1; -1] [1; 2]%nat 0) = Ok (Go (Num 2) (Num 1)) /\
  exists items' pre post, replace_all wV insertion (with_key (Num 2) ix) (Num 2) (Num 1) (Num 1, 1%nat) items [] (without_key (Num 2) (tl ix)) = Ok (PGo items' pre post).
Proof. exact w_chain_step. Qed.
