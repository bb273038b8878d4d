(** C16 and C17: the bounds computed for integer and set expressions contain all values. *)
Require Import ZArith List Bool Lia.
From Verif Require Import Base IntValModel IntValSpec IntValProofs SetModel SetSpec SetPropProofs BoundsModel BoundsSpec BoundsProofs BoundsProofs2 BoundsProofs3 BoundsProofs4.
Import ListNotations.
Open Scope Z_scope.

(** Whenever bounds are returned as valid, every value the expression takes under any assignment lies between them.
    Missing for the full property: mod, some divisions, and calls with Boolean arguments, where it is false (below). *)
Theorem C16_sound_partial : forall e l u, wfe e -> regular e -> scalar e -> compute_int_bounds e = Ok (l, u, true) ->
  forall s z, ev s e z -> between z l u.
Proof. exact C16_sound_l. Qed.
Print Assumptions C16_sound_partial.

(** variable with a domain, in the examples *)
Definition V (x a b : Z) : ex := EId x false (Some (DSet [(ofZ a, ofZ b)])) None.
Definition asg2 (a b : Z) : asg := mkAsg (fun x => if x =? 1 then a else b) (fun _ _ => 0).
Lemma V_ev : forall s x a b, fits64 a -> fits64 b -> a <= a_var s x <= b -> ev s (V x a b) (a_var s x).
Proof.
  intros s x a b Fa Fb H. apply ev_id; [discriminate| |discriminate]. exists (ofZ a), (ofZ b). split; [left; reflexivity|].
  exists (Fin a), (Fin b). repeat split; try (apply is_int_ofZ; assumption); cbn; lia.
Qed.
Lemma V_val : forall s x a b v, a_var s x = v -> fits64 a -> fits64 b -> a <= v <= b -> ev s (V x a b) v.
Proof. intros s x a b v <-. apply V_ev. Qed.
Lemma V_wf : forall x a b, fits64 a -> fits64 b -> a <= b -> wfe (V x a b).
Proof.
  intros x a b Fa Fb H. apply w_id; [|discriminate]. intros s E. injection E as <-. apply nf_one. exists a.
  exists (Fin a), (Fin b). repeat split; try (apply is_int_ofZ; assumption); cbn; lia.
Qed.
Ltac f64 := unfold fits64, LLONG_MIN, LLONG_MAX; lia.
Ltac not_between := let A := fresh in intros (? & ? & A & ? & ? & ?); vm_compute in A; repeat match goal with H : denote _ = Some _ |- _ => vm_compute in H; injection H as <- | H : Some _ = Some _ |- _ => injection H as <- end;
  cbn in *; lia.

(** FINDING: 10 div (-5..5) gets the bounds -2..2, but 10 div 1 is 10 *)
Theorem C16_div_refuted : exists e l u s z, wfe e /\ scalar e /\ compute_int_bounds e = Ok (l, u, true) /\ ev s e z /\ ~ between z l u.
Proof.
  exists (EBin BIDiv (V 1 10 10) (V 2 (-5) 5)), (ofZ (-2)), (ofZ 2), (asg2 10 1), 10.
  split; [apply w_bin; try (left; reflexivity); apply V_wf; f64|]. split; [left; reflexivity|]. split; [vm_compute; reflexivity|]. split.
  - change 10 with (Z.quot (a_var (asg2 10 1) 1) (a_var (asg2 10 1) 2)) at 4. apply ev_div; [apply V_ev; cbn; f64|apply V_ev; cbn; f64|discriminate].
  - not_between.
Qed.
Print Assumptions C16_div_refuted.
(** FINDING: (0..10) div 1 gets the bounds 1..10 *)
Theorem C16_div_zero_refuted : exists e l u s z, wfe e /\ scalar e /\ compute_int_bounds e = Ok (l, u, true) /\ ev s e z /\ ~ between z l u.
Proof.
  exists (EBin BIDiv (V 1 0 10) (V 2 1 1)), (ofZ 1), (ofZ 10), (asg2 0 1), 0.
  split; [apply w_bin; try (left; reflexivity); apply V_wf; f64|]. split; [left; reflexivity|]. split; [vm_compute; reflexivity|]. split.
  - change 0 with (Z.quot (a_var (asg2 0 1) 1) (a_var (asg2 0 1) 2)) at 3. apply ev_div; [apply V_ev; cbn; f64|apply V_ev; cbn; f64|discriminate].
  - not_between.
Qed.
Print Assumptions C16_div_zero_refuted.
(** FINDING: (0..10) mod 3 gets the bounds 1..1 *)
Theorem C16_mod_refuted : exists e l u s z, wfe e /\ scalar e /\ compute_int_bounds e = Ok (l, u, true) /\ ev s e z /\ ~ between z l u.
Proof.
  exists (EBin BMod (V 1 0 10) (V 2 3 3)), (ofZ 1), (ofZ 1), (asg2 5 3), 2.
  split; [apply w_bin; try (left; reflexivity); apply V_wf; f64|]. split; [left; reflexivity|]. split; [vm_compute; reflexivity|]. split.
  - change 2 with (Z.rem (a_var (asg2 5 3) 1) (a_var (asg2 5 3) 2)) at 2. apply ev_mod; [apply V_ev; cbn; f64|apply V_ev; cbn; f64|discriminate].
  - not_between.
Qed.
Print Assumptions C16_mod_refuted.
(** FINDING: the bounds of a Boolean argument of a function that declares a domain stay on the stack and are taken for the
    bounds of the other operand: x + f(b) with x in 5..9 and f(b) in 1..2 gets the bounds 1..3 *)
Theorem C16_call_refuted : exists e l u s z, wfe e /\ scalar e /\ compute_int_bounds e = Ok (l, u, true) /\ ev s e z /\ ~ between z l u.
Proof.
  exists (EBin BPlus (V 1 5 9) (ECallDom [EId 2 true None None] [(ofZ 1, ofZ 2)])), (ofZ 1), (ofZ 3), (asg2 5 1), 6.
  split.
  { apply w_bin; try (left; reflexivity); [apply V_wf; f64|]. apply w_call; [constructor; [apply w_id; discriminate|constructor]|].
    apply nf_one. exists 1. exists (Fin 1), (Fin 2). repeat split; cbn; lia. }
  split; [left; reflexivity|]. split; [vm_compute; reflexivity|]. split.
  - change 6 with (a_var (asg2 5 1) 1 + 1). apply ev_plus; [apply V_ev; cbn; f64|]. apply ev_call. exists (ofZ 1), (ofZ 2). split; [left; reflexivity|].
    exists (Fin 1), (Fin 2). repeat split; cbn; lia.
  - not_between.
Qed.
Print Assumptions C16_call_refuted.
(** FINDING: a branch whose value is absent pushes no bounds and the stack is read when it is empty *)
Theorem C16_absent_refuted : compute_int_bounds (EIte [(CVar, EPar TyInt PAbsent)] (V 1 0 1)) = UB.
Proof. vm_compute. reflexivity. Qed.
Print Assumptions C16_absent_refuted.

Example C16_nonvacuous :
  let e := EBin BPlus (EBin BIDiv (V 1 5 20) (V 2 2 4)) (ELin [2; -3] (Some [V 1 5 20; EAbs (V 3 (-4) 2)]) 7) in
  wfe e /\ regular e /\ scalar e /\ compute_int_bounds e = Ok (ofZ 6, ofZ 57, true) /\
  ev (mkAsg (fun x => if x =? 1 then 9 else if x =? 2 then 2 else -4) (fun _ _ => 0)) e 17.
Proof.
  intros e.
  assert (W1 : wfe (V 1 5 20)) by (apply V_wf; f64). assert (W2 : wfe (V 2 2 4)) by (apply V_wf; f64). assert (W3 : wfe (V 3 (-4) 2)) by (apply V_wf; f64).
  assert (G : forall x a b, regular (V x a b)) by (intros; apply g_id; discriminate).
  assert (S : forall x a b, scalar (V x a b)) by (intros; left; reflexivity).
  split; [|split; [|split; [left; reflexivity|split; [vm_compute; reflexivity|]]]].
  - apply w_bin; try (left; reflexivity); [apply w_bin; auto|]. apply w_lin; [repeat constructor; f64|f64|]. intros l E. injection E as <-.
    constructor; [split; auto|]. constructor; [|constructor]. split; [apply w_abs; auto|left; reflexivity].
  - apply g_bin; try discriminate; [eapply (g_div _ _ 5 20 2 4); auto; try (vm_compute; reflexivity); lia|].
    apply g_lin. intros l E. injection E as <-. constructor; auto. constructor; [apply g_abs; auto|constructor].
  - change 17 with (Z.quot 9 2 + (dot [2; -3] [9; Z.abs (-4)] + 7)). apply ev_plus; [apply ev_div; [| |discriminate]|].
    + apply V_val; [reflexivity| | |]; f64.
    + apply V_val; [reflexivity| | |]; f64.
    + apply ev_lin; [|reflexivity]. constructor; [apply V_val; [reflexivity| | |]; f64|]. constructor; [|constructor].
      apply ev_abs. apply V_val; [reflexivity| | |]; f64.
Qed.

(** Whenever a set of bounds is returned, it contains every value of the set expression under any assignment.
    Missing for the full property: field accesses, and operands without bounds (below). *)
Theorem C17_sound_partial : forall e b, wfs e -> compute_intset_bounds e = Ok (Some b) ->
  nf b /\ forall s V, sev s e V -> forall z, V z -> elem z b.
Proof. exact C17_sound_l. Qed.
Print Assumptions C17_sound_partial.
(** FINDING: a field access of a record of sets reads from an empty stack *)
Theorem C17_field_refuted : compute_intset_bounds SField = UB.
Proof. reflexivity. Qed.
Print Assumptions C17_field_refuted.
(** FINDING: the union with a variable without domain dereferences a null pointer *)
Theorem C17_null_refuted : compute_intset_bounds (SBin SUnion (SId 1 None None) (SId 2 (Some [(ofZ 1, ofZ 3)]) None)) = UB.
Proof. reflexivity. Qed.
Print Assumptions C17_null_refuted.

Example C17_nonvacuous :
  let d a b := [(ofZ a, ofZ b)] in
  let e := SBin SUnion (SBin SDiff (SId 1 (Some (d 1 9)) None) (SId 2 (Some (d 3 4)) None)) (SRange (V 1 12 14) (V 2 15 20)) in
  wfs e /\ compute_intset_bounds e = Ok (Some [(ofZ 1, ofZ 9); (ofZ 12, ofZ 20)]) /\
  let sg := mkSA (asg2 13 15) (fun x z => if x =? 1 then z = 2 \/ z = 3 else z = 3) (fun _ _ _ => False) in
  sev sg e (sop_val SUnion (sop_val SDiff (fun z => z = 2 \/ z = 3) (fun z => z = 3)) (fun z => 13 <= z <= 15)).
Proof.
  cbv zeta. set (d := fun a b : Z => [(ofZ a, ofZ b)]). set (sg := mkSA _ _ _).
  assert (N : forall a b, fits64 a -> fits64 b -> a <= b -> nf (d a b)).
  { intros a b Fa Fb H. apply nf_one. exists a. exists (Fin a), (Fin b). repeat split; try (apply is_int_ofZ; assumption); cbn; lia. }
  assert (E : forall a b z, fits64 a -> fits64 b -> a <= z <= b -> elem z (d a b)).
  { intros a b z Fa Fb H. exists (ofZ a), (ofZ b). split; [left; reflexivity|]. exists (Fin a), (Fin b). repeat split; try (apply is_int_ofZ; assumption); cbn; lia. }
  split; [|split; [vm_compute; reflexivity|]].
  - apply ws_bin; [apply ws_bin; apply ws_id; try discriminate; apply N; f64|]. apply ws_range; try (left; reflexivity); try (apply V_wf; f64); apply g_id; discriminate.
  - apply sev_bin; [apply sev_bin|].
    + apply (sev_id sg 1); [|discriminate]. intros z Hz. cbn in Hz. apply E; f64.
    + apply (sev_id sg 2); [|discriminate]. intros z Hz. cbn in Hz. apply E; f64.
    + apply sev_range; [apply V_val; [reflexivity| | |]; f64|apply V_val; [reflexivity| | |]; f64].
Qed.
