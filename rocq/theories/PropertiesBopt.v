(** C72: the Boolean part of the optimiser of flat models keeps what can be printed. *)
From Coq Require Import List Bool Arith.
From Verif Require Import BoptModel BoptSpec BoptProofs7 BoptExamples.
Import ListNotations.

(** For every flat model, order of items, order of work and choice of variables to delete: the optimised model
    prints exactly what the model prints, and a model the optimiser reports as inconsistent prints nothing.
    Missing: models that are not [regular]; constraints over other types; the compression of chains. *)
Theorem C72_outputs_kept_partial :
  forall (other : nat -> list bool -> bool) (output : nat -> bool) (s : state) (order : list item)
         (sched : list choice) (dead : list nat),
    input output s order -> regular s -> loop_ended output s order sched ->
    match optimise output s order sched dead with
    | Some s' => forall om, prints other output s om <-> prints other output s' om
    | None => forall om, ~ prints other output s om
    end.
Proof. intros. now apply optimise_ok. Qed.
Print Assumptions C72_outputs_kept_partial.

Example C72_nonvacuous :
  input out1 m1 order1 /\ regular m1 /\ loop_ended out1 m1 order1 sched1 /\
  (forall other om, prints other out1 m1 om <-> om 0 = true /\ om 2 = true) /\
  exists s', optimise out1 m1 order1 sched1 [0; 1; 3] = Some s' /\
    (forall c, c < 5 -> cons s' c = None) /\ (forall v, v < 5 -> gone s' v = true) /\
    out s' 0 = OFix true /\ out s' 2 = OAlias 0.
Proof.
  split; [exact m1_input|]. split; [exact m1_regular|]. split; [exact m1_ends|]. split; [exact m1_prints|].
  destruct (optimise out1 m1 order1 sched1 [0; 1; 3]) as [s'|] eqn:E; [|vm_compute in E; discriminate].
  exists s'. split; [reflexivity|]. vm_compute in E. injection E as <-.
  split; [|split; [|split; reflexivity]].
  - intros c H. do 5 (destruct c as [|c]; [reflexivity|]). exfalso. apply (Nat.nlt_0_r c). now do 5 apply Nat.succ_lt_mono in H.
  - intros v H. do 5 (destruct v as [|v]; [reflexivity|]). exfalso. apply (Nat.nlt_0_r v). now do 5 apply Nat.succ_lt_mono in H.
Qed.

(** Without [regular] the property is false.  A conjunction loses its conjuncts when they are unified with other
    variables after they are noted: "constraint forall([p,q]); constraint p = x; constraint q = y". *)
Theorem C72_conjunct_lost_refuted :
  exists (output : nat -> bool) (s : state) (order : list item) (sched : list choice) (om : nat -> bool),
    input output s order /\ loop_ended output s order sched /\
    (forall c x, cons s c <> Some (EId x)) /\
    forall other, ~ prints other output s om /\
      exists s', optimise output s order sched [] = Some s' /\ prints other output s' om.
Proof.
  exists out2, m2, order2, sched2, (fun _ => false). split; [exact m2_input|]. split; [exact m2_ends|]. split.
  - intros c x. destruct c as [|[|[|[|c]]]]; discriminate.
  - intros other. split; [|exact (m2_lost other)]. intros H. apply m2_not in H. discriminate.
Qed.
Print Assumptions C72_conjunct_lost_refuted.

(** A constraint that is a name is dropped although another constraint made the variable false. *)
Theorem C72_name_lost_refuted :
  exists (output : nat -> bool) (s : state) (order : list item) (sched : list choice),
    input output s order /\ loop_ended output s order sched /\
    (forall x, conjunct s x -> ~ equated s x) /\
    forall other, (forall om, ~ prints other output s om) /\
      exists s' om, optimise output s order sched [] = Some s' /\ prints other output s' om.
Proof.
  exists out3, m3, order3, sched3. split; [exact m3_input|]. split; [exact m3_ends|]. split.
  - intros x (c & l & H & _). destruct c as [|[|[|c]]]; discriminate.
  - intros other. split; [exact (m3_not other)|]. destruct (m3_lost other) as (s' & H1 & H2). eauto.
Qed.
Print Assumptions C72_name_lost_refuted.
