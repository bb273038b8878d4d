(** * C91: comprehensions with where clauses and variable generator sets

    Full statement: flattening a comprehension, alone or under forall, exists or
    sum, gives the value the comprehension has as it is written. *)
From Coq Require Import ZArith List Bool Lia Sorting.Sorted.
From Verif Require Import CompModel CompSpec CompProofs CompProofs2 CompProofs3.
Import ListNotations.

(** Moving the parts of the where clauses to earlier generators keeps the
    elements and their order, provided evaluating a part never stops the
    program. *)
Theorem C91_moved_partial : forall gs s,
  well_formed gs -> wheres_total gs -> elements (move_wheres gs) s = elements gs s.
Proof. exact move_elements. Qed.

(** The rearranged comprehension obeys the same rules. *)
Theorem C91_moved_scoped : forall gs,
  well_formed gs -> well_formed (move_wheres gs) /\ decls (move_wheres gs) = decls gs.
Proof.
  intros gs W. split; [exact (move_well_formed gs W)|].
  apply rebuild_decls; [apply move_map_ok; exact W|apply W].
Qed.

Section Flattened.
  Variable gs : list gen.
  Variable s : store.
  Hypothesis W : well_formed gs.
  Hypothesis T : wheres_total gs.
  Hypothesis B : bounds_ok gs.

  Lemma flattened :
    exists F E, elements gs s = Some E /\ elements (flat_gens (move_wheres gs)) s = Some F
                /\ E = filter (holds (conditions (move_wheres gs))) F.
  Proof.
    destruct (flat_elements (move_wheres gs) s) as (F & HF & HE);
      [apply move_well_formed; assumption|apply move_total; assumption|apply move_bounds; assumption|].
    exists F, (filter (holds (conditions (move_wheres gs))) F).
    rewrite <- move_elements by assumption. auto.
  Qed.

  Lemma flattened_forall : forall e, exists F E, elements gs s = Some E
    /\ elements (flat_gens (move_wheres gs)) s = Some F
    /\ forallb (elem_forall (conditions (move_wheres gs)) e) F = forallb e E.
  Proof.
    intros e. destruct flattened as (F & E & HE & HF & ->). exists F, (filter (holds (conditions (move_wheres gs))) F).
    split; [exact HE|]. split; [exact HF|]. apply forall_filter.
  Qed.
  Lemma flattened_exists : forall e, exists F E, elements gs s = Some E
    /\ elements (flat_gens (move_wheres gs)) s = Some F
    /\ existsb (elem_exists (conditions (move_wheres gs)) e) F = existsb e E.
  Proof.
    intros e. destruct flattened as (F & E & HE & HF & ->). exists F, (filter (holds (conditions (move_wheres gs))) F).
    split; [exact HE|]. split; [exact HF|]. apply exists_filter.
  Qed.
  Lemma flattened_sum : forall epar e, (epar = true -> forall s', e s' <> None) -> exists F E, elements gs s = Some E
    /\ elements (flat_gens (move_wheres gs)) s = Some F
    /\ sum_all (map (elem_sum epar (conditions (move_wheres gs)) e) F) = sum_all (map e E).
  Proof.
    intros p e He. destruct flattened as (F & E & HE & HF & ->). exists F, (filter (holds (conditions (move_wheres gs))) F).
    split; [exact HE|]. split; [exact HF|]. apply sum_filter. intros; auto.
  Qed.
  Lemma flattened_array : forall e, exists F E, elements gs s = Some E
    /\ elements (flat_gens (move_wheres gs)) s = Some F
    /\ present (map (elem_other (conditions (move_wheres gs)) e) F)
       = present (map (fun s' => option_map Some (e s')) E).
  Proof.
    intros e. destruct flattened as (F & E & HE & HF & ->). exists F, (filter (holds (conditions (move_wheres gs))) F).
    split; [exact HE|]. split; [exact HF|]. apply other_filter.
  Qed.
End Flattened.

(** Under forall and exists the type-checked and flattened comprehension has
    the value of the comprehension as written. *)
Theorem C91_forall_partial : forall gs s,
  well_formed gs -> wheres_total gs -> bounds_ok gs ->
  forall e, exists F E, elements gs s = Some E
    /\ elements (flat_gens (move_wheres gs)) s = Some F
    /\ forallb (elem_forall (conditions (move_wheres gs)) e) F = forallb e E.
Proof. exact flattened_forall. Qed.

Theorem C91_exists_partial : forall gs s,
  well_formed gs -> wheres_total gs -> bounds_ok gs ->
  forall e, exists F E, elements gs s = Some E
    /\ elements (flat_gens (move_wheres gs)) s = Some F
    /\ existsb (elem_exists (conditions (move_wheres gs)) e) F = existsb e E.
Proof. exact flattened_exists. Qed.

(** Under sum, if a par body is defined everywhere. *)
Theorem C91_sum_partial : forall gs s,
  well_formed gs -> wheres_total gs -> bounds_ok gs ->
  forall epar e, (epar = true -> forall s', e s' <> None) ->
  exists F E, elements gs s = Some E
    /\ elements (flat_gens (move_wheres gs)) s = Some F
    /\ sum_all (map (elem_sum epar (conditions (move_wheres gs)) e) F) = sum_all (map e E).
Proof. exact flattened_sum. Qed.

(** Elsewhere: the array without its absent elements, in order. *)
Theorem C91_array_partial : forall gs s,
  well_formed gs -> wheres_total gs -> bounds_ok gs ->
  forall e, exists F E, elements gs s = Some E
    /\ elements (flat_gens (move_wheres gs)) s = Some F
    /\ present (map (elem_other (conditions (move_wheres gs)) e) F)
       = present (map (fun s' => option_map Some (e s')) E).
Proof. exact flattened_array. Qed.

(** Refuted: the guard of a part does not move with it.  In
    [i | i in 1..2, j in 1..2 where j > 5 /\ assert(i < 2, "...")]
    the assertion is never reached as written, and fails as rearranged. *)
Definition guarded : list gen :=
  [GIn [0] None (fun _ => [1; 2]%Z) None;
   GIn [1] None (fun _ => [1; 2]%Z)
     (Some (WAnd (WAtom true [1] (fun s => Some (5 <? s 1%nat)%Z))
                 (WAtom true [0] (fun s => if (s 0%nat <? 2)%Z then Some true else None))))].
Definition s0 : store := fun _ => 0%Z.

Ltac ign := intros s s' E; repeat rewrite E by (cbn; intuition discriminate); reflexivity.

Theorem C91_guard_refuted : exists gs s,
  well_formed gs /\ elements gs s = Some [] /\ elements (move_wheres gs) s = None.
Proof.
  exists guarded, s0. split; [|split; reflexivity]. split.
  - cbn. repeat constructor; cbn; intuition discriminate.
  - cbn. split; [discriminate|]. split; [ign|]. split; [exact I|]. split; [exact I|].
    split; [discriminate|]. split; [ign|]. split; [exact I|]. split; [|exact I].
    split; (split; [intros s s' E; rewrite (E _ (or_introl eq_refl)); reflexivity|intros x _ []]).
Qed.

(** Refuted: [sum(i in S)(10 div i)] for a variable set [S] with upper bound
    [{0, 2}].  The par body becomes a factor and is evaluated for [i = 0] even
    when [0] is not in [S]: no value of [S] makes the sum defined. *)
Definition over_set (l : list Z) : list gen := [GIn [0] (Some (fun _ => [0; 2]%Z)) (fun _ => l) None].
Definition ten_div (s : store) : option Z := if (s 0%nat =? 0)%Z then None else Some (10 / s 0%nat)%Z.

Theorem C91_sum_refuted : exists gs s e F E,
  well_formed gs /\ wheres_total gs /\ bounds_ok gs
  /\ elements gs s = Some E /\ elements (flat_gens (move_wheres gs)) s = Some F
  /\ sum_all (map e E) = Some 5%Z
  /\ sum_all (map (elem_sum true (conditions (move_wheres gs)) e) F) = None.
Proof.
  exists (over_set [2%Z]), s0, ten_div, [upd s0 0 0; upd s0 0 2%Z], [upd s0 0 2%Z].
  split; [|split; [|split; [|split; [reflexivity|split; [reflexivity|split; reflexivity]]]]].
  - split; [repeat constructor; cbn; intuition discriminate|].
    cbn. split; [discriminate|]. split; [ign|]. split; [ign|]. split; exact I.
  - repeat constructor.
  - constructor; [|constructor]. intros s. split; [|split].
    + constructor; [constructor; constructor|]. constructor; [lia|constructor].
    + constructor; constructor.
    + intros x [<-|[]]. right; left; reflexivity.
Qed.

(** Non-vacuity: [i, j in S, k = i + j, l in 1..2 where i < j /\ b(l) /\ k > 2]
    for a variable set S = {1, 2} below {1, 2, 3} and a variable part b. *)
Definition sample : list gen :=
  [GIn [0; 1] (Some (fun _ => [1; 2; 3]%Z)) (fun _ => [1; 2]%Z) None;
   GAsn 2 (fun s => s 0%nat + s 1%nat)%Z;
   GIn [3] None (fun _ => [1; 2]%Z)
     (Some (WAnd (WAnd (WAtom true [0; 1] (fun s => Some (s 0%nat <? s 1%nat)%Z))
                       (WAtom false [3] (fun s => Some (s 3%nat =? 2)%Z)))
                 (WAtom true [2] (fun s => Some (2 <? s 2%nat)%Z))))].

Example C91_nonvacuous :
  well_formed sample /\ wheres_total sample /\ bounds_ok sample
  /\ length (move_wheres sample) = 3
  /\ option_map (map (fun s => (s 0, s 1, s 2, s 3%nat))) (elements sample s0) = Some [(1, 2, 3, 2)]%Z
  /\ option_map (@length store) (elements (flat_gens (move_wheres sample)) s0) = Some 6
  /\ map atom_ids (conditions (move_wheres sample)) = [[0]; [1]; [3]].
Proof.
  split; [|split; [|split; [|split; [reflexivity|split; [reflexivity|split; reflexivity]]]]].
  - split; [cbn; repeat constructor; cbn; intuition discriminate|].
    cbn. split; [discriminate|]. split; [ign|]. split; [ign|]. split; [exact I|].
    split; [ign|]. split; [discriminate|]. split; [ign|]. split; [exact I|]. split; [|exact I].
    split; [split|]; (split; [intros s s' E; rewrite ?(E 0), ?(E 1), ?(E 2), ?(E 3) by (cbn; auto); reflexivity|intros x _ []]).
  - repeat constructor; cbn; discriminate.
  - constructor; [|repeat constructor]. intros s. split; [|split].
    + repeat constructor.
    + repeat constructor.
    + intros x [<-|[<-|[]]]; cbn; auto.
Qed.

Print Assumptions C91_moved_partial.
Print Assumptions C91_moved_scoped.
Print Assumptions C91_forall_partial.
Print Assumptions C91_exists_partial.
Print Assumptions C91_sum_partial.
Print Assumptions C91_array_partial.
Print Assumptions C91_guard_refuted.
Print Assumptions C91_sum_refuted.
