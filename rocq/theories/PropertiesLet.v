(** * C92: local variables

    Full statement: a constraint with let expressions holds exactly if the flat
    model has a solution for the same values of the other variables; local
    variables without a value are rejected where this would be wrong. *)
From Coq Require Import ZArith List Bool.
From Verif Require Import CtxModel CompModel CompSpec LetModel LetSpec LetProofs.
Import ListNotations.
Open Scope nat_scope.

Theorem C92_solution_partial : forall e h g s,
  well_scoped e -> inhabited e -> flatten C_ROOT e = Some (h, g) ->
  (truth e s = true <-> exists s', extends h s s' /\ g s' = true).
Proof.
  intros e h g s [ND Sc] I H.
  exact (pol_spec e C_ROOT [] h g ltac:(discriminate) ND Sc I H s).
Qed.

(** The same below a negation and below an equivalence. *)
Theorem C92_contexts_partial : forall e h g s,
  well_scoped e -> inhabited e ->
  (flatten C_POS e = Some (h, g) -> (truth e s = true <-> exists s', extends h s s' /\ g s' = true))
  /\ (flatten C_NEG e = Some (h, g) -> (truth e s = false <-> exists s', extends h s s' /\ g s' = false))
  /\ (flatten C_MIX e = Some (h, g) -> h = [] /\ g s = truth e s).
Proof.
  intros e h g s [ND Sc] I. split; [|split]; intros H.
  - exact (pol_spec e C_POS [] h g ltac:(discriminate) ND Sc I H s).
  - exact (pol_spec e C_NEG [] h g ltac:(discriminate) ND Sc I H s).
  - destruct (mix_spec e h g H) as [A B]. split; [exact A|apply B].
Qed.

(** The other variables keep their meaning and the new ones are the local
    variables of the expression. *)
Theorem C92_names : forall e c h g,
  well_scoped e -> inhabited e -> flatten c e = Some (h, g) -> incl (map fst h) (bound e).
Proof. intros e c h g [ND Sc] I H. exact (g_names _ _ _ _ (flatten_good e c [] h g ND Sc I H)). Qed.

Theorem C92_rejects : forall e, flatten C_ROOT e = None <-> ~ only_positive (Some true) e.
Proof.
  intros e. pose proof (accepts e C_ROOT) as A. cbn [sign] in A. rewrite <- A.
  destruct (flatten C_ROOT e); split; intros H; try discriminate; try congruence.
  exfalso. apply H. discriminate.
Qed.

(** Refuted for an empty domain: in [b \/ let { var 1..0: y } in true] the
    variable is created outside the disjunction, and the model has no solution
    although [b] holds. *)
Definition b_or_let : lexp := LOr (LAtom (fun s => Z.eqb (s 0) 1)) (LFree 1 [] (LAtom (fun _ => true))).

Theorem C92_empty_refuted : exists e h g s,
  well_scoped e /\ flatten C_ROOT e = Some (h, g) /\ truth e s = true
  /\ ~ exists s', extends h s s' /\ g s' = true.
Proof.
  exists b_or_let. eexists. eexists. exists (fun _ => 1%Z).
  split; [|split; [reflexivity|split; [reflexivity|]]].
  - split; [repeat constructor; intros []|]. split.
    + intros s s' E. rewrite (E 0); [reflexivity|]. cbn. intuition discriminate.
    + intros s s' E. reflexivity.
  - intros (s' & [H _] & _). exact (H 1 [] (or_introl eq_refl)).
Qed.

(** Non-vacuity: [not (not (let {var {1,2}: y; var {1..3}: z = x + y; constraint z > 2} in y < z)) \/ x = 7] *)
Definition sample_let : lexp :=
  LOr (LNot (LNot (LFree 1 [1; 2]%Z
         (LDef 2 (Some [1; 2; 3]%Z) (fun s => Some (s 0%nat + s 1%nat)%Z)
           (LCon (LAtom (fun s => (2 <? s 2%nat)%Z)) (LAtom (fun s => (s 1%nat <? s 2%nat)%Z)))))))
      (LAtom (fun s => (s 0%nat =? 7)%Z)).
Example C92_nonvacuous :
  well_scoped sample_let /\ inhabited sample_let
  /\ (exists g, flatten C_ROOT sample_let = Some ([(1, [1; 2]%Z)], g))
  /\ truth sample_let (fun _ => 1%Z) = true /\ truth sample_let (fun _ => 3%Z) = false
  /\ flatten C_ROOT (LNot (LFree 1 [1%Z] (LAtom (fun _ => true)))) = None.
Proof.
  split; [|split; [|split; [eexists; reflexivity|split; [reflexivity|split; reflexivity]]]].
  - split; [cbn; repeat constructor; cbn; intuition discriminate|]. cbn.
    Ltac ig := intros s s' E; rewrite ?(E 0), ?(E 1), ?(E 2) by (cbn; intuition discriminate); reflexivity.
    split; [split; [ig|split; ig]|ig].
  - cbn. repeat split. discriminate.
Qed.

Print Assumptions C92_solution_partial.
Print Assumptions C92_contexts_partial.
Print Assumptions C92_names.
Print Assumptions C92_rejects.
Print Assumptions C92_empty_refuted.
