(** C90: the flattened form of an array access. *)
Require Import ZArith List Bool Lia.
From Verif Require Import SliceModel SliceSpec SliceProofs SliceProofs2.
Import ListNotations.
Open Scope Z_scope.

(** Full statement: for every array and all indices, each of them fixed (perhaps absent), a variable or an access to a
    fixed array, whatever the flattening returns has, for all values of the variables, the value of the access in the
    source, and is undefined where that is.  C90_absent_refuted shows that it is false if an absent index stands beside
    a variable one.
    Proved: the statement without absent indices. *)
Theorem C90_value_partial : forall {E} r fuel (a : arr E) ixs o, wf a -> length ixs = length (adims a) -> Forall ix_ok ixs ->
  flatten_access fuel a ixs = Some o -> out_value r o = source_value r a ixs.
Proof. intros E r fuel a ixs o W L O. exact (flatten_access_ok r fuel a ixs o (wf_wf' a W) L (or_introl O)). Qed.
Print Assumptions C90_value_partial.

(** Fixed indices, some of which may be absent. *)
Theorem C90_fixed : forall {E} r fuel (a : arr E) ixs o, wf a -> length ixs = length (adims a) -> forallb is_par ixs = true ->
  flatten_access fuel a ixs = Some o -> out_value r o = source_value r a ixs.
Proof. intros E r fuel a ixs o W L O. exact (flatten_access_ok r fuel a ixs o (wf_wf' a W) L (or_intror O)). Qed.
Print Assumptions C90_fixed.

(** Full statement: the flattening ends for all arrays.  C90_ends_refuted shows that it is false for empty index sets.
    Proved: it ends if all index sets are non-empty. *)
Theorem C90_ends_partial : forall {E} (a : arr E) ixs, wf a -> nonempty (adims a) -> length ixs = length (adims a) ->
  Forall ix_ok ixs -> Forall ix_nonempty ixs -> exists n, forall f, (n <= f)%nat -> flatten_access f a ixs <> None.
Proof. intros E a ixs W. exact (flatten_ends a ixs (wf_wf' a W)). Qed.
Print Assumptions C90_ends_partial.

(** x[<>, i] with i = 2, for x = [| 10, 20 | 30, 40 |]: the value is 20 and not absent. *)
Definition ex_a : arr Z := mkArr [(1, 2); (1, 2)] [10; 20; 30; 40].
Theorem C90_absent_refuted :
  let r := fun _ : nat => 2 in
  wf ex_a /\
  exists o, flatten_access 10 ex_a [IPar None; IVar 0] = Some o /\
    source_value r ex_a [IPar None; IVar 0] = Some None /\ out_value r o = Some (Some 20).
Proof.
  split; [split; [discriminate|split; [repeat constructor; cbn; lia|reflexivity]]|].
  eexists. split; [reflexivity|]. split; reflexivity.
Qed.
Print Assumptions C90_absent_refuted.

(** x[1, i, j] for array[1..2, 1..0, 1..0] of int: x. *)
Definition ex_e : arr Z := mkArr [(1, 2); (1, 0); (1, 0)] [].
Theorem C90_ends_refuted : wf ex_e /\ forall fuel, flatten_access fuel ex_e [IPar (Some 1); IVar 0; IVar 1] = None.
Proof.
  split; [split; [discriminate|split; [repeat constructor; cbn; lia|reflexivity]]|].
  intros [|fuel]; [reflexivity|]. cbn [flatten_access existsb forallb is_par orb andb].
  assert (S : slice fuel ex_e [IPar (Some 1); IVar 0; IVar 1] = None); [|rewrite S; reflexivity].
  set (acc := fun vs => access ex_e (fill [(1, 2); (1, 0); (1, 0)] [IPar (Some 1); IVar 0; IVar 1] vs)).
  assert (A : forall n v, 1 <= v -> run n [(1, 0); (1, 0)] acc ([v; 1], [1%nat; 0%nat], []) = None /\ run n [(1, 0); (1, 0)] acc ([v; 1], [0%nat], []) = None).
  { induction n as [|n IH]; intros v V; [split; reflexivity|]. split.
    - cbn [run turn nth length Nat.eqb Nat.sub fst snd zrange map collect app]. apply IH. exact V.
    - cbn [run turn nth length Nat.eqb Nat.sub fst snd]. assert (Q : (v =? 0) = false) by (apply Z.eqb_neq; lia). rewrite Q.
      cbn [set_at firstn skipn app seq rev nth]. apply IH. lia. }
  destruct (A fuel 1 ltac:(lia)) as [B _].
  unfold slice. change (var_dims (adims ex_e) [IPar (Some 1); IVar 0; IVar 1]) with [(1, 0); (1, 0)]. cbv zeta.
  match goal with |- match ?t with _ => _ end = _ => change t with (run fuel [(1, 0); (1, 0)] acc ([1; 1], [1%nat; 0%nat], [])) end.
  rewrite B. reflexivity.
Qed.
Print Assumptions C90_ends_refuted.

(** x[2, y[i], j] with y = [3, 1] over 5..6, in an array over 1..2, 0..3, 1..2: a slice with eight elements is left;
    and x[y[i]] becomes one access *)
Example C90_nonvacuous :
  let x := mkArr [(1, 2); (0, 3); (1, 2)] [10; 11; 12; 13; 14; 15; 16; 17; 20; 21; 22; 23; 24; 25; 26; 27] in
  let y := mkArr [(5, 6)] [3; 1] in
  let l := [IPar (Some 2); IAcc y [IVar 0]; IVar 1] in
  let r := fun k => match k with 0%nat => 6 | _ => 2 end in
  wf x /\ length l = length (adims x) /\ Forall ix_ok l /\ Forall ix_nonempty l /\ nonempty (adims x) /\
  flatten_access 20 x l = Some (OElement (mkArr [(0, 3); (1, 2)] [20; 21; 22; 23; 24; 25; 26; 27]) [IAcc y [IVar 0]; IVar 1]) /\
  source_value r x l = Some (Some 23) /\ source_value (fun _ => 0) x l = None /\
  flatten_access 20 (mkArr [(0, 3)] [7; 8; 9; 6]) [IAcc y [IVar 0]] = Some (OElement (mkArr [(5, 6)] [6; 8]) [IVar 0]).
Proof.
  cbv zeta.
  assert (W : wf (mkArr [(5, 6)] [3; 1])) by (split; [discriminate|split; [repeat constructor; cbn; lia|reflexivity]]).
  split; [split; [discriminate|split; [repeat constructor; cbn; lia|reflexivity]]|].
  split; [reflexivity|].
  split; [constructor; [discriminate|constructor; [apply ix_ok_acc; split; [exact W|split; [reflexivity|repeat constructor]]|repeat constructor]]|].
  split; [constructor; [exact I|constructor; [apply ix_nonempty_acc; split; [repeat constructor; cbn; lia|repeat constructor]|repeat constructor]]|].
  split; [repeat constructor; cbn; lia|]. repeat split; reflexivity.
Qed.
(** x[<>, 2] is absent, x[<>, <>] too, x[<>, 7] is undefined *)
Example C90_nonvacuous_fixed :
  flatten_access 1 ex_a [IPar None; IPar (Some 2)] = Some (OFixed None) /\ flatten_access 1 ex_a [IPar None; IPar None] = Some (OFixed None) /\
  flatten_access 1 ex_a [IPar None; IPar (Some 7)] = Some OUndef /\ flatten_access 1 ex_a [IPar (Some 2); IPar (Some 1)] = Some (OFixed (Some 30)).
Proof. repeat split; reflexivity. Qed.
