(** C23, C24, C25 and C59: the trail, KeepAlive handles, markers, weak references and weak maps. *)
Require Import ZArith List Bool Lia.
From Verif Require Import Base RootModel RootSpec RootProofs RootProofs2 RootProofs3.
Import ListNotations.
Open Scope Z_scope.

(** ** C23 *)

(** The trail behaves like a stack of frames of saved values: after any sequence of operations the memory is the same, and the
    trail fails (untrail without a mark) exactly if there is no frame. *)
Theorem C23_refines : forall ops m,
  match trail_run ops ([], m), abs_run ops ([], m) with
  | Ok (_, m1), Some (_, m2) => forall x, m1 x = m2 x
  | UB, None => True
  | _, _ => False
  end.
Proof. intros ops m. apply C23_refines_l; [apply (trel_bottom []); repeat constructor|reflexivity]. Qed.
Print Assumptions C23_refines.

(** In particular a section of trailed writes and nested sections is undone by the matching untrail: the memory is the one
    before the mark, and the trail too. *)
Theorem C23_restores : forall b, trailed b -> forall t m, exists m',
  trail_run (OMark :: b ++ [OUntrail]) (t, m) = Ok (t, m') /\ forall x, m' x = m x.
Proof. exact C23_restores_l. Qed.
Print Assumptions C23_restores.

Definition ex_section : list trail_op :=
  [OTrail 1; OSet 1 (VNode 7); OMark; OTrail 1; OSet 1 VNull; OTrail 2; OSet 2 (VUnboxed 5); OUntrail; OTrail 1; OSet 1 (VNode 8)].
Example C23_nonvacuous : trailed ex_section /\
  exists t m, trail_run (OMark :: ex_section) ([], fun _ => VNull) = Ok (t, m) /\ m 1 = VNode 8 /\ m 2 = VNull.
Proof.
  split.
  - unfold ex_section. apply trailed_write. apply (trailed_nest [OTrail 1; OSet 1 VNull; OTrail 2; OSet 2 (VUnboxed 5)] [OTrail 1; OSet 1 (VNode 8)]); repeat constructor.
  - eexists. eexists. split; [reflexivity|]. split; reflexivity.
Qed.

(** ** C24 *)

(** After every history of KeepAlive handles the collector's loop visits, each once, exactly the handles that hold a node, and
    every handle holds what it should. *)
Theorem C24_roots : forall ops d, held_run (fun _ => None) ops d ->
  exists s L, ka_run ops hl_init = Ok s /\ (forall a, option_map h_e (hl_m s a) = d a) /\
    visits (hl_m s) (hl_head s) L /\ NoDup L /\ forall a, In a L <-> exists x, d a = Some (VNode x).
Proof. exact C24_l. Qed.
Print Assumptions C24_roots.

(** The same for markers: the collector's loop visits, each once, exactly the markers that exist; if there is none it is not
    entered. *)
Theorem C24_markers : forall ops d, exist_run (fun _ => false) ops d ->
  exists s, marker_run ops ring_init = Ok s /\
    ((r_root s = 0 /\ forall a, d a = false) \/
     (r_root s <> 0 /\ exists L, ring_visits (r_m s) (r_root s) (r_root s) L /\ NoDup L /\ forall a, In a L <-> d a = true)).
Proof. exact C24_markers_l. Qed.
Print Assumptions C24_markers.

Example C24_nonvacuous : exists d,
  held_run (fun _ => None) [KNew 1 (VNode 10); KNew 2 (VUnboxed 3); KCopy 3 1; KMove 4 1; KAssign 2 3; KAssign 3 1; KDel 4] d /\
  d 2 = Some (VNode 10) /\ d 3 = Some VNull /\ d 1 = Some VNull /\ d 4 = None.
Proof.
  eexists. split.
  - eapply hr_cons; [apply hs_new; split; [discriminate|reflexivity]|].
    eapply hr_cons; [apply hs_new; split; [discriminate|reflexivity]|].
    eapply hr_cons; [eapply hs_copy; [split; [discriminate|reflexivity]|reflexivity]|].
    eapply hr_cons; [eapply hs_move; [split; [discriminate|reflexivity]|reflexivity]|].
    eapply hr_cons; [eapply hs_assign; reflexivity|].
    eapply hr_cons; [eapply hs_assign; reflexivity|].
    eapply hr_cons; [eapply hs_del; reflexivity|]. apply hr_nil.
  - repeat split; reflexivity.
Qed.
Example C24_markers_nonvacuous : exists d, exist_run (fun _ => false) [MAdd 1; MAdd 2; MAdd 3; MRemove 1; MAdd 4; MRemove 3] d /\
  d 2 = true /\ d 4 = true /\ d 1 = false /\ d 3 = false.
Proof.
  eexists. split.
  - eapply er_cons; [apply es_add; [discriminate|reflexivity]|]. eapply er_cons; [apply es_add; [discriminate|reflexivity]|].
    eapply er_cons; [apply es_add; [discriminate|reflexivity]|]. eapply er_cons; [apply es_rem; reflexivity|].
    eapply er_cons; [apply es_add; [discriminate|reflexivity]|]. eapply er_cons; [apply es_rem; reflexivity|]. apply er_nil.
  - repeat split; reflexivity.
Qed.

(** ** C25 *)

(** For histories in which every collection keeps the target of the reference registered last: no operation fails, and a weak
    reference yields its target or null, and never a node that has been collected.  If references are neither copied nor assigned
    to each other, all of them except the one registered last yield exactly their target (null once it has been collected).
    Missing from the full property: the collections in which the target of the last registered reference dies
    (C25_dangling_refuted), and the value of the last registered reference and of its copies (C25_head_refuted). *)
Theorem C25_safe_partial : forall ops d alive fuel,
  weak_run (fun _ => None, fun _ => false) ops (d, alive) -> (length ops < fuel)%nat ->
  heads_survive fuel ops wr_init ->
  exists s al, wr_run fuel ops wr_init = Ok (s, al) /\ (forall x, al x = alive x) /\
    forall a, match d a, hl_m s a with
              | Some v, Some h => (wr_deref h = VNull \/ wr_deref h = v) /\ val_alive alive (wr_deref h) /\
                                  (no_copies ops -> a <> hl_head s -> wr_deref h = v)
              | None, None => True
              | _, _ => False
              end.
Proof. exact C25_l. Qed.
Print Assumptions C25_safe_partial.

(** Three references; the collection frees the target of the first one. *)
Definition ex_weak : list wr_op :=
  [WNode 10; WNode 11; WNew 1 (VNode 10); WNew 2 (VNode 11); WNew 3 (VNode 11); WCollect (fun x => x =? 11)].
Example C25_nonvacuous : exists d alive s al h1 h2,
  weak_run (fun _ => None, fun _ => false) ex_weak (d, alive) /\ heads_survive 7 ex_weak wr_init /\ no_copies ex_weak /\
  wr_run 7 ex_weak wr_init = Ok (s, al) /\ hl_m s 1 = Some h1 /\ wr_deref h1 = VNull /\ hl_m s 2 = Some h2 /\ wr_deref h2 = VNode 11.
Proof.
  eexists. eexists. eexists. eexists. eexists. eexists. split; [|split; [|split; [|split; [reflexivity|]]]].
  - eapply wrn_cons; [apply ws_node; reflexivity|]. eapply wrn_cons; [apply ws_node; reflexivity|].
    eapply wrn_cons; [apply ws_new; [split; [discriminate|reflexivity]|reflexivity]|].
    eapply wrn_cons; [apply ws_new; [split; [discriminate|reflexivity]|reflexivity]|].
    eapply wrn_cons; [apply ws_new; [split; [discriminate|reflexivity]|reflexivity]|].
    eapply wrn_cons; [apply ws_collect|]. apply wrn_nil.
  - repeat (split; [exact I|]; intros ? H; injection H as <-). split; [|intros; exact I].
    intros h x H E. cbn in H. injection H as <-. cbn in E. injection E as <-. reflexivity.
  - intros o H. repeat (destruct H as [<-|H]; [exact I|]). destruct H.
  - repeat split; reflexivity.
Qed.

(** The reference registered last yields null although its target is alive: operator() takes a null _p for "cleared", but the
    first element of the list has no predecessor.  Copies of it are lost for good. *)
Theorem C25_head_refuted : exists ops d alive s al h,
  weak_run (fun _ => None, fun _ => false) ops (d, alive) /\ heads_survive 5 ops wr_init /\
  wr_run 5 ops wr_init = Ok (s, al) /\
  d 1 = Some (VNode 10) /\ d 2 = Some (VNode 10) /\ alive 10 = true /\ hl_m s 2 = Some h /\ wr_deref h = VNull /\ h_e h = VNull.
Proof.
  exists [WNode 10; WNew 1 (VNode 10); WCopy 2 1]. eexists. eexists. eexists. eexists. eexists. split; [|split; [|split; [reflexivity|]]].
  - eapply wrn_cons; [apply ws_node; reflexivity|].
    eapply wrn_cons; [apply ws_new; [split; [discriminate|reflexivity]|reflexivity]|].
    eapply wrn_cons; [eapply ws_copy; [split; [discriminate|reflexivity]|reflexivity]|]. apply wrn_nil.
  - repeat (split; [exact I|]; intros ? H; injection H as <-). exact I.
  - repeat split; reflexivity.
Qed.
Print Assumptions C25_head_refuted.

(** A reference that yields a node that has been collected: the collector does not clear the reference registered last, since
    operator() returns null for it, and once another one is registered it yields the freed node. *)
Theorem C25_dangling_refuted : exists ops d alive s al h,
  weak_run (fun _ => None, fun _ => false) ops (d, alive) /\
  wr_run 9 ops wr_init = Ok (s, al) /\ hl_m s 1 = Some h /\ wr_deref h = VNode 10 /\ al 10 = false.
Proof.
  exists [WNode 10; WNew 1 (VNode 10); WCollect (fun _ => false); WNode 11; WNew 2 (VNode 11)].
  eexists. eexists. eexists. eexists. eexists. split; [|split; [reflexivity|]].
  - eapply wrn_cons; [apply ws_node; reflexivity|].
    eapply wrn_cons; [apply ws_new; [split; [discriminate|reflexivity]|reflexivity]|].
    eapply wrn_cons; [apply ws_collect|]. eapply wrn_cons; [apply ws_node; reflexivity|].
    eapply wrn_cons; [apply ws_new; [split; [discriminate|reflexivity]|reflexivity]|]. apply wrn_nil.
  - repeat split; reflexivity.
Qed.
Print Assumptions C25_dangling_refuted.

(** ** C59 *)

(** A collection keeps exactly the entries of a weak map whose key and value both survive. *)
Theorem C59_weak_map : forall marked m, NoDup (map fst m) ->
  forall k v, In (k, v) (weak_map_fix marked m) <-> In (k, v) m /\ marked k = true /\ marked v = true.
Proof. exact weak_map_l. Qed.
Print Assumptions C59_weak_map.

(** A collection keeps exactly the entries of the table of common subexpressions with two surviving nodes as results; entries
    with a result that is not a node (an unboxed integer, a Boolean that is absent) are dropped. *)
Theorem C59_cse : forall marked m, NoDup (map fst m) -> forall k r b, In (k, (r, b)) (cse_fix marked m) <->
  In (k, (r, b)) m /\ (exists x, r = VNode x /\ marked x = true) /\ (exists y, b = VNode y /\ marked y = true).
Proof. exact cse_l. Qed.
Print Assumptions C59_cse.

Example C59_nonvacuous :
  weak_map_fix (fun x => x <? 5) [(1, 2); (3, 7); (8, 4); (4, 4)] = [(1, 2); (4, 4)] /\
  cse_fix (fun x => x <? 5) [(1, (VNode 2, VNode 3)); (2, (VNode 2, VNode 9)); (3, (VUnboxed 1, VNode 1))] = [(1, (VNode 2, VNode 3))] /\
  NoDup (map fst [(1, 2); (3, 7); (8, 4); (4, 4)]).
Proof. repeat split; try reflexivity. repeat constructor; cbn; intuition discriminate. Qed.
