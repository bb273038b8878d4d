(** C49: declarations are ordered before their uses. *)
Require Import ZArith List Bool Lia Relations Permutation.
From Verif Require Import Base TopoModel TopoSpec TopoProofs TopoProofs2.
Import ListNotations.
Open Scope Z_scope.

(** In the sorted model every item occurs as often as before, and before each declaration are all declarations it
    depends on. *)
Theorem C49_order : forall is_ out, tree is_ -> toposort is_ = Ok out ->
  Permutation is_ out /\
  (forall l1 d l2, out = l1 ++ IDecl d :: l2 -> forall d', dep is_ d d' -> In (IDecl d') l1).
Proof. exact order_ok. Qed.
Print Assumptions C49_order.

(** include items come first, then the declarations, then all other items; include items and other items keep their
    order *)
Theorem C49_shape : forall is_ out, tree is_ -> toposort is_ = Ok out ->
  exists ds, Permutation ds (filter (fun i => rank i =? 1) is_) /\
    out = filter (fun i => rank i =? 0) is_ ++ ds ++ filter (fun i => rank i =? 2) is_.
Proof. exact shape_ok. Qed.
Print Assumptions C49_shape.

(** Exactly the models are accepted in which every used name is declared, no name is declared twice in a scope, and no
    declaration depends on itself. *)
Theorem C49_accepts : forall is_, tree is_ ->
  ((exists out, toposort is_ = Ok out) <-> well_defined is_ /\ acyclic is_).
Proof. exact accepts_ok. Qed.
Print Assumptions C49_accepts.

(** Other models are rejected with a type error: sorting always terminates and no assertion fails. *)
Theorem C49_terminates : forall is_, tree is_ -> (exists out, toposort is_ = Ok out) \/ toposort is_ = Err TypeError.
Proof. exact total_ok. Qed.
Print Assumptions C49_terminates.

(** constraint c + (let {int: a = b} in a); int: b = a; int: a; int: c; include; function f(int: a) = a *)
Definition ex_a := EDecl 10 (Some 1) [ENode [] []] [].
Definition ex_b := EDecl 11 (Some 2) [ENode [] []; EId 1] [EId 3].
Definition ex_c := EDecl 12 (Some 3) [ENode [] []] [].
Definition ex_model : list item :=
  [ IExpr [ENode [] [EId 3; EScope [] [EDecl 20 (Some 1) [EId 2] []] (EId 1)]];
    IDecl ex_b; IDecl ex_a; IDecl ex_c; IInclude;
    IFun [ENode [] []] [EDecl 21 (Some 1) [ENode [] []] []] [] (EId 1) ].
Example C49_nonvacuous :
  tree ex_model /\ dep ex_model ex_b ex_a /\ dep ex_model ex_b ex_c /\
  toposort ex_model = Ok [IInclude; IDecl ex_c; IDecl ex_a; IDecl ex_b;
    IExpr [ENode [] [EId 3; EScope [] [EDecl 20 (Some 1) [EId 2] []] (EId 1)]];
    IFun [ENode [] []] [EDecl 21 (Some 1) [ENode [] []] []] [] (EId 1)].
Proof.
  split; [|split; [|split]].
  - split.
    + cbn. repeat constructor; cbn; intuition discriminate.
    + cbn. intros d H. repeat (destruct H as [H|H]; [try discriminate; injection H as <-; do 4 eexists; reflexivity|]). destruct H.
  - split; [cbn; auto|]. split; [cbn; auto|]. exists 1. split; [reflexivity|]. eapply F_decl; [left; right; left; reflexivity|constructor].
  - split; [cbn; auto|]. split; [cbn; auto|]. exists 3. split; [reflexivity|]. eapply F_decl; [right; left; reflexivity|constructor].
  - vm_compute. reflexivity.
Qed.

(** int: a = let {int: c = b} in c; int: b = a *)
Definition ex_cycle : list item :=
  [ IDecl (EDecl 10 (Some 1) [EScope [] [EDecl 20 (Some 3) [EId 2] []] (EId 3)] []); IDecl (EDecl 11 (Some 2) [EId 1] []) ].
Example C49_reject_nonvacuous :
  tree ex_cycle /\ toposort ex_cycle = Err TypeError /\ ~ acyclic ex_cycle /\
  toposort [IDecl (EDecl 10 (Some 1) [EScope [] [EDecl 20 (Some 2) [EId 3] []; EDecl 21 (Some 3) [] []] (EId 2)] [])] = Err TypeError.
Proof.
  split; [|split; [|split]].
  - split.
    + cbn. repeat constructor; cbn; intuition discriminate.
    + cbn. intros d H. repeat (destruct H as [H|H]; [try discriminate; injection H as <-; do 4 eexists; reflexivity|]). destruct H.
  - vm_compute. reflexivity.
  - intros A. set (d := EDecl 10 (Some 1) [EScope [] [EDecl 20 (Some 3) [EId 2] []] (EId 3)] []).
    set (d' := EDecl 11 (Some 2) [EId 1] []). apply (A d). apply t_trans with d'; apply t_step.
    + split; [now left|]. split; [right; now left|]. exists 2. split; [reflexivity|].
      eapply F_decl; [left; left; reflexivity|]. apply F_scope. apply FS_item. eapply F_decl; [left; left; reflexivity|]. constructor.
    + split; [right; now left|]. split; [now left|]. exists 1. split; [reflexivity|]. eapply F_decl; [left; left; reflexivity|]. constructor.
  - vm_compute. reflexivity.
Qed.
