(** C89: the flattened form of an if-then-else. *)
Require Import ZArith List Bool Lia.
From Verif Require Import IteModel IteSpec IteProofs IteProofs2.
Import ListNotations.
Open Scope Z_scope.

(** A constraint if c1 then b1 elseif ... else bn endif, with branches that may be conjunctions of equations: the
    flattened form is satisfied exactly by the assignments that satisfy the first branch whose condition holds. *)
Theorem C89_constraint : forall M dom lit bnd isint cs bs a,
  sound_bounds M dom bnd -> sound_lit M dom lit -> length bs = S (length cs) -> dom a ->
  (flat_true M lit a (flatten_root bnd isint cs bs) <->
   exists m b, taken M a cs m /\ nth_error bs m = Some b /\ holds M b a).
Proof. exact flatten_root_ok. Qed.
Print Assumptions C89_constraint.

(** In any other position the new variable has exactly the value of the branch taken, and the definedness variable is
    exactly the definedness of that branch: the other branches may be undefined. *)
Theorem C89_value : forall M dom lit bnd cs es a y b,
  sound_bounds M dom bnd -> sound_lit M dom lit -> length es = S (length cs) -> dom a ->
  (flatv_true M lit a (flatten_value bnd cs es) y b <->
   exists m e, taken M a cs m /\ nth_error es m = Some e /\ y = value M e a /\ b = defined M e a).
Proof. exact flatten_value_ok. Qed.
Print Assumptions C89_value.

(** For every assignment there is exactly one branch taken. *)
Theorem C89_taken : forall M a cs, exists m, taken M a cs m /\ forall n, taken M a cs n -> n = m.
Proof.
  intros M a cs. destruct (taken_exists M a cs) as [m T]. exists m. split; [exact T|].
  intros n Tn. exact (taken_unique M a cs n m Tn T).
Qed.
Print Assumptions C89_taken.

(** Full statement for tuples: the same as C89_tuple_partial without flat_type; C89_tuple_refuted shows that it is false.
    Proved: the fields of the result are the fields of the branch taken, for tuples and records whose fields are not
    themselves tuples or records. *)
Theorem C89_tuple_partial : forall t vs ev, flat_type t -> Forall (fun v => has_type v t) vs -> has_type ev t ->
  exists rs, struct_split t (map SThen (seq 0 (length vs))) SElse = Some rs /\
    (forall j v, nth_error vs j = Some v -> result_leaves vs ev rs (Some j) = map (fun z => Some (VLeaf z)) (leaves v)) /\
    result_leaves vs ev rs None = map (fun z => Some (VLeaf z)) (leaves ev).
Proof. exact struct_flat. Qed.
Print Assumptions C89_tuple_partial.

(** The else branch is right for all types. *)
Theorem C89_tuple_else : forall t vs ev rs, has_type ev t ->
  struct_split t (map SThen (seq 0 (length vs))) SElse = Some rs ->
  result_leaves vs ev rs None = map (fun z => Some (VLeaf z)) (leaves ev).
Proof. intros t vs ev rs T E. exact (split_else vs ev t _ _ rs ev E eq_refl T). Qed.
Print Assumptions C89_tuple_else.

(** if c then ((1, 2), 3) elseif d then ((4, 5), 6) else ((7, 8), 9) endif: where d is taken the inner tuple is (1, 2). *)
Theorem C89_tuple_refuted :
  let t := STup [STup [SLeaf; SLeaf]; SLeaf] in
  let v x y z := VTup [VTup [VLeaf x; VLeaf y]; VLeaf z] in
  let vs := [v 1 2 3; v 4 5 6] in
  Forall (fun v => has_type v t) vs /\ has_type (v 7 8 9) t /\
  exists rs, struct_split t (map SThen (seq 0 (length vs))) SElse = Some rs /\
    result_leaves vs (v 7 8 9) rs (Some 1%nat) = map (fun z => Some (VLeaf z)) [1; 2; 6].
Proof.
  assert (T : forall x y z, has_type (VTup [VTup [VLeaf x; VLeaf y]; VLeaf z]) (STup [STup [SLeaf; SLeaf]; SLeaf])) by (intros; repeat constructor).
  split; [repeat constructor; apply T|]. split; [apply T|]. eexists. split; reflexivity.
Qed.
Print Assumptions C89_tuple_refuted.

(** if c then (3, (1, 2)) else (6, (4, 5)) endif: an access past the end of a vector. *)
Theorem C89_tuple_refuted_access :
  let t := STup [SLeaf; STup [SLeaf; SLeaf]] in
  let v x y z := VTup [VLeaf x; VTup [VLeaf y; VLeaf z]] in
  has_type (v 3 1 2) t /\ has_type (v 6 4 5) t /\
  struct_split t (map SThen (seq 0 1)) SElse = None.
Proof. split; [repeat constructor|]. split; [repeat constructor|]. reflexivity. Qed.
Print Assumptions C89_tuple_refuted_access.

(** if c then x = 5 /\ y = 1 elseif false then x = 0 else x = e /\ p endif, where e is 10 div z: x gets its own
    conditional, y = 1 and p share one, the domain 0..20 comes from the bounds of 5 and e, and definedness is passed on. *)
Definition exM : meaning :=
  {| opv := fun k a => match k with 0%nat => 5 | 1%nat => 1 | 2%nat => 10 / a 2%nat | _ => 0 end;
     opd := fun k a => match k with 2%nat => negb (a 2%nat =? 0) | _ => true end;
     absent := 0;
     opb := fun _ a => a 1%nat =? 7;
     opc := fun _ a => a 3%nat =? 1 |}.
Definition ex_dom (a : assignment) : Prop := 1 <= a 2%nat.
Definition ex_bnd (e : exp) : option ends := match e with EOp 0 => Some (Some 5, Some 5) | EOp 2 => Some (Some 0, Some 20) | _ => None end.
Definition ex_lit (e : exp) : bool := match e with EOp 0 | EOp 1 => true | _ => false end.
Definition ex_bs : list bexp :=
  [BAnd (BEq true (EId 0) (EOp 0)) (BEq true (EOp 1) (EId 1)); BEq true (EId 0) (EOp 3); BAnd (BEq true (EId 0) (EOp 2)) (BOp 0)].
Example C89_nonvacuous :
  sound_bounds exM ex_dom ex_bnd /\ sound_lit exM ex_dom ex_lit /\
  flatten_root ex_bnd (fun _ => true) [CVar 0; CPar false] ex_bs =
    Emit [(CVar 0, Some 0%nat); (CPar false, None); (CPar true, Some 2%nat)]
         [(Some 0%nat, [BrE (EOp 0); BrE (EOp 3); BrE (EOp 2)]);
          (None, [BrB [BEq true (EOp 1) (EId 1)]; BrB []; BrB [BOp 0]])]
         [(0%nat, (Some 0, Some 20))] /\
  ex_dom (fun _ => 1) /\ taken exM (fun _ => 1) [CVar 0; CPar false] 0 /\
  taken exM (fun _ => 2) [CVar 0; CPar false] 2 /\
  flatten_root ex_bnd (fun _ => true) [CPar false; CPar true] ex_bs = Direct (BEq true (EId 0) (EOp 3)).
Proof.
  split.
  { intros e d a E D. unfold ex_dom in D. destruct e as [x| |[|[|[|k]]]]; cbn in E; try discriminate; injection E as <-; unfold in_ends; cbn.
    - lia.
    - split; [apply Z.div_pos; lia|]. apply Z.div_le_upper_bound; lia. }
  split.
  { intros e a E D. destruct e as [x| |[|[|k]]]; try discriminate; reflexivity. }
  split; [reflexivity|]. split; [unfold ex_dom; lia|].
  split; [apply taken_cons; left; split; reflexivity|].
  split; [|reflexivity].
  apply taken_cons. right. exists 1%nat. split; [reflexivity|]. split; [reflexivity|].
  apply taken_cons. right. exists 0%nat. split; [reflexivity|]. split; [reflexivity|]. apply taken_nil. reflexivity.
Qed.
(** two fields, three branches *)
Example C89_nonvacuous_tuple :
  flat_type (STup [SLeaf; SLeaf]) /\ Forall (fun v => has_type v (STup [SLeaf; SLeaf])) [VTup [VLeaf 1; VLeaf 2]; VTup [VLeaf 3; VLeaf 4]] /\
  has_type (VTup [VLeaf 5; VLeaf 6]) (STup [SLeaf; SLeaf]) /\
  struct_split (STup [SLeaf; SLeaf]) (map SThen (seq 0 2)) SElse =
    Some [([SFld (SThen 0) 0; SFld (SThen 1) 0], SFld SElse 0); ([SFld (SThen 0) 1; SFld (SThen 1) 1], SFld SElse 1)].
Proof.
  split; [exists [SLeaf; SLeaf]; split; [reflexivity|intros f [<-|[<-|[]]]; reflexivity]|].
  split; [repeat constructor|]. split; [repeat constructor|reflexivity].
Qed.
