(** C22: the garbage collected heap. *)
Require Import ZArith List Bool Lia.
From Verif Require Import Base RootModel GcModel GcSpec GcProofs GcProofs2 GcProofs3 GcProofs4 GcProofs5 GcProofs6 GcProofs7.
Import ListNotations.
Open Scope Z_scope.

(** A collection in any state a program can reach terminates, and afterwards the objects are exactly those that were reachable
    from the roots, with their contents (the weak pointer of a declaration to its flat version is cleared if that is gone).
    Partial: the function declaration of an operator is not followed (C22_operator_refuted), there has to be a marker
    (C22_marker_refuted), and objects are not resized by Call::args (C22_args_refuted). *)
Theorem C22_collect_partial : forall h keep markers trail, heap_state h -> typed_roots (hp_mem h) keep markers trail -> markers <> [] ->
  let lv := live (hp_mem h) (root_refs keep markers trail) in
  exists h' N, (forall fuel, (N <= fuel)%nat -> trigger fuel keep markers trail h = Ok h') /\
    forall a k', contents h' a = Some k' <-> exists k, contents h a = Some k /\ lv a /\ survives lv k k'.
Proof. exact collect_spec. Qed.
Print Assumptions C22_collect_partial.

(** An allocation succeeds whenever malloc does; the new object is at an address where there was none, and no other object changes. *)
Theorem C22_alloc : forall h k base, heap_state h -> free_kind k = false -> malloc_ok h k base ->
  exists h' a, gc_new k base h = Ok (h', a) /\ a <> 0 /\ contents h a = None /\ contents h' a = Some k /\ forall x, x <> a -> contents h' x = contents h x.
Proof. exact alloc_spec. Qed.
Print Assumptions C22_alloc.

(** Objects lie inside of the pages and do not overlap. *)
Theorem C22_extents : forall h a k, heap_state h -> contents h a = Some k ->
  (exists p, In p (hp_pages h) /\ p_base p <= a /\ a + nodesize k <= p_base p + p_size p) /\
  forall b k', contents h b = Some k' -> b <> a -> apart a (nodesize k) b (nodesize k').
Proof. exact extents_spec. Qed.
Print Assumptions C22_extents.

(** No object holds a dangling pointer (of those that the collector follows), and flat is null or a declaration. *)
Theorem C22_no_dangling : forall h a k, heap_state h -> contents h a = Some k ->
  (forall r, In r (refs k) -> contents h r <> None) /\ (flat_of k = 0 \/ exists k', contents h (flat_of k) = Some k' /\ is_vardecl k' = true).
Proof. exact safe_spec. Qed.
Print Assumptions C22_no_dangling.

(** The accounting is exact: allocated memory is the sum of the pages, memory in use is the sum of the objects, and free memory is
    the sum of the free list nodes and of the unused ends of the pages. *)
Theorem C22_accounting : forall h, heap_state h -> exists objs, objects_of h objs /\
  hp_alloced h = sum (map p_size (hp_pages h)) /\
  hp_alloced h - hp_free h = sum (map (object_size h) objs) /\
  hp_free h = sum (map (fun s => (24 + 8 * s) * Z.of_nat (length (hp_fl h s))) all_slots) + sum (map (fun p => p_size p - p_used p) (hp_pages h)) /\
  0 <= hp_free h <= hp_alloced h.
Proof. exact accounting_spec. Qed.
Print Assumptions C22_accounting.

(** Replacing the arguments of a call, or turning an operator into a call, keeps the size of the node, as the assignments in
    [heap_state] have to.  Partial: not for calls whose arguments have been replaced before (C22_args_refuted). *)
Theorem C22_args_partial : forall m new vecp hd u ck data args e', 0 <= ck <= 5 ->
  call_args m new vecp (ECall hd u ck data args) = Ok e' -> expr_size e' = expr_size (ECall hd u ck data args).
Proof. exact call_args_spec. Qed.
Print Assumptions C22_args_partial.
Theorem C22_morph : forall m ident new vecp l r d e', binop_morph m ident new vecp (EBinOp l r d) = Ok e' -> expr_size e' = expr_size (EBinOp l r d).
Proof. exact binop_morph_spec. Qed.
Print Assumptions C22_morph.

(** ** A concrete history: a declaration x with identifier, string and vector, a cycle between the identifier and the declaration,
    a second declaration that is the flat version of x and only weakly referenced, and garbage on a page of its own. *)
Definition ex_new (k : kind) (base : Z) (h : heap) : heap * ptr := match gc_new k base h with Ok r => r | _ => (heap_init, 0) end.
Definition ex_b : Z := 4096.
Definition ex_s := ex_new (KStr 9) ex_b heap_init.                                        (* name of x *)
Definition ex_id := ex_new (KExpr 0 [] (EId true (snd ex_s) VNull)) 16777216 (fst ex_s).
Definition ex_vec := ex_new (KVec [VUnboxed 3; VNode (snd ex_id)]) 16777216 (fst ex_id).
Definition ex_al := ex_new (KExpr 0 [] (EArrayLit false (snd ex_vec) 0)) 16777216 (fst ex_vec).
Definition ex_flat := ex_new (KExpr 0 [] (EVarDecl VNull VNull VNull 0)) 16777216 (fst ex_al).
Definition ex_x := ex_new (KExpr 0 [] (EVarDecl VNull (VNode (snd ex_id)) (VNode (snd ex_al)) (snd ex_flat))) 16777216 (fst ex_flat).
Definition ex_h6 := store_at (fst ex_x) (snd ex_id) (KExpr 0 [] (EId true (snd ex_s) (VNode (snd ex_x)))).
Definition ex_big := ex_new (KStr 100) 8388608 ex_h6.
Definition ex_h : heap := fst ex_big.

Lemma ex_new_state : forall k base h, heap_state h -> free_kind k = false -> typed_kind (hp_mem h) k -> malloc_ok h k base -> heap_state (fst (ex_new k base h)).
Proof.
  intros k base h Hh Hf Tk Hm. destruct (alloc_spec h k base Hh Hf Hm) as (h' & a & E & _). unfold ex_new. rewrite E. exact (hs_new h k base h' a Hh Hf Tk Hm E).
Qed.
Ltac pt := eexists; split; [vm_compute; reflexivity|reflexivity].
Ltac mok := split; [reflexivity|]; match goal with |- Forall _ (hp_pages ?h) => let l := eval vm_compute in (hp_pages h) in change (hp_pages h) with l end;
  repeat (apply Forall_cons; [first [left; vm_compute; congruence|right; vm_compute; congruence]|]); apply Forall_nil.
Lemma ex_state_x : heap_state (fst ex_x).
Proof.
  unfold ex_x. apply ex_new_state; [|reflexivity| |mok].
  + unfold ex_flat. apply ex_new_state; [|reflexivity|split; [left; reflexivity|]; split; [constructor|]; split; [exact I|]; split; [exact I|]; split; [exact I|left; reflexivity]|mok].
    unfold ex_al. apply ex_new_state; [|reflexivity| |mok].
    * unfold ex_vec. apply ex_new_state; [|reflexivity| |mok].
      -- unfold ex_id. apply ex_new_state; [|reflexivity| |mok].
         ++ unfold ex_s. apply ex_new_state; [apply hs_init|reflexivity|cbn; lia|mok].
         ++ split; [left; reflexivity|]. split; [constructor|]. split; [|exact I]. intros _. right. pt.
      -- constructor; [exact I|]. constructor; [|constructor]. pt.
    * split; [left; reflexivity|]. split; [constructor|]. split; [right; pt|left; reflexivity].
  + split; [left; reflexivity|]. split; [constructor|]. split; [exact I|]. split; [pt|]. split; [pt|]. right. pt.
Qed.
Lemma ex_state : heap_state ex_h.
Proof.
  unfold ex_h, ex_big. apply ex_new_state; [|reflexivity|apply Z.leb_le; reflexivity|mok].
  unfold ex_h6. eapply hs_write; [exact ex_state_x|vm_compute; reflexivity|reflexivity|reflexivity|].
  destruct (state_inv _ ex_state_x) as (_ & _ & T). eapply write_typed; [exact T|vm_compute; reflexivity| |].
  - intros P [_ C2]. intros H. rewrite <- H. apply C2. reflexivity.
  - split; [left; reflexivity|]. split; [constructor|]. split; [|pt]. intros _. right. pt.
Qed.
Definition ex_get (r : res heap) : heap := match r with Ok h => h | _ => heap_init end.
Definition ex_ok (r : res heap) : bool := match r with Ok _ => true | _ => false end.
Lemma ex_get_ok : forall r, ex_ok r = true -> r = Ok (ex_get r).
Proof. intros [h| |] H; [reflexivity|discriminate|discriminate]. Qed.

Definition ex_after : heap := ex_get (trigger 30 [VNode (snd ex_x)] [[]] [] ex_h).
(** x, its identifier and name, its array and vector survive; the flat version is collected and its pointer cleared; the page of
    the long string is given back. *)
Example C22_nonvacuous : heap_state ex_h /\ typed_roots (hp_mem ex_h) [VNode (snd ex_x)] [[]] [] /\
  trigger 30 [VNode (snd ex_x)] [[]] [] ex_h = Ok ex_after /\
  map (fun a => contents ex_after a) [snd ex_s; snd ex_id; snd ex_vec; snd ex_al; snd ex_flat; snd ex_x; snd ex_big] =
    [Some (KStr 9); Some (KExpr 0 [] (EId true 4096 (VNode 4328))); Some (KVec [VUnboxed 3; VNode 4128]); Some (KExpr 0 [] (EArrayLit false 4176 0));
     None; Some (KExpr 0 [] (EVarDecl VNull (VNode 4128) (VNode 4208) 0)); None] /\
  length (hp_pages ex_h) = 2%nat /\ length (hp_pages ex_after) = 1%nat /\ hp_fl ex_after 6 = [snd ex_flat] /\
  hp_alloced ex_after - hp_free ex_after = 32 + 48 + 32 + 48 + 72.
Proof.
  split; [exact ex_state|]. split; [split; [|split; constructor]; constructor; [|constructor]; pt|]. split; [apply ex_get_ok; vm_compute; reflexivity|].
  split; [vm_compute; reflexivity|]. split; [vm_compute; reflexivity|]. split; [vm_compute; reflexivity|]. split; vm_compute; reflexivity.
Qed.

(** ** What is false *)

(** The declaration of a surviving operator can be collected. *)
Definition ex_fun := ex_new (KItem 0 (IFun 0 VNull [] VNull 0)) ex_b heap_init.
Definition ex_bin := ex_new (KExpr 0 [] (EBinOp (VUnboxed 1) (VUnboxed 2) (snd ex_fun))) 16777216 (fst ex_fun).
Theorem C22_operator_refuted : exists h keep markers trail h' a k, heap_state h /\ typed_roots (hp_mem h) keep markers trail /\ markers <> [] /\
  (forall fuel, (9 <= fuel)%nat -> trigger fuel keep markers trail h = Ok h') /\
  contents h' a = Some k /\ op_decl k <> 0 /\ contents h (op_decl k) <> None /\ contents h' (op_decl k) = None.
Proof.
  assert (heap_state (fst ex_bin)) as Hs.
  { unfold ex_bin. apply ex_new_state; [|reflexivity| |mok].
    - unfold ex_fun. apply ex_new_state; [apply hs_init|reflexivity| |mok]. cbn. unfold isp. auto 10.
    - split; [left; reflexivity|]. split; [constructor|]. split; exact I. }
  exists (fst ex_bin), [VNode (snd ex_bin)], [[]], [], (ex_get (trigger 9 [VNode (snd ex_bin)] [[]] [] (fst ex_bin))), (snd ex_bin), (KExpr 0 [] (EBinOp (VUnboxed 1) (VUnboxed 2) (snd ex_fun))).
  split; [exact Hs|]. split; [split; [|split; constructor]; constructor; [|constructor]; pt|]. split; [discriminate|].
  split; [intros fuel Hf; apply (trigger_mono 9 fuel _ _ _ _ Hf); apply ex_get_ok; vm_compute; reflexivity|].
  split; [vm_compute; reflexivity|]. split; [vm_compute; congruence|]. split; [vm_compute; congruence|]. vm_compute. reflexivity.
Qed.
Print Assumptions C22_operator_refuted.

(** Without any marker the values on the trail are not roots. *)
Definition ex_anon := ex_new (KExpr 0 [] EAnon) ex_b heap_init.
Theorem C22_marker_refuted : exists h trail a h', heap_state h /\ typed_roots (hp_mem h) [] [] trail /\ In (VNode a) trail /\ contents h a <> None /\
  (forall fuel, (9 <= fuel)%nat -> trigger fuel [] [] trail h = Ok h') /\ contents h' a = None.
Proof.
  exists (fst ex_anon), [VNode (snd ex_anon)], (snd ex_anon), (ex_get (trigger 9 [] [] [VNode (snd ex_anon)] (fst ex_anon))).
  split; [apply ex_new_state; [apply hs_init|reflexivity| |mok]; cbn; unfold isp; auto|]. split; [split; [constructor|]; split; [constructor|]; constructor; [|constructor]; pt|].
  split; [left; reflexivity|]. split; [vm_compute; congruence|]. split; [intros fuel Hf; apply (trigger_mono 9 fuel _ _ _ _ Hf); apply ex_get_ok; vm_compute; reflexivity|]. vm_compute. reflexivity.
Qed.
Print Assumptions C22_marker_refuted.

(** Memory that is allocated but in which no object is constructed, because the evaluation of an argument of the constructor
    throws, makes the amount of free memory wrong at the next collection (in the code it wraps around). *)
Theorem C22_abandoned_refuted : exists h a h', gc_alloc 48 ex_b heap_init = Ok (h, a) /\
  (forall fuel, (9 <= fuel)%nat -> trigger fuel [] [[]] [] h = Ok h') /\ hp_pages h' = [] /\ hp_free h' = -48.
Proof.
  set (r := gc_alloc 48 ex_b heap_init). exists (match r with Ok (h, _) => h | _ => heap_init end), ex_b.
  exists (ex_get (trigger 9 [] [[]] [] (match r with Ok (h, _) => h | _ => heap_init end))).
  split; [reflexivity|]. split; [intros fuel Hf; apply (trigger_mono 9 fuel _ _ _ _ Hf); apply ex_get_ok; vm_compute; reflexivity|]. split; vm_compute; reflexivity.
Qed.
Print Assumptions C22_abandoned_refuted.

(** Call::args twice changes the size of the node: a binary call gets three arguments, then four. *)
Theorem C22_args_refuted : exists m e e1 e2 v1 v2, call_args m [VNull; VNull; VNull] v1 e = Ok e1 /\ call_args m [VNull; VNull; VNull; VNull] v2 e1 = Ok e2 /\
  expr_size e = 56 /\ expr_size e1 = 56 /\ expr_size e2 = 48.
Proof.
  exists (fun a => if a =? 8 then Some (mkN (KVec [VNull; VNull; VNull]) false false) else None), (ECall false 0 2 [VNull; VNull] 0). do 2 eexists. exists 8, 16.
  split; [reflexivity|]. split; [reflexivity|]. repeat split.
Qed.
Print Assumptions C22_args_refuted.
