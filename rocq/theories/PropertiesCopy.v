(** C94: deep copies of programs (lib/copy.cpp). *)
Require Import List Arith Bool Lia.
From Verif Require Import CopyModel CopySpec CopyProofs.
Import ListNotations.

Lemma stands_restrict : forall h n s l l', (forall k, In k l -> k < n) ->
  Forall2 (stands h (rel s)) l l' -> Forall2 (stands h (fun a b => In (a, b) (M s) /\ a < n)) l l'.
Proof.
  intros h n s l l' L F. induction F as [|a b l l' P F IH]; constructor.
  - destruct P as [P|[P|P]]; [left; exact P|right; left; exact P|right; right]. split; [exact P|apply L; left; reflexivity].
  - apply IH. intros k X. apply L. right. exact X.
Qed.

(** Copying the items of a program with one map: the original program is untouched; every copied node is
    new, looks like its original and refers to copies of what the original refers to; two different nodes
    never share a copy, and a node that is registered before its fields are visited has one copy only -
    so sharing and cycles are reproduced.
    Missing (false, see C94_annotation_refuted): the annotations on identifiers are those of the original. *)
Theorem C94_copy_partial : forall h n fuel roots s' rs,
  graph h n -> (forall e, In e roots -> e < n) ->
  copy_all fuel (mkSt h n []) roots = Some (s', rs) ->
  (forall a, a < n -> H s' a = h a) /\
  exists R : nat -> nat -> Prop,
    Forall2 (stands h R) roots rs /\
    (forall e c, R e c -> e < n /\ n <= c /\ looks_like h (H s') R e c) /\
    (forall e c c', R e c -> R e c' -> npre (h e) = [] -> ~ is_id (h e) -> c = c') /\
    (forall e e' c, R e c -> R e' c -> ~ is_id (h e) -> ~ is_id (h e') -> e = e').
Proof.
  intros h n fuel roots s' rs WF L E.
  assert (I0 : Inv h n [] (mkSt h n [])) by (split; cbn; intros; try contradiction; try reflexivity; lia).
  destruct (copy_list_ok h n (copy fuel) (copy_ok h n WF fuel) roots [] _ s' rs I0 L E) as (I & F & P).
  split; [exact (i_old _ _ _ _ I)|].
  exists (fun a b => In (a, b) (M s') /\ a < n).
  split; [apply stands_restrict; assumption|].
  split; [|split].
  - intros e c [X Le]. split; [exact Le|]. split; [pose proof (i_new _ _ _ _ I e c X) as (Y & _); lia|].
    pose proof (i_shape _ _ _ _ I e c X Le) as S. destruct (i_fill _ _ _ _ I e c X Le) as [[]|FI].
    destruct WF as [_ W]. destruct (W e Le) as (Wk & Wd & Wp).
    unfold shape in S. unfold looks_like. unfold filled in FI.
    destruct (nkind (h e)) as [| |i|d] eqn:K.
    + exact S.
    + destruct S as (S1 & S2 & S3). destruct FI as [[d Q]|[F1 F2]]; [congruence|].
      split; [exact S1|]. split; [exact S2|]. split; [|split]; apply stands_restrict; auto.
    + destruct S as (S1 & j & _ & S2 & S3 & S4). destruct FI as [[d Q]|[F1 F2]]; [congruence|].
      split; [exact S1|]. split; [exists j; auto|]. split; apply stands_restrict; auto.
    + destruct S as (cd & S1 & S2 & S3). exists cd. destruct (Wd d eq_refl) as (Ld & _).
      split; [split; [exact S1|lia]|]. split; assumption.
  - intros e c c' [X Le] [X' _] Q NI. exact (i_fun _ _ _ _ I e c c' X X' Le Q NI).
  - intros e e' c [X Le] [X' Le'] NI NI'. exact (i_inj _ _ _ _ I e e' c X X' Le Le' NI NI').
Qed.
Print Assumptions C94_copy_partial.

(** Copying ends for every program, cyclic ones included, in which no cycle consists only of references
    followed before the copy is registered. *)
Theorem C94_terminates : forall h n roots,
  graph h n -> guarded h n -> (forall e, In e roots -> e < n) ->
  exists N, forall fuel, N <= fuel -> exists s' rs, copy_all fuel (mkSt h n []) roots = Some (s', rs).
Proof.
  intros h n roots WF [rank Rk] L.
  set (B := list_max (map rank (seq 0 n))).
  assert (RB : forall e, e < n -> rank e <= B).
  { intros e Le. pose proof (proj1 (list_max_le (map rank (seq 0 n)) B) (Nat.le_refl _)) as FA.
    rewrite Forall_forall in FA. apply FA. apply in_map. apply in_seq. lia. }
  exists (todo n (mkSt h n []) * (B + 2) + B + 1). intros fuel Lf.
  assert (I0 : Inv h n [] (mkSt h n [])) by (split; cbn; intros; try contradiction; try reflexivity; lia).
  destruct (copy_all fuel (mkSt h n []) roots) as [[s' rs]|] eqn:E; [eauto|].
  exfalso. unfold copy_all in E. revert E.
  apply (copy_list_ends h n WF rank B fuel roots [] _ (copy_ends h n WF rank Rk B RB fuel) I0).
  intros k X. split; [auto|]. unfold need. pose proof (RB k (L k X)). lia.
Qed.
Print Assumptions C94_terminates.

(** a call f(x :: a, x): the annotation a of the first use of x *)
Definition ann_prog (a : nat) : node :=
  match a with
  | 1 => mkNode (KDecl 2) 10 [] [] []          (* var int: x *)
  | 2 => mkNode (KId 1) 10 [] [] []            (* the declaration's own identifier *)
  | 3 => mkNode (KId 1) 10 [] [] [5]           (* x :: a *)
  | 4 => mkNode (KId 1) 10 [] [] []            (* x *)
  | 5 => mkNode KNode 11 [] [] []              (* a *)
  | 6 => mkNode KNode 12 [] [3; 4] []          (* f(x :: a, x) *)
  | _ => mkNode KConst 0 [] [] []
  end.
Lemma ann_prog_graph : graph ann_prog 7.
Proof.
  split; [lia|]. intros e Le. do 7 (destruct e as [|e]; [cbn; split; [|split]; intros; try (repeat (destruct H as [H|H]; try lia); lia);
    try discriminate; try reflexivity; try (injection H as <-; split; [lia|eexists; reflexivity]); intuition lia|]). lia.
Qed.

(** In the copy of f(x :: a, x) the second argument carries the annotation, too, and so does the identifier of the copied
    declaration. *)
Theorem C94_annotation_refuted : exists h n e, graph h n /\ guarded h n /\ e < n /\
  exists x y s' c, npost (h e) = [x; y] /\ nann (h x) <> [] /\ nann (h y) = [] /\
    copy_all 20 (mkSt h n []) [e] = Some (s', [c]) /\
    exists z, npost (H s' c) = [z; z] /\ length (nann (H s' z)) = 1.
Proof.
  exists ann_prog, 7, 6. split; [exact ann_prog_graph|].
  split.
  { exists (fun a => match a with 2 | 3 | 4 => 1 | _ => 0 end). intros e k Le X.
    do 7 (destruct e as [|e]; [destruct X as [X|X]; cbn in X; try contradiction; try discriminate; injection X as <-; cbn; lia|]). lia. }
  split; [lia|]. exists 3, 4. do 2 eexists. split; [reflexivity|]. split; [discriminate|]. split; [reflexivity|].
  split; [vm_compute; reflexivity|]. eexists. split; vm_compute; reflexivity.
Qed.
Print Assumptions C94_annotation_refuted.

(** a variable x whose definition calls f on x itself, shared by two constraints *)
Definition cyc_prog (a : nat) : node :=
  match a with
  | 1 => mkNode (KDecl 2) 10 [] [4; 3] [6]     (* TypeInst; x = f(x) :: m *)
  | 2 => mkNode (KId 1) 10 [] [] []
  | 3 => mkNode KNode 12 [] [2; 5] []          (* f(x, true) *)
  | 4 => mkNode KNode 13 [0] [] []             (* the type-inst, without a domain *)
  | 6 => mkNode KNode 14 [] [] []              (* m *)
  | 7 => mkNode KNode 15 [] [3] []             (* constraint f(x, true) *)
  | 8 => mkNode KNode 15 [] [3] []             (* the same again *)
  | _ => mkNode KConst 0 [] [] []
  end.
Example C94_nonvacuous : graph cyc_prog 9 /\ guarded cyc_prog 9 /\
  exists s' c1 c2 x, copy_all 30 (mkSt cyc_prog 9 []) [7; 8] = Some (s', [c1; c2]) /\
    c1 <> c2 /\ npost (H s' c1) = [x] /\ npost (H s' c2) = [x] /\ nlab (H s' x) = 12 /\ x <> 3 /\
    exists i d t m, npost (H s' x) = [i; 5] /\ nkind (H s' i) = KId d /\ nkind (H s' d) = KDecl i /\
      npost (H s' d) = [t; x] /\ nann (H s' d) = [m] /\ nlab (H s' m) = 14.
Proof.
  split; [|split].
  - split; [lia|]. intros e Le. do 9 (destruct e as [|e]; [cbn; split; [|split]; intros;
      try discriminate; try reflexivity; try (injection H as <-; split; [lia|eexists; reflexivity]); intuition lia|]). lia.
  - exists (fun a => match a with 2 | 4 => 1 | _ => 0 end). intros e k Le X.
    do 9 (destruct e as [|e]; [destruct X as [X|X]; cbn in X; try contradiction; try discriminate;
      try (injection X as <-; cbn; lia); destruct X as [<-|[]]; cbn; lia|]). lia.
  - do 4 eexists. split; [vm_compute; reflexivity|].
    split; [discriminate|]. split; [vm_compute; reflexivity|]. split; [vm_compute; reflexivity|]. split; [vm_compute; reflexivity|].
    split; [discriminate|]. do 4 eexists. repeat (split; [vm_compute; reflexivity|]). vm_compute; reflexivity.
Qed.
