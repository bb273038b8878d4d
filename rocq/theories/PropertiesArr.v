(** C29-C30: array literals.  Statements only; proofs are in ArrProofs.v. *)
Require Import ZArith List Bool Lia.
From Verif Require Import Base ArrModel ArrSpec ArrProofs.
Import ListNotations.
Open Scope Z_scope.

(** C29: any array, however it was built, has the number of elements of its shape, reports its shape, and
    returns its elements (up to the equality used to compress arrays) at every index. *)
Theorem C29_elements : forall (E : Type) (eqb : E -> E -> bool) (same : E -> E -> Prop),
  (forall e, same e e) -> (forall a b, same a b -> same b a) -> (forall a b c, same a b -> same b c -> same a c) ->
  (forall a b, eqb a b = true -> same a b) ->
  forall a sh el, built eqb a sh el ->
  len el = card sh /\ asize a = Ok (card sh) /\ dims a = len sh /\
  (forall k lo hi, 0 <= k -> nth_error sh (Z.to_nat k) = Some (lo, hi) -> amin a k = Ok lo /\ amax a k = Ok hi) /\
  (forall i, 0 <= i < card sh -> exists e e', elem_at el i = Some e' /\ get a i = Ok e /\ same e e').
Proof. exact C29_l. Qed.
Print Assumptions C29_elements.

(** in particular a literal made from a vector of elements gives back that vector *)
Theorem C29_vector : forall (E : Type) (eqb : E -> E -> bool), (forall a b, eqb a b = true -> a = b) ->
  forall v a, mk1 eqb v = Ok a -> asize a = Ok (len v) /\ forall i e, 0 <= i -> elem_at v i = Some e -> get a i = Ok e.
Proof.
  intros E eqb Heq v a H.
  destruct (C29_l E eqb eq (fun e => eq_refl) (fun a b h => eq_sym h) (fun a b c h k => eq_trans h k) Heq a _ v (b_mk1 E eqb v a H)) as (H1 & H2 & _ & _ & H5).
  assert (C : card [(1, len v)] = len v) by (cbn [card]; unfold wid; cbn [fst snd]; lia).
  rewrite C in *. split; [exact H2|]. intros i e Hi He.
  assert (i < len v) by (unfold elem_at in He; assert (Z.to_nat i < length v)%nat by (apply nth_error_Some; congruence); unfold len; lia).
  destruct (H5 i ltac:(lia)) as (e1 & e2 & A & B & Hs). congruence.
Qed.
Print Assumptions C29_vector.

(** C30: a slice has as many elements as index tuples, and at every tuple it is the array at that tuple *)
Theorem C30_slice : forall (E : Type) (eqb : E -> E -> bool) (same : E -> E -> Prop),
  (forall e, same e e) -> (forall a b, same a b -> same b a) -> (forall a b c, same a b -> same b c -> same a c) ->
  (forall a b, eqb a b = true -> same a b) ->
  forall a sh el sh' sl, built eqb a sh el -> Forall2 sub_range sl sh -> shape_ok sh' -> card sh' = card sl ->
  asize (slice a sh' sl) = Ok (card sl) /\
  forall idx, in_shape idx sl -> get (slice a sh' sl) (position sl idx) = get a (position sh idx).
Proof. exact C30_slice_l. Qed.
Print Assumptions C30_slice.

(** reshaping an array (also a slice) never goes wrong; what it gives is covered by C29_elements *)
Theorem C30_views_defined : forall (E : Type) (eqb : E -> E -> bool) (same : E -> E -> Prop),
  (forall e, same e e) -> (forall a b, same a b -> same b a) -> (forall a b c, same a b -> same b c -> same a c) ->
  (forall a b, eqb a b = true -> same a b) ->
  forall a sh el sh', built eqb a sh el -> shape_ok sh' -> card sh' = card sh ->
  (exists a', view a sh' = Ok a') /\ (exists a', view1 a = Ok a').
Proof. exact C30_defined_l. Qed.
Print Assumptions C30_views_defined.

(** assigning an element of an array that is not compressed changes that element and nothing else *)
Theorem C30_set : forall (E : Type) (eqb : E -> E -> bool) (same : E -> E -> Prop),
  (forall e, same e e) -> (forall a b, same a b -> same b a) -> (forall a b c, same a b -> same b c -> same a c) ->
  (forall a b, eqb a b = true -> same a b) ->
  forall a sh el i e, built eqb a sh el -> compressed a = false -> 0 <= i < card sh ->
  exists a', set a i e = Ok a' /\ dims a' = dims a /\ (forall k, amin a' k = amin a k /\ amax a' k = amax a k) /\
    forall j, 0 <= j < card sh -> get a' j = if j =? i then Ok e else get a j.
Proof. exact C30_set_l. Qed.
Print Assumptions C30_set.

(** FINDING: assigning the third element of [7,7,7,7,8] changes the first one as well *)
Theorem C30_set_compressed_refuted : exists a a',
  mk1 Z.eqb [7; 7; 7; 7; 8] = Ok a /\ set a 2 9 = Ok a' /\ get a' 2 = Ok 9 /\ get a 0 = Ok 7 /\ get a' 0 = Ok 9.
Proof. eexists. eexists. split; [vm_compute; reflexivity|]. split; [vm_compute; reflexivity|]. vm_compute. auto. Qed.
Print Assumptions C30_set_compressed_refuted.

(** FINDING: make1d of a slice reads the bounds of the slice two places too far, past the end of the bounds *)
Theorem C30_make1d_slice_refuted : exists a,
  built Z.eqb a [(1, 2); (1, 2)] [1; 2; 3; 4] /\ built Z.eqb (slice a [(1, 2)] [(2, 2); (1, 2)]) [(1, 2)] [3; 4] /\
  make1d (slice a [(1, 2)] [(2, 2); (1, 2)]) = UB.
Proof.
  assert (B : built Z.eqb (mk Z.eqb [1; 2; 3; 4] [(1, 2); (1, 2)]) [(1, 2); (1, 2)] [1; 2; 3; 4]).
  { apply b_mk; [|reflexivity]. split; [discriminate|]. split; [|vm_compute; discriminate]. repeat constructor; vm_compute; discriminate. }
  eexists. split; [exact B|]. split; [|vm_compute; reflexivity].
  apply (b_slice _ _ _ _ _ _ _ _ B).
  - constructor; [|constructor; [|constructor]]; (split; [repeat split; vm_compute; discriminate|]); right; cbn; lia.
  - split; [discriminate|]. split; [|vm_compute; discriminate]. repeat constructor; vm_compute; discriminate.
  - reflexivity.
  - split; [reflexivity|]. intros idx H. inversion H as [|i r i2 r2 H1 H2]; subst. inversion H2 as [|j r3 i3 r4 H3 H4]; subst. inversion H4; subst.
    cbn [fst snd] in *. assert (i = 2) by lia. assert (j = 1 \/ j = 2) by lia. destruct H5; subst; reflexivity.
Qed.
Print Assumptions C30_make1d_slice_refuted.

(* a 2 x 3 array with repeated leading elements (stored compressed), its second column, and a transposed-shape view *)
Example C29_nonvacuous :
  let sh := [(0, 1); (1, 3)] in let sl := [(0, 1); (2, 2)] in
  let a := mk Z.eqb [5; 5; 5; 5; 6; 5] sh in
  built Z.eqb a sh [5; 5; 5; 5; 6; 5] /\ compressed a = true /\
  Forall2 sub_range sl sh /\ shape_ok [(1, 2)] /\ card [(1, 2)] = card sl /\
  in_shape [1; 2] sl /\ position sl [1; 2] = 1 /\ position sh [1; 2] = 4 /\
  get (slice a [(1, 2)] sl) 1 = Ok 6 /\ shape_ok [(1, 3); (1, 2)] /\
  compressed (mk Z.eqb [5; 6] [(0, 1)]) = false.
Proof.
  cbv zeta.
  assert (R : forall l h, -100 <= l -> h <= 100 -> l - 1 <= h -> range_ok (l, h)).
  { intros l h H1 H2 H3. unfold range_ok, wid, INT_MIN, INT_MAX. cbn [fst snd]. lia. }
  split. { apply b_mk; [|reflexivity]. split; [discriminate|]. split; [|vm_compute; discriminate]. repeat constructor; try apply R; lia. }
  split; [reflexivity|]. split. { constructor; [|constructor; [|constructor]]; (split; [apply R; lia | right; cbn; lia]). }
  split. { split; [discriminate|]. split; [|vm_compute; discriminate]. repeat constructor; apply R; lia. }
  split; [reflexivity|]. split. { repeat constructor; cbn; lia. }
  split; [reflexivity|]. split; [reflexivity|]. split; [vm_compute; reflexivity|].
  split. { split; [discriminate|]. split; [|vm_compute; discriminate]. repeat constructor; apply R; lia. }
  reflexivity.
Qed.
