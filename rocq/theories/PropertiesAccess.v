(** C31, C32, C33: array access and comprehensions.  Statements only; proofs are in AccessProofs*.v. *)
Require Import ZArith List Bool Lia.
From Verif Require Import Base IntValModel IntValSpec ArrModel ArrSpec ArrProofs AccessModel AccessSpec AccessProofs AccessProofs2 AccessProofs3.
Import ListNotations.
Open Scope Z_scope.

(** C31: when every index lies in its range, the access gives the element at the row-major position (up to the equality used to
    compress arrays), for every array however it was built. *)
Theorem C31_in_range : forall (E : Type) (eqb : E -> E -> bool) (same : E -> E -> Prop),
  (forall e, same e e) -> (forall a b, same a b -> same b a) -> (forall a b c, same a b -> same b c -> same a c) ->
  (forall a b, eqb a b = true -> same a b) ->
  forall a sh el idx zs, built eqb a sh el -> Forall2 is_int idx zs -> in_shape zs sh ->
  exists e e', access a idx = Ok (Found e) /\ eval_access a (map Some idx) = Ok (Some e) /\
    elem_at el (position sh zs) = Some e' /\ same e e'.
Proof.
  intros E eqb same H1 H2 H3 H4 a sh el idx zs Hb Hz Hs.
  assert (prefixes_fit sh) as Hf.
  { apply prefixes_fit_pos; [exact (built_shape E eqb same H1 H2 H3 H4 a sh el Hb)|]. pose proof (position_range _ _ Hs). lia. }
  destruct (C31_in E eqb same H1 H2 H3 H4 a sh el idx zs Hb Hf Hz Hs) as (e & e' & A & B & C).
  destruct (C31_eval_in E eqb same H1 H2 H3 H4 a sh el idx zs Hb Hf Hz Hs) as (e1 & e1' & A1 & B1 & C1).
  exists e, e'. split; [exact A|]. split; [|auto]. rewrite A1. f_equal. f_equal.
  assert (length idx = length sh) as Hlen.
  { transitivity (length zs); [clear - Hz; induction Hz; cbn; congruence|clear - Hs; induction Hs; cbn; congruence]. }
  rewrite (eval_access_eq E eqb same H1 H2 H3 H4 a sh el) in A1 by (auto; rewrite map_length; exact Hlen).
  rewrite fill_some, A, no_absent in A1 by exact Hlen.
  destruct (built_shape E eqb same H1 H2 H3 H4 a sh el Hb) as [Hne _].
  destruct idx; [destruct sh; [congruence|discriminate]|]. cbn in A1. congruence.
Qed.
Print Assumptions C31_in_range.

(** C31: distinct index tuples address distinct positions, and every position is addressed. *)
Theorem C31_bijective : forall sh, Forall range_ok sh ->
  (forall i j, in_shape i sh -> in_shape j sh -> position sh i = position sh j -> i = j) /\
  (forall i, in_shape i sh -> 0 <= position sh i < card sh) /\
  (forall p, 0 <= p < card sh -> exists i, in_shape i sh /\ position sh i = p).
Proof.
  intros sh Hr. split; [|split].
  - intros i j. apply position_inj.
  - intros i. apply position_range.
  - intros p. apply position_onto. exact Hr.
Qed.
Print Assumptions C31_bijective.

(** C31: when some index is not in its range, the access fails and reports the first such dimension, its range and the index.
    Missing: arrays without elements whose leading dimensions multiply to more than INT_MAX (see the refutation). *)
Theorem C31_out_of_range_partial : forall (E : Type) (eqb : E -> E -> bool) (same : E -> E -> Prop),
  (forall e, same e e) -> (forall a b, same a b -> same b a) -> (forall a b c, same a b -> same b c -> same a c) ->
  (forall a b, eqb a b = true -> same a b) ->
  forall a sh el idx, built eqb a sh el -> prefixes_fit sh -> length idx = length sh -> Forall wf idx ->
  ~ Forall2 inside idx sh ->
  exists k r x, first_outside 0 idx sh (k, r, x) /\ access a idx = Ok (Outside (Z.of_nat k) (fst r) (snd r) x).
Proof. exact C31_out. Qed.
Print Assumptions C31_out_of_range_partial.

(** the side condition holds for every array that has an element *)
Theorem C31_nonempty_fits : forall (E : Type) (eqb : E -> E -> bool) (same : E -> E -> Prop),
  (forall e, same e e) -> (forall a b, same a b -> same b a) -> (forall a b c, same a b -> same b c -> same a c) ->
  (forall a b, eqb a b = true -> same a b) ->
  forall a sh el, built eqb a sh el -> el <> [] -> prefixes_fit sh.
Proof.
  intros E eqb same H1 H2 H3 H4 a sh el Hb Hne. apply prefixes_fit_pos; [exact (built_shape E eqb same H1 H2 H3 H4 a sh el Hb)|].
  destruct (built_facts E eqb same H1 H2 H3 H4 a sh el Hb) as (Hl & _). destruct el; [congruence|]. unfold len in Hl. cbn in Hl. lia.
Qed.
Print Assumptions C31_nonempty_fits.

(** C31 with absent indices: the result is absent if all indices are absent, or if some are and the others are in range (and no
    dimension with an absent index is empty); it is an error if not all indices are absent and one of these conditions fails. *)
Theorem C31_absent_partial : forall (E : Type) (eqb : E -> E -> bool) (same : E -> E -> Prop),
  (forall e, same e e) -> (forall a b, same a b -> same b a) -> (forall a b c, same a b -> same b c -> same a c) ->
  (forall a b, eqb a b = true -> same a b) ->
  forall a sh el idx, built eqb a sh el -> prefixes_fit sh -> length idx = length sh ->
  Forall (fun o => forall x, o = Some x -> wf x) idx ->
  (In None idx -> Forall (eq None) idx -> eval_access a idx = Ok None) /\
  (In None idx -> Forall2 usable idx sh -> eval_access a idx = Ok None) /\
  (~ Forall (eq None) idx -> ~ Forall2 usable idx sh -> eval_access a idx = Err EvalError).
Proof.
  intros E eqb same H1 H2 H3 H4 a sh el idx Hb Hf Hlen Hw. split; [|split].
  - intros Hn. apply (C31_eval_absent E eqb same H1 H2 H3 H4 a sh el idx Hb Hf Hlen Hw Hn).
  - intros Hn. apply (C31_eval_absent E eqb same H1 H2 H3 H4 a sh el idx Hb Hf Hlen Hw Hn).
  - apply (C31_eval_out E eqb same H1 H2 H3 H4 a sh el idx Hb Hf Hlen Hw).
Qed.
Print Assumptions C31_absent_partial.

(** a 2 by 3 array with indices from -1 and from 5 *)
Definition ex_arr : arr Z := mk Z.eqb [10; 11; 12; 13; 14; 15] [(-1, 0); (5, 7)].
Example C31_nonvacuous : built Z.eqb ex_arr [(-1, 0); (5, 7)] [10; 11; 12; 13; 14; 15] /\
  access ex_arr [ofZ 0; ofZ 6] = Ok (Found 14) /\ access ex_arr [ofZ 0; ofZ 8] = Ok (Outside 1 5 7 (ofZ 8)) /\
  access ex_arr [iv_infinity; ofZ 8] = Ok (Outside 0 (-1) 0 iv_infinity) /\
  eval_access ex_arr [Some (ofZ 0); None] = Ok None /\ eval_access ex_arr [Some (ofZ 2); None] = Err EvalError.
Proof.
  split; [|vm_compute; repeat split; reflexivity]. apply b_mk; [|reflexivity]. split; [discriminate|]. split; [|vm_compute; discriminate].
  repeat constructor; cbn; unfold INT_MIN, INT_MAX, wid; cbn; lia.
Qed.

(** C31 is false without the side condition: accessing an array without elements, with dimensions 1..100000, 1..100000 and 1..0,
    overflows the int that holds the product of the widths, which is undefined, instead of failing. *)
Theorem C31_overflow_refuted : exists (a : arr Z) sh,
  built Z.eqb a sh [] /\ access a [ofZ 0; ofZ 0; ofZ 0] = UB.
Proof.
  exists (mk Z.eqb [] [(1, 100000); (1, 100000); (1, 0)]), [(1, 100000); (1, 100000); (1, 0)]. split; [|vm_compute; reflexivity].
  apply b_mk; [|reflexivity]. split; [discriminate|]. split; [|vm_compute; discriminate].
  repeat constructor; cbn; unfold INT_MIN, INT_MAX, wid; cbn; lia.
Qed.
Print Assumptions C31_overflow_refuted.

(** C32: given the generated index tuples and values, and the ranges the tuples span: if every tuple of the box is generated exactly
    once, the result has these ranges as index sets and every generated value at its tuple; otherwise an error is raised.
    Missing: indices that do not fit into int (see the refutation). *)
Theorem C32_indexed_partial : forall (T : Type) dim (l : list (list Z * T)) sh, l <> [] -> len l <= INT_MAX ->
  Forall (fun p => Forall (fun i => INT_MIN <= i <= INT_MAX) (fst p) /\ length (fst p) = dim) l ->
  length sh = dim -> spanned (map fst l) sh ->
  (exact_cover (map fst l) sh ->
     exists vals, indexed_comp dim (map (fun p => (map ofZ (fst p), snd p)) l) = Ok (map Some vals, sh) /\ len vals = card sh /\
       forall t v, In (t, v) l -> elem_at vals (position sh t) = Some v) /\
  (~ exact_cover (map fst l) sh ->
     exists e, indexed_comp dim (map (fun p => (map ofZ (fst p), snd p)) l) = Err e).
Proof. exact C32_l. Qed.
Print Assumptions C32_indexed_partial.

(** such ranges always exist, and there is only one choice *)
Theorem C32_span : forall dim (l : list (list Z)), l <> [] ->
  Forall (fun t => length t = dim) l ->
  exists sh, length sh = dim /\ spanned l sh /\ forall sh', length sh' = dim -> spanned l sh' -> sh' = sh.
Proof.
  intros dim l Hne Hl.
  assert (exists sh, length sh = dim /\ spanned l sh) as (sh & H1 & H2).
  { destruct l as [|t l]; [congruence|]. clear Hne. apply Forall_inv in Hl as Ht. apply Forall_inv_tail in Hl.
    assert (forall l done sh, Forall (fun t => length t = dim) l -> length sh = dim -> spanned done sh ->
      exists sh', length sh' = dim /\ spanned (done ++ l) sh') as G.
    { clear. induction l as [|t l IH]; intros done sh Hl Hsh Hs; [exists sh; rewrite app_nil_r; auto|].
      apply Forall_inv in Hl as Ht. apply Forall_inv_tail in Hl. destruct (IH (done ++ [t]) (widen sh t) Hl) as (sh' & A & B).
      - rewrite widen_length; lia.
      - apply spanned_next; [exact Hs|lia].
      - exists sh'. rewrite <- app_assoc in B. auto. }
    apply (G l [t] (map (fun x => (x, x)) t) Hl); [rewrite map_length; exact Ht|apply spanned_first]. }
  exists sh. split; [exact H1|]. split; [exact H2|]. intros sh' H3 H4. eapply spanned_unique; [exact H4|exact H2|lia].
Qed.
Print Assumptions C32_span.

(** C32: without generated elements the array is empty in every dimension. *)
Theorem C32_empty : forall (T : Type) dim, (0 < dim)%nat ->
  indexed_comp dim (@nil (list IntVal * T)) = Ok ([], repeat (1, 0) dim).
Proof. exact C32_empty_l. Qed.
Print Assumptions C32_empty.

Example C32_nonvacuous :
  spanned [[3; 0]; [2; 1]; [2; 0]; [3; 1]] [(2, 3); (0, 1)] /\ exact_cover [[3; 0]; [2; 1]; [2; 0]; [3; 1]] [(2, 3); (0, 1)] /\
  indexed_comp 2 (map (fun p => (map ofZ (fst p), snd p)) [([3; 0], 7); ([2; 1], 8); ([2; 0], 9); ([3; 1], 10)]) =
    Ok (map Some [9; 8; 7; 10], [(2, 3); (0, 1)]) /\
  (exists e, indexed_comp 2 (map (fun p => (map ofZ (fst p), snd p)) [([3; 0], 7); ([2; 1], 8); ([2; 0], 9)]) = Err e) /\
  (exists e, indexed_comp 1 (map (fun p => (map ofZ (fst p), snd p)) [([3], 7); ([5], 8); ([3], 9)]) = Err e).
Proof.
  split; [|split; [|split; [vm_compute; reflexivity|split; eexists; vm_compute; reflexivity]]].
  - intros [|[|[|k]]] lo hi H; cbn in H; try discriminate; injection H as <- <-.
    + split; [exists [2; 1]; cbn; auto|]. split; [exists [3; 0]; cbn; auto|].
      intros t i [<-|[<-|[<-|[<-|[]]]]] H; cbn in H; injection H as <-; lia.
    + split; [exists [3; 0]; cbn; auto|]. split; [exists [2; 1]; cbn; auto|].
      intros t i [<-|[<-|[<-|[<-|[]]]]] H; cbn in H; injection H as <-; lia.
  - split.
    + repeat constructor; cbn; intuition discriminate.
    + intros t H. inversion H as [|i r t1 s1 Hi H1]; subst. inversion H1 as [|j r' t2 s2 Hj H2]; subst. inversion H2; subst. cbn in Hi, Hj.
      assert (i = 2 \/ i = 3) as [-> | ->] by lia; assert (j = 0 \/ j = 1) as [-> | ->] by lia; cbn; tauto.
Qed.

(** C32 is false for larger indices: the single index 4294967297 gives the index set 1..1. *)
Theorem C32_truncation_refuted : exists i, fits64 i /\
  indexed_comp 1 [([ofZ i], 5)] = Ok ([Some 5], [(1, 1)]) /\ ~ spanned [[i]] [(1, 1)].
Proof.
  exists 4294967297. split; [unfold fits64, LLONG_MIN, LLONG_MAX; lia|]. split; [vm_compute; reflexivity|].
  intros H. destruct (H O 1 1 eq_refl) as ((t & [<-|[]] & Hn) & _). discriminate.
Qed.
Print Assumptions C32_truncation_refuted.

(** C33: evaluating the generators appends the values of the body for exactly the assignments given by the nested loops, in their
    order, and restores the variables and the trail; it throws exactly if some expression it needs cannot be evaluated, and is never
    undefined. *)
Theorem C33_enumerate_partial : forall (val T : Type) (body : (nat -> option val) -> option T), extensional body ->
  forall gs, proper gs -> Forall gen_extensional gs -> forall s a,
  match comprehension body gs (cs_store s) with
  | Some l => exists s', gens body gs s a = Done s' (a ++ l) /\ restored s s'
  | None => exists s', gens body gs s a = Thrown s'
  end.
Proof. intros val T body Hb gs Hp Hg s a. exact (gens_ok val T body Hb gs Hp Hg s a). Qed.
Print Assumptions C33_enumerate_partial.

(** [i,j in l where i < j, k = i + j] with the body 100 i + 10 j + k *)
Definition ex_num (s : nat -> option Z) (d : nat) : Z := match s d with Some z => z | None => 0 end.
Definition ex_gens : list (gen Z) :=
  [GIn [0; 1]%nat (fun _ => Some [1; 2; 3]) (Some (fun s => Some (ex_num s 0 <? ex_num s 1)));
   GAsn 2%nat (fun s => Some (ex_num s 0 + ex_num s 1))].
Definition ex_body (s : nat -> option Z) : option Z := Some (100 * ex_num s 0 + 10 * ex_num s 1 + ex_num s 2).
Example C33_nonvacuous : extensional ex_body /\ proper ex_gens /\ Forall gen_extensional ex_gens /\
  comprehension ex_body ex_gens (fun _ => None) = Some [123; 134; 235] /\
  match gens ex_body ex_gens (mkCS (fun _ => Some 77) []) [5] with
  | Done s a => a = [5; 123; 134; 235] /\ cs_trail s = [] /\ cs_store s 0%nat = Some 77 /\ cs_store s 2%nat = Some 77
  | _ => False
  end.
Proof.
  assert (forall s s' : nat -> option Z, (forall d, s d = s' d) -> forall d, ex_num s d = ex_num s' d) as H.
  { intros s s' H d. unfold ex_num. rewrite H. reflexivity. }
  split; [|split; [|split; [|split]]].
  - intros s s' Hs. unfold ex_body. rewrite !(H s s' Hs). reflexivity.
  - intros ds e w [Hi|[Hi|[]]]; [injection Hi as <- _ _; discriminate|discriminate].
  - repeat constructor.
    + cbn. intros f Hf. injection Hf as <-. intros s s' Hs. rewrite !(H s s' Hs). reflexivity.
    + cbn. intros s s' Hs. rewrite !(H s s' Hs). reflexivity.
  - vm_compute. reflexivity.
  - vm_compute. auto.
Qed.

(** When the evaluation throws, the variables keep the values of the iteration and the trail keeps its entries: nothing unwinds
    them. *)
Theorem C33_thrown_refuted : exists (gs : list (gen Z)) (body : (nat -> option Z) -> option Z) s s',
  proper gs /\ Forall gen_extensional gs /\ extensional body /\ gens body gs s [] = Thrown s' /\ ~ restored s s'.
Proof.
  exists [GIn [0%nat] (fun _ => Some [1; 2]) None], (fun _ => None), (mkCS (fun _ => None) []). eexists.
  split; [intros ds e w [H|[]]; injection H as <- _ _; discriminate|].
  split; [repeat constructor; cbn; discriminate|]. split; [intros s s' H; reflexivity|]. split; [reflexivity|].
  intros [_ H]. discriminate.
Qed.
Print Assumptions C33_thrown_refuted.
