(** C77-C78: reductions of arrays, and index sets of arrays.  Statements only; proofs are in RedProofs.v and RedProofs2.v. *)
Require Import ZArith List Bool Lia.
From Verif Require Import Base IntValModel IntValSpec SetModel SetSpec ArrModel ArrSpec RedModel RedSpec RedProofs RedProofs2.
Import ListNotations.
Open Scope Z_scope.

(** ** C77: min, max, arg_min, arg_max, sum, product, forall, exists, clause, xorall, iffall *)
Section Statements.
Variable E : Type.
Variable eqb : E -> E -> bool.
Variable same : E -> E -> Prop.
Variable ev_int : E -> res IntVal.
Variable ev_bool : E -> res bool.

(** min and max of an array give its least and greatest element; they are undefined for an empty array *)
Theorem C77_min : equivalence eqb same -> respects same ev_int -> forall a sh el xs, built eqb a sh el -> ints ev_int el xs ->
  match xs with [] => int_min ev_int a = Err EvalError | _ => exists m x, int_min ev_int a = Ok m /\ denote m = Some x /\ least x xs end.
Proof. intros (H1 & H2 & H3 & H4). exact (int_min_ok E eqb same H1 H2 H3 H4 ev_int). Qed.
Theorem C77_max : equivalence eqb same -> respects same ev_int -> forall a sh el xs, built eqb a sh el -> ints ev_int el xs ->
  match xs with [] => int_max ev_int a = Err EvalError | _ => exists m x, int_max ev_int a = Ok m /\ denote m = Some x /\ greatest x xs end.
Proof. intros (H1 & H2 & H3 & H4). exact (int_max_ok E eqb same H1 H2 H3 H4 ev_int). Qed.
(** arg_min and arg_max give the first index of such an element *)
Theorem C77_arg_min : equivalence eqb same -> respects same ev_int -> forall a r el xs, built eqb a [r] el -> ints ev_int el xs ->
  match xs with [] => arg_min_int ev_int a = Err EvalError
  | _ => exists k, arg_min_int ev_int a = Ok (ofZ (fst r + Z.of_nat k)) /\ first_pos (fun x => least x xs) xs k end.
Proof. intros (H1 & H2 & H3 & H4). exact (arg_min_ok E eqb same H1 H2 H3 H4 ev_int). Qed.
Theorem C77_arg_max : equivalence eqb same -> respects same ev_int -> forall a r el xs, built eqb a [r] el -> ints ev_int el xs ->
  match xs with [] => arg_max_int ev_int a = Err EvalError
  | _ => exists k, arg_max_int ev_int a = Ok (ofZ (fst r + Z.of_nat k)) /\ first_pos (fun x => greatest x xs) xs k end.
Proof. intros (H1 & H2 & H3 & H4). exact (arg_max_ok E eqb same H1 H2 H3 H4 ev_int). Qed.
(** of truth values: the first false (for arg_max: true) element, or the first index if there is none *)
Theorem C77_arg_bool : equivalence eqb same -> respects same ev_bool -> forall a r el bs, built eqb a [r] el -> bools ev_bool el bs -> bs <> [] ->
  (exists k, arg_min_bool ev_bool a = Ok (ofZ (fst r + Z.of_nat k)) /\ (first_pos (eq false) bs k \/ ~ In false bs /\ k = O)) /\
  (exists k, arg_max_bool ev_bool a = Ok (ofZ (fst r + Z.of_nat k)) /\ (first_pos (eq true) bs k \/ ~ In true bs /\ k = O)).
Proof.
  intros (H1 & H2 & H3 & H4) HR a r el bs HB Hb Hn. split.
  - destruct (arg_bool_ok E eqb same H1 H2 H3 H4 ev_bool HR a r el bs HB Hb Hn false _ eq_refl) as (k & Hk & Hf). exists k. split; [exact Hk|].
    destruct (in_dec Bool.bool_dec false bs); auto.
  - destruct (arg_bool_ok E eqb same H1 H2 H3 H4 ev_bool HR a r el bs HB Hb Hn true _ eq_refl) as (k & Hk & Hf). exists k. split; [exact Hk|].
    destruct (in_dec Bool.bool_dec true bs); auto.
Qed.
Theorem C77_arg_bool_empty : equivalence eqb same -> forall a r, built eqb a [r] [] ->
  arg_min_bool ev_bool a = Err EvalError /\ arg_max_bool ev_bool a = Err EvalError.
Proof.
  intros (H1 & H2 & H3 & H4) a r HB. unfold arg_min_bool, arg_max_bool. rewrite (size_len E eqb same H1 H2 H3 H4 a [r] [] HB). split; reflexivity.
Qed.
(** the error of the first element that fails is the error of the reduction *)
Theorem C77_first_error : equivalence eqb same -> respects same ev_int -> forall a sh el k x, built eqb a sh el -> fails_at ev_int el k x ->
  int_min ev_int a = Err x /\ int_max ev_int a = Err x /\ arg_min_int ev_int a = Err x /\ arg_max_int ev_int a = Err x.
Proof.
  intros (H1 & H2 & H3 & H4) HR a sh el k x HB HF.
  exact (conj (int_min_fails E eqb same H1 H2 H3 H4 ev_int HR a sh el k x HB HF) (conj (int_max_fails E eqb same H1 H2 H3 H4 ev_int HR a sh el k x HB HF)
    (conj (arg_min_fails E eqb same H1 H2 H3 H4 ev_int HR a sh el k x HB HF) (arg_max_fails E eqb same H1 H2 H3 H4 ev_int HR a sh el k x HB HF)))).
Qed.
(** sum is exact if the sums of all initial segments are 64-bit integers, and otherwise an error *)
Theorem C77_sum : equivalence eqb same -> respects same ev_int -> forall a sh el zs, built eqb a sh el -> ints ev_int el (map Fin zs) ->
  (forall k, fits64 (zsum (firstn k zs))) -> exists r, sum_int ev_int a = Ok r /\ is_int r (zsum zs).
Proof. intros (H1 & H2 & H3 & H4). exact (sum_ok E eqb same H1 H2 H3 H4 ev_int). Qed.
Theorem C77_sum_error : equivalence eqb same -> respects same ev_int -> forall a sh el xs, built eqb a sh el -> ints ev_int el xs ->
  (exists k zs, firstn k xs = map Fin zs /\ ~ fits64 (zsum zs)) \/ (exists x, In x xs /\ forall z, x <> Fin z) ->
  sum_int ev_int a = Err ArithmeticError.
Proof. intros (H1 & H2 & H3 & H4). exact (sum_bad E eqb same H1 H2 H3 H4 ev_int). Qed.
(** the same for product, with elements other than LLONG_MIN *)
Theorem C77_product_partial : equivalence eqb same -> respects same ev_int -> forall a sh el zs, built eqb a sh el -> ints ev_int el (map Fin zs) ->
  ~ In LLONG_MIN zs -> (forall k, Z.abs (zproduct (firstn k zs)) <= LLONG_MAX) -> exists r, product_int ev_int a = Ok r /\ is_int r (zproduct zs).
Proof. intros (H1 & H2 & H3 & H4). exact (product_ok E eqb same H1 H2 H3 H4 ev_int). Qed.
Theorem C77_product_error : equivalence eqb same -> respects same ev_int -> forall a sh el xs, built eqb a sh el -> ints ev_int el xs ->
  ~ In (Fin LLONG_MIN) xs ->
  (exists k zs, firstn k xs = map Fin zs /\ LLONG_MAX < Z.abs (zproduct zs)) \/ (exists x, In x xs /\ forall z, x <> Fin z) ->
  product_int ev_int a = Err ArithmeticError.
Proof. intros (H1 & H2 & H3 & H4). exact (product_bad E eqb same H1 H2 H3 H4 ev_int). Qed.
(** forall, exists, clause, xorall and iffall are the connectives they are named after *)
Theorem C77_logic : equivalence eqb same -> respects same ev_bool -> forall a sh el bs, built eqb a sh el -> bools ev_bool el bs ->
  forall_par ev_bool a = Ok (forallb (fun b => b) bs) /\ exists_par ev_bool a = Ok (existsb (fun b => b) bs) /\
  xorall_par ev_bool a = Ok (xor_all bs) /\ iffall_par ev_bool a = Ok (negb (xor_all bs)).
Proof.
  intros (H1 & H2 & H3 & H4) HR a sh el bs HB Hb.
  exact (conj (forall_ok E eqb same H1 H2 H3 H4 ev_bool HR a sh el bs HB Hb) (conj (exists_ok E eqb same H1 H2 H3 H4 ev_bool HR a sh el bs HB Hb)
    (xorall_ok E eqb same H1 H2 H3 H4 ev_bool HR a sh el bs HB Hb))).
Qed.
Theorem C77_clause : equivalence eqb same -> respects same ev_bool -> forall p sp pl ps n sn nl ns, built eqb p sp pl -> bools ev_bool pl ps ->
  built eqb n sn nl -> bools ev_bool nl ns -> clause_par ev_bool p n = Ok (existsb (fun b => b) ps || existsb negb ns).
Proof. intros (H1 & H2 & H3 & H4). exact (clause_ok E eqb same H1 H2 H3 H4 ev_bool). Qed.
(** when some elements fail: the last element that is not true decides forall, the last that is not false decides
    exists; elements before it are not evaluated *)
Theorem C77_forall_last : equivalence eqb same -> respects same ev_bool -> forall a sh el k e, built eqb a sh el -> nth_error el k = Some e ->
  ev_bool e <> Ok true -> (forall j e, (k < j)%nat -> nth_error el j = Some e -> ev_bool e = Ok true) -> forall_par ev_bool a = ev_bool e.
Proof. intros (H1 & H2 & H3 & H4). exact (forall_last E eqb same H1 H2 H3 H4 ev_bool). Qed.
Theorem C77_exists_last : equivalence eqb same -> respects same ev_bool -> forall a sh el k e, built eqb a sh el -> nth_error el k = Some e ->
  ev_bool e <> Ok false -> (forall j e, (k < j)%nat -> nth_error el j = Some e -> ev_bool e = Ok false) -> exists_par ev_bool a = ev_bool e.
Proof. intros (H1 & H2 & H3 & H4). exact (exists_last E eqb same H1 H2 H3 H4 ev_bool). Qed.

(** ** C78: index_set, index_set_1of2 to index_set_6of6, index_sets_agree *)
Theorem C78_index_set : equivalence eqb same -> forall a sh el k r, built eqb a sh el -> nth_error sh k = Some r ->
  exists s, index_set a (Z.of_nat k + 1) = Ok s /\ nf s /\ forall z, elem z s <-> fst r <= z <= snd r.
Proof. intros (H1 & H2 & H3 & H4). exact (index_set_ok E eqb same H1 H2 H3 H4). Qed.
Theorem C78_wrong_dimension : equivalence eqb same -> forall a sh el i, built eqb a sh el -> len sh < i -> index_set a i = Err EvalError.
Proof. intros (H1 & H2 & H3 & H4). exact (index_set_bad E eqb same H1 H2 H3 H4). Qed.
(** an identifier: the index set may be declared as int, a type variable, l..infinity or as the index set of the value *)
Theorem C78_identifier : equivalence eqb same -> forall a sh el ds k r, built eqb a sh el -> nth_error sh k = Some r ->
  (match ds with [TypeVar] => True | _ => match nth_error ds k with
     | None => False
     | Some (Declared s) => nf s /\ ((exists lo hi rest, s = (lo, hi) :: rest /\ denote hi = Some PInf) \/ forall z, elem z s <-> fst r <= z <= snd r)
     | Some _ => True end end) ->
  exists s, index_set_id ds a (Z.of_nat k + 1) = Ok s /\ nf s /\ forall z, elem z s <-> fst r <= z <= snd r.
Proof. intros (H1 & H2 & H3 & H4). exact (index_set_id_ok E eqb same H1 H2 H3 H4). Qed.
(** two arrays agree if they have as many dimensions and the same set of indices in each; 1..0 and 5..4 are the same *)
Theorem C78_agree : equivalence eqb same -> forall a0 sh0 el0 a1 sh1 el1, built eqb a0 sh0 el0 -> built eqb a1 sh1 el1 ->
  exists b, index_sets_agree a0 a1 = Ok b /\ (b = true <-> Forall2 same_range sh0 sh1).
Proof. intros (H1 & H2 & H3 & H4). exact (index_sets_agree_ok E eqb same H1 H2 H3 H4). Qed.
End Statements.
Print Assumptions C77_min.
Print Assumptions C77_max.
Print Assumptions C77_arg_min.
Print Assumptions C77_arg_max.
Print Assumptions C77_arg_bool.
Print Assumptions C77_arg_bool_empty.
Print Assumptions C77_first_error.
Print Assumptions C77_sum.
Print Assumptions C77_sum_error.
Print Assumptions C77_product_partial.
Print Assumptions C77_product_error.
Print Assumptions C77_logic.
Print Assumptions C77_clause.
Print Assumptions C77_forall_last.
Print Assumptions C77_exists_last.
Print Assumptions C78_index_set.
Print Assumptions C78_wrong_dimension.
Print Assumptions C78_identifier.
Print Assumptions C78_agree.

(** elements that are literals *)
Definition lit (z : Z) : res IntVal := Ok (ofZ z).
(** FINDING: a sum that fits may still be an error, depending on the order of the elements *)
Theorem C77_sum_order_refuted : exists x y, mk1 Z.eqb [LLONG_MAX; 1; -1] = Ok x /\ mk1 Z.eqb [LLONG_MAX; -1; 1] = Ok y /\
  sum_int lit x = Err ArithmeticError /\ sum_int lit y = Ok (ofZ LLONG_MAX).
Proof. do 2 eexists. split; [vm_compute; reflexivity|]. split; [vm_compute; reflexivity|]. split; [vm_compute; reflexivity|]. vm_compute; reflexivity. Qed.
Print Assumptions C77_sum_order_refuted.
(** FINDING: the product of [-9223372036854775808] is undefined behaviour *)
Theorem C77_product_refuted : exists x, mk1 Z.eqb [LLONG_MIN] = Ok x /\ product_int lit x = UB.
Proof. eexists. split; [vm_compute; reflexivity|]. vm_compute; reflexivity. Qed.
Print Assumptions C77_product_refuted.
(** an element that fails may or may not decide a forall, depending on the order of the elements *)
Definition blit (z : Z) : res bool := if z =? 2 then Err EvalError else Ok (z =? 1).
Theorem C77_forall_order_refuted : exists x y, mk1 Z.eqb [2; 0] = Ok x /\ mk1 Z.eqb [0; 2] = Ok y /\
  forall_par blit x = Ok false /\ forall_par blit y = Err EvalError.
Proof. do 2 eexists. split; [vm_compute; reflexivity|]. split; [vm_compute; reflexivity|]. split; [vm_compute; reflexivity|]. vm_compute; reflexivity. Qed.
Print Assumptions C77_forall_order_refuted.

Example C77_nonvacuous : equivalence Z.eqb eq /\ respects eq lit /\ exists a, a = mk Z.eqb [4; 2; 7; 2] [(-1, 2)] /\
  built Z.eqb a [(-1, 2)] [4; 2; 7; 2] /\ ints lit [4; 2; 7; 2] (map Fin [4; 2; 7; 2]) /\
  int_min lit a = Ok (ofZ 2) /\ int_max lit a = Ok (ofZ 7) /\ arg_min_int lit a = Ok (ofZ 0) /\ arg_max_int lit a = Ok (ofZ 1) /\
  sum_int lit a = Ok (ofZ 15) /\ product_int lit a = Ok (ofZ 112) /\
  (exists b, b = mk Z.eqb [1; 0; 1; 1] [(0, 3)] /\ bools blit [1; 0; 1; 1] [true; false; true; true] /\ forall_par blit b = Ok false /\
    exists_par blit b = Ok true /\ xorall_par blit b = Ok true /\ iffall_par blit b = Ok false /\ arg_min_bool blit b = Ok (ofZ 1)) /\
  fails_at blit [1; 2; 0] 1 EvalError.
Proof.
  split; [repeat split; try congruence; intros; apply Z.eqb_eq; assumption|]. split; [intros x y ->; reflexivity|]. eexists. split; [reflexivity|].
  split. { apply b_mk; [|reflexivity]. split; [discriminate|]. split; [repeat constructor; vm_compute; congruence|vm_compute; congruence]. }
  split. { repeat constructor; eexists; split; reflexivity. }
  split; [vm_compute; reflexivity|]. split; [vm_compute; reflexivity|]. split; [vm_compute; reflexivity|]. split; [vm_compute; reflexivity|].
  split; [vm_compute; reflexivity|]. split; [vm_compute; reflexivity|]. split.
  - eexists. split; [reflexivity|]. split; [repeat constructor|]. split; [vm_compute; reflexivity|]. split; [vm_compute; reflexivity|].
    split; [vm_compute; reflexivity|]. split; [vm_compute; reflexivity|]. vm_compute; reflexivity.
  - split; [exists 2; split; reflexivity|]. intros [|j] e Hj He; [|lia]. cbn in He. injection He as <-. eexists; reflexivity.
Qed.
Example C78_nonvacuous : exists a b, a = mk Z.eqb [1; 2; 3; 4] [(0, 1); (5, 6)] /\ b = mk Z.eqb [1; 2; 3; 4] [(0, 1); (5, 6)] /\
  index_set a 2 = Ok [(ofZ 5, ofZ 6)] /\ index_sets_agree a b = Ok true /\ index_set a 3 = Err EvalError /\
  index_set_id [Anything; Declared [(ofZ 5, ofZ 6)]] a 2 = Ok [(ofZ 5, ofZ 6)] /\ index_set_id [TypeVar] a 1 = Ok [(ofZ 0, ofZ 1)] /\
  (exists c d, c = mk Z.eqb [] [(1, 0)] /\ d = mk Z.eqb [] [(5, 4)] /\ index_sets_agree c d = Ok true /\ index_sets_agree a c = Ok false).
Proof.
  do 2 eexists. split; [reflexivity|]. split; [reflexivity|]. split; [vm_compute; reflexivity|]. split; [vm_compute; reflexivity|]. split; [vm_compute; reflexivity|].
  split; [vm_compute; reflexivity|]. split; [vm_compute; reflexivity|]. do 2 eexists. split; [reflexivity|]. split; [reflexivity|]. split; vm_compute; reflexivity.
Qed.
