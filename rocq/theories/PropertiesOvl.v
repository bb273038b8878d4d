(** C70, C71: overload resolution and named arguments. *)
Require Import ZArith List Bool Arith Lia Permutation.
From Verif Require Import Base TypeModel TypeSpec TypeProofs OvlModel OvlSpec OvlProofs OvlProofs2 OvlProofs3.
Import ListNotations.
Open Scope nat_scope.

(** ** C70 *)
(** the declaration that a call resolves to takes its arguments *)
Theorem C70_accepts : forall sub acc anch thr v args f, well_formed v ->
  match_fn sub acc None anch thr v args = Found f -> exists x, In x v /\ en_fi x = f /\ takes acc args x.
Proof. exact accepts_l. Qed.
Print Assumptions C70_accepts.
(** a call is rejected as unknown exactly if no declaration takes its arguments *)
Theorem C70_complete : forall sub acc anch thr v args, well_formed v ->
  (match_fn sub acc None anch thr v args = NotFound <-> forall x, In x v -> ~ takes acc args x).
Proof. exact complete_l. Qed.
Print Assumptions C70_complete.
(** a call is rejected as ambiguous only if a declaration takes its arguments and another has the same types and
    another name for a parameter *)
Theorem C70_ambiguous : forall sub acc anch thr v args, well_formed v ->
  match_fn sub acc None anch thr v args = Ambiguous ->
  exists x y, In x v /\ In y v /\ takes acc args x /\ en_fi x <> en_fi y /\ types_eqb (en_t y) (en_t x) = true /\
    exists j p q m n, nth_error (fn_params (en_fi y)) j = Some p /\ nth_error (fn_params (en_fi x)) j = Some q /\ pa_name p = Some m /\ pa_name q = Some n /\ m <> n.
Proof. exact ambiguous_l. Qed.
Print Assumptions C70_ambiguous.
(** no declaration that takes the arguments is more specific, if the bucket is sorted and names no enum *)
Theorem C70_best_partial : forall e sub acc anch thr v args f, well_formed v -> sorted sub v -> decides_on e sub (bucket_types v) ->
  (forall t, In t (bucket_types v) -> enum_free e t) ->
  match_fn sub acc None anch thr v args = Found f ->
  exists x, In x v /\ en_fi x = f /\ takes acc args x /\
    forall y, In y v -> takes acc args y -> ~ more_specific e (length args) (en_t y) (en_t x).
Proof. exact best_l. Qed.
Print Assumptions C70_best_partial.
(** without enums, tuples and records, the order of declarations is a strict weak order; equivalent declarations
    have the same types *)
Theorem C70_order_partial : forall e sub v, decides_on e sub (bucket_types v) ->
  (forall t, In t (bucket_types v) -> enum_free e t /\ ~ is_struct t /\ type_ok t) ->
  forall x y z, In x v -> In y v -> In z v ->
  entry_less sub x x = false /\
  (entry_less sub x y = true -> entry_less sub y z = true -> entry_less sub x z = true) /\
  (entry_less sub x y = false /\ entry_less sub y x = false <-> types_eqb (en_t x) (en_t y) = true).
Proof. exact order_l. Qed.
Print Assumptions C70_order_partial.
(** so sorting puts the bucket in the order that resolution needs *)
Theorem C70_sort_partial : forall e sub v, decides_on e sub (bucket_types v) ->
  (forall t, In t (bucket_types v) -> enum_free e t /\ ~ is_struct t /\ type_ok t) ->
  Permutation v (insertion_sort (entry_less sub) v) /\ sorted sub (insertion_sort (entry_less sub) v).
Proof. exact sort_l. Qed.
Print Assumptions C70_sort_partial.
(** resolving a call again gives the same declaration *)
Theorem C70_stable : forall sub acc anch anch' thr' v args f,
  (forall x, In x v -> en_t x = map pa_ty (fn_params (en_fi x))) ->
  match_fn sub acc None anch true v args = Found f ->
  match_fn sub acc (Some f) anch' thr' v args = Found f.
Proof. exact stable_l. Qed.
Print Assumptions C70_stable.
(** with other argument types, it never changes to a declaration that differs in names only *)
Theorem C70_sibling : forall sub acc thr v args d f, (forall x, In x v -> fn_id (en_fi x) = fn_id d -> en_fi x = d) ->
  match_fn sub acc (Some d) false thr v args = Found f -> ~ differs_in_names_only f d.
Proof. exact sibling_l. Qed.
Print Assumptions C70_sibling.

(** a test that always terminates decides *)
Lemma decides_check : forall n e ts,
  forallb (fun a => forallb (fun b => match isSubtypeOf n e a b true with Ok _ => true | _ => false end) ts) ts = true -> decides_on e (sub_at n e) ts.
Proof.
  intros n e ts H a b Ha Hb. rewrite forallb_forall in H. specialize (H a Ha). rewrite forallb_forall in H. specialize (H b Hb). unfold sub_at.
  destruct (isSubtypeOf n e a b true) as [[]| |] eqn:E; try discriminate; split; intros Q; auto; try discriminate; [exists n; auto|].
  exfalso. apply (C35_unique_l e true a b Q). exists n. auto.
Qed.
Definition w_int : ty := mk_ty false BT_INT false 0 0.
Definition w_float : ty := mk_ty false BT_FLOAT false 0 0.
Definition w_bool : ty := mk_ty false BT_BOOL false 0 0.
Definition w_string : ty := mk_ty false BT_STRING false 0 0.
Definition w_varint : ty := mk_ty true BT_INT false 0 0.
Lemma w_scalar : forall t, In t [w_int; w_float; w_bool; w_string; w_varint] -> enum_free e_init t /\ ~ is_struct t /\ type_ok t.
Proof.
  intros t H. assert (N : ~ is_struct t) by (cbn in H; intros [S|S]; repeat (destruct H as [<-|H]; [discriminate|]); destruct H).
  split; [split|].
  - apply lang_scalar; auto; cbn in H; repeat (destruct H as [<-|H]; [(discriminate || reflexivity)|]); destruct H.
  - right. cbn in H. repeat (destruct H as [<-|H]; [reflexivity|]). destruct H.
  - split; auto. unfold type_ok. cbn in H. repeat (destruct H as [<-|H]; [cbn; lia|]). destruct H.
Qed.
(** a declaration with parameters of these names, types and defaults *)
Definition decl (i : nat) (ps : list (str * ty * option nat)) : entry :=
  mkEn (map (fun p => snd (fst p)) ps) (mkFn i (map (fun p => mkPar (Some (fst (fst p))) (snd (fst p)) (snd p)) ps)).
(** names *)
Definition n_a : str := [97%Z]. Definition n_b : str := [98%Z]. Definition n_c : str := [99%Z]. Definition n_s : str := [115%Z].
Lemma decl_wf : forall v, (forall x, In x v -> exists i ps, x = decl i ps) -> well_formed v.
Proof. intros v H x Hx. destruct (H x Hx) as (i & ps & ->). cbn. now rewrite !map_length. Qed.

(** the registry of a model with the tuple types (float, int), (string) and (int, int); all are par,
    lib/flatten.cpp:1305-1357 *)
Definition w_env : env := fst (register_tuple (fst (register_tuple (fst (register_tuple e_init [w_float; w_int])) [w_string])) [w_int; w_int]).
Definition w_tup (i : Z) : ty := mk_ty false BT_TUPLE false i 0.
Lemma w_env_reach : reach w_env.
Proof. unfold w_env. repeat apply r_tuple; [apply r_init | repeat constructor; cbn; lia ..]. Qed.
Lemma w_tup_lang : forall i, In i [1; 2; 3]%Z -> enum_free w_env (w_tup i).
Proof.
  intros i H. split; [|left; left; reflexivity].
  assert (S : forall t, In t [w_int; w_string; w_float] -> lang w_env t) by (intros t Ht; apply lang_scalar; cbn in Ht; try (intros [Q|Q]); repeat (destruct Ht as [<-|Ht]; [(discriminate || reflexivity)|]); destruct Ht).
  assert (T : forall j fs, at_ (e_tuples w_env) (j - 1) = Ok fs -> (j =? 0)%Z = false -> (forall f, In f fs -> In f [w_int; w_string; w_float]) -> lang w_env (w_tup j)).
  { intros j fs E N F. apply (lang_struct w_env (w_tup j) [] fs); auto; [left; reflexivity|]. left. repeat split.
    unfold get_tuple, struct_id. cbn. rewrite N. cbn. exact E. }
  cbn in H. destruct H as [<-|[<-|[<-|[]]]]; (eapply T; [reflexivity | reflexivity | intros f Hf; cbn in *; intuition]).
Qed.
(** the order has a cycle: (int, int) comes before (float, int) as a subtype, (float, int) before (string)
    and (string) before (int, int) by their numbers *)
Theorem C70_order_refuted : exists e sub x y z, reach e /\ decides_on e sub (bucket_types [x; y; z]) /\
  (forall t, In t (bucket_types [x; y; z]) -> enum_free e t) /\
  entry_less sub x y = true /\ entry_less sub y z = true /\ entry_less sub z x = true.
Proof.
  exists w_env, (sub_at 3 w_env), (decl 0 [(n_a, w_tup 3, None)]), (decl 1 [(n_a, w_tup 1, None)]), (decl 2 [(n_a, w_tup 2, None)]).
  split; [exact w_env_reach|]. split; [apply decides_check; vm_compute; reflexivity|].
  split; [intros t Ht; cbn in Ht; destruct Ht as [<-|[<-|[<-|[]]]]; apply w_tup_lang; cbn; auto|].
  vm_compute. auto.
Qed.
Print Assumptions C70_order_refuted.
(** so sorting can leave the more specific declaration last, and the call f((1, 2)) resolves to the declaration
    for (float, int) although one for (int, int) exists *)
Theorem C70_best_refuted : exists e sub acc v x y args, reach e /\ well_formed v /\ decides_on e sub (bucket_types v) /\
  (forall t, In t (bucket_types v) -> enum_free e t) /\ neighbours_sorted sub (insertion_sort (entry_less sub) v) /\
  In x v /\ In y v /\ takes acc args x /\ takes acc args y /\ more_specific e (length args) (en_t y) (en_t x) /\
  match_fn sub acc None false true (insertion_sort (entry_less sub) v) args = Found (en_fi x).
Proof.
  set (a := decl 0 [(n_a, w_tup 3, None)]). set (b := decl 1 [(n_a, w_tup 1, None)]). set (c := decl 2 [(n_a, w_tup 2, None)]).
  assert (D : decides_on w_env (sub_at 3 w_env) (bucket_types [c; a; b])) by (apply decides_check; vm_compute; reflexivity).
  assert (W : well_formed [c; a; b]) by (apply decl_wf; intros x [<-|[<-|[<-|[]]]]; unfold a, b, c; eauto).
  exists w_env, (sub_at 3 w_env), (acc_at 3 w_env), [c; a; b], b, a, [w_tup 3].
  split; [exact w_env_reach|]. split; [exact W|]. split; [exact D|].
  split; [intros t Ht; cbn in Ht; destruct Ht as [<-|[<-|[<-|[]]]]; apply w_tup_lang; cbn; auto|].
  split. { replace (insertion_sort (entry_less (sub_at 3 w_env)) [c; a; b]) with [b; c; a] by (vm_compute; reflexivity).
    intros [|[|[|i]]] x y Hx Hy; cbn in Hx, Hy; try discriminate; try (destruct i; discriminate); injection Hx as <-; injection Hy as <-; vm_compute; reflexivity. }
  split; [cbn; auto|]. split; [cbn; auto|].
  split; [apply viable_takes; [reflexivity | vm_compute; reflexivity]|]. split; [apply viable_takes; [reflexivity | vm_compute; reflexivity]|].
  split; [|vm_compute; reflexivity]. split.
  - intros [|j] s t Hj Hs Ht; [|cbn in Hj; lia]. cbn in Hs, Ht. injection Hs as <-. injection Ht as <-. exists 3. vm_compute. reflexivity.
  - intros H. assert (S : subtype w_env true (w_tup 1) (w_tup 3)) by (apply (H 0); cbn; auto). apply (C35_unique_l _ _ _ _ S). exists 3. vm_compute. reflexivity.
Qed.
Print Assumptions C70_best_refuted.
(** f(int: a, int: b = 1) and f(int: c, string: s = "x"): both take f(1), neither is more specific, no check
    rejects the declarations, and the call resolves to one of them without an error *)
Theorem C70_tie_refuted : exists sub acc v x y args, decides_on e_init sub (bucket_types v) /\ well_formed v /\ sorted sub v /\
  In x v /\ In y v /\ en_fi x <> en_fi y /\ takes acc args x /\ takes acc args y /\
  as_specific e_init (length args) (en_t x) (en_t y) /\ as_specific e_init (length args) (en_t y) (en_t x) /\
  ambiguous_named_call (en_fi x) (en_fi y) = false /\ default_extension (en_fi x) (en_fi y) = false /\
  match_fn sub acc None false true v args = Found (en_fi x).
Proof.
  set (x := decl 0 [(n_a, w_int, None); (n_b, w_int, Some 1)]). set (y := decl 1 [(n_c, w_int, None); (n_s, w_string, Some 2)]).
  exists (sub_at 1 e_init), (acc_at 1 e_init), [x; y], x, y, [w_int].
  split; [apply decides_check; vm_compute; reflexivity|]. split; [apply decl_wf; intros z [<-|[<-|[]]]; unfold x, y; eauto|].
  split. { intros [|[|i]] [|[|j]] a b L Ha Hb; cbn in Ha, Hb; try lia; try discriminate; try (destruct j; discriminate); injection Ha as <-; injection Hb as <-; vm_compute; reflexivity. }
  split; [cbn; auto|]. split; [cbn; auto|]. split; [discriminate|].
  split; [apply viable_takes; [reflexivity | vm_compute; reflexivity]|]. split; [apply viable_takes; [reflexivity | vm_compute; reflexivity]|].
  split; [intros [|j] s t Hj Hs Ht; [|cbn in Hj; lia]; cbn in Hs, Ht; injection Hs as <-; injection Ht as <-; apply C35_refl_l|].
  split; [intros [|j] s t Hj Hs Ht; [|cbn in Hj; lia]; cbn in Hs, Ht; injection Hs as <-; injection Ht as <-; apply C35_refl_l|].
  vm_compute. auto.
Qed.
Print Assumptions C70_tie_refuted.
(** f(E: a) and f(F: b) for enums E and F: only the first takes a value of E, but the call is rejected as
    ambiguous, because == of types ignores enums *)
Theorem C70_enum_refuted : exists acc v x args, (forall y, In y v -> takes acc args y -> y = x) /\ In x v /\ takes acc args x /\
  (forall a b, In a args -> In b (bucket_types v) -> (acc a b = true <-> exists n, env_isSubtype n e_init a b true = Ok true)) /\
  forall sub, match_fn sub acc None false true v args = Ambiguous.
Proof.
  set (E := fun i => mk_ty false BT_INT false i 0).
  set (x := decl 0 [(n_a, E 1%Z, None)]). set (y := decl 1 [(n_b, E 2%Z, None)]).
  exists (acc_at 1 e_init), [x; y], x, [E 1%Z].
  split. { intros z [<-|[<-|[]]] T; auto. apply viable_takes in T; [vm_compute in T; discriminate | reflexivity]. }
  split; [cbn; auto|]. split; [apply viable_takes; [reflexivity | vm_compute; reflexivity]|].
  split; [|intros sub; vm_compute; reflexivity].
  intros a b [<-|[]] Hb. cbn in Hb. destruct Hb as [<-|[<-|[]]].
  - split; [intros _; exists 1; reflexivity | intros _; reflexivity].
  - split; [intros H; vm_compute in H; discriminate | intros [[|n] H]; vm_compute in H; discriminate].
Qed.
Print Assumptions C70_enum_refuted.
(** f(int: a, int: b = 1) and f(int: c, int: s): only the first takes f(1), but the call is rejected as ambiguous;
    f(a: 1) is not *)
Theorem C70_arity_refuted : exists acc v x args, (forall y, In y v -> takes acc args y -> y = x) /\ In x v /\ takes acc args x /\ well_formed v /\
  (forall y, In y v -> ambiguous_named_call (en_fi x) (en_fi y) = true -> y = x) /\ (forall y, In y v -> default_extension (en_fi x) (en_fi y) = false) /\
  forall sub, match_fn sub acc None false true v args = Ambiguous /\ match_named sub acc (fun _ => false) true v [] [(n_a, w_int)] = Found (en_fi x).
Proof.
  set (x := decl 0 [(n_a, w_int, None); (n_b, w_int, Some 1)]). set (y := decl 1 [(n_c, w_int, None); (n_s, w_int, None)]).
  exists (acc_at 1 e_init), [x; y], x, [w_int].
  split. { intros z [<-|[<-|[]]] T; auto. apply viable_takes in T; [vm_compute in T; discriminate | reflexivity]. }
  split; [cbn; auto|]. split; [apply viable_takes; [reflexivity | vm_compute; reflexivity]|]. split; [apply decl_wf; intros z [<-|[<-|[]]]; unfold x, y; eauto|].
  split; [intros z [<-|[<-|[]]] T; auto; vm_compute in T; discriminate|]. split; [intros z [<-|[<-|[]]]; vm_compute; reflexivity|].
  intros sub. split; vm_compute; reflexivity.
Qed.
Print Assumptions C70_arity_refuted.

(** f(int: a), f(float: a), f(var int: a, float: b = 1): the bucket is sorted, f(true) resolves to the first and
    f(1.5) to the second *)
Example C70_nonvacuous :
  let x := decl 0 [(n_a, w_int, None)] in let y := decl 1 [(n_a, w_float, None)] in let z := decl 2 [(n_a, w_varint, None); (n_b, w_float, Some 1)] in
  let v := insertion_sort (entry_less (sub_at 1 e_init)) [z; y; x] in
  well_formed v /\ decides_on e_init (sub_at 1 e_init) (bucket_types v) /\ (forall t, In t (bucket_types v) -> enum_free e_init t /\ ~ is_struct t /\ type_ok t) /\
  v = [x; y; z] /\ sorted (sub_at 1 e_init) v /\
  match_fn (sub_at 1 e_init) (acc_at 1 e_init) None false true v [w_bool] = Found (en_fi x) /\
  match_fn (sub_at 1 e_init) (acc_at 1 e_init) None false true v [w_float] = Found (en_fi y) /\
  match_fn (sub_at 1 e_init) (acc_at 1 e_init) None false true v [w_varint] = Found (en_fi z) /\
  match_fn (sub_at 1 e_init) (acc_at 1 e_init) None false true v [w_string] = NotFound.
Proof.
  intros x y z v.
  assert (V : v = [x; y; z]) by (vm_compute; reflexivity).
  assert (D : decides_on e_init (sub_at 1 e_init) (bucket_types [z; y; x])) by (apply decides_check; vm_compute; reflexivity).
  assert (P : forall t, In t (bucket_types [z; y; x]) -> enum_free e_init t /\ ~ is_struct t /\ type_ok t).
  { intros t Ht. apply w_scalar. cbn in *. intuition. }
  pose proof (proj2 (C70_sort_partial e_init (sub_at 1 e_init) [z; y; x] D P)) as S. fold v in S.
  split; [rewrite V; apply decl_wf; intros w [<-|[<-|[<-|[]]]]; unfold x, y, z; eauto|].
  split; [rewrite V; apply decides_check; vm_compute; reflexivity|].
  split; [rewrite V; intros t Ht; apply w_scalar; cbn in *; intuition|].
  split; [exact V|]. split; [exact S|]. rewrite V. vm_compute. auto.
Qed.

(** ** C71 *)
(** the arguments of a call with named arguments, in the order of the parameters: every positional argument at
    its position, every named argument at the parameter of its name, defaults for the rest *)
Theorem C71_binding : forall sub acc anch skip v (pos : list (nat * ty)) (named : list (str * (nat * ty))) f, NoDup (map fst named) ->
  match_named sub acc anch skip v (map snd pos) (map (fun na => (fst na, snd (snd na))) named) = Found f ->
  exists args, reorder f (map fst pos) (map (fun na => (fst na, fst (snd na))) named) = map Some args /\
    binds f (map fst pos) (map (fun na => (fst na, fst (snd na))) named) args.
Proof. exact binding_l. Qed.
Print Assumptions C71_binding.
(** a call without named arguments *)
Theorem C71_positional : forall sub acc anch thr v (args : list (nat * ty)) f, well_formed v ->
  match_fn sub acc None anch thr v (map snd args) = Found f ->
  exists full, complete f (map fst args) = map Some full /\ binds f (map fst args) [] full.
Proof. exact positional_l. Qed.
Print Assumptions C71_positional.
Theorem C71_accepts : forall sub acc anch skip v pos named f, well_formed v -> (forall x, In x v -> distinct_names (en_fi x)) ->
  match_named sub acc anch skip v pos named = Found f ->
  exists x, In x v /\ en_fi x = f /\ takes_named acc pos named x /\ ~ (skip = true /\ anch f = true).
Proof. exact named_accepts_l. Qed.
Print Assumptions C71_accepts.
Theorem C71_complete : forall sub acc anch skip v pos named, well_formed v -> (forall x, In x v -> distinct_names (en_fi x)) ->
  (match_named sub acc anch skip v pos named = NotFound <-> forall x, In x v -> takes_named acc pos named x -> skip = true /\ anch (en_fi x) = true).
Proof. exact named_complete_l. Qed.
Print Assumptions C71_complete.
(** no declaration is more specific, if one has more parameters than the call has arguments, or among those with
    the same names at the same positions *)
Theorem C71_best_partial : forall e sub acc v, well_formed v -> (forall x, In x v -> distinct_names (en_fi x)) ->
  decides_on e sub (bucket_types v) -> (forall t, In t (bucket_types v) -> enum_free e t) ->
  forall pos named anch skip f, sorted sub v -> NoDup (map fst named) ->
  match_named sub acc anch skip v pos named = Found f ->
  exists x, In x v /\ en_fi x = f /\ takes_named acc pos named x /\
    forall y, In y v -> takes_named acc pos named y -> ~ (skip = true /\ anch (en_fi y) = true) ->
      (exists z, In z v /\ length pos + length named < length (en_t z)) \/ (forall j n, named_param (en_fi x) j n <-> named_param (en_fi y) j n) ->
      ~ (as_specific_named e (length pos) (map fst named) y x /\ ~ as_specific_named e (length pos) (map fst named) x y).
Proof. exact named_best_l. Qed.
Print Assumptions C71_best_partial.
(** declarations are rejected exactly if a call by names fits both with the same types *)
Theorem C71_confusable : forall f g, distinct_names f -> distinct_names g -> no_anonymous f -> no_anonymous g ->
  (ambiguous_named_call f g = true <-> confusable f g).
Proof. exact confusable_l. Qed.
Print Assumptions C71_confusable.

Lemma w_distinct : forall f, NoDup (map pa_name (fn_params f)) -> distinct_names f.
Proof.
  intros f N i j p q n Hi Hj Np Nq. rewrite NoDup_nth_error in N. apply N.
  - rewrite map_length. apply nth_error_Some. congruence.
  - rewrite !nth_error_map, Hi, Hj. cbn. congruence.
Qed.
(** f(bool: a, float: b) and f(int: b, bool: a): the second is more specific for f(a: true, b: 1), but the call
    resolves to the first; with a further declaration of three parameters it resolves to the second *)
Theorem C71_best_refuted : exists sub acc v x y z pos named, decides_on e_init sub (bucket_types (v ++ [z])) /\
  (forall t, In t (bucket_types (v ++ [z])) -> enum_free e_init t) /\ well_formed (v ++ [z]) /\ sorted sub (v ++ [z]) /\
  (forall w, In w (v ++ [z]) -> distinct_names (en_fi w)) /\
  In x v /\ In y v /\ takes_named acc pos named x /\ takes_named acc pos named y /\ ~ takes_named acc pos named z /\
  as_specific_named e_init (length pos) (map fst named) y x /\ ~ as_specific_named e_init (length pos) (map fst named) x y /\
  ambiguous_named_call (en_fi x) (en_fi y) = false /\
  match_named sub acc (fun _ => false) true v pos named = Found (en_fi x) /\
  match_named sub acc (fun _ => false) true (v ++ [z]) pos named = Found (en_fi y).
Proof.
  set (x := decl 0 [(n_a, w_bool, None); (n_b, w_float, None)]). set (y := decl 1 [(n_b, w_int, None); (n_a, w_bool, None)]).
  set (z := decl 2 [(n_a, w_string, None); (n_b, w_string, None); (n_c, w_string, None)]).
  assert (DX : distinct_names (en_fi x)) by (apply w_distinct; repeat constructor; cbn; intuition discriminate).
  assert (DY : distinct_names (en_fi y)) by (apply w_distinct; repeat constructor; cbn; intuition discriminate).
  assert (DZ : distinct_names (en_fi z)) by (apply w_distinct; repeat constructor; cbn; intuition discriminate).
  assert (D : decides_on e_init (sub_at 1 e_init) (bucket_types [x; y; z])) by (apply decides_check; vm_compute; reflexivity).
  assert (EF : forall t, In t (bucket_types [x; y; z]) -> enum_free e_init t) by (intros t Ht; apply (w_scalar t); cbn in *; intuition).
  assert (WF : well_formed [x; y; z]) by (apply decl_wf; intros w [<-|[<-|[<-|[]]]]; unfold x, y, z; eauto).
  assert (DA : forall w, In w [x; y; z] -> distinct_names (en_fi w)) by (intros w [<-|[<-|[<-|[]]]]; auto).
  exists (sub_at 1 e_init), (acc_at 1 e_init), [x; y], x, y, z, [], [(n_a, w_bool); (n_b, w_int)]. cbn [app].
  assert (TX : takes_named (acc_at 1 e_init) [] [(n_a, w_bool); (n_b, w_int)] x) by (apply takes_named_iff; [auto | reflexivity | vm_compute; reflexivity]).
  assert (TY : takes_named (acc_at 1 e_init) [] [(n_a, w_bool); (n_b, w_int)] y) by (apply takes_named_iff; [auto | reflexivity | vm_compute; reflexivity]).
  split; [exact D|]. split; [exact EF|]. split; [exact WF|].
  split. { intros [|[|[|i]]] [|[|[|j]]] a b L Ha Hb; cbn in Ha, Hb; try lia; try discriminate; try (destruct j; discriminate); injection Ha as <-; injection Hb as <-; vm_compute; reflexivity. }
  split; [exact DA|].
  split; [cbn; auto|]. split; [cbn; auto|]. split; [exact TX|]. split; [exact TY|].
  split; [intros T; apply takes_named_iff in T; [vm_compute in T; discriminate | auto | reflexivity]|].
  split; [apply (at_least_named_iff e_init (sub_at 1 e_init) (acc_at 1 e_init) [x; y; z] WF DA D EF [] _ y x); auto; cbn; auto|].
  split; [intros Q; apply (at_least_named_iff e_init (sub_at 1 e_init) (acc_at 1 e_init) [x; y; z] WF DA D EF [] _ x y) in Q; auto; [vm_compute in Q; discriminate | cbn; auto | cbn; auto]|].
  vm_compute. auto.
Qed.
Print Assumptions C71_best_refuted.
(** parameters without a name count as named by the empty string: f(int, string: s) and f(string: s, int) are
    rejected although no call by names fits *)
Theorem C71_anonymous_refuted : exists f g, distinct_names f /\ distinct_names g /\ ambiguous_named_call f g = true /\ forall K, ~ fits f K.
Proof.
  exists (en_fi (decl 0 [([], w_int, None); (n_s, w_string, None)])), (en_fi (decl 1 [(n_s, w_string, None); ([], w_int, None)])).
  split; [apply w_distinct; repeat constructor; cbn; intuition discriminate|]. split; [apply w_distinct; repeat constructor; cbn; intuition discriminate|].
  split; [vm_compute; reflexivity|]. intros K [H1 H2].
  destruct (H2 (mkPar (Some []) w_int None)) as (n & [= <-] & Hn); [cbn; auto | auto|]. destruct (H1 [] Hn) as [[Q _] _]. now apply Q.
Qed.
Print Assumptions C71_anonymous_refuted.

(** f(int: a, float: b, string: s = "x") called as f(1, b: 2.5) *)
Example C71_nonvacuous :
  let x := decl 0 [(n_a, w_int, None); (n_b, w_float, None); (n_s, w_string, Some 9)] in let y := decl 1 [(n_a, w_int, None); (n_c, w_float, None); (n_s, w_string, Some 8)] in
  match_named (sub_at 1 e_init) (acc_at 1 e_init) (fun _ => false) true [x; y] [w_int] [(n_b, w_float)] = Found (en_fi x) /\
  reorder (en_fi x) [4] [(n_b, 5)] = [Some 4; Some 5; Some 9] /\
  match_named (sub_at 1 e_init) (acc_at 1 e_init) (fun _ => false) true [x; y] [w_int; w_float] [(n_s, w_string)] = Ambiguous /\
  match_named (sub_at 1 e_init) (acc_at 1 e_init) (fun _ => false) true [x; y] [w_int] [(n_a, w_float)] = NotFound /\
  confusable (en_fi (decl 2 [(n_a, w_int, None); (n_b, w_int, Some 1)])) (en_fi (decl 3 [(n_c, w_float, Some 2); (n_a, w_int, None)])).
Proof.
  split; [vm_compute; reflexivity|]. split; [vm_compute; reflexivity|]. split; [vm_compute; reflexivity|]. split; [vm_compute; reflexivity|].
  apply C71_confusable; [apply w_distinct; repeat constructor; cbn; intuition discriminate .. | intros p [<-|[<-|[]]]; discriminate | intros p [<-|[<-|[]]]; discriminate | vm_compute; reflexivity].
Qed.
