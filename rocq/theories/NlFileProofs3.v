(** The file says what the collected data says; assertions. *)
Require Import List ZArith QArith Bool String Lia Permutation.
From Verif Require Import NlFileModel NlFileSpec NlFileProofs NlFileProofs2.
Import ListNotations.
Open Scope Q_scope.

(** ** builds without assertions *)

Lemma check_false : forall A c (k : option A), check false c k = k.
Proof. reflexivity. Qed.
Lemma check_release : forall A c (k : option A) r, check true c k = Some r -> k = Some r.
Proof. intros A c k r H. apply check_some in H. apply H. Qed.

Lemma update_release : forall b q b', (update_lb true b q = Some b' -> update_lb false b q = Some b') /\
  (update_ub true b q = Some b' -> update_ub false b q = Some b') /\ (update_eq true b q = Some b' -> update_eq false b q = Some b').
Proof.
  intros [t l u] q b'. unfold update_lb, update_ub, update_eq. cbn [b_tag]. rewrite !check_false.
  destruct t; repeat split; intro H; try (apply check_release in H); exact H.
Qed.
Lemma update_var_release : forall s n f g s', (forall b b', f b = Some b' -> g b = Some b') ->
  update_var s n f = Some s' -> update_var s n g = Some s'.
Proof.
  intros s n f g s' FG H. unfold update_var in *. destruct (lookup n (n_vars s)) as [v|]; [|discriminate].
  destruct (f (v_bound v)) as [b|] eqn:E; [|discriminate]. rewrite (FG _ _ E). exact H.
Qed.
Lemma zeroed_release : forall c x n j, zeroed true c x n = Some j -> zeroed false c x n = Some j.
Proof. intros c x n j H. unfold zeroed in *. destruct c; [|exact H]. apply check_release in H. exact H. Qed.

Lemma analyse_release : forall s c s', analyse true s c = Some s' -> analyse false s c = Some s'.
Proof.
  intros s c s' H. destruct c as [cs vs v|cs vs v|cs vs v|cs vs v|x y|x y|x y|x y|o x y z|o x y|x y|x y]; cbn [analyse] in *;
    try exact H; try (apply check_release in H; rewrite check_false; try exact H).
  - unfold lincons_predicate in *. apply check_release in H. exact H.
  - unfold lincons_predicate in *. apply check_release in H. exact H.
  - destruct x, y; cbn [nlcons_eq] in *; try exact H; (eapply update_var_release; [|exact H]); intros b b'; apply update_release.
  - destruct x, y; cbn [nlcons_le] in *; try exact H; (eapply update_var_release; [|exact H]); intros b b'; apply update_release.
  - unfold operator_binary in *. destruct z as [|n]; [exact H|].
    destruct (zeroed true (is_var x && negb (String.eqb (str x) (str y))) x n) eqn:EX; [|discriminate].
    destruct (zeroed true (is_var y) y n) eqn:EY; [|discriminate].
    rewrite (zeroed_release _ _ _ _ EX), (zeroed_release _ _ _ _ EY). exact H.
  - unfold operator_unary in *. destruct y as [|n]; [exact H|]. destruct (zeroed true (is_var x) x n) eqn:EX; [|discriminate].
    rewrite (zeroed_release _ _ _ _ EX). exact H.
  - unfold operator_unary in *. destruct y as [|n]; [exact H|]. destruct (zeroed true (is_var x) x n) eqn:EX; [|discriminate].
    rewrite (zeroed_release _ _ _ _ EX). exact H.
Qed.
Lemma add_decl_release : forall s d s', add_decl true s d = Some s' -> add_decl false s d = Some s'.
Proof.
  intros s d s' H. unfold add_decl in *. destruct (d_dom d) as [[|[l u] [|? ?]]|]; try exact H.
  unfold make_bounded in *. destruct (Qeq_bool l u); [exact H|]. rewrite check_false.
  destruct (check true (Qlt_b l u) (Some (mkB LB_UB l u))) as [b|] eqn:E; [|discriminate].
  apply check_release in E. injection E as E; subst b. exact H.
Qed.
Lemma fold_release : forall A B (f g : A -> B -> option A) l s s', (forall s x s', f s x = Some s' -> g s x = Some s') ->
  fold_opt f s l = Some s' -> fold_opt g s l = Some s'.
Proof.
  intros A B f g. induction l as [|x l IH]; intros s s' FG H; cbn in *; [exact H|].
  destruct (f s x) as [s1|] eqn:E; [|discriminate]. rewrite (FG _ _ _ E). auto.
Qed.
Lemma translate_release : forall ds cs r, translate true ds cs = Some r -> translate false ds cs = Some r.
Proof.
  intros ds cs r H. unfold translate, collect in *.
  destruct (fold_opt (add_decl true) (mkNl [] [] []) ds) as [s|] eqn:E; [|discriminate].
  rewrite (fold_release _ _ _ _ _ _ _ add_decl_release E).
  destruct (fold_opt (analyse true) s cs) as [s'|] eqn:E'; [|discriminate].
  rewrite (fold_release _ _ _ _ _ _ _ analyse_release E'). exact H.
Qed.

(** ** the order of the variables *)

Lemma vnames_perm : forall s, Permutation (map fst (n_vars s)) (vnames s).
Proof.
  intro s. unfold vnames, group. rewrite <- !map_app. apply Permutation_map.
  induction (n_vars s) as [|[n v] r IH]; [constructor|]. cbn [filter fst snd].
  destruct (nonlinear s n), (v_int v); cbn [Bool.eqb andb app].
  - apply Permutation_cons_app. exact IH.
  - apply perm_skip. exact IH.
  - rewrite !app_assoc. rewrite !app_assoc in IH. apply Permutation_cons_app. exact IH.
  - rewrite app_assoc. rewrite app_assoc in IH. cbn [app]. apply Permutation_cons_app. exact IH.
Qed.

Lemma index_nth : forall (env : string -> Q) n l i, index_of n l = Some i -> nth i (map env l) 0 = env n.
Proof.
  intros env n. induction l as [|m r IH]; intros i H; cbn in H; [discriminate|]. destruct (String.eqb n m) eqn:E.
  - apply String.eqb_eq in E. injection H as H; subst. reflexivity.
  - destruct (index_of n r) as [j|] eqn:EJ; cbn in H; [|discriminate]. injection H as H; subst. cbn. apply IH. reflexivity.
Qed.

Lemma map_opt_rel : forall A B (f : A -> option B) (P : A -> B -> Prop) l l', (forall x y, f x = Some y -> P x y) ->
  map_opt f l = Some l' -> Forall2 P l l'.
Proof.
  intros A B f P. induction l as [|x l IH]; intros l' H E; cbn in E; [injection E as E; subst; constructor|].
  destruct (f x) as [y|] eqn:FX; [|discriminate]. destruct (map_opt f l) as [r|] eqn:ML; [|discriminate].
  injection E as E; subst. constructor; auto.
Qed.
Lemma Forall2_flip' : forall A B (P : A -> B -> Prop) l l', Forall2 P l l' -> Forall2 (fun y x => P x y) l' l.
Proof. induction 1; constructor; auto. Qed.
Lemma Forall2_all : forall A B (P : A -> B -> Prop) (X : A -> Prop) (Y : B -> Prop) l l', Forall2 P l l' ->
  (forall x y, P x y -> (X x <-> Y y)) -> ((forall x, In x l -> X x) <-> (forall y, In y l' -> Y y)).
Proof.
  intros A B P X Y l l' H E. induction H as [|x y l l' HP H IH]; [cbn; split; intros; tauto|].
  split; intros K z [I|I]; subst.
  - apply (E _ _ HP). apply K. left; reflexivity.
  - apply IH; [|exact I]. intros; apply K; right; assumption.
  - apply (E _ _ HP). apply K. left; reflexivity.
  - apply IH; [|exact I]. intros; apply K; right; assumption.
Qed.

Lemma same_flip : forall V W (e : V -> Q) (e' : W -> Q) t t', same_token e e' t t' -> same_token e' e t' t.
Proof. intros V W e e' [q|v|o|m n] [q'|v'|o'|m' n'] H; cbn in *; try tauto; try congruence. destruct H; split; congruence. Qed.

Section Meaning.
Variable F : string -> Q -> Q.
Variable power : Q -> Q -> Q.
Variable env : string -> Q.

Section State.
Variable s : nl.
Let env' (i : nat) : Q := nth i (map env (vnames s)) 0.

Lemma out_token_same : forall t t', out_token s t = Some t' -> same_token env env' t t'.
Proof.
  intros [q|n|o|m k] t' H; cbn in H; try (injection H as H; subst; cbn; auto).
  destruct (index s n) as [i|] eqn:E; cbn in H; [|discriminate]. injection H as H; subst. cbn. unfold env'.
  symmetry. apply index_nth. exact E.
Qed.
Lemma graph_same : forall g g', map_opt (out_token s) g = Some g' ->
  forall q, reads F power env g q [] <-> reads F power env' g' q [].
Proof.
  intros g g' H q. apply (map_opt_rel _ _ _ _ _ _ out_token_same) in H. split; intro R.
  - destruct (proj1 (reads_same F power _ _ env env') _ _ _ R _ H) as [r' [N R']]. inversion N; subst. exact R'.
  - assert (H' : Forall2 (same_token env' env) g' g).
    { apply Forall2_flip' in H. clear - H. induction H; constructor; auto. apply same_flip. assumption. }
    destruct (proj1 (reads_same F power _ _ env' env) _ _ _ R _ H') as [r' [N R']]. inversion N; subst. exact R'.
Qed.
Lemma log_same : forall g g', map_opt (out_token s) g = Some g' -> (log_holds F power env g <-> log_holds F power env' g').
Proof. intros g g' H. unfold log_holds. split; intros [q [A B]]; exists q; (split; [|exact B]); apply (graph_same _ _ H); exact A. Qed.

Lemma jac_same : forall j j', map_opt (fun p => option_map (fun i => (i, snd p)) (index s (fst p))) j = Some j' ->
  jac_value env j = jac_value env' j'.
Proof.
  induction j as [|[n c] j IH]; intros j' H; cbn in H; [injection H as H; subst; reflexivity|].
  destruct (index s n) as [i|] eqn:E; cbn in H; [|discriminate].
  destruct (map_opt _ j) as [r|] eqn:M; [|discriminate]. injection H as H; subst. cbn. rewrite (IH r eq_refl).
  unfold env' at 2. rewrite (index_nth env n _ _ E). reflexivity.
Qed.
Lemma alg_same : forall c c', out_alg s c = Some c' -> (alg_ok F power env c <-> alg_holds F power env' c').
Proof.
  intros c c' H. unfold out_alg in H. fold (body c) in H. destruct (map_opt (out_token s) (body c)) as [g|] eqn:G; [|discriminate].
  destruct (map_opt _ (a_jac c)) as [j|] eqn:J; [|discriminate]. injection H as H; subst c'.
  unfold alg_ok, alg_holds. cbn [a_graph a_range a_jac]. rewrite (jac_same _ _ J).
  split; intros [q [A B]]; exists q; (split; [|exact B]); apply (graph_same _ _ G); exact A.
Qed.

Lemma bounds_same : forall ns bs, map_opt (fun n => option_map v_bound (lookup n (n_vars s))) ns = Some bs ->
  (Forall2 within bs (map env ns) <-> forall n v, In n ns -> lookup n (n_vars s) = Some v -> within (v_bound v) (env n)).
Proof.
  induction ns as [|n ns IH]; intros bs H; cbn in H.
  - injection H as H; subst. split; [intros _ n v []|constructor].
  - destruct (lookup n (n_vars s)) as [v|] eqn:L; cbn in H; [|discriminate].
    destruct (map_opt _ ns) as [r|] eqn:M; [|discriminate]. injection H as H; subst. cbn [map]. split.
    + intro A. inversion A; subst. intros m w [I|I] L'.
      * subst. rewrite L in L'. injection L' as L'; subst. assumption.
      * apply (proj1 (IH r eq_refl)); assumption.
    + intro A. constructor; [apply A with (n := n); [left; reflexivity|exact L]|].
      apply (proj2 (IH r eq_refl)). intros m w I L'. apply A; [right; exact I|exact L'].
Qed.

Theorem print_ok : forall f, NoDup (map fst (n_vars s)) -> (1 < List.length (n_vars s))%nat -> print s = Some f ->
  (nl_solution F power f (map env (vnames s)) <-> state_ok F power env s).
Proof.
  intros f ND LEN H. unfold print in H.
  destruct (map_opt (fun n => option_map v_bound (lookup n (n_vars s))) (vnames s)) as [bs|] eqn:B; [|discriminate].
  destruct (map_opt (out_alg s) _) as [cs|] eqn:C; [|discriminate].
  destruct (map_opt (map_opt (out_token s)) (n_log s)) as [ls|] eqn:L; [|discriminate].
  injection H as H; subst f. unfold nl_solution, state_ok. cbn [f_vars f_bounds f_cons f_log].
  assert (LT : Nat.ltb 1 (List.length (n_vars s)) = true) by (apply Nat.ltb_lt; exact LEN). rewrite LT.
  pose proof (vnames_perm s) as P.
  assert (LN : List.length (map env (vnames s)) = List.length (n_vars s)).
  { rewrite map_length, <- (Permutation_length P), map_length. reflexivity. }
  assert (E1 : Forall2 within bs (map env (vnames s)) <-> (forall n v, In (n, v) (n_vars s) -> within (v_bound v) (env n))).
  { rewrite (bounds_same _ _ B). split.
    - intros A n v I. apply A; [|apply in_lookup; assumption]. eapply Permutation_in; [exact P|].
      apply in_map_iff. exists (n, v). auto.
    - intros A n v I LK. apply A. apply lookup_in. exact LK. }
  pose proof (map_opt_rel _ _ _ _ _ _ (fun x y H => H) C) as C'.
  pose proof (Forall2_all _ _ _ (alg_ok F power env) (alg_holds F power env') _ _ C' alg_same) as E2.
  assert (E2' : (forall c, In c (n_cons s) -> alg_ok F power env c) <-> (forall c, In c cs -> alg_holds F power env' c)).
  { rewrite <- E2. split; intros A c I; apply A.
    - apply in_app_or in I. destruct I as [I|I]; apply filter_In in I; apply I.
    - apply in_or_app. destruct (is_linear c) eqn:IL; [right|left]; apply filter_In; rewrite ?IL; auto. }
  pose proof (map_opt_rel _ _ _ _ _ _ (fun x y H => H) L) as L'.
  pose proof (Forall2_all _ _ _ (log_holds F power env) (log_holds F power env') _ _ L' log_same) as E3.
  fold env'. rewrite E1, E2', E3. tauto.
Qed.
End State.
End Meaning.

(** values in the order of the names *)
Lemma assoc_map : forall ns vs, NoDup ns -> List.length vs = List.length ns -> map (fun n => assoc n ns vs) ns = vs.
Proof.
  induction ns as [|n ns IH]; intros [|v vs] ND L; cbn in L; try discriminate; [reflexivity|].
  inversion ND; subst. injection L as L. cbn [map assoc]. rewrite String.eqb_refl. f_equal.
  transitivity (map (fun n => assoc n ns vs) ns); [|apply IH; assumption]. apply map_ext_in. intros m I. cbn.
  destruct (String.eqb m n) eqn:E; [|reflexivity]. apply String.eqb_eq in E. subst. tauto.
Qed.

(** ** every collected model can be written *)

Lemma index_in : forall n l, In n l -> exists i, index_of n l = Some i.
Proof.
  intros n. induction l as [|m r IH]; intro H; [destruct H|]. cbn. destruct (String.eqb n m) eqn:E; [eauto|].
  destruct H as [H|H]; [subst; rewrite String.eqb_refl in E; discriminate|]. destruct (IH H) as [i HI]. rewrite HI. cbn. eauto.
Qed.
Lemma map_opt_total : forall A B (f : A -> option B) l, (forall x, In x l -> exists y, f x = Some y) -> exists r, map_opt f l = Some r.
Proof.
  intros A B f. induction l as [|x l IH]; intro H; cbn; [eauto|].
  destruct (H x (or_introl eq_refl)) as [y E]. rewrite E. destruct (IH (fun z I => H z (or_intror I))) as [r R]. rewrite R. eauto.
Qed.

Definition tokens_in (K : list string) (g : list (token string)) : Prop := forall n, In (TV n) g -> In n K.
Definition cons_in (K : list string) (c : alg string) : Prop :=
  tokens_in K (a_graph c) /\ forall n q, In (n, q) (a_jac c) -> In n K.
Definition names_in (K : list string) (s : nl) : Prop :=
  map fst (n_vars s) = K /\ (forall c, In c (n_cons s) -> cons_in K c) /\ (forall g, In g (n_log s) -> tokens_in K g).

Lemma print_total : forall s K, names_in K s -> exists f, print s = Some f.
Proof.
  intros s K [KV [KC KL]]. unfold print.
  assert (IDX : forall n, In n K -> exists i, index s n = Some i).
  { intros n I. apply index_in. eapply Permutation_in; [apply vnames_perm|]. rewrite KV. exact I. }
  assert (TOK : forall g, tokens_in K g -> exists g', map_opt (out_token s) g = Some g').
  { intros g H. apply map_opt_total. intros [q|n|o|m k] I; cbn; eauto. destruct (IDX n (H n I)) as [i E]. rewrite E. cbn. eauto. }
  destruct (map_opt_total _ _ (fun n => option_map v_bound (lookup n (n_vars s))) (vnames s)) as [bs B].
  { intros n I. apply (Permutation_in n (Permutation_sym (vnames_perm s))) in I. clear - I.
    induction (n_vars s) as [|[m v] r IH]; [destruct I|]. cbn. destruct (String.eqb n m) eqn:E; [cbn; eauto|].
    destruct I as [I|I]; [cbn in I; subst; rewrite String.eqb_refl in E; discriminate|auto]. }
  rewrite B.
  destruct (map_opt_total _ _ (out_alg s) (filter (fun c => negb (is_linear c)) (n_cons s) ++ filter is_linear (n_cons s))) as [cs C].
  { intros c I. assert (I' : In c (n_cons s)) by (apply in_app_or in I; destruct I as [I|I]; apply filter_In in I; apply I).
    destruct (KC c I') as [T J]. unfold out_alg.
    destruct (TOK (match a_graph c with [] => [TN 0] | g => g end)) as [g' G].
    { destruct (a_graph c); [|exact T]. intros n [H|[]]; discriminate. }
    rewrite G.
    destruct (map_opt_total _ _ (fun p : string * Q => option_map (fun i => (i, snd p)) (index s (fst p))) (a_jac c)) as [j E].
    { intros [n q] IJ. destruct (IDX n (J n q IJ)) as [i E]. cbn. rewrite E. cbn. eauto. }
    rewrite E. eauto. }
  rewrite C. destruct (map_opt_total _ _ (map_opt (out_token s)) (n_log s)) as [ls L]; [intros g I; apply TOK; apply KL; exact I|].
  rewrite L. eauto.
Qed.

Lemma tok_in : forall K a rest, (forall n, a = AV n -> In n K) -> tokens_in K rest -> tokens_in K (tok a :: rest).
Proof. intros K [q|m] rest H R n [E|I]; [discriminate|apply R; exact I|cbn in E; injection E as E; subst; apply H; reflexivity|apply R; exact I]. Qed.
Lemma op_in : forall K o rest, (forall n, o <> TV n) -> tokens_in K rest -> tokens_in K (o :: rest).
Proof. intros K o rest H R n [E|I]; [exfalso; apply (H n E)|apply R; exact I]. Qed.
Lemma nil_in : forall K, tokens_in K [].
Proof. intros K n []. Qed.
Lemma sigma_in : forall K cs vs, (forall n, In n vs -> In n K) -> tokens_in K (sigma_terms cs vs).
Proof.
  intro K. induction cs as [|c cs IH]; intros [|v vs] H; cbn; try apply nil_in.
  intros n I. apply in_app_or in I. destruct I as [I|I].
  - destruct (Qeq_bool c 1); cbn in I.
    + destruct I as [I|[]]. injection I as I; subst. apply H. left; reflexivity.
    + destruct I as [I|[I|[I|[]]]]; try discriminate. injection I as I; subst. apply H. left; reflexivity.
  - apply (IH vs); [|exact I]. intros; apply H; right; assumption.
Qed.
Lemma combine_in : forall (K vs : list string) (cs : list Q), (forall n, In n vs -> In n K) -> forall n q, In (n, q) (combine vs cs) -> In n K.
Proof. intros K vs cs H n q I. apply H. eapply in_combine_l. exact I. Qed.

Lemma names_add_cons : forall K s c, names_in K s -> cons_in K c -> names_in K (add_cons s c).
Proof.
  intros K s c [A [B C]] H. split; [exact A|split; [|exact C]]. intros c' I. apply in_app_or in I. destruct I as [I|[I|[]]]; subst; auto.
Qed.
Lemma names_add_log : forall K s g, names_in K s -> tokens_in K g -> names_in K (add_log s g).
Proof.
  intros K s c [A [B C]] H. split; [exact A|split; [exact B|]]. intros c' I. apply in_app_or in I. destruct I as [I|[I|[]]]; subst; auto.
Qed.
Lemma names_update : forall K s n f s', names_in K s -> update_var s n f = Some s' -> names_in K s'.
Proof.
  intros K s n f s' [A [B C]] H. unfold update_var in H. destruct (lookup n (n_vars s)) as [v|] eqn:L; [|discriminate].
  destruct (f (v_bound v)) as [b|]; [|discriminate]. injection H as H; subst. split; [|split; assumption].
  cbn. rewrite (store_keys _ _ _ _ L). first [assumption | reflexivity].
Qed.
Lemma zeroed_in : forall K dbg c x n j, (forall m, x = AV m -> In m K) -> (c = true -> is_var x = true) ->
  zeroed dbg c x n = Some j -> forall m q, In (m, q) j -> In m K.
Proof.
  intros K dbg c x n j HX HC H m q I. unfold zeroed in H. destruct c.
  - apply check_some in H. destruct H as [H _]. injection H as H; subst. destruct I as [I|[]]. injection I as I1 I2; subst.
    specialize (HC eq_refl). destruct x; [discriminate|]. apply HX. reflexivity.
  - injection H as H; subst. destruct I.
Qed.

Lemma analyse_names : forall K dbg s c s', names_in K s -> (forall n, In (AV n) (args c) -> In n K) ->
  analyse dbg s c = Some s' -> names_in K s'.
Proof.
  intros K dbg s c s' NI AR H. destruct c as [cs vs v|cs vs v|cs vs v|cs vs v|x y|x y|x y|x y|o x y z|o x y|x y|x y];
    cbn [analyse args] in *;
    try (assert (VS : forall n, In n vs -> In n K) by (intros n I; apply AR; right; apply in_map; exact I)).
  1,2: apply check_some in H; destruct H as [H _]; injection H as H; subst s'; apply names_add_cons; [exact NI|];
    destruct v as [q|n]; (split; [apply nil_in|]); cbn [a_jac lincons]; apply combine_in; [exact VS|];
    intros m I; apply in_app_or in I; destruct I as [I|[I|[]]]; [auto|subst; apply AR; left; reflexivity].
  1,2: apply check_some in H; destruct H as [H _]; apply check_some in H; destruct H as [H _]; injection H as H; subst s';
    apply names_add_log; [exact NI|]; apply op_in; [discriminate|];
    intros n I; destruct I as [I|I]; [destruct (Nat.eqb (List.length cs) 2); discriminate|]; apply in_app_or in I;
    destruct I as [I|I];
      [apply (sigma_in K cs vs VS); exact I
      |apply (tok_in K v [] (fun m E => AR m (or_introl E)) (nil_in K)); exact I].
  1,2: assert (XY : forall n, x = AV n \/ y = AV n -> In n K) by (intros n [E|E]; subst; apply AR; cbn; auto);
    destruct x as [q|n], y as [q'|m]; cbn [nlcons_eq nlcons_le] in H; try (eapply names_update; eassumption);
    try (injection H as H; subst; exact NI);
    (destruct (String.eqb n m); injection H as H; subst s'; [exact NI|]);
    apply names_add_cons; [exact NI|]; (split; [apply nil_in|]); cbn;
    intros k q [I|[I|[]]]; injection I as I1 I2; subst; apply XY; auto.
  1,2: injection H as H; subst s'; apply names_add_log; [exact NI|]; apply op_in; [discriminate|];
    apply tok_in; [intros n E; subst; apply AR; left; reflexivity|];
    apply tok_in; [intros n E; subst; apply AR; right; left; reflexivity|apply nil_in].
  - assert (G : tokens_in K [op_of_bin o; tok x; tok y]).
    { apply op_in; [destruct o; discriminate|]. apply tok_in; [intros n E; subst; apply AR; cbn; auto|].
      apply tok_in; [intros n E; subst; apply AR; cbn; auto|apply nil_in]. }
    unfold operator_binary in H. destruct z as [q|n].
    + injection H as H; subst s'. apply names_add_cons; [exact NI|]. split; [exact G|intros ? ? []].
    + destruct (zeroed dbg (is_var x && negb (String.eqb (str x) (str y))) x n) as [jx|] eqn:EX; [|discriminate].
      destruct (zeroed dbg (is_var y) y n) as [jy|] eqn:EY; [|discriminate]. injection H as H; subst s'.
      apply names_add_cons; [exact NI|]. split; [exact G|]. cbn [a_jac]. intros m q I.
      apply in_app_or in I. destruct I as [I|I]; [|apply in_app_or in I; destruct I as [I|I]].
      * revert m q I. eapply zeroed_in; [| |exact EX]; [intros m E; subst; apply AR; cbn; auto|].
        intro C. apply andb_true_iff in C. apply C.
      * revert m q I. eapply zeroed_in; [| |exact EY]; [intros m E; subst; apply AR; cbn; auto|auto].
      * destruct I as [I|[]]. injection I as I1 I2; subst. apply AR. cbn. auto.
  - assert (G : tokens_in K [TO (op_of_un o); tok x]).
    { apply op_in; [discriminate|]. apply tok_in; [intros n E; subst; apply AR; cbn; auto|apply nil_in]. }
    unfold operator_unary in H. destruct y as [q|n].
    + injection H as H; subst s'. apply names_add_cons; [exact NI|]. split; [exact G|intros ? ? []].
    + destruct (zeroed dbg (is_var x) x n) as [jx|] eqn:EX; [|discriminate]. injection H as H; subst s'.
      apply names_add_cons; [exact NI|]. split; [exact G|]. cbn [a_jac]. intros m q I. apply in_app_or in I. destruct I as [I|[I|[]]].
      * revert m q I. eapply zeroed_in; [| |exact EX]; [intros m E; subst; apply AR; cbn; auto|auto].
      * injection I as I1 I2; subst. apply AR. cbn. auto.
  - assert (G : tokens_in K [TO OPDIV; TO OP_log; tok x; TO OP_log; TN 2]).
    { apply op_in; [discriminate|]. apply op_in; [discriminate|]. apply tok_in; [intros n E; subst; apply AR; cbn; auto|].
      apply op_in; [discriminate|]. apply op_in; [discriminate|apply nil_in]. }
    unfold operator_unary in H. destruct y as [q|n].
    + injection H as H; subst s'. apply names_add_cons; [exact NI|]. split; [exact G|intros ? ? []].
    + destruct (zeroed dbg (is_var x) x n) as [jx|] eqn:EX; [|discriminate]. injection H as H; subst s'.
      apply names_add_cons; [exact NI|]. split; [exact G|]. cbn [a_jac]. intros m q I. apply in_app_or in I. destruct I as [I|[I|[]]].
      * revert m q I. eapply zeroed_in; [| |exact EX]; [intros m E; subst; apply AR; cbn; auto|auto].
      * injection I as I1 I2; subst. apply AR. cbn. auto.
  - injection H as H; subst s'. apply names_add_cons; [exact NI|]. split; [apply nil_in|]. cbn.
    intros k q [I|[I|[]]]; injection I as I1 I2; subst; apply AR; cbn; auto.
Qed.
Lemma decl_names : forall K dbg s d s', names_in K s -> ~ In (d_name d) K -> add_decl dbg s d = Some s' -> names_in (K ++ [d_name d]) s'.
Proof.
  intros K dbg s d s' [A [B C]] NI H. unfold add_decl in H.
  destruct (match d_dom d with None => Some make_none | Some [(l, u)] => make_bounded dbg l u | Some _ => None end); [|discriminate].
  injection H as H; subst s'. split.
  - cbn. rewrite store_new by (rewrite A; exact NI). rewrite map_app, A. reflexivity.
  - split; [intros c I; destruct (B c I) as [T J]; split; [intros n IN|intros n q IN]|intros g I n IN];
      apply in_or_app; left; [apply T|eapply J|eapply C]; eassumption.
Qed.
Lemma collect_names : forall dbg ds cs s, NoDup (map d_name ds) ->
  (forall c n, In c cs -> In (AV n) (args c) -> In n (map d_name ds)) ->
  collect dbg ds cs = Some s -> names_in (map d_name ds) s.
Proof.
  intros dbg ds cs s ND AR H. unfold collect in H.
  destruct (fold_opt (add_decl dbg) (mkNl [] [] []) ds) as [s1|] eqn:E; [|discriminate].
  assert (N1 : names_in (map d_name ds) s1).
  { assert (G : forall l K s0 s', names_in K s0 -> NoDup (K ++ map d_name l) -> fold_opt (add_decl dbg) s0 l = Some s' ->
                names_in (K ++ map d_name l) s').
    { induction l as [|d l IH]; intros K s0 s' N0 ND0 F0; cbn [fold_opt map] in *.
      - injection F0 as F0; subst. rewrite app_nil_r. exact N0.
      - destruct (add_decl dbg s0 d) as [s2|] eqn:E2; [|discriminate].
        assert (NI : ~ In (d_name d) K) by (intro I; apply NoDup_remove_2 in ND0; apply ND0; apply in_or_app; left; exact I).
        pose proof (decl_names _ _ _ _ _ N0 NI E2) as N2. specialize (IH (K ++ [d_name d]) s2 s' N2).
        rewrite <- app_assoc in IH. apply IH; assumption. }
    apply (G ds [] (mkNl [] [] [])); [split; [reflexivity|split; intros ? []]|exact ND|exact E]. }
  clear E. revert s1 N1 H. induction cs as [|c cs IH]; intros s1 N1 H; cbn [fold_opt] in H; [injection H as H; subst; exact N1|].
  destruct (analyse dbg s1 c) as [s2|] eqn:E; [|discriminate].
  apply (IH (fun c' n I => AR c' n (or_intror I)) s2); [|exact H].
  eapply analyse_names; [exact N1| |exact E]. intros n I. apply (AR c n (or_introl eq_refl) I).
Qed.

(** builds without assertions accept everything but unusual domains and bounds on constants *)
Definition plain (c : call) : Prop :=
  match c with CEq (AC _) (AV _) | CEq (AV _) (AC _) | CLe (AC _) (AV _) | CLe (AV _) (AC _) => False | _ => True end.
Lemma collect_release : forall ds cs, (forall d, In d ds -> d_dom d = None \/ exists r, d_dom d = Some [r]) ->
  (forall c, In c cs -> plain c) -> exists s, collect false ds cs = Some s.
Proof.
  intros ds cs D C. unfold collect.
  assert (G : forall l s0, (forall d, In d l -> d_dom d = None \/ exists r, d_dom d = Some [r]) ->
              exists s', fold_opt (add_decl false) s0 l = Some s').
  { induction l as [|d l IH]; intros s0 H; cbn; [eauto|]. unfold add_decl.
    destruct (H d (or_introl eq_refl)) as [E|[[lo up] E]]; rewrite E.
    - apply IH. intros; apply H; right; assumption.
    - unfold make_bounded. destruct (Qeq_bool lo up); [|rewrite check_false]; apply IH; intros; apply H; right; assumption. }
  destruct (G ds (mkNl [] [] []) D) as [s1 E]. rewrite E. clear E. revert s1. induction cs as [|c cs IH]; intro s1; cbn; [eauto|].
  assert (S : exists s2, analyse false s1 c = Some s2).
  { pose proof (C c (or_introl eq_refl)) as P.
    destruct c as [k vs v|k vs v|k vs v|k vs v|x y|x y|x y|x y|o x y z|o x y|x y|x y]; cbn [analyse]; unfold lincons_predicate;
      rewrite ?check_false; eauto.
    - destruct x as [?|n], y as [?|m]; cbn in P; try tauto; cbn; eauto. destruct (String.eqb n m); eauto.
    - destruct x as [?|n], y as [?|m]; cbn in P; try tauto; cbn; eauto. destruct (String.eqb n m); eauto.
    - unfold operator_binary, zeroed. destruct z; eauto. rewrite !check_false.
      destruct (is_var x && negb (String.eqb (str x) (str y))), (is_var y); eauto.
    - unfold operator_unary, zeroed. destruct y; eauto. rewrite !check_false. destruct (is_var x); eauto.
    - unfold operator_unary, zeroed. destruct y; eauto. rewrite !check_false. destruct (is_var x); eauto. }
  destruct S as [s2 E]. rewrite E. apply IH. intros; apply C; right; assumption.
Qed.
