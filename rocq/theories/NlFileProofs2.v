(** Collecting the NL data keeps the meaning. *)
Require Import List ZArith QArith Bool String Lia Permutation Lqa.
From Verif Require Import NlFileModel NlFileSpec NlFileProofs.
Import ListNotations.
Open Scope Q_scope.

Lemma within_proper : forall b x y, x == y -> within b x -> within b y.
Proof. intros [t lo up] x y E H. unfold within in *. destruct t; cbn in *; try (rewrite <- E; exact H); auto. Qed.

Definition body {V : Type} (c : alg V) : list (token V) := match a_graph c with [] => [TN 0] | g => g end.

Section Meaning.
Variable F : string -> Q -> Q.
Variable power : Q -> Q -> Q.
Section Env.
Variable env : string -> Q.

Definition alg_ok (c : alg string) : Prop := alg_holds F power env (mkA (a_range c) (body c) (a_jac c)).
Definition state_ok (s : nl) : Prop :=
  (forall n v, In (n, v) (n_vars s) -> within (v_bound v) (env n)) /\
  (forall c, In c (n_cons s) -> alg_ok c) /\ (forall g, In g (n_log s) -> log_holds F power env g).

Lemma alg_linear : forall b j, alg_ok (mkA b [] j) <-> within b (jac_value env j).
Proof.
  intros b j. unfold alg_ok, alg_holds, body. cbn [a_graph a_range a_jac]. split.
  - intros [q [R W]]. inversion R; subst. eapply within_proper; [|exact W]. ring.
  - intro W. exists 0. split; [constructor|]. eapply within_proper; [|exact W]. ring.
Qed.
Lemma alg_graph : forall b t g j, alg_ok (mkA b (t :: g) j) <->
  exists q, reads F power env (t :: g) q [] /\ within b (q + jac_value env j).
Proof. intros. reflexivity. Qed.

Lemma jac_combine : forall vs cs, List.length cs = List.length vs -> jac_value env (jacobian vs cs) == linear env cs vs.
Proof.
  induction vs as [|v vs IH]; intros [|c cs] L; cbn in L; try discriminate; [reflexivity|].
  injection L as L. unfold jacobian in *. cbn. rewrite IH by exact L. reflexivity.
Qed.
Lemma linear_app : forall cs vs c v, List.length cs = List.length vs ->
  linear env (cs ++ [c]) (vs ++ [v]) == linear env cs vs + c * env v.
Proof.
  induction cs as [|c' cs IH]; intros [|v' vs] c v L; cbn in L; try discriminate; cbn; [ring|].
  injection L as L. rewrite IH by exact L. ring.
Qed.

Lemma cons_step : forall s c P, (alg_ok c <-> P) -> (state_ok (add_cons s c) <-> state_ok s /\ P).
Proof.
  intros s c P H. unfold state_ok, add_cons. cbn. split.
  - intros [A [B C]]. split; [split; [exact A|split; [|exact C]]|].
    + intros c' I. apply B. apply in_or_app. left; exact I.
    + apply H. apply B. apply in_or_app. right. left. reflexivity.
  - intros [[A [B C]] D]. split; [exact A|split; [|exact C]]. intros c' I. apply in_app_or in I.
    destruct I as [I|[I|[]]]; [auto|]. subst. apply H. exact D.
Qed.
Lemma log_step : forall s g P, (log_holds F power env g <-> P) -> (state_ok (add_log s g) <-> state_ok s /\ P).
Proof.
  intros s c P H. unfold state_ok, add_log. cbn. split.
  - intros [A [B C]]. split; [split; [exact A|split; [exact B|]]|].
    + intros c' I. apply C. apply in_or_app. left; exact I.
    + apply H. apply C. apply in_or_app. right. left. reflexivity.
  - intros [[A [B C]] D]. split; [exact A|split; [exact B|]]. intros c' I. apply in_app_or in I.
    destruct I as [I|[I|[]]]; [auto|]. subst. apply H. exact D.
Qed.
Lemma var_step : forall s n f s' (P : Q -> Prop), NoDup (map fst (n_vars s)) ->
  (forall b b' q, f b = Some b' -> (within b' q <-> within b q /\ P q)) ->
  update_var s n f = Some s' -> (state_ok s' <-> state_ok s /\ P (env n)) /\ map fst (n_vars s') = map fst (n_vars s).
Proof.
  intros s n f s' P ND HF H. unfold update_var in H. destruct (lookup n (n_vars s)) as [v|] eqn:L; [|discriminate].
  destruct (f (v_bound v)) as [b|] eqn:FB; [|discriminate]. injection H as H. subst s'. split.
  2:{ cbn. eapply store_keys; exact L. }
  unfold state_ok. cbn [n_vars n_cons n_log].
  pose proof (store_all (fun m b0 => within b0 (env m)) n (mkV (v_int v) (v_report v) b) v (n_vars s) ND L) as SA.
  cbn [v_bound] in SA. cbv beta in SA. pose proof (HF _ _ (env n) FB) as W.
  assert (E : (forall m u, In (m, u) (n_vars s) -> within (v_bound u) (env m)) <->
              within (v_bound v) (env n) /\ (forall m u, In (m, u) (n_vars s) -> m <> n -> within (v_bound u) (env m))).
  { split.
    - intro A. split; [apply A; apply lookup_in; exact L|]. intros; apply A; assumption.
    - intros [A B] m u I. destruct (string_dec m n) as [->|NE]; [|apply B; assumption].
      rewrite (in_lookup _ _ _ ND I) in L. injection L as L. subst. exact A. }
  tauto.
Qed.

Lemma lincons_ok : forall mk (P : Q -> Q -> Prop) cs vs v, List.length cs = List.length vs ->
  (forall q x, within (mk q) x <-> P x q) -> (forall x y z, x == y -> P x z -> P y z) ->
  (forall x y, P (x + - (1) * y) 0 <-> P x y) ->
  (alg_ok (lincons mk cs vs v) <-> P (linear env cs vs) (val env v)).
Proof.
  intros mk P cs vs v L M PP PZ. destruct v as [q|n]; unfold lincons; rewrite alg_linear, M.
  - pose proof (jac_combine vs cs L) as J. cbn [val]. split; apply PP; [exact J|symmetry; exact J].
  - assert (L' : List.length (cs ++ [-(1)]) = List.length (vs ++ [n])) by (rewrite !app_length; cbn; lia).
    pose proof (jac_combine _ _ L') as J. rewrite linear_app in J by exact L. cbn [val]. rewrite <- (PZ (linear env cs vs) (env n)).
    split; apply PP; [exact J|symmetry; exact J].
Qed.
Lemma lincons_eq_ok : forall cs vs v, List.length cs = List.length vs ->
  (alg_ok (lincons make_equal cs vs v) <-> linear env cs vs == val env v).
Proof.
  intros. apply (lincons_ok make_equal (fun x y => x == y)); auto.
  - intros q x. unfold within; cbn. tauto.
  - intros x y z E H1. rewrite <- E. exact H1.
  - intros. split; intro; lra.
Qed.
Lemma lincons_le_ok : forall cs vs v, List.length cs = List.length vs ->
  (alg_ok (lincons make_ub cs vs v) <-> linear env cs vs <= val env v).
Proof.
  intros. apply (lincons_ok make_ub (fun x y => x <= y)); auto.
  - intros q x. unfold within; cbn. tauto.
  - intros x y z E H1. rewrite <- E. exact H1.
  - intros. split; intro; lra.
Qed.

Lemma ne_value : forall x y, (exists q, nl_bin power ONE x y = Some q /\ ~ q == 0) <-> ~ x == y.
Proof.
  intros x y. cbn [nl_bin]. split.
  - intros [q [H Z]]. injection H as H. subst q. intro E. apply Qeq_bool_iff in E. rewrite E in Z. apply Z. reflexivity.
  - intro N. eexists; split; [reflexivity|]. destruct (Qeq_bool x y) eqn:E; [apply Qeq_bool_iff in E; tauto|].
    cbn. intro K. discriminate.
Qed.
Lemma lt_value : forall x y, (exists q, nl_bin power OLT x y = Some q /\ ~ q == 0) <-> x < y.
Proof.
  intros x y. cbn [nl_bin]. split.
  - intros [q [H Z]]. injection H as H. subst q. destruct (Qle_bool y x) eqn:E; [exfalso; apply Z; reflexivity|].
    apply Qnot_le_lt. intro L. apply Qle_bool_iff in L. congruence.
  - intro N. eexists; split; [reflexivity|]. destruct (Qle_bool y x) eqn:E; [apply Qle_bool_iff in E; lra|].
    cbn. intro K. discriminate.
Qed.
Lemma log_bin : forall o x y, nl_fun o = None ->
  (log_holds F power env [TO o; tok x; tok y] <-> exists q, nl_bin power o (val env x) (val env y) = Some q /\ ~ q == 0).
Proof.
  intros o x y N. unfold log_holds. split; intros [q [A B]]; exists q; (split; [|exact B]); apply read_bin with (F := F) in A || apply read_bin; auto.
Qed.

(** what a graph with its result says *)
Lemma result_ok : forall t g z jx (Q0 : Q -> Prop),
  (forall q, reads F power env (t :: g) q [] <-> Q0 q) ->
  jac_value env jx == 0 ->
  (match z with
   | AC k => alg_ok (mkA (make_equal k) (t :: g) [])
   | AV n => alg_ok (mkA (make_equal 0) (t :: g) (jx ++ [(n, -(1))]))
   end <-> exists q, Q0 q /\ val env z == q).
Proof.
  intros t g z jx Q0 H J.
  assert (JA : forall n, jac_value env (jx ++ [(n, -(1))]) == - env n).
  { intro n. transitivity (jac_value env jx + - env n); [|rewrite J; ring]. clear. induction jx as [|[v c] r IH]; cbn; [ring|].
    rewrite IH. ring. }
  destruct z as [k|n]; rewrite alg_graph; unfold within; cbn [make_equal b_tag b_lb val].
  - split; intros [q [A B]]; exists q; (split; [apply H; exact A|]).
    + cbn in B. rewrite <- B. ring.
    + cbn. rewrite B. ring.
  - split; intros [q [A B]]; exists q; (split; [apply H; exact A|]); pose proof (JA n) as JN; lra.
Qed.

Lemma bin_ok : forall o x y z, o <> IDiv ->
  ((exists q, (exists t g, [op_of_bin o; tok x; tok y] = t :: g /\ reads F power env (t :: g) q []) /\ val env z == q) <->
   bin_holds power o (val env x) (val env y) (val env z)).
Proof.
  intros o x y z N.
  assert (G : (exists q, (exists t g, [op_of_bin o; tok x; tok y] = t :: g /\ reads F power env (t :: g) q []) /\ val env z == q)
              <-> exists q, reads F power env [op_of_bin o; tok x; tok y] q [] /\ val env z == q).
  { split.
    - intros [q [[t [g [E R]]] V]]. exists q. rewrite E. auto.
    - intros [q [R V]]. exists q. split; [|exact V]. eexists _, _. split; [reflexivity|exact R]. }
  rewrite G. clear G. unfold bin_holds.
  assert (D : forall p : bool -> Prop, Qeq_bool (val env y) 0 = true /\ val env y == 0 \/ Qeq_bool (val env y) 0 = false /\ ~ val env y == 0).
  { intros _. destruct (Qeq_bool (val env y) 0) eqn:E; [left|right]; split; auto; [apply Qeq_bool_iff; exact E|].
    intro K. apply Qeq_bool_iff in K. congruence. }
  specialize (D (fun _ => True)).
  destruct o; cbn [op_of_bin]; try congruence;
    (split; [intros [q [R V]]; first [apply read_bin in R; [|reflexivity] | apply read_many2 in R]; cbn in R
            | intro V]).
  all: try (injection R as R; subst q; exact V).
  all: try (eexists; split; [first [apply read_bin; reflexivity | apply read_many2; reflexivity]|exact V]).
  all: try (destruct D as [[D1 D2]|[D1 D2]]; [rewrite D1 in R; discriminate|]; rewrite D1 in R; injection R as R; subst q; tauto).
  all: destruct V as [V1 V2]; destruct D as [[D1 D2]|[D1 D2]]; [tauto|];
    (eexists; split; [apply read_bin; [reflexivity|]; cbn; rewrite D1; reflexivity|exact V2]).
Qed.

Lemma zeroed_value : forall dbg c x n jx, zeroed dbg c x n = Some jx -> jac_value env jx == 0.
Proof.
  intros dbg c x n jx H. unfold zeroed in H. destruct c; [apply check_some in H; destruct H as [H _]|]; injection H as H; subst;
    cbn; ring.
Qed.
Lemma jac_app : forall a b, jac_value env (a ++ b) == jac_value env a + jac_value env b.
Proof. induction a as [|[v c] r IH]; intro b; cbn; [ring|]. rewrite IH. ring. Qed.

Definition call_ok (c : call) : Prop :=
  match c with
  | LinEq k vs _ | LinLe k vs _ | LinNe k vs _ | LinLt k vs _ => List.length k = List.length vs
  | CEq (AC _) (AC _) | CLe (AC _) (AC _) => False
  | Bin IDiv _ _ _ => False
  | _ => True
  end.

Lemma binary_ok : forall dbg s o x y z s', operator_binary dbg s o x y z = Some s' ->
  exists jx, jac_value env jx == 0 /\
  s' = add_cons s (match z with
                   | AC k => mkA (make_equal k) [o; tok x; tok y] []
                   | AV n => mkA (make_equal 0) [o; tok x; tok y] (jx ++ [(n, -(1))])
                   end).
Proof.
  intros dbg s o x y z s' H. unfold operator_binary in H. destruct z as [k|n].
  - exists []. split; [reflexivity|]. congruence.
  - destruct (zeroed dbg (is_var x && negb (String.eqb (str x) (str y))) x n) as [jx|] eqn:EX; [|discriminate].
    destruct (zeroed dbg (is_var y) y n) as [jy|] eqn:EY; [|discriminate]. exists (jx ++ jy). split.
    + rewrite jac_app, (zeroed_value _ _ _ _ _ EX), (zeroed_value _ _ _ _ _ EY). ring.
    + rewrite <- app_assoc. congruence.
Qed.
Lemma unary_ok : forall dbg s g x y s', operator_unary dbg s g x y = Some s' ->
  exists jx, jac_value env jx == 0 /\
  s' = add_cons s (match y with AC k => mkA (make_equal k) g [] | AV n => mkA (make_equal 0) g (jx ++ [(n, -(1))]) end).
Proof.
  intros dbg s g x y s' H. unfold operator_unary in H. destruct y as [k|n].
  - exists []. split; [reflexivity|]. congruence.
  - destruct (zeroed dbg (is_var x) x n) as [jx|] eqn:EX; [|discriminate]. exists jx. split; [|congruence].
    apply (zeroed_value _ _ _ _ _ EX).
Qed.

Lemma un_name : forall o, nl_fun (op_of_un o) = Some (fun_name o).
Proof. destruct o; reflexivity. Qed.

Lemma alg_ok_match : forall (z : arg) (a : Q -> alg string) (b : string -> alg string),
  alg_ok (match z with AC k => a k | AV n => b n end) = match z with AC k => alg_ok (a k) | AV n => alg_ok (b n) end.
Proof. destruct z; reflexivity. Qed.

Lemma log2_reads : forall x q, reads F power env [TO OPDIV; TO OP_log; tok x; TO OP_log; TN 2] q [] <->
  (~ F "ln" 2 == 0 /\ q = F "ln" (val env x) / F "ln" 2)%string.
Proof.
  intros x q.
  assert (A : reads F power env [TO OP_log; tok x; TO OP_log; TN 2] (F "ln"%string (val env x)) [TO OP_log; TN 2])
    by (eapply R_un; [reflexivity|apply reads_tok]).
  assert (B : reads F power env [TO OP_log; TN 2] (F "ln"%string 2) []) by (eapply R_un; [reflexivity|constructor]).
  split.
  - intro H. inversion H as [| |? f' ? x' ? N' R'|? ? x' g1' y' ? ? N' R1' R2' B'|]; subst; [discriminate|].
    destruct (proj1 (reads_det F power string env) _ _ _ A _ _ R1'). subst.
    destruct (proj1 (reads_det F power string env) _ _ _ B _ _ R2'). subst.
    cbn in B'. destruct (Qeq_bool (F "ln"%string 2) 0) eqn:E; [discriminate|]. split; [|congruence].
    intro K. apply Qeq_bool_iff in K. congruence.
  - intros [N E]. subst q. eapply R_bin; [reflexivity|exact A|exact B|]. cbn.
    destruct (Qeq_bool (F "ln"%string 2) 0) eqn:E; [apply Qeq_bool_iff in E; tauto|reflexivity].
Qed.

Lemma analyse_step : forall s c s', NoDup (map fst (n_vars s)) -> call_ok c -> analyse true s c = Some s' ->
  (state_ok s' <-> state_ok s /\ holds F power env c) /\ map fst (n_vars s') = map fst (n_vars s).
Proof.
  intros s c s' ND OK H. destruct c as [cs vs v|cs vs v|cs vs v|cs vs v|x y|x y|x y|x y|o x y z|o x y|x y|x y];
    cbn [analyse holds call_ok] in *.
  - apply check_some in H. destruct H as [H _]. injection H as H; subst s'. split; [|reflexivity].
    apply cons_step. apply lincons_eq_ok. exact OK.
  - apply check_some in H. destruct H as [H _]. injection H as H; subst s'. split; [|reflexivity].
    apply cons_step. apply lincons_le_ok. exact OK.
  - apply check_some in H. destruct H as [H _]. unfold lincons_predicate in H. apply check_some in H. destruct H as [H _].
    injection H as H; subst s'. split; [|reflexivity]. apply log_step.
    destruct (log_lin F power env ONE cs vs v OK eq_refl) as [q [E L]]. rewrite L, ne_value. rewrite E. reflexivity.
  - apply check_some in H. destruct H as [H _]. unfold lincons_predicate in H. apply check_some in H. destruct H as [H _].
    injection H as H; subst s'. split; [|reflexivity]. apply log_step.
    destruct (log_lin F power env OLT cs vs v OK eq_refl) as [q [E L]]. rewrite L, lt_value. rewrite E. reflexivity.
  - destruct x as [q|n], y as [q'|m]; cbn [nlcons_eq] in H; [tauto| | |].
    + destruct (var_step s m _ s' (fun x => x == q) ND (fun b b' x => update_eq_within b q b' x) H) as [A B].
      split; [|exact B]. rewrite A. cbn [val]. split; intros [P1 P2]; (split; [exact P1|symmetry; exact P2]).
    + destruct (var_step s n _ s' (fun x => x == q') ND (fun b b' x => update_eq_within b q' b' x) H) as [A B].
      split; [|exact B]. exact A.
    + destruct (String.eqb n m) eqn:E; injection H as H; subst s'; (split; [|reflexivity]).
      * apply String.eqb_eq in E; subst. cbn [val]. split; [intro A; split; [exact A|reflexivity]|tauto].
      * apply cons_step. rewrite alg_linear. unfold within; cbn. split; intro; lra.
  - destruct x as [q|n], y as [q'|m]; cbn [nlcons_le] in H; [tauto| | |].
    + destruct (var_step s m _ s' (fun x => q <= x) ND (fun b b' x => update_lb_within true b q b' x) H) as [A B].
      split; [exact A|exact B].
    + destruct (var_step s n _ s' (fun x => x <= q') ND (fun b b' x => update_ub_within true b q' b' x) H) as [A B].
      split; [exact A|exact B].
    + destruct (String.eqb n m) eqn:E; injection H as H; subst s'; (split; [|reflexivity]).
      * apply String.eqb_eq in E; subst. cbn [val]. split; [intro A; split; [exact A|lra]|tauto].
      * apply cons_step. rewrite alg_linear. unfold within; cbn. split; intro; lra.
  - injection H as H; subst s'. split; [|reflexivity]. apply log_step. rewrite log_bin by reflexivity. apply ne_value.
  - injection H as H; subst s'. split; [|reflexivity]. apply log_step. rewrite log_bin by reflexivity. apply lt_value.
  - assert (N : o <> IDiv) by (intro; subst; exact OK).
    destruct (binary_ok _ _ _ _ _ _ _ H) as [jx [J S]]. subst s'. split; [|reflexivity]. apply cons_step.
    rewrite alg_ok_match.
    rewrite (result_ok _ _ z jx (fun q => reads F power env [op_of_bin o; tok x; tok y] q [])); [|intro; tauto|exact J].
    rewrite <- (bin_ok o x y z N). split; intros [q [A B]]; exists q; (split; [|exact B]).
    + eexists _, _. split; [reflexivity|exact A].
    + destruct A as [t [g [E A]]]. rewrite E. exact A.
  - destruct (unary_ok _ _ _ _ _ _ H) as [jx [J S]]. subst s'. split; [|reflexivity]. apply cons_step.
    rewrite alg_ok_match.
    rewrite (result_ok _ _ y jx (fun q => q = F (fun_name o) (val env x)));
      [|intro; apply read_un; apply un_name|exact J].
    split; [intros [q [A B]]; subst; exact B|intro B; eexists; split; [reflexivity|exact B]].
  - destruct (unary_ok _ _ _ _ _ _ H) as [jx [J S]]. subst s'. split; [|reflexivity]. apply cons_step.
    rewrite alg_ok_match.
    rewrite (result_ok _ _ y jx (fun q => ~ F "ln"%string 2 == 0 /\ q = F "ln"%string (val env x) / F "ln"%string 2));
      [|intro; apply log2_reads|exact J].
    split; [intros [q [[N A] B]]; subst; tauto|intros [N B]; eexists; split; [split; [exact N|reflexivity]|exact B]].
  - injection H as H; subst s'. split; [|reflexivity]. apply cons_step. unfold lincons. rewrite alg_linear.
    unfold within; cbn. split; intro; lra.
Qed.

Lemma decl_step : forall s d s', ~ In (d_name d) (map fst (n_vars s)) -> add_decl true s d = Some s' ->
  (state_ok s' <-> state_ok s /\ in_domain env d) /\ map fst (n_vars s') = map fst (n_vars s) ++ [d_name d].
Proof.
  intros s d s' NI H. unfold add_decl in H.
  destruct (match d_dom d with None => Some make_none | Some [(l, u)] => make_bounded true l u | Some _ => None end) as [b|] eqn:E;
    [|discriminate].
  injection H as H; subst s'. unfold state_ok. cbn [n_vars n_cons n_log]. rewrite store_new by exact NI.
  split; [|rewrite map_app; reflexivity].
  assert (W : within b (env (d_name d)) <-> in_domain env d).
  { unfold in_domain. destruct (d_dom d) as [[|[l u] [|? ?]]|]; try discriminate.
    - rewrite (make_bounded_within l u b _ E). split.
      + intros [A B]. exists l, u. split; [left; reflexivity|tauto].
      + intros [l' [u' [[I|[]] A]]]. injection I as I1 I2; subst. exact A.
    - injection E as E; subst b. unfold within; cbn. tauto. }
  split.
  - intros [A BC]. split; [split; [|exact BC]|].
    + intros n v I. apply A. apply in_or_app. left; exact I.
    + apply W. apply (A (d_name d) (mkV (d_int d) (d_report d) b)). apply in_or_app. right; left; reflexivity.
  - intros [[A BC] D]. split; [|exact BC]. intros n v I. apply in_app_or in I. destruct I as [I|[I|[]]]; [auto|].
    injection I as I1 I2; subst. cbn. apply W. exact D.
Qed.

Lemma decls_step : forall ds s s', NoDup (map fst (n_vars s) ++ map d_name ds) -> fold_opt (add_decl true) s ds = Some s' ->
  (state_ok s' <-> state_ok s /\ (forall d, In d ds -> in_domain env d)) /\
  map fst (n_vars s') = map fst (n_vars s) ++ map d_name ds.
Proof.
  induction ds as [|d ds IH]; intros s s' ND H; cbn [fold_opt map] in *.
  - injection H as H; subst. rewrite app_nil_r. split; [split; [intro A; split; [exact A|intros ? []]|tauto]|reflexivity].
  - destruct (add_decl true s d) as [s1|] eqn:E; [|discriminate].
    assert (NI : ~ In (d_name d) (map fst (n_vars s))).
    { intro I. apply NoDup_remove_2 in ND. apply ND. apply in_or_app. left; exact I. }
    destruct (decl_step _ _ _ NI E) as [A K].
    assert (ND1 : NoDup (map fst (n_vars s1) ++ map d_name ds)) by (rewrite K, <- app_assoc; exact ND).
    destruct (IH _ _ ND1 H) as [B K']. split; [|rewrite K', K, <- app_assoc; reflexivity].
    rewrite B, A. split.
    + intros [[P1 P2] P3]. split; [exact P1|]. intros d' [I|I]; [subst; exact P2|auto].
    + intros [P1 P2]. split; [split; [exact P1|apply P2; left; reflexivity]|]. intros; apply P2; right; assumption.
Qed.
Lemma calls_step : forall cs s s', NoDup (map fst (n_vars s)) -> (forall c, In c cs -> call_ok c) ->
  fold_opt (analyse true) s cs = Some s' ->
  (state_ok s' <-> state_ok s /\ (forall c, In c cs -> holds F power env c)) /\ map fst (n_vars s') = map fst (n_vars s).
Proof.
  induction cs as [|c cs IH]; intros s s' ND OK H; cbn [fold_opt] in *.
  - injection H as H; subst. split; [split; [intro A; split; [exact A|intros ? []]|tauto]|reflexivity].
  - destruct (analyse true s c) as [s1|] eqn:E; [|discriminate].
    destruct (analyse_step _ _ _ ND (OK c (or_introl eq_refl)) E) as [A K].
    assert (ND1 : NoDup (map fst (n_vars s1))) by (rewrite K; exact ND).
    destruct (IH _ _ ND1 (fun c' I => OK c' (or_intror I)) H) as [B K']. split; [|rewrite K', K; reflexivity].
    rewrite B, A. split.
    + intros [[P1 P2] P3]. split; [exact P1|]. intros d' [I|I]; [subst; exact P2|auto].
    + intros [P1 P2]. split; [split; [exact P1|apply P2; left; reflexivity]|]. intros; apply P2; right; assumption.
Qed.

Theorem collect_ok : forall ds cs s, NoDup (map d_name ds) -> (forall c, In c cs -> call_ok c) ->
  collect true ds cs = Some s ->
  (state_ok s <-> fzn_solution F power env ds cs) /\ map fst (n_vars s) = map d_name ds.
Proof.
  intros ds cs s ND OK H. unfold collect in H. destruct (fold_opt (add_decl true) (mkNl [] [] []) ds) as [s1|] eqn:E; [|discriminate].
  destruct (decls_step ds (mkNl [] [] []) s1 ND E) as [A K]. cbn in K.
  assert (ND1 : NoDup (map fst (n_vars s1))) by (rewrite K; exact ND).
  destruct (calls_step cs s1 s ND1 OK H) as [B K']. split; [|rewrite K'; exact K].
  rewrite B, A. unfold fzn_solution. split; [tauto|]. intros [P1 P2]. split; [split; [|exact P1]|exact P2].
  unfold state_ok. cbn. repeat split; intros; tauto.
Qed.
End Env.
End Meaning.
