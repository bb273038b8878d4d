(** Lemmas about the writing of NL files. *)
Require Import List ZArith QArith Bool String Lia Permutation Lqa.
From Verif Require Import NlFileModel NlFileSpec.
Import ListNotations.
Open Scope Q_scope.

(** ** bounds *)

Lemma Qlt_b_iff : forall x y, Qlt_b x y = true <-> x < y.
Proof.
  intros x y. unfold Qlt_b. rewrite negb_true_iff. split; intro H.
  - apply Qnot_le_lt. intro L. apply Qle_bool_iff in L. congruence.
  - destruct (Qle_bool y x) eqn:E; [|reflexivity]. apply Qle_bool_iff in E. exfalso. lra.
Qed.
Lemma Qlt_b_false : forall x y, Qlt_b x y = false <-> y <= x.
Proof.
  intros x y. unfold Qlt_b. rewrite negb_false_iff. apply Qle_bool_iff.
Qed.

Lemma check_some : forall dbg A c (k : option A) r, check dbg c k = Some r -> k = Some r /\ (dbg = true -> c = true).
Proof.
  intros dbg A c k r H. unfold check in H. destruct dbg, c; cbn in H; try discriminate; split; auto; discriminate.
Qed.

Ltac qb := repeat match goal with
  | H : _ && _ = true |- _ => apply andb_true_iff in H; destruct H
  | H : Qle_bool _ _ = true |- _ => apply Qle_bool_iff in H
  | H : Qlt_b _ _ = true |- _ => apply Qlt_b_iff in H
  | H : Qlt_b _ _ = false |- _ => apply Qlt_b_false in H
  | H : Qeq_bool _ _ = true |- _ => apply Qeq_bool_iff in H
  end.

Lemma update_lb_within : forall dbg b l b' q, update_lb dbg b l = Some b' -> (within b' q <-> within b q /\ l <= q).
Proof.
  intros dbg [t lo up] l b' q H. unfold update_lb in H. cbn in H.
  destruct t; try (apply check_some in H; destruct H as [H _]); try discriminate;
    try (destruct (Qlt_b lo l) eqn:E); injection H as H; subst b'; qb; unfold within; cbn;
    (split; [intro A | intros [A A']]); repeat split; try tauto; try lra.
Qed.
Lemma update_ub_within : forall dbg b u b' q, update_ub dbg b u = Some b' -> (within b' q <-> within b q /\ q <= u).
Proof.
  intros dbg [t lo up] u b' q H. unfold update_ub in H. cbn in H.
  destruct t; try (apply check_some in H; destruct H as [H _]); try discriminate;
    try (destruct (Qlt_b u up) eqn:E); injection H as H; subst b'; qb; unfold within; cbn;
    (split; [intro A | intros [A A']]); repeat split; try tauto; try lra.
Qed.
Lemma update_eq_within : forall b v b' q, update_eq true b v = Some b' -> (within b' q <-> within b q /\ q == v).
Proof.
  intros [t lo up] v b' q H. unfold update_eq in H. cbn [b_tag b_lb b_ub] in H.
  destruct t; try (apply check_some in H; destruct H as [H C]; specialize (C eq_refl));
    injection H as H; subst b'; qb; unfold within; cbn;
    (split; [intro A | intros [A A']]); repeat split; try tauto; try lra.
Qed.
Lemma make_bounded_within : forall l u b q, make_bounded true l u = Some b -> (within b q <-> l <= q /\ q <= u).
Proof.
  intros l u b q H. unfold make_bounded in H. destruct (Qeq_bool l u) eqn:E.
  - injection H as H; subst b. qb. unfold within; cbn. split; [intro A; split|intros [A A']]; lra.
  - apply check_some in H. destruct H as [H _]. injection H as H; subst b. unfold within; cbn. tauto.
Qed.

(** ** the map of variables *)

Lemma lookup_in : forall n vs v, lookup n vs = Some v -> In (n, v) vs.
Proof.
  induction vs as [|[m w] r IH]; cbn; intros v H; [discriminate|]. destruct (String.eqb n m) eqn:E.
  - apply String.eqb_eq in E. injection H as H. subst. left; reflexivity.
  - right. auto.
Qed.
Lemma in_lookup : forall vs n v, NoDup (map fst vs) -> In (n, v) vs -> lookup n vs = Some v.
Proof.
  induction vs as [|[m w] r IH]; cbn; intros n v ND H; [tauto|]. inversion ND; subst. destruct H as [H|H].
  - injection H as I1 I2; subst. rewrite String.eqb_refl. reflexivity.
  - destruct (String.eqb n m) eqn:E.
    + apply String.eqb_eq in E; subst. exfalso. match goal with K : ~ In m _ |- _ => apply K end. apply in_map_iff. exists (m, v). auto.
    + apply IH; assumption.
Qed.
Lemma store_keys : forall n v vs w, lookup n vs = Some w -> map fst (store n v vs) = map fst vs.
Proof.
  induction vs as [|[m u] r IH]; cbn; intros w H; [discriminate|]. destruct (String.eqb n m) eqn:E; cbn; [reflexivity|].
  f_equal. eauto.
Qed.
Lemma store_new : forall n v vs, ~ In n (map fst vs) -> store n v vs = vs ++ [(n, v)].
Proof.
  induction vs as [|[m u] r IH]; cbn; intro H; [reflexivity|]. destruct (String.eqb n m) eqn:E.
  - apply String.eqb_eq in E. subst. tauto.
  - rewrite IH by tauto. reflexivity.
Qed.
Lemma store_all : forall (P : string -> bound -> Prop) n v w vs, NoDup (map fst vs) -> lookup n vs = Some w ->
  ((forall m u, In (m, u) (store n v vs) -> P m (v_bound u)) <->
   P n (v_bound v) /\ (forall m u, In (m, u) vs -> m <> n -> P m (v_bound u))).
Proof.
  intros P n v w. induction vs as [|[m u] r IH]; cbn [store lookup map fst]; intros ND H; [discriminate|].
  inversion ND as [|? ? NI ND']; subst. destruct (String.eqb n m) eqn:E.
  - apply String.eqb_eq in E. subst m. split.
    + intro A. split; [apply (A n v); left; reflexivity|]. intros m u' [I|I] NE; [congruence|]. apply A. right; exact I.
    + intros [A B] m u' [I|I]; [injection I as I1 I2; subst; exact A|]. apply B; [right; exact I|].
      intro; subst. apply NI. apply in_map_iff. exists (n, u'). auto.
  - specialize (IH ND' H). split.
    + intro A. assert (A' : forall m u, In (m, u) (store n v r) -> P m (v_bound u)) by (intros; apply A; right; assumption).
      apply IH in A'. destruct A' as [A1 A2]. split; [exact A1|]. intros m' u' [I|I] NE; [|eauto].
      injection I as I1 I2; subst. apply A. left; reflexivity.
    + intros [A B] m' u' [I|I].
      * injection I as I1 I2; subst. apply B; [left; reflexivity|]. intro; subst. rewrite String.eqb_refl in E. discriminate.
      * assert (Q : P n (v_bound v) /\ (forall m u, In (m, u) r -> m <> n -> P m (v_bound u)))
          by (split; [exact A|]; intros; apply B; [right|]; assumption).
        apply IH with (m := m') (u := u') in Q; assumption.
Qed.

Section Meaning.
Variable F : string -> Q -> Q.
Variable power : Q -> Q -> Q.

(** ** reading expressions is deterministic and independent of how variables are named *)

Scheme reads_ind2 := Induction for reads Sort Prop
  with reads_many_ind2 := Induction for reads_many Sort Prop.
Combined Scheme reads_mut from reads_ind2, reads_many_ind2.

Definition same_token {V W : Type} (e : V -> Q) (e' : W -> Q) (t : token V) (t' : token W) : Prop :=
  match t, t' with
  | TN q, TN q' => q = q'
  | TV v, TV w => e v = e' w
  | TO o, TO o' => o = o'
  | TM m n, TM m' n' => m = m' /\ n = n'
  | _, _ => False
  end.

Lemma reads_same : forall (V W : Type) (e : V -> Q) (e' : W -> Q),
  (forall g q r, reads F power e g q r -> forall g', Forall2 (same_token e e') g g' ->
     exists r', Forall2 (same_token e e') r r' /\ reads F power e' g' q r') /\
  (forall n g xs r, reads_many F power e n g xs r -> forall g', Forall2 (same_token e e') g g' ->
     exists r', Forall2 (same_token e e') r r' /\ reads_many F power e' n g' xs r').
Proof.
  intros V W e e'. apply reads_mut.
  - intros q r g' S. inversion S as [|? t' ? l' T L]; subst. destruct t'; cbn in T; try tauto. subst.
    exists l'. split; [exact L|constructor].
  - intros v r g' S. inversion S as [|? t' ? l' T L]; subst. destruct t'; cbn in T; try tauto.
    exists l'. split; [exact L|rewrite T; constructor].
  - intros o f g x r N R IH g' S. inversion S as [|? t' ? l' T L]; subst. destruct t'; cbn in T; try tauto. subst.
    destruct (IH _ L) as [r' [S' R']]. exists r'. split; [exact S'|econstructor; eauto].
  - intros o g x g1 y r q N R1 IH1 R2 IH2 B g' S. inversion S as [|? t' ? l' T L]; subst. destruct t'; cbn in T; try tauto.
    subst. destruct (IH1 _ L) as [r1 [S1 R1']]. destruct (IH2 _ S1) as [r2 [S2 R2']].
    exists r2. split; [exact S2|eapply R_bin; eauto].
  - intros m n g xs r q R IH M g' S. inversion S as [|? t' ? l' T L]; subst. destruct t'; cbn in T; try tauto.
    destruct T; subst. destruct (IH _ L) as [r' [S' R']]. exists r'. split; [exact S'|econstructor; eauto].
  - intros g g' S. exists g'. split; [exact S|constructor].
  - intros n g x g1 xs r R IH RM IHM g' S. destruct (IH _ S) as [r1 [S1 R1]]. destruct (IHM _ S1) as [r2 [S2 R2]].
    exists r2. split; [exact S2|econstructor; eauto].
Qed.

Lemma reads_det : forall (V : Type) (e : V -> Q),
  (forall g q r, reads F power e g q r -> forall q' r', reads F power e g q' r' -> q' = q /\ r' = r) /\
  (forall n g xs r, reads_many F power e n g xs r -> forall xs' r', reads_many F power e n g xs' r' -> xs' = xs /\ r' = r).
Proof.
  intros V e. apply reads_mut.
  - intros q r q' r' H. inversion H; subst; auto.
  - intros v r q' r' H. inversion H; subst; auto.
  - intros o f g x r N R IH q' r' H. inversion H as [| |? f' ? x' ? N' R'|? ? ? ? ? ? ? N'|]; subst; [|congruence].
    destruct (IH _ _ R') as [A B]. subst. split; [congruence|reflexivity].
  - intros o g x g1 y r q N R1 IH1 R2 IH2 B q' r' H.
    inversion H as [| |? f' ? x' ? N' R'|? ? x' g1' y' ? ? N' R1' R2' B'|]; subst; [congruence|].
    destruct (IH1 _ _ R1') as [A1 A2]. subst. destruct (IH2 _ _ R2') as [A3 A4]. subst. split; [congruence|reflexivity].
  - intros m n g xs r q R IH M q' r' H. inversion H as [| | | |? ? ? xs' ? ? R' M']; subst.
    destruct (IH _ _ R') as [A B]. subst. split; congruence.
  - intros g xs' r' H. inversion H; subst; auto.
  - intros n g x g1 xs r R IH RM IHM xs' r' H. inversion H as [|? ? x' g1' xs1 ? R' RM']; subst.
    destruct (IH _ _ R') as [A1 A2]. subst. destruct (IHM _ _ RM') as [A3 A4]. subst. auto.
Qed.

Section Env.
Variable env : string -> Q.
Notation R := (reads F power env).
Notation RM := (reads_many F power env).

Lemma reads_tok : forall a r, R (tok a :: r) (val env a) r.
Proof. intros [q|n] r; constructor. Qed.

Lemma reads_tok_inv : forall a g q r, R (tok a :: g) q r -> q = val env a /\ r = g.
Proof. intros a g q r H. apply (proj1 (reads_det string env) _ _ _ (reads_tok a g) _ _ H). Qed.

Lemma read_bin : forall o x y q, nl_fun o = None ->
  (R [TO o; tok x; tok y] q [] <-> nl_bin power o (val env x) (val env y) = Some q).
Proof.
  intros o x y q N. split.
  - intro H. inversion H as [| |? f' ? x' ? N' R'|? ? x' g1' y' ? ? N' R1' R2' B'|]; subst; [congruence|].
    apply reads_tok_inv in R1'. destruct R1'; subst. apply reads_tok_inv in R2'. destruct R2'; subst. assumption.
  - intro H. eapply R_bin; [exact N|apply reads_tok|apply reads_tok|exact H].
Qed.
Lemma read_many2 : forall m x y q,
  (R [TM m 2; tok x; tok y] q [] <-> nl_many m [val env x; val env y] = Some q).
Proof.
  intros m x y q. assert (A : RM 2 [tok x; tok y] [val env x; val env y] []).
  { econstructor; [apply reads_tok|]. econstructor; [apply reads_tok|constructor]. }
  split.
  - intro H. inversion H as [| | | |? ? ? xs' ? ? R' M']; subst.
    destruct (proj2 (reads_det string env) _ _ _ _ A _ _ R'). subst. assumption.
  - intro H. econstructor; eauto.
Qed.
Lemma read_un : forall o f x q, nl_fun o = Some f -> (R [TO o; tok x] q [] <-> q = F f (val env x)).
Proof.
  intros o f x q N. assert (A : R [TO o; tok x] (F f (val env x)) []) by (eapply R_un; [exact N|apply reads_tok]).
  split; intro H; [|subst; exact A]. apply (proj1 (reads_det string env) _ _ _ A _ _ H).
Qed.

(* sums *)
Lemma sigma_reads : forall cs vs r, List.length cs = List.length vs ->
  exists xs, RM (List.length cs) (sigma_terms cs vs ++ r) xs r /\ fold_right Qplus 0 xs == linear env cs vs.
Proof.
  induction cs as [|c cs IH]; intros [|v vs] r L; cbn in L; try discriminate.
  - exists []. split; [constructor|cbn; reflexivity].
  - injection L as L. destruct (IH vs r L) as [xs [A B]]. cbn [sigma_terms linear List.length].
    destruct (Qeq_bool c 1) eqn:E.
    + exists (env v :: xs). split; [cbn [app]; econstructor; [constructor|exact A]|].
      apply Qeq_bool_iff in E. cbn [fold_right]. rewrite B, E. ring.
    + exists (c * env v :: xs). split.
      * cbn [app]. econstructor; [|exact A]. eapply R_bin; [reflexivity|constructor|constructor|reflexivity].
      * cbn [fold_right]. rewrite B. reflexivity.
Qed.
Lemma sigma_mult_reads : forall cs vs r, List.length cs = List.length vs ->
  exists q, R (sigma_mult cs vs ++ r) q r /\ q == linear env cs vs.
Proof.
  intros cs vs r L. destruct (sigma_reads cs vs r L) as [xs [A B]]. unfold sigma_mult.
  destruct (Nat.eqb (List.length cs) 2) eqn:E.
  - apply Nat.eqb_eq in E. rewrite E in A. inversion A as [|? ? x g1 xs1 ? R1 RM1]; subst.
    inversion RM1 as [|? ? x0 g2 xs2 ? R2 RM2]; subst. inversion RM2; subst. exists (x + x0). split.
    + cbn [app]. eapply R_bin; [reflexivity|eassumption|eassumption|reflexivity].
    + rewrite <- B. cbn [fold_right]. ring.
  - exists (fold_right Qplus 0 xs). split; [|exact B]. cbn [app]. econstructor; [exact A|reflexivity].
Qed.

Lemma log_lin : forall o cs vs v, List.length cs = List.length vs -> nl_fun o = None ->
  exists s, s == linear env cs vs /\
    (log_holds F power env ([TO o] ++ sigma_mult cs vs ++ [tok v]) <->
     exists q, nl_bin power o s (val env v) = Some q /\ ~ q == 0).
Proof.
  intros o cs vs v L N. destruct (sigma_mult_reads cs vs [tok v] L) as [s [A B]]. exists s. split; [exact B|]. split.
  - intros [q [H Z]]. cbn [app] in H. inversion H as [| |? f' ? x' ? N' R'|? ? x' g1' y' ? ? N' R1' R2' B'|]; subst; [congruence|].
    destruct (proj1 (reads_det string env) _ _ _ A _ _ R1'). subst.
    apply reads_tok_inv in R2'. destruct R2'; subst. exists q. auto.
  - intros [q [H Z]]. exists q. split; [|exact Z]. cbn [app]. eapply R_bin; [exact N|exact A|apply reads_tok|exact H].
Qed.
End Env.
End Meaning.
