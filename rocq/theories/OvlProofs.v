(** Proofs about overload resolution: positional calls. *)
Require Import ZArith List Bool Arith Lia.
From Verif Require Import Base TypeModel TypeSpec TypeProofs OvlModel OvlSpec.
Import ListNotations.
Open Scope nat_scope.

(** ** Lists *)
Lemma nth_ty_error : forall l j t, nth_error l j = Some t -> nth_ty l j = t.
Proof. intros. unfold nth_ty. now apply nth_error_nth. Qed.
Lemma nth_ty_in : forall l j, j < length l -> nth_error l j = Some (nth_ty l j).
Proof. intros. unfold nth_ty. now apply nth_error_nth'. Qed.
Lemma forallb_seq : forall (f : nat -> bool) n, forallb f (seq 0 n) = true <-> forall j, j < n -> f j = true.
Proof. intros. rewrite forallb_forall. split; intros H j Hj; apply H; [apply in_seq; lia | apply in_seq in Hj; lia]. Qed.
Lemma nth_error_skipn : forall (A : Type) n (l : list A) j, nth_error (skipn n l) j = nth_error l (n + j).
Proof. induction n as [|n IH]; intros [|x l] j; cbn; auto. destruct j; reflexivity. Qed.
Lemma forallb_skipn : forall (A : Type) (f : A -> bool) n l, forallb f (skipn n l) = true <-> forall j p, n <= j -> nth_error l j = Some p -> f p = true.
Proof.
  intros. rewrite forallb_forall. split.
  - intros H j p Hj Hp. apply H. apply (nth_error_In _ (j - n)). rewrite nth_error_skipn. now replace (n + (j - n)) with j by lia.
  - intros H p Hp. apply In_nth_error in Hp as [j Hp]. rewrite nth_error_skipn in Hp. apply (H (n + j)); [lia | auto].
Qed.
Lemma str_eqb_eq : forall a b, str_eqb a b = true <-> a = b.
Proof. exact names_eqb_eq. Qed.
Lemma ty_eqb_refl : forall a, ty_eqb a a = true.
Proof. intros. apply C34_eq_l. repeat split; auto. Qed.
Lemma ty_eqb_sym : forall a b, ty_eqb a b = true -> ty_eqb b a = true.
Proof.
  intros a b H. apply C34_eq_l in H as (H1 & H2 & H3 & H4 & H5 & H6). apply C34_eq_l. repeat split; auto.
  intros S. symmetry. apply H6. unfold is_struct in *. now rewrite H2.
Qed.
Lemma ty_eqb_trans : forall a b c, ty_eqb a b = true -> ty_eqb b c = true -> ty_eqb a c = true.
Proof.
  intros a b c H G. apply C34_eq_l in H as (H1 & H2 & H3 & H4 & H5 & H6). apply C34_eq_l in G as (G1 & G2 & G3 & G4 & G5 & G6).
  apply C34_eq_l. repeat split; try congruence.
  intros S. rewrite H6 by auto. apply G6. unfold is_struct in *. now rewrite <- H2.
Qed.
Lemma types_eqb_refl : forall a, types_eqb a a = true.
Proof. induction a as [|x a IH]; cbn; auto. now rewrite ty_eqb_refl. Qed.
Lemma types_eqb_nth : forall a b, types_eqb a b = true <->
  length a = length b /\ forall j x y, nth_error a j = Some x -> nth_error b j = Some y -> ty_eqb x y = true.
Proof.
  induction a as [|x a IH]; intros [|y b]; cbn.
  - split; auto. intros _. split; auto. intros [] ? ?; discriminate.
  - split; [discriminate | intros [H _]; discriminate].
  - split; [discriminate | intros [H _]; discriminate].
  - rewrite andb_true_iff. fold (types_eqb a b). rewrite IH. split.
    + intros (E & L & H). split; [lia|]. intros [|j] u w Hu Hw; cbn in *; [congruence | eauto].
    + intros (L & H). repeat split; [apply (H 0); auto | lia | intros j u w Hu Hw; apply (H (S j)); auto].
Qed.

(** ** The scan over the candidates *)
Section Scan.
Variables (ok : entry -> bool) (less : entry -> entry -> bool).
Definition beats (x y : entry) : Prop := less x y = true /\ less y x = false.

Lemma scan_in : forall fill v best x, scan ok less fill v best = Some x -> best = Some x \/ (In x v /\ ok x = true).
Proof.
  intros fill. induction v as [|i v IH]; intros best x H; cbn in H; auto.
  destruct (ok i) eqn:Oi.
  - destruct best as [b|].
    + destruct (less i b && negb (less b i)); apply IH in H as [H|[H1 H2]]; cbn; auto; injection H as ->; auto.
    + destruct fill.
      * apply IH in H as [H|[H1 H2]]; cbn; auto. injection H as ->. auto.
      * injection H as ->. cbn. auto.
  - apply IH in H as [H|[H1 H2]]; cbn; auto.
Qed.
Lemma scan_some : forall fill v b, scan ok less fill v (Some b) <> None.
Proof. intros fill. induction v as [|i v IH]; intros b; cbn; [discriminate|]. destruct (ok i); auto. destruct (less i b && negb (less b i)); auto. Qed.
Lemma scan_none : forall fill v, scan ok less fill v None = None <-> forall x, In x v -> ok x = false.
Proof.
  intros fill. induction v as [|i v IH]; cbn; [split; auto; intros _ x []|]. destruct (ok i) eqn:Oi.
  - split; intros H; [|rewrite (H i) in Oi by auto; discriminate]. destruct fill; [now apply scan_some in H | discriminate].
  - rewrite IH. split; intros H x; [intros [->|Hx]; auto | intros Hx; apply H; auto].
Qed.
(** the first candidate that is accepted *)
Lemma scan_first : forall v x, scan ok less false v None = Some x ->
  exists v1 v2, v = v1 ++ x :: v2 /\ ok x = true /\ forall y, In y v1 -> ok y = false.
Proof.
  induction v as [|i v IH]; intros x H; cbn in H; [discriminate|]. destruct (ok i) eqn:Oi.
  - injection H as ->. exists [], v. split; auto. split; auto. intros y [].
  - destruct (IH _ H) as (v1 & v2 & -> & Ox & F). exists (i :: v1), v2. split; auto. split; auto. intros y [->|Hy]; auto.
Qed.
(** no candidate beats the result *)
Lemma scan_best : forall D : entry -> Prop,
  (forall x y z, D x -> D y -> D z -> ok x = true -> ok y = true -> ok z = true -> less x y = true -> less y z = true -> less x z = true) ->
  forall v best x, (forall y, In y v -> D y) -> (forall b, best = Some b -> D b /\ ok b = true) ->
  scan ok less true v best = Some x ->
  (forall y, In y v -> ok y = true -> ~ beats y x) /\ (forall b, best = Some b -> ~ beats b x).
Proof.
  intros D T.
  assert (BT : forall x y z, D x -> D y -> D z -> ok x = true -> ok y = true -> ok z = true -> beats x y -> beats y z -> beats x z).
  { intros x y z Dx Dy Dz Ox Oy Oz [A1 A2] [B1 B2]. split; [eapply (T x y z); eauto|].
    destruct (less z x) eqn:E; auto. rewrite (T y z x) in A2; auto. }
  assert (BI : forall x, ~ beats x x) by (intros x [A1 A2]; congruence).
  induction v as [|i v IH]; intros best x Dv Db H; cbn in H.
  - split; [intros y []|]. subst. intros b E. injection E as <-. apply BI.
  - assert (Dv' : forall y, In y v -> D y) by (intros; apply Dv; cbn; auto).
    destruct (ok i) eqn:Oi.
    + assert (Di : D i) by (apply Dv; cbn; auto).
      destruct best as [b|].
      * destruct (Db b eq_refl) as [Dbb Ob].
        destruct (less i b && negb (less b i)) eqn:E.
        -- apply andb_true_iff in E as [E1 E2]. apply negb_true_iff in E2.
           destruct (IH (Some i) x Dv') as [H1 H2]; [intros ? [= <-]; auto | auto |].
           specialize (H2 i eq_refl). split.
           ++ intros y [<-|Hy] Oy; auto.
           ++ intros ? [= <-] Bb. pose proof (scan_in _ _ _ _ H) as Q.
              assert (Dx : D x /\ ok x = true) by (destruct Q as [[= <-]|[Q1 Q2]]; auto). destruct Dx as [Dx Ox].
              apply H2. apply (BT i b x); auto. now split.
        -- destruct (IH (Some b) x Dv') as [H1 H2]; [intros ? [= <-]; auto | auto |].
           specialize (H2 b eq_refl). split.
           ++ intros y [<-|Hy] Oy; auto. intros Bi. pose proof (scan_in _ _ _ _ H) as Q.
              assert (Dx : D x /\ ok x = true) by (destruct Q as [[= <-]|[Q1 Q2]]; auto). destruct Dx as [Dx Ox].
              assert (NB : ~ beats i b) by (intros [A1 A2]; rewrite A1, A2 in E; discriminate).
              (* x is b or beats b *)
              assert (C : forall v b x, D b -> ok b = true -> (forall y, In y v -> D y) -> scan ok less true v (Some b) = Some x -> x = b \/ beats x b).
              { clear - BT. induction v as [|i v IH]; intros b x Db Ob Dv H; cbn in H; [left; congruence|].
                assert (Dv' : forall y, In y v -> D y) by (intros; apply Dv; cbn; auto).
                destruct (ok i) eqn:Oi; [|eauto]. destruct (less i b && negb (less b i)) eqn:E; [|eauto].
                apply andb_true_iff in E as [E1 E2]. apply negb_true_iff in E2.
                assert (Di : D i) by (apply Dv; cbn; auto).
                pose proof (scan_in _ _ _ _ H) as Q.
                assert (Dx : D x /\ ok x = true) by (destruct Q as [[= <-]|[Q1 Q2]]; auto). destruct Dx as [Dx Ox].
                destruct (IH i x) as [->|B]; auto; right; [now split|]. apply (BT x i b); auto. now split. }
              destruct (C v b x) as [->|B]; auto. apply NB. apply (BT i x b); auto.
           ++ intros ? [= <-]; auto.
      * destruct (IH (Some i) x Dv') as [H1 H2]; [intros ? [= <-]; auto | auto |].
        split; [|discriminate]. intros y [<-|Hy] Oy; auto.
    + destruct (IH best x Dv' Db H) as [H1 H2]. split; auto. intros y [<-|Hy] Oy; [congruence | auto].
Qed.
End Scan.

(** ** Acceptance *)
Lemma viable_takes : forall acc args x, length (en_t x) = length (fn_params (en_fi x)) -> (viable acc args x = true <-> takes acc args x).
Proof.
  intros acc args x W. unfold viable, defaulted_tail, accepts_args, takes. rewrite !andb_true_iff, Nat.leb_le, forallb_seq, forallb_skipn.
  split.
  - intros ((L & D) & A). split; [auto|]. split.
    + intros j a t Ha Ht. assert (Hj : j < length args) by (apply nth_error_Some; congruence).
      specialize (A j Hj). now rewrite (nth_ty_error _ _ _ Ha), (nth_ty_error _ _ _ Ht) in A.
    + intros j p Hj Hp. specialize (D j p Hj Hp). now destruct (pa_def p).
  - intros (L & A & D). repeat split; auto.
    + intros j p Hj Hp. specialize (D j p Hj Hp). now destruct (pa_def p).
    + intros j Hj. apply (A j); apply nth_ty_in; lia.
Qed.

(** ** A fresh call *)
Definition fresh_ok (acc : ty -> ty -> bool) (args : list ty) (i : entry) : bool := negb (skipped None false i) && viable acc args i.
Lemma match_fresh : forall sub acc anch thr v args,
  match_fn sub acc None anch thr v args =
  match scan (fun i => viable acc args i) (fun a b => at_least sub (en_t a) (en_t b) (length args)) (may_fill v (length args)) v None with
  | None => NotFound
  | Some i => if thr && existsb (fun i2 => negb (same_fi (en_fi i2) (en_fi i)) && types_eqb (en_t i2) (en_t i) && negb (same_names (en_fi i2) (en_fi i))) v
              then Ambiguous else Found (en_fi i)
  end.
Proof.
  intros. unfold match_fn.
  replace (match v with [] => false | [x] => false | _ => false end) with false by (destruct v as [|? []]; auto).
  cbn. now rewrite andb_true_r.
Qed.

Lemma accepts_l : forall sub acc anch thr v args f, well_formed v ->
  match_fn sub acc None anch thr v args = Found f -> exists x, In x v /\ en_fi x = f /\ takes acc args x.
Proof.
  intros sub acc anch thr v args f W H. rewrite match_fresh in H.
  destruct (scan _ _ _ _ _) as [i|] eqn:S; [|discriminate]. destruct (thr && _); [discriminate|]. injection H as <-.
  apply scan_in in S as [S|[S1 S2]]; [discriminate|]. exists i. split; auto. split; auto. apply viable_takes; auto.
Qed.
Lemma complete_l : forall sub acc anch thr v args, well_formed v ->
  (match_fn sub acc None anch thr v args = NotFound <-> forall x, In x v -> ~ takes acc args x).
Proof.
  intros sub acc anch thr v args W. rewrite match_fresh.
  destruct (scan _ _ _ _ _) as [i|] eqn:S.
  - split; intros H; [destruct (thr && _); discriminate|]. exfalso. apply scan_in in S as [S|[S1 S2]]; [discriminate|].
    apply (H i); auto. apply viable_takes; auto.
  - split; auto. intros _ x Hx T. apply viable_takes in T; auto. assert (viable acc args x = false) by (apply (proj1 (scan_none _ _ _ _) S); auto). congruence.
Qed.

(** ** Specificity *)
Lemma in_bucket : forall v x t, In x v -> In t (en_t x) -> In t (bucket_types v).
Proof. intros v x t Hx Ht. unfold bucket_types. apply in_concat. exists (en_t x). split; auto. now apply in_map. Qed.
Lemma same_type_eqb : forall e a b, enum_free e a -> enum_free e b -> ty_eqb a b = true -> same_type a b.
Proof.
  intros e a b [_ Ea] [_ Eb] H. apply C34_eq_l in H as (H1 & H2 & H3 & H4 & H5 & H6). repeat split; auto.
  destruct Ea as [S|Ea]; auto. destruct Eb as [S|Eb]; [apply H6; unfold is_struct in *; now rewrite H2 | congruence].
Qed.
Lemma same_refl : forall a b, same_type a b -> same_type b a.
Proof. unfold same_type. intuition. Qed.
Lemma get_tuple_same : forall e a b, same_type a b -> get_tuple e a = get_tuple e b.
Proof.
  intros e a b (H1 & H2 & H3 & H4 & H5 & H6). unfold get_tuple, struct_id. rewrite ?H1, ?H2, ?H3, ?H4, ?H5, ?H6. reflexivity.
Qed.
Lemma get_record_same : forall e a b, same_type a b -> get_record e a = get_record e b.
Proof.
  intros e a b (H1 & H2 & H3 & H4 & H5 & H6). unfold get_record, struct_id. rewrite ?H1, ?H2, ?H3, ?H4, ?H5, ?H6. reflexivity.
Qed.
Lemma fields_same : forall e a b n f, same_type a b -> has_fields e a n f -> has_fields e b n f.
Proof.
  intros e a b n f S [(H1 & H2 & H3)|(H1 & r & H2 & H3)].
  - left. rewrite <- (get_tuple_same _ _ _ S). destruct S as (S1 & _). repeat split; auto; congruence.
  - right. destruct S as (S1 & S2). split; [congruence|]. exists r. rewrite <- (get_record_same e a b); auto. split; auto.
Qed.
Lemma Sub_same : forall e s a b a' b', Sub e s a b -> same_type a a' -> same_type b b' -> Sub e s a' b'.
Proof.
  intros e s a b a' b' H Sa Sb. pose proof Sa as (A1 & A2 & A3 & A4 & A5 & A6). pose proof Sb as (B1 & B2 & B3 & B4 & B5 & B6).
  destruct H as [a b N L I D S T O | a b N L BL T O | a b n fa fb N Fa Fb E D S T O F].
  - apply s_scalar; unfold is_struct, dims_ok, tisub, otsub in *; rewrite <- ?A1, <- ?A2, <- ?A3, <- ?A4, <- ?A5, <- ?A6, <- ?B1, <- ?B2, <- ?B3, <- ?B4, <- ?B5, <- ?B6; auto.
  - apply s_set; unfold is_struct, set_to_array, tisub, otsub in *; rewrite <- ?A1, <- ?A2, <- ?A3, <- ?A4, <- ?A5, <- ?A6, <- ?B1, <- ?B2, <- ?B3, <- ?B4, <- ?B5, <- ?B6; auto.
  - apply (s_struct e s a' b' n fa fb); unfold is_struct, dims_ok, tisub, otsub in *; try (eapply fields_same; eauto; fail);
      rewrite <- ?A1, <- ?A2, <- ?A3, <- ?A4, <- ?A5, <- ?A6, <- ?B1, <- ?B2, <- ?B3, <- ?B4, <- ?B5, <- ?B6; auto.
Qed.
Lemma eqb_subtype : forall e a b, enum_free e a -> enum_free e b -> ty_eqb a b = true -> subtype e true a b.
Proof.
  intros e a b Ea Eb H. apply C35_decl_l; [apply Ea | apply Eb|].
  apply (Sub_same e true a a a b); [|unfold same_type; auto 10 | eapply same_type_eqb; eauto].
  apply C35_decl_l; [apply Ea | apply Ea | apply C35_refl_l].
Qed.

Section Specific.
Variables (e : env) (sub : ty -> ty -> bool) (v : list entry).
Hypothesis DE : decides_on e sub (bucket_types v).
Hypothesis EF : forall t, In t (bucket_types v) -> enum_free e t.

Lemma leq_iff : forall a b, In a (bucket_types v) -> In b (bucket_types v) -> (ty_eqb a b || sub a b = true <-> subtype e true a b).
Proof.
  intros a b Ha Hb. rewrite orb_true_iff. split.
  - intros [H|H]; [apply eqb_subtype; auto | now apply (DE a b)].
  - intros H. right. now apply (DE a b).
Qed.
Lemma at_least_iff : forall n x y, In x v -> In y v -> n <= length (en_t x) -> n <= length (en_t y) ->
  (at_least sub (en_t x) (en_t y) n = true <-> as_specific e n (en_t x) (en_t y)).
Proof.
  intros n x y Hx Hy Lx Ly. unfold at_least, as_specific. rewrite forallb_seq. split.
  - intros H j a b Hj Ha Hb. specialize (H j Hj). rewrite (nth_ty_error _ _ _ Ha), (nth_ty_error _ _ _ Hb) in H.
    apply leq_iff in H; [exact H | exact (in_bucket v x a Hx (nth_error_In _ _ Ha)) | exact (in_bucket v y b Hy (nth_error_In _ _ Hb))].
  - intros H j Hj. assert (Ha : nth_error (en_t x) j = Some (nth_ty (en_t x) j)) by (apply nth_ty_in; lia).
    assert (Hb : nth_error (en_t y) j = Some (nth_ty (en_t y) j)) by (apply nth_ty_in; lia).
    apply leq_iff; [exact (in_bucket v x _ Hx (nth_error_In _ _ Ha)) | exact (in_bucket v y _ Hy (nth_error_In _ _ Hb)) | eauto].
Qed.
Lemma as_specific_trans : forall n x y z, In x v -> In y v -> In z v -> n <= length (en_t y) ->
  as_specific e n (en_t x) (en_t y) -> as_specific e n (en_t y) (en_t z) -> as_specific e n (en_t x) (en_t z).
Proof.
  intros n x y z Hx Hy Hz L H1 H2 j a c Hj Ha Hc.
  assert (Hb : nth_error (en_t y) j = Some (nth_ty (en_t y) j)) by (apply nth_ty_in; lia).
  apply (C35_trans_l e true a (nth_ty (en_t y) j) c); eauto.
  - exact (proj1 (EF _ (in_bucket v x _ Hx (nth_error_In _ _ Ha)))).
  - exact (proj1 (EF _ (in_bucket v y _ Hy (nth_error_In _ _ Hb)))).
  - exact (proj1 (EF _ (in_bucket v z _ Hz (nth_error_In _ _ Hc)))).
Qed.
End Specific.

(** at least as specific in every position and different: first in the order *)
Lemma at_least_cons : forall sub x a y b n, at_least sub (x :: a) (y :: b) (S n) = (ty_eqb x y || sub x y) && at_least sub a b n.
Proof.
  intros. unfold at_least. cbn [seq]. rewrite <- seq_shift.
  assert (MF : forall f l, forallb f (map S l) = forallb (fun j => f (S j)) l) by (intros f l; induction l; cbn; congruence).
  cbn [forallb]. rewrite MF. reflexivity.
Qed.
Lemma at_least_less : forall sub a b, length a = length b -> at_least sub a b (length a) = true -> at_least sub b a (length a) = false ->
  types_less sub a b = true.
Proof.
  intros sub. induction a as [|x a IH]; intros [|y b] L H N; cbn [length] in *; try discriminate.
  rewrite at_least_cons in H, N. apply andb_true_iff in H as [H1 H2]. cbn.
  destruct (ty_eqb x y) eqn:E.
  - apply IH; [lia | exact H2|]. now rewrite (ty_eqb_sym _ _ E) in N.
  - cbn in H1. now rewrite H1.
Qed.

Lemma may_fill_false : forall sub v n x, sorted sub v -> In x v -> may_fill v n = false -> length (en_t x) <= n.
Proof.
  intros sub v n x S Hx F. unfold may_fill in F. destruct (rev v) as [|l r] eqn:R.
  - assert (v = []) by (rewrite <- (rev_involutive v), R; auto). subst. destruct Hx.
  - apply Nat.ltb_ge in F. assert (V : v = rev r ++ [l]) by (rewrite <- (rev_involutive v), R; auto).
    apply In_nth_error in Hx as [i Hi]. assert (Li : i < length v) by (apply nth_error_Some; congruence).
    rewrite V, app_length in Li. cbn in Li.
    destruct (Nat.eq_dec i (length (rev r))) as [->|Ni].
    + rewrite V, nth_error_app2, Nat.sub_diag in Hi by lia. cbn in Hi. now injection Hi as <-.
    + assert (E : entry_less sub l x = false).
      { apply (S i (length (rev r))); [lia | auto|]. rewrite V, nth_error_app2, Nat.sub_diag by lia. reflexivity. }
      unfold entry_less in E. destruct (length (en_t l) <? length (en_t x)) eqn:E1; [discriminate|]. apply Nat.ltb_ge in E1. lia.
Qed.

Lemma best_l : forall e sub acc anch thr v args f, well_formed v -> sorted sub v -> decides_on e sub (bucket_types v) ->
  (forall t, In t (bucket_types v) -> enum_free e t) ->
  match_fn sub acc None anch thr v args = Found f ->
  exists x, In x v /\ en_fi x = f /\ takes acc args x /\
    forall y, In y v -> takes acc args y -> ~ more_specific e (length args) (en_t y) (en_t x).
Proof.
  intros e sub acc anch thr v args f W S DE EF H. rewrite match_fresh in H.
  destruct (scan _ _ _ _ _) as [x|] eqn:SC; [|discriminate]. destruct (thr && _); [discriminate|]. injection H as <-.
  pose proof SC as SC'. apply scan_in in SC' as [SC'|[Hx Vx]]; [discriminate|].
  exists x. split; auto. split; auto. assert (Tx : takes acc args x) by (apply viable_takes; auto). split; auto.
  intros y Hy Ty [M1 M2].
  destruct Tx as (Lx & _). pose proof Ty as (Ly & _).
  assert (Vy : viable acc args y = true) by (apply viable_takes; auto).
  apply (at_least_iff e sub v DE EF) in M1; auto.
  assert (M2' : at_least sub (en_t x) (en_t y) (length args) = false).
  { destruct (at_least _ (en_t x) (en_t y) _) eqn:E; auto. apply (at_least_iff e sub v DE EF) in E; auto. contradiction. }
  destruct (may_fill v (length args)) eqn:F.
  - pose proof (scan_best (fun i => viable acc args i) (fun a b => at_least sub (en_t a) (en_t b) (length args)) (fun z => In z v)) as B.
    assert (T : forall a b c : entry, In a v -> In b v -> In c v -> viable acc args a = true -> viable acc args b = true -> viable acc args c = true ->
      at_least sub (en_t a) (en_t b) (length args) = true -> at_least sub (en_t b) (en_t c) (length args) = true -> at_least sub (en_t a) (en_t c) (length args) = true).
    { intros a b c Ha Hb Hc Va Vb Vc A1 A2. apply viable_takes in Va as (La & _); auto. apply viable_takes in Vb as (Lb & _); auto. apply viable_takes in Vc as (Lc & _); auto.
      apply (at_least_iff e sub v DE EF) in A1; auto. apply (at_least_iff e sub v DE EF) in A2; auto. apply (at_least_iff e sub v DE EF); auto.
      eapply (as_specific_trans e v EF); [exact Ha | exact Hb | exact Hc | exact Lb | exact A1 | exact A2]. }
    destruct (B T v None x) as [B1 _]; [auto | discriminate | exact SC |]. apply (B1 y Hy Vy). split; auto.
  - assert (Ex : length (en_t x) = length args) by (pose proof (may_fill_false sub v (length args) x S Hx F); lia).
    assert (Ey : length (en_t y) = length args) by (pose proof (may_fill_false sub v (length args) y S Hy F); lia).
    apply scan_first in SC as (v1 & v2 & -> & _ & F1).
    assert (IL : types_less sub (en_t y) (en_t x) = true) by (apply at_least_less; rewrite ?Ey; auto; congruence).
    apply in_app_iff in Hy as [Hy|[->|Hy]].
    + rewrite F1 in Vy; [discriminate | auto].
    + congruence.
    + apply In_nth_error in Hy as [j Hj].
      assert (EL : entry_less sub y x = false).
      { apply (S (length v1) (length v1 + Datatypes.S j)); [lia | rewrite nth_error_app2, Nat.sub_diag by lia; reflexivity|].
        rewrite nth_error_app2 by lia. replace (length v1 + Datatypes.S j - length v1) with (Datatypes.S j) by lia. exact Hj. }
      unfold entry_less in EL. rewrite Ex, Ey, Nat.ltb_irrefl, Nat.eqb_refl in EL. congruence.
Qed.
