Require Import ZArith List Bool Lia ZifyBool.
From Verif Require Import Base TypeModel TypeSpec TypeProofs.
Import ListNotations.
Open Scope Z_scope.

(** ** registries *)
Definition reg {A : Type} (eqb : A -> A -> bool) (l : list A) (x : A) : list A * Z :=
  match find_idx (fun k => eqb k x) l 0 with Some i => (l, i + 1) | None => (l ++ [x], len l + 1) end.
Definition uniq {A : Type} (eqb : A -> A -> bool) (l : list A) : Prop := forall i j x y, nth_error l i = Some x -> nth_error l j = Some y -> eqb x y = true -> i = j.
Lemma find_idx_some : forall (A : Type) (f : A -> bool) l k i, find_idx f l k = Some i -> exists n x, i = k + Z.of_nat n /\ nth_error l n = Some x /\ f x = true.
Proof.
  intros A f. induction l as [|y l IH]; intros k i H; cbn in H; [discriminate|]. destruct (f y) eqn:E.
  - injection H as <-. exists 0%nat, y. cbn. repeat split; auto. lia.
  - apply IH in H. destruct H as (n & x & -> & H1 & H2). exists (S n), x. cbn. repeat split; auto. lia.
Qed.
Lemma find_idx_none : forall (A : Type) (f : A -> bool) l k, find_idx f l k = None -> forall x, In x l -> f x = false.
Proof.
  intros A f. induction l as [|y l IH]; intros k H x Hx; cbn in *; [tauto|]. destruct (f y) eqn:E; [discriminate|].
  destruct Hx as [<-|Hx]; eauto.
Qed.
Lemma at_inv : forall (A : Type) (l : list A) i x, at_ l i = Ok x -> 0 <= i < len l /\ nth_error l (Z.to_nat i) = Some x.
Proof.
  intros A l i x H. unfold at_ in H. destruct (i <? 0) eqn:E; [discriminate|]. destruct (nth_error l (Z.to_nat i)) eqn:E2; [|discriminate].
  injection H as <-. split; auto. assert (Z.to_nat i < length l)%nat by (apply nth_error_Some; congruence). unfold len. lia.
Qed.
Lemma at_nat : forall (A : Type) (l : list A) n x, nth_error l n = Some x -> at_ l (Z.of_nat n) = Ok x.
Proof. intros A l n x H. unfold at_. destruct (Z.of_nat n <? 0) eqn:E; [lia|]. rewrite Nat2Z.id, H. reflexivity. Qed.
Lemma reg_at : forall (A : Type) (eqb : A -> A -> bool) (eqb_refl : forall x, eqb x x = true) (l : list A) x,  exists y, at_ (fst (reg eqb l x)) (snd (reg eqb l x) - 1) = Ok y /\ eqb y x = true.
Proof.
  intros A eqb eqb_refl l x. unfold reg. destruct (find_idx _ l 0) eqn:E; cbn [fst snd].
  - apply find_idx_some in E. destruct E as (n & y & -> & H1 & H2). exists y. split; auto.
    replace (0 + Z.of_nat n + 1 - 1) with (Z.of_nat n) by lia. apply at_nat. exact H1.
  - exists x. split; auto. replace (len l + 1 - 1) with (Z.of_nat (length l)) by (unfold len; lia). apply at_nat.
    rewrite nth_error_app2 by lia. rewrite Nat.sub_diag. reflexivity.
Qed.
Lemma reg_keeps : forall (A : Type) (eqb : A -> A -> bool) (l : list A) x i y,  at_ l i = Ok y -> at_ (fst (reg eqb l x)) i = Ok y.
Proof.
  intros A eqb l x i y H. unfold reg. destruct (find_idx _ l 0); cbn [fst]; auto.
  apply at_inv in H. destruct H as [H1 H2]. unfold at_. destruct (i <? 0) eqn:E; [lia|]. rewrite nth_error_app1; [rewrite H2; reflexivity|].
  apply nth_error_Some. congruence.
Qed.
Lemma reg_uniq : forall (A : Type) (eqb : A -> A -> bool) (eqb_refl : forall x, eqb x x = true) (eqb_sym : forall x y, eqb x y = true -> eqb y x = true) (l : list A) x,  uniq eqb l -> uniq eqb (fst (reg eqb l x)).
Proof.
  intros A eqb eqb_refl eqb_sym l x U. unfold reg. destruct (find_idx _ l 0) eqn:E; cbn [fst]; auto.
  intros i j a b Hi Hj Hab.
  assert (HN : forall a, In a l -> eqb a x = false) by (exact (find_idx_none _ _ _ _ E)).
  destruct (Nat.lt_ge_cases i (length l)) as [Li|Li]; destruct (Nat.lt_ge_cases j (length l)) as [Lj|Lj].
  - rewrite nth_error_app1 in Hi, Hj by lia. eapply U; eauto.
  - rewrite nth_error_app1 in Hi by lia. rewrite nth_error_app2 in Hj by lia. destruct (j - length l)%nat as [|k] eqn:K; cbn in Hj; [|destruct k; discriminate].
    injection Hj as <-. apply nth_error_In in Hi. rewrite (HN a Hi) in Hab. discriminate.
  - rewrite nth_error_app2 in Hi by lia. rewrite nth_error_app1 in Hj by lia. destruct (i - length l)%nat as [|k] eqn:K; cbn in Hi; [|destruct k; discriminate].
    injection Hi as <-. apply nth_error_In in Hj. apply eqb_sym in Hab. rewrite (HN b Hj) in Hab. discriminate.
  - assert (i < length (l ++ [x]))%nat by (apply nth_error_Some; congruence). assert (j < length (l ++ [x]))%nat by (apply nth_error_Some; congruence).
    rewrite app_length in *. cbn in *. lia.
Qed.
Lemma reg_id : forall (A : Type) (eqb : A -> A -> bool) (eqb_sym : forall x y, eqb x y = true -> eqb y x = true) (eqb_trans : forall x y z, eqb x y = true -> eqb y z = true -> eqb x z = true) (l : list A) i y x,  uniq eqb l -> at_ l (i - 1) = Ok y -> (snd (reg eqb l x) = i <-> eqb y x = true).
Proof.
  intros A eqb eqb_sym eqb_trans l i y x U H. apply at_inv in H. destruct H as [Hr H]. unfold reg. destruct (find_idx _ l 0) as [k|] eqn:E; cbn [snd].
  - apply find_idx_some in E. destruct E as (n & z & -> & H1 & H2). split.
    + intros <-. replace (Z.to_nat (0 + Z.of_nat n + 1 - 1)) with n in H by lia. congruence.
    + intros Hy. assert (n = Z.to_nat (i - 1)) by (eapply U; eauto). lia.
  - split; [lia|]. intros Hy. apply nth_error_In in H. rewrite (find_idx_none _ _ _ _ E y H) in Hy. discriminate.
Qed.

Lemma reg_tuple : forall e fs, register_tuple e fs = (mkE (fst (reg tuple_eqb (e_tuples e) fs)) (e_records e) (e_arrays e), snd (reg tuple_eqb (e_tuples e) fs)).
Proof. intros [a b c] fs. unfold register_tuple, reg. cbn [e_tuples e_records e_arrays]. destruct (find_idx _ a 0); reflexivity. Qed.
Lemma reg_rec : forall e r, register_rec e r = (mkE (e_tuples e) (fst (reg rec_eqb (e_records e) r)) (e_arrays e), snd (reg rec_eqb (e_records e) r)).
Proof. intros [a b c] r. unfold register_rec, reg. cbn [e_tuples e_records e_arrays]. destruct (find_idx _ b 0); reflexivity. Qed.
Definition arr_eqb (a b : list Z) : bool := list_eqb Z.eqb (array_key a) (array_key b).
Lemma reg_array : forall e ids, forallb (fun i => i =? 0) ids = false ->
  register_array e ids = (mkE (e_tuples e) (e_records e) (fst (reg arr_eqb (e_arrays e) ids)), snd (reg arr_eqb (e_arrays e) ids)).
Proof. intros [a b c] ids H. unfold register_array, reg. rewrite H. unfold arr_eqb. cbn [e_tuples e_records e_arrays]. destruct (find_idx _ c 0); reflexivity. Qed.

(* equalities *)
Lemma list_eqb_Forall2 : forall (A : Type) (f : A -> A -> bool) a b, list_eqb f a b = true <-> Forall2 (fun x y => f x y = true) a b.
Proof.
  intros A f. induction a as [|x a IH]; intros [|y b]; cbn; try (split; [discriminate | intros H; inversion H]); [split; auto|].
  rewrite andb_true_iff, IH. split; [intros []; auto | intros H; inversion H; auto].
Qed.
Lemma F2_refl : forall (A : Type) (R : A -> A -> Prop), (forall x, R x x) -> forall l, Forall2 R l l.
Proof. induction l; auto. Qed.
Lemma F2_sym : forall (A : Type) (R : A -> A -> Prop), (forall x y, R x y -> R y x) -> forall a b, Forall2 R a b -> Forall2 R b a.
Proof. induction 2; auto. Qed.
Lemma F2_trans : forall (A : Type) (R : A -> A -> Prop), (forall x y z, R x y -> R y z -> R x z) -> forall a b c, Forall2 R a b -> Forall2 R b c -> Forall2 R a c.
Proof. intros A R HR a b c H. revert c. induction H; intros c H2; inversion H2; subst; eauto. Qed.
Lemma cmp_eq : forall a b, (ty_cmp a b =? 0) = true <-> toInt a = toInt b.
Proof. intros. rewrite Z.eqb_eq. apply cmp_spec. Qed.
Lemma tuple_eqb_eq : forall a b, tuple_eqb a b = true <-> Forall2 (fun x y => toInt x = toInt y) a b.
Proof.
  intros. unfold tuple_eqb. rewrite list_eqb_Forall2. split; intros H; induction H; constructor; auto; apply cmp_eq; auto.
Qed.
Lemma tuple_eqb_same : forall a b, Forall type_ok a -> Forall type_ok b -> (tuple_eqb a b = true <-> Forall2 same_type a b).
Proof.
  intros a b Ha Hb. rewrite tuple_eqb_eq. split; intros H.
  - induction H; constructor; inversion Ha; inversion Hb; subst; auto. apply toInt_inj; auto.
  - induction H; constructor; inversion Ha; inversion Hb; subst; auto. apply toInt_same; auto.
Qed.
Lemma tuple_eqb_refl : forall x, tuple_eqb x x = true.
Proof. intros. apply tuple_eqb_eq. apply F2_refl. auto. Qed.
Lemma tuple_eqb_sym : forall x y, tuple_eqb x y = true -> tuple_eqb y x = true.
Proof. intros x y. rewrite !tuple_eqb_eq. apply F2_sym. auto. Qed.
Lemma tuple_eqb_trans : forall x y z, tuple_eqb x y = true -> tuple_eqb y z = true -> tuple_eqb x z = true.
Proof. intros x y z. rewrite !tuple_eqb_eq. apply F2_trans. intros; congruence. Qed.
Lemma rec_eqb_eq : forall a b, rec_eqb a b = true <-> r_names a = r_names b /\ Forall2 (fun x y => fst x = fst y /\ toInt (snd x) = toInt (snd y)) (r_fields a) (r_fields b).
Proof.
  intros. unfold rec_eqb. rewrite andb_true_iff, names_eqb_eq, list_eqb_Forall2.
  assert (HH : forall x y : Z * ty, (fst x =? fst y) && (ty_cmp (snd x) (snd y) =? 0) = true <-> fst x = fst y /\ toInt (snd x) = toInt (snd y)).
  { intros. rewrite andb_true_iff, cmp_eq, Z.eqb_eq. reflexivity. }
  split; (intros [H1 H2]; split; [exact H1|]); clear H1; induction H2; constructor; auto; apply HH; auto.
Qed.
Lemma rec_eqb_refl : forall x, rec_eqb x x = true.
Proof. intros. apply rec_eqb_eq. split; auto. apply F2_refl. auto. Qed.
Lemma rec_eqb_sym : forall x y, rec_eqb x y = true -> rec_eqb y x = true.
Proof. intros x y. rewrite !rec_eqb_eq. intros [H1 H2]. split; auto. revert H2. apply F2_sym. intuition. Qed.
Lemma rec_eqb_trans : forall x y z, rec_eqb x y = true -> rec_eqb y z = true -> rec_eqb x z = true.
Proof. intros x y z. rewrite !rec_eqb_eq. intros [H1 H2] [H3 H4]. split; [congruence|]. revert H2 H4. apply F2_trans. intuition congruence. Qed.
Lemma arr_eqb_eq : forall a b, arr_eqb a b = true <-> array_key a = array_key b.
Proof. intros. apply names_eqb_eq. Qed.
Lemma arr_eqb_refl : forall x, arr_eqb x x = true. Proof. intros. apply arr_eqb_eq. reflexivity. Qed.
Lemma arr_eqb_sym : forall x y, arr_eqb x y = true -> arr_eqb y x = true. Proof. intros x y. rewrite !arr_eqb_eq. auto. Qed.
Lemma arr_eqb_trans : forall x y z, arr_eqb x y = true -> arr_eqb y z = true -> arr_eqb x z = true. Proof. intros x y z. rewrite !arr_eqb_eq. congruence. Qed.

(* decimal numbers *)
Definition undec (l : list Z) : Z := fold_left (fun a d => a * 10 + (d - 48)) l 0.
Lemma dec_fuel_ok : forall f n, 0 <= n < 2 ^ Z.of_nat f -> undec (dec_fuel f n) = n /\ Forall (fun d => 48 <= d <= 57) (dec_fuel f n).
Proof.
  induction f as [|f IH]; intros n H; [cbn in *; split; [unfold undec; cbn; lia | constructor]|]. cbn [dec_fuel]. destruct (n <? 10) eqn:E.
  - split; [unfold undec; cbn [fold_left]; lia | constructor; [lia|constructor]].
  - destruct (IH (n / 10)) as [H1 H2]. { replace (Z.of_nat (S f)) with (Z.succ (Z.of_nat f)) in H by lia. rewrite Z.pow_succ_r in H by lia. lia. }
    split.
    + unfold undec in *. rewrite fold_left_app, H1. cbn [fold_left]. lia.
    + apply Forall_app. split; auto. constructor; [lia|constructor].
Qed.
Lemma dec_ok : forall n, 0 <= n -> undec (dec n) = n /\ Forall (fun d => 48 <= d <= 57) (dec n).
Proof.
  intros n H. apply dec_fuel_ok. split; [lia|]. destruct (Z.eq_dec n 0) as [->|N]; [cbn; lia|].
  pose proof (Z.log2_spec n ltac:(lia)). pose proof (Z.log2_nonneg n).
  replace (Z.of_nat (S (Z.to_nat (Z.log2 n)))) with (Z.succ (Z.log2 n)) by lia. lia.
Qed.
Lemma dec_inj : forall a b, 0 <= a -> 0 <= b -> dec a = dec b -> a = b.
Proof. intros a b Ha Hb H. destruct (dec_ok a Ha) as [H1 _]. destruct (dec_ok b Hb) as [H2 _]. rewrite <- H1, <- H2, H. reflexivity. Qed.
Lemma split_dot : forall a b x y, Forall (fun d => 48 <= d <= 57) a -> Forall (fun d => 48 <= d <= 57) b -> a ++ 46 :: x = b ++ 46 :: y -> a = b /\ x = y.
Proof.
  induction a as [|c a IH]; intros [|d b] x y Ha Hb H; cbn in H.
  - injection H as ->. auto.
  - injection H as <- _. inversion Hb; subst. lia.
  - injection H as -> _. inversion Ha; subst. lia.
  - injection H as -> H. inversion Ha; inversion Hb; subst. destruct (IH b x y) as [-> ->]; auto.
Qed.
Lemma key_inj : forall a b, Forall (fun i => 0 <= i) a -> Forall (fun i => 0 <= i) b -> array_key a = array_key b -> a = b.
Proof.
  induction a as [|x a IH]; intros [|y b] Ha Hb H; cbn [array_key flat_map] in H.
  - reflexivity.
  - destruct (dec y); discriminate.
  - destruct (dec x); discriminate.
  - inversion Ha; inversion Hb; subst. rewrite <- !app_assoc in H. cbn [app] in H. destruct (dec_ok x) as [_ Dx]; auto. destruct (dec_ok y) as [_ Dy]; auto.
    apply split_dot in H; auto. destruct H as [HA HB]. apply dec_inj in HA; auto. f_equal; auto.
Qed.

(* record names *)
Lemma offsets_len : forall fs o, length (offsets o fs) = length fs.
Proof. induction fs as [|[n t] fs IH]; intros o; cbn; auto. Qed.
Lemma offsets_types : forall fs o, map snd (offsets o fs) = map snd fs.
Proof. induction fs as [|[n t] fs IH]; intros o; cbn; f_equal; auto. Qed.
Lemma offsets_nth : forall fs o i, (i < length fs)%nat -> exists t, nth_error (offsets o fs) i = Some (o + len (flat_map fst (firstn i fs)), t).
Proof.
  induction fs as [|[n t] fs IH]; intros o i H; cbn in H; [lia|]. destruct i as [|i]; cbn.
  - exists t. rewrite Z.add_0_r. reflexivity.
  - destruct (IH (o + len n) i) as [u ->]; [lia|]. exists u. f_equal. f_equal. unfold len. rewrite app_length. lia.
Qed.
Lemma fieldName_mk : forall fs i, (i < length fs)%nat -> fieldName (mk_rec fs) i = fst (nth i fs ([], t_unknown)).
Proof.
  intros fs i H. unfold fieldName, mk_rec. cbn [r_fields r_names].
  destruct (offsets_nth fs 0 i H) as [t ->].
  set (p := firstn i fs). pose proof (firstn_skipn i fs) as HS. fold p in HS.
  assert (HP : length p = i) by (unfold p; rewrite firstn_length; lia).
  destruct (skipn i fs) as [|[n u] q] eqn:EQ. { rewrite app_nil_r in HS. rewrite <- HS in H. lia. }
  assert (Hn : nth i fs ([], t_unknown) = (n, u)). { rewrite <- HS. rewrite app_nth2 by lia. rewrite HP, Nat.sub_diag. reflexivity. }
  rewrite Hn. cbn [fst]. rewrite <- HS. rewrite flat_map_app. cbn [flat_map fst].
  assert (SK : skipn (length (flat_map fst p)) (flat_map fst p ++ n ++ flat_map fst q) = n ++ flat_map fst q).
  { rewrite skipn_app, skipn_all, Nat.sub_diag. reflexivity. }
  assert (E0 : Z.to_nat (0 + len (flat_map fst p)) = length (flat_map fst p)) by (unfold len; lia).
  destruct q as [|[m v] q].
  - replace (nth_error (offsets 0 (p ++ [(n, u)])) (S i)) with (@None (Z * ty)).
    2:{ symmetry. apply nth_error_None. rewrite offsets_len, app_length. cbn. lia. }
    rewrite E0, SK. cbn [flat_map]. apply app_nil_r.
  - destruct (offsets_nth (p ++ (n, u) :: (m, v) :: q) 0 (S i)) as [w ->]; [rewrite app_length; cbn; lia|].
    replace (firstn (S i) (p ++ (n, u) :: (m, v) :: q)) with (p ++ [(n, u)]).
    2:{ replace (S i) with (length (p ++ [(n, u)])) by (rewrite app_length; cbn; lia).
        replace (p ++ (n, u) :: (m, v) :: q) with ((p ++ [(n, u)]) ++ (m, v) :: q) by (rewrite <- app_assoc; reflexivity).
        rewrite firstn_app, firstn_all, Nat.sub_diag. cbn. rewrite app_nil_r. reflexivity. }
    unfold substr. rewrite E0, SK. rewrite flat_map_app. cbn [flat_map fst]. rewrite app_nil_r.
    replace (Z.to_nat _) with (length n) by (unfold len; rewrite app_length; lia).
    rewrite firstn_app, firstn_all, Nat.sub_diag. cbn. apply app_nil_r.
Qed.
Lemma rec_names_mk : forall fs, rec_names (mk_rec fs) = map fst fs.
Proof.
  intros fs. unfold rec_names. replace (length (r_fields (mk_rec fs))) with (length fs) by (symmetry; apply offsets_len).
  apply nth_ext with (d := []) (d' := []). { rewrite !map_length, seq_length. reflexivity. }
  intros i Hi. rewrite map_length, seq_length in Hi.
  rewrite nth_indep with (d' := fieldName (mk_rec fs) 0%nat) by (rewrite map_length, seq_length; lia).
  rewrite (map_nth (fieldName (mk_rec fs)) (seq 0 (length fs)) 0%nat), seq_nth by lia. cbn [plus].
  rewrite fieldName_mk by lia. symmetry. apply (map_nth fst fs ([], t_unknown)).
Qed.
Lemma rec_types_mk : forall fs, rec_types (mk_rec fs) = map snd fs.
Proof. intros. unfold rec_types, mk_rec. cbn. apply offsets_types. Qed.
Lemma offsets_fst : forall fs gs o, map fst fs = map fst gs -> map fst (offsets o fs) = map fst (offsets o gs).
Proof. induction fs as [|[n t] fs IH]; intros [|[m u] gs] o H; cbn in *; try discriminate; auto. injection H as -> H. f_equal. auto. Qed.
Lemma Forall2_pair : forall (R : ty -> ty -> Prop) (a b : list (Z * ty)),
  Forall2 (fun x y => fst x = fst y /\ R (snd x) (snd y)) a b <-> map fst a = map fst b /\ Forall2 R (map snd a) (map snd b).
Proof.
  intros R. induction a as [|x a IH]; intros [|y b]; cbn.
  - split; auto.
  - split; [intros H; inversion H | intros [H _]; discriminate].
  - split; [intros H; inversion H | intros [H _]; discriminate].
  - split.
    + intros H. inversion H as [|? ? ? ? [Ha Hb] Hc]; subst. apply IH in Hc. destruct Hc. split; [congruence|auto].
    + intros [H1 H2]. injection H1 as H1 H3. inversion H2; subst. constructor; auto. apply IH. auto.
Qed.
Lemma rec_eqb_mk : forall fs gs, rec_eqb (mk_rec fs) (mk_rec gs) = true <->
  map fst fs = map fst gs /\ Forall2 (fun x y => toInt x = toInt y) (map snd fs) (map snd gs).
Proof.
  intros fs gs. split.
  - intros H. pose proof H as H0. apply rec_eqb_eq in H. destruct H as [H1 H2]. apply (Forall2_pair (fun x y => toInt x = toInt y)) in H2. destruct H2 as [H2 H3]. split.
    + rewrite <- !rec_names_mk. unfold rec_names.
      assert (HL : length (r_fields (mk_rec fs)) = length (r_fields (mk_rec gs))) by (rewrite <- (map_length fst), H2, map_length; reflexivity).
      rewrite HL. apply map_ext. intros i. unfold fieldName.
      assert (HO : forall j, option_map fst (nth_error (r_fields (mk_rec fs)) j) = option_map fst (nth_error (r_fields (mk_rec gs)) j)).
      { intros j. rewrite <- !nth_error_map, H2. reflexivity. }
      pose proof (HO i) as Hi. pose proof (HO (S i)) as Hs.
      destruct (nth_error (r_fields (mk_rec fs)) i) as [[o t]|]; destruct (nth_error (r_fields (mk_rec gs)) i) as [[o' t']|]; cbn in Hi; try discriminate; auto.
      injection Hi as <-.
      destruct (nth_error (r_fields (mk_rec fs)) (S i)) as [[o2 t2]|]; destruct (nth_error (r_fields (mk_rec gs)) (S i)) as [[o2' t2']|]; cbn in Hs; try discriminate; rewrite H1; auto.
      injection Hs as <-. reflexivity.
    + unfold mk_rec in H3. cbn [r_fields] in H3. rewrite !offsets_types in H3. exact H3.
  - intros [H1 H2]. apply rec_eqb_eq. unfold mk_rec. cbn [r_names r_fields]. split.
    + rewrite !flat_map_concat_map, H1. reflexivity.
    + apply (Forall2_pair (fun x y => toInt x = toInt y)). rewrite !offsets_types. split; auto. apply offsets_fst. exact H1.
Qed.
Lemma retype_mk : forall fs ts, length ts = length fs -> rec_retype (mk_rec fs) ts = mk_rec (combine (map fst fs) ts).
Proof.
  intros fs ts H. unfold rec_retype, mk_rec. cbn [r_names r_fields]. f_equal.
  - revert ts H. induction fs as [|[n t] fs IH]; intros [|u ts] H; cbn in *; try discriminate; auto. f_equal. apply IH. lia.
  - assert (G : forall fs ts o, length ts = length fs -> map (fun p : Z * ty * ty => (fst (fst p), snd p)) (combine (offsets o fs) ts) = offsets o (combine (map fst fs) ts)).
    { clear. induction fs as [|[n t] fs IH]; intros [|u ts] o H; cbn in *; try discriminate; auto. f_equal. apply IH. lia. }
    apply G. exact H.
Qed.

(* the invariant *)
Definition env_ok (e : env) : Prop :=
  uniq tuple_eqb (e_tuples e) /\ Forall (Forall type_ok) (e_tuples e) /\
  uniq rec_eqb (e_records e) /\ Forall (fun r => exists fs, r = mk_rec fs /\ Forall type_ok (map snd fs)) (e_records e) /\
  uniq arr_eqb (e_arrays e) /\ Forall (Forall (fun i => 0 <= i)) (e_arrays e) /\ Forall (fun l => forallb (fun i => i =? 0) l = false) (e_arrays e).
Lemma reg_Forall : forall (A : Type) (eqb : A -> A -> bool) (P : A -> Prop) l x, Forall P l -> P x -> Forall P (fst (reg eqb l x)).
Proof. intros A eqb P l x H1 H2. unfold reg. destruct (find_idx _ l 0); cbn; auto. apply Forall_app. auto. Qed.
Lemma reach_ok : forall e, reach e -> env_ok e.
Proof.
  intros e H. induction H as [|e fs _ (U1 & O1 & U2 & O2 & U3 & O3 & O4) Hf|e fs _ (U1 & O1 & U2 & O2 & U3 & O3 & O4) Hf|e i r ts _ (U1 & O1 & U2 & O2 & U3 & O3 & O4) Hn Hl Ht|e ids _ (U1 & O1 & U2 & O2 & U3 & O3 & O4) Hi].
  - assert (N : forall (A : Type) f, @uniq A f []) by (intros A f [|i] [|j] x y; cbn; discriminate). unfold env_ok. cbn. repeat split; auto.
  - rewrite reg_tuple. unfold env_ok. cbn. repeat split; auto; [apply reg_uniq; auto using tuple_eqb_refl, tuple_eqb_sym | apply reg_Forall; auto].
  - rewrite reg_rec. unfold env_ok. cbn. repeat split; auto; [apply reg_uniq; auto using rec_eqb_refl, rec_eqb_sym | apply reg_Forall; eauto].
  - rewrite reg_rec. unfold env_ok. cbn. repeat split; auto; [apply reg_uniq; auto using rec_eqb_refl, rec_eqb_sym | apply reg_Forall; auto].
    rewrite Forall_forall in O2. destruct (O2 r) as (fs & -> & Hfs); [eapply nth_error_In; eauto|].
    unfold mk_rec in Hl. cbn in Hl. rewrite offsets_len in Hl. exists (combine (map fst fs) ts). split; [apply retype_mk; auto|].
    replace (map snd (combine (map fst fs) ts)) with ts; auto. clear - Hl. revert fs Hl. induction ts as [|t ts IH]; intros [|[n u] fs] H; cbn in *; try discriminate; auto. f_equal. apply IH. lia.
  - destruct (forallb (fun i => i =? 0) ids) eqn:E.
    + unfold register_array. rewrite E. cbn. unfold env_ok. auto 10.
    + rewrite (reg_array e ids E). unfold env_ok. cbn. repeat split; auto; [apply reg_uniq; auto using arr_eqb_refl, arr_eqb_sym | apply reg_Forall; auto ..].
Qed.

Lemma C53_tuple_l : forall e fs, reach e -> Forall type_ok fs ->
  let (e', i) := register_tuple e fs in
  reach e' /\ keeps e e' /\
  (exists fs', at_ (e_tuples e') (i - 1) = Ok fs' /\ Forall2 same_type fs' fs) /\
  (forall j gs, at_ (e_tuples e) (j - 1) = Ok gs -> (i = j <-> Forall2 same_type gs fs)).
Proof.
  intros e fs He Hf. pose proof (r_tuple e fs He Hf) as He'. pose proof (reach_ok _ He) as (U1 & O1 & _).
  destruct (register_tuple e fs) as [e' i] eqn:E. rewrite reg_tuple in E. injection E as <- <-.
  pose proof (reach_ok _ He') as (_ & O1' & _).  cbn [fst e_tuples] in *.
  split; [exact He'|]. split; [|split].
  - unfold keeps. cbn. split; [|auto]. intros. apply reg_keeps. assumption.
  - destruct (reg_at _ tuple_eqb tuple_eqb_refl (e_tuples e) fs) as (y & H1 & H2). exists y. split; [exact H1|].
    apply tuple_eqb_same in H2; auto. apply at_inv in H1. destruct H1 as [_ H1]. apply nth_error_In in H1. rewrite Forall_forall in O1'. auto.
  - intros j gs Hj. rewrite (reg_id _ tuple_eqb tuple_eqb_sym tuple_eqb_trans (e_tuples e) j gs fs U1 Hj).
    apply tuple_eqb_same; auto. apply at_inv in Hj. destruct Hj as [_ Hj]. apply nth_error_In in Hj. rewrite Forall_forall in O1. auto.
Qed.
Lemma same_F2 : forall a b, Forall type_ok a -> Forall type_ok b -> (Forall2 (fun x y => toInt x = toInt y) a b <-> Forall2 same_type a b).
Proof. intros a b Ha Hb. rewrite <- tuple_eqb_eq. apply tuple_eqb_same; auto. Qed.
Lemma C53_record_l : forall e fs, reach e -> Forall type_ok (map snd fs) ->
  let (e', i) := register_rec e (mk_rec fs) in
  reach e' /\ keeps e e' /\
  (exists r, at_ (e_records e') (i - 1) = Ok r /\ rec_names r = map fst fs /\ Forall2 same_type (rec_types r) (map snd fs)) /\
  (forall j r, at_ (e_records e) (j - 1) = Ok r -> (i = j <-> rec_names r = map fst fs /\ Forall2 same_type (rec_types r) (map snd fs))).
Proof.
  intros e fs He Hf. pose proof (r_rec e fs He Hf) as He'. pose proof (reach_ok _ He) as (_ & _ & U1 & O1 & _).
  destruct (register_rec e (mk_rec fs)) as [e' i] eqn:E. rewrite reg_rec in E. injection E as <- <-.
  pose proof (reach_ok _ He') as (_ & _ & _ & O1' & _).  cbn [fst e_records] in *.
  split; [exact He'|]. split; [|split].
  - unfold keeps. cbn. split; [auto|]. split; [|auto]. intros. apply reg_keeps. assumption.
  - destruct (reg_at _ rec_eqb rec_eqb_refl (e_records e) (mk_rec fs)) as (y & H1 & H2). exists y. split; [exact H1|].
    apply at_inv in H1. destruct H1 as [_ H1]. apply nth_error_In in H1. rewrite Forall_forall in O1'. destruct (O1' y H1) as (gs & -> & Hg).
    rewrite rec_names_mk, rec_types_mk. apply rec_eqb_mk in H2. destruct H2 as [H2 H3]. split; auto. apply same_F2; auto.
  - intros j gs Hj. rewrite (reg_id _ rec_eqb rec_eqb_sym rec_eqb_trans (e_records e) j gs (mk_rec fs) U1 Hj).
    apply at_inv in Hj. destruct Hj as [_ Hj]. apply nth_error_In in Hj. rewrite Forall_forall in O1. destruct (O1 gs Hj) as (ks & -> & Hk).
    rewrite rec_names_mk, rec_types_mk, rec_eqb_mk. rewrite same_F2; auto. reflexivity.
Qed.
Lemma C53_retype_l : forall e j r ts, reach e -> at_ (e_records e) (j - 1) = Ok r -> length ts = length (rec_types r) -> Forall type_ok ts ->
  rec_retype r ts = mk_rec (combine (rec_names r) ts).
Proof.
  intros e j r ts He Hj Hl Ht. pose proof (reach_ok _ He) as (_ & _ & _ & O1 & _). apply at_inv in Hj. destruct Hj as [_ Hj]. apply nth_error_In in Hj.
  rewrite Forall_forall in O1. destruct (O1 r Hj) as (ks & -> & Hk). rewrite rec_names_mk. apply retype_mk. rewrite rec_types_mk, map_length in Hl. exact Hl.
Qed.
Lemma C53_array_l : forall e ids, reach e -> Forall (fun i => 0 <= i) ids ->
  let (e', i) := register_array e ids in
  reach e' /\ keeps e e' /\ (i = 0 <-> Forall (fun x => x = 0) ids) /\ (i <> 0 -> get_array e' i = Ok ids) /\
  (forall j js, get_array e j = Ok js -> (i = j <-> js = ids)).
Proof.
  intros e ids He Hf. pose proof (r_array e ids He Hf) as He'. pose proof (reach_ok _ He) as (_ & _ & _ & _ & U1 & O1 & O2).
  assert (HZ : forallb (fun i => i =? 0) ids = true <-> Forall (fun x => x = 0) ids).
  { rewrite forallb_forall, Forall_forall. split; intros H x Hx; specialize (H x Hx); lia. }
  destruct (forallb (fun i => i =? 0) ids) eqn:EZ.
  - unfold register_array in *. rewrite EZ in *. split; [exact He|]. split; [unfold keeps; auto|]. split; [intuition|]. split; [congruence|].
    intros j js Hj. apply at_inv in Hj. destruct Hj as [Hr Hj]. split; [lia|]. intros ->. apply nth_error_In in Hj.
    rewrite Forall_forall in O2. rewrite (O2 ids Hj) in EZ. discriminate.
  - destruct (register_array e ids) as [e' i] eqn:E. rewrite (reg_array e ids EZ) in E. injection E as <- <-.
    pose proof (reach_ok _ He') as (_ & _ & _ & _ & _ & O1' & _).  cbn [fst e_arrays] in *.
    destruct (reg_at _ arr_eqb arr_eqb_refl (e_arrays e) ids) as (y & H1 & H2).
    split; [exact He'|]. split; [|split; [|split]].
    + unfold keeps. cbn. split; [auto|]. split; [auto|]. intros. apply reg_keeps. assumption.
    + apply at_inv in H1. split; [lia|]. intros H. apply HZ in H. discriminate.
    + intros _. unfold get_array. cbn. rewrite H1. f_equal. apply arr_eqb_eq in H2. apply key_inj in H2; auto.
      apply at_inv in H1. destruct H1 as [_ H1]. apply nth_error_In in H1. rewrite Forall_forall in O1'. auto.
    + intros j js Hj. unfold get_array in Hj. rewrite (reg_id _ arr_eqb arr_eqb_sym arr_eqb_trans (e_arrays e) j js ids U1 Hj).
      rewrite arr_eqb_eq. split; [|congruence]. apply key_inj; auto.
      apply at_inv in Hj. destruct Hj as [_ Hj]. apply nth_error_In in Hj. rewrite Forall_forall in O1. auto.
Qed.

(* more struct types than ids *)
Definition ints (n : nat) : list ty := repeat (t_parint 0) n.
Definition many (n : nat) : env := mkE (map (fun k => ints (S k)) (seq 0 n)) [] [].
Lemma ints_ok : forall n, Forall type_ok (ints n).
Proof. intros n. apply Forall_forall. intros x Hx. apply repeat_spec in Hx. subst. unfold type_ok. cbn. lia. Qed.
Lemma many_reg : forall n, register_tuple (many n) (ints (S n)) = (many (S n), Z.of_nat n + 1).
Proof.
  intros n. rewrite reg_tuple. unfold reg, many. cbn [e_tuples e_records e_arrays].
  destruct (find_idx _ _ 0) as [k|] eqn:E.
  - apply find_idx_some in E. destruct E as (m & x & -> & H1 & H2). apply tuple_eqb_eq in H2. exfalso.
    assert (Hm : (m < length (map (fun k => ints (S k)) (seq 0 n)))%nat) by (apply nth_error_Some; congruence).
    assert (length x = length (ints (S n))) by (clear - H2; induction H2; cbn; congruence).
    rewrite map_length, seq_length in Hm. rewrite nth_error_map in H1.
    rewrite (nth_error_nth' (seq 0 n) 0%nat) in H1 by (rewrite seq_length; lia). rewrite seq_nth in H1 by lia. cbn [option_map] in H1. injection H1 as <-.
    unfold ints in H. cbn [length repeat] in H. rewrite !repeat_length in H. lia.
  - cbn [fst snd]. rewrite (seq_S n 0), map_app. cbn [map plus]. unfold len. rewrite map_length, seq_length. reflexivity.
Qed.
Lemma many_reach : forall n, reach (many n).
Proof.
  induction n as [|n IH]; [apply r_init|]. pose proof (r_tuple (many n) (ints (S n)) IH (ints_ok _)) as H. rewrite many_reg in H. exact H.
Qed.
Lemma C53_truncation : exists e fs gs, reach e /\ length fs <> length gs /\
  let (e', i) := register_tuple e fs in
  get_tuple e' (set_id (mk_ty false BT_TUPLE false 0 0) i) = Ok gs.
Proof.
  exists (many (Z.to_nat 65536)), (ints (S (Z.to_nat 65536))), (ints 1). split; [apply many_reach|]. split.
  { unfold ints. rewrite !repeat_length. lia. }
  rewrite many_reg. replace (Z.of_nat (Z.to_nat 65536) + 1) with 65537 by lia.
  generalize (Z.to_nat 65536). intros n.
  unfold get_tuple, struct_id, set_id, mk_ty. cbn [t_id t_dim]. change (65537 mod 65536) with 1. cbn [Z.eqb bind negb].
  unfold many. cbn [e_tuples seq map]. reflexivity.
Qed.

(** ** C54 *)
Lemma C54_matches_l : forall n e a b, length a = length b -> Forall (fun t => t_bt t <> BT_BOT) a -> matchesBT (S n) e a b = Ok true.
Proof.
  intros n e a b Hl Ha. cbn [matchesBT]. replace (len b =? len a) with true by (unfold len; lia). cbn [negb].
  revert b Hl. induction Ha as [|x a Hx Ha IH]; intros [|y b] Hl; cbn in Hl; try discriminate; [reflexivity|].
  cbn [matchesBT_fields]. apply bt_eqb_neq in Hx. unfold isbot at 1. rewrite Hx. cbn [negb orb]. apply IH. lia.
Qed.
