(** Proofs about overload resolution: named arguments. *)
Require Import ZArith List Bool Arith Lia.
From Verif Require Import Base TypeModel TypeSpec TypeProofs OvlModel OvlSpec OvlProofs OvlProofs2.
Import ListNotations.
Open Scope nat_scope.

Lemma has_name_iff : forall n p, has_name n p = true <-> pa_name p = Some n.
Proof. intros n p. unfold has_name. destruct (pa_name p) as [m|]; [rewrite str_eqb_eq|]; split; congruence. Qed.

(** ** Finding parameters by name *)
Lemma find_from_some : forall n l k j, find_from n k l = Some j -> k <= j /\ exists p, nth_error l (j - k) = Some p /\ pa_name p = Some n.
Proof.
  intros n. induction l as [|p l IH]; intros k j H; cbn in H; [discriminate|]. destruct (has_name n p) eqn:E.
  - injection H as <-. split; auto. rewrite Nat.sub_diag. exists p. split; auto. now apply has_name_iff.
  - apply IH in H as (L & q & Q1 & Q2). split; [lia|]. exists q. split; auto. replace (j - k) with (S (j - S k)) by lia. auto.
Qed.
Lemma find_from_none : forall n l k, find_from n k l = None -> forall p, In p l -> pa_name p <> Some n.
Proof.
  intros n. induction l as [|p l IH]; intros k H q Hq; [destruct Hq|]. cbn in H. destruct (has_name n p) eqn:E; [discriminate|].
  destruct Hq as [<-|Hq]; [intros Q; apply has_name_iff in Q; congruence | eauto].
Qed.
Lemma find_param_some : forall f n k j, find_param f n k = Some j -> k <= j /\ named_param f j n.
Proof.
  intros f n k j H. apply find_from_some in H as (L & p & P1 & P2). split; auto. exists p. split; auto.
  rewrite nth_error_skipn in P1. now replace (k + (j - k)) with j in P1 by lia.
Qed.
Lemma find_param_none : forall f n k, find_param f n k = None -> forall j, k <= j -> ~ named_param f j n.
Proof.
  intros f n k H j Hj (p & P1 & P2). apply (find_from_none _ _ _ H p); auto. apply (nth_error_In _ (j - k)). rewrite nth_error_skipn. now replace (k + (j - k)) with j by lia.
Qed.
Lemma find_param_unique : forall f n k j, distinct_names f -> k <= j -> named_param f j n -> find_param f n k = Some j.
Proof.
  intros f n k j D Hj N. destruct (find_param f n k) as [i|] eqn:E.
  - apply find_param_some in E as (_ & p & P1 & P2). destruct N as (q & Q1 & Q2). f_equal. apply (D i j p q n); auto.
  - exfalso. exact (find_param_none f n k E j Hj N).
Qed.
Lemma prefix_has_iff : forall f n k, prefix_has f n k = true <-> exists i, i < k /\ named_param f i n.
Proof.
  intros f n k. unfold prefix_has. rewrite existsb_exists. split.
  - intros (p & Hp & H). apply In_nth_error in Hp as [i Hi]. apply has_name_iff in H.
    assert (Li : i < length (firstn k (fn_params f))) by (apply nth_error_Some; congruence). rewrite firstn_length in Li.
    exists i. split; [lia|]. exists p. split; auto. rewrite <- Hi. rewrite <- (firstn_skipn k (fn_params f)) at 1. rewrite nth_error_app1; auto. rewrite firstn_length. lia.
  - intros (i & Hi & p & P1 & P2). exists p. split; [|now apply has_name_iff]. apply (nth_error_In _ i).
    assert (Li : i < length (fn_params f)) by (apply nth_error_Some; congruence).
    rewrite <- P1. rewrite <- (firstn_skipn k (fn_params f)) at 2. rewrite nth_error_app1; auto. rewrite firstn_length. lia.
Qed.
Lemma ty_named_iff : forall k x n t, distinct_names (en_fi x) -> length (en_t x) = length (fn_params (en_fi x)) ->
  (ty_named k x n = Some t <-> type_of_name k x n t).
Proof.
  intros k x n t D W. unfold ty_named, type_of_name. split.
  - destruct (find_param (en_fi x) n k) as [j|] eqn:E; [|discriminate]. intros H. injection H as <-. apply find_param_some in E as (L & N). exists j. repeat split; auto.
    apply nth_ty_in. rewrite W. apply nth_error_Some. destruct N as (p & -> & _). discriminate.
  - intros (j & L & N & T). rewrite (find_param_unique _ _ _ _ D L N). cbn. f_equal. now apply nth_ty_error.
Qed.

(** ** Acceptance *)
Lemma takes_named_iff : forall acc pos named x, distinct_names (en_fi x) -> length (en_t x) = length (fn_params (en_fi x)) ->
  (name_compatible (length pos) (map fst named) (en_fi x) && accepts_named acc pos named x = true <-> takes_named acc pos named x).
Proof.
  intros acc pos named x D W. unfold name_compatible, accepts_named, takes_named, accepts_args, param_count.
  rewrite !andb_true_iff, Nat.leb_le, map_length, <- W, forallb_seq, forallb_skipn, !forallb_forall. split.
  - intros (((L & NC) & DF) & AP & AN). split; [auto|]. split; [|split].
    + intros j a t Ha Ht. assert (Hj : j < length pos) by (apply nth_error_Some; congruence). specialize (AP j Hj). now rewrite (nth_ty_error _ _ _ Ha), (nth_ty_error _ _ _ Ht) in AP.
    + intros n a Hn. specialize (AN (n, a) Hn). cbn in AN. destruct (ty_named (length pos) x n) as [t|] eqn:E; [|discriminate]. split.
      * exists t. split; auto. apply ty_named_iff; auto.
      * intros i Hi N. assert (In n (map fst named)) as HI by (change n with (fst (n, a)); now apply in_map). specialize (NC n HI). apply andb_true_iff in NC as [NC _].
        apply negb_true_iff in NC. rewrite (proj2 (prefix_has_iff _ _ _)) in NC; [discriminate | eauto].
    + intros j p Hj Hp. specialize (DF j p Hj Hp). apply orb_true_iff in DF as [DF|DF].
      * right. apply existsb_exists in DF as (n & Hn & H). apply in_map_iff in Hn as ([n' a] & <- & Hn). exists n', a. split; auto. now apply has_name_iff.
      * left. now destruct (pa_def p).
  - intros (L & AP & AN & DF). repeat split; auto.
    + intros n Hn. apply in_map_iff in Hn as ([n' a] & <- & Hn). cbn. destruct (AN n' a Hn) as [(t & T & _) NP]. apply andb_true_iff. split.
      * apply negb_true_iff. apply not_true_iff_false. intros P. apply prefix_has_iff in P as (i & Hi & P). exact (NP i Hi P).
      * destruct T as (j & Lj & N & _). now rewrite (find_param_unique _ _ _ _ D Lj N).
    + intros j p Hj Hp. apply orb_true_iff. destruct (DF j p Hj Hp) as [H|(n & a & Hn & Np)]; [right; now destruct (pa_def p) | left].
      apply existsb_exists. exists n. split; [change n with (fst (n, a)); now apply in_map | now apply has_name_iff].
    + intros j Hj. apply (AP j); apply nth_ty_in; lia.
    + intros [n a] Hn. cbn. destruct (AN n a Hn) as [(t & T & H) _]. apply ty_named_iff in T; auto. now rewrite T.
Qed.

Definition named_ok (acc : ty -> ty -> bool) (anch : func -> bool) (skip : bool) (pos : list ty) (named : list (str * ty)) (i : entry) : bool :=
  negb (skip && anch (en_fi i)) && name_compatible (length pos) (map fst named) (en_fi i) && accepts_named acc pos named i.
Lemma named_ok_iff : forall acc anch skip pos named x, distinct_names (en_fi x) -> length (en_t x) = length (fn_params (en_fi x)) ->
  (named_ok acc anch skip pos named x = true <-> ~ (skip = true /\ anch (en_fi x) = true) /\ takes_named acc pos named x).
Proof.
  intros. unfold named_ok. rewrite <- andb_assoc, andb_true_iff, takes_named_iff by auto. apply and_iff_compat_r.
  rewrite negb_true_iff, andb_false_iff. destruct skip, (anch (en_fi x)); intuition congruence.
Qed.
Lemma match_named_eq : forall sub acc anch skip v pos named,
  match_named sub acc anch skip v pos named =
  match scan (named_ok acc anch skip pos named) (at_least_named sub (length pos) (map fst named)) (may_fill v (length pos + length named)) v None with
  | None => NotFound
  | Some i =>
      if existsb (fun i2 => negb (same_fi (en_fi i2) (en_fi i)) && types_eqb (en_t i2) (en_t i) && negb (same_names (en_fi i2) (en_fi i)) &&
                            name_compatible (length pos) (map fst named) (en_fi i2) && negb (skip && anch (en_fi i2))) v
      then Ambiguous else Found (en_fi i)
  end.
Proof. reflexivity. Qed.

Lemma named_accepts_l : forall sub acc anch skip v pos named f, well_formed v -> (forall x, In x v -> distinct_names (en_fi x)) ->
  match_named sub acc anch skip v pos named = Found f ->
  exists x, In x v /\ en_fi x = f /\ takes_named acc pos named x /\ ~ (skip = true /\ anch f = true).
Proof.
  intros sub acc anch skip v pos named f W D H. rewrite match_named_eq in H. destruct (scan _ _ _ _ _) as [x|] eqn:S; [|discriminate].
  destruct (existsb _ v); [discriminate|]. injection H as <-. apply scan_in in S as [S|[S1 S2]]; [discriminate|].
  apply named_ok_iff in S2; auto. exists x. tauto.
Qed.
Lemma named_complete_l : forall sub acc anch skip v pos named, well_formed v -> (forall x, In x v -> distinct_names (en_fi x)) ->
  (match_named sub acc anch skip v pos named = NotFound <-> forall x, In x v -> takes_named acc pos named x -> skip = true /\ anch (en_fi x) = true).
Proof.
  intros sub acc anch skip v pos named W D. rewrite match_named_eq. destruct (scan _ _ _ _ _) as [x|] eqn:S.
  - split; [destruct (existsb _ v); discriminate|]. intros H. exfalso. apply scan_in in S as [S|[S1 S2]]; [discriminate|].
    apply named_ok_iff in S2 as [N T]; auto.
  - split; auto. intros _ x Hx T. assert (O : named_ok acc anch skip pos named x = false) by (apply (proj1 (scan_none _ _ _ _) S); auto).
    destruct skip; [destruct (anch (en_fi x)) eqn:E; auto|]; exfalso; rewrite (proj2 (named_ok_iff acc anch _ pos named x (D x Hx) (W x Hx))) in O; try discriminate; split; auto; intros []; congruence.
Qed.

(** ** Binding *)
Lemma bind_param_named : forall named p n a, NoDup (map fst named) -> In (n, a) named -> pa_name p = Some n -> bind_param named p = Some a.
Proof.
  intros named p n a ND Hn Np. unfold bind_param. destruct (find _ named) as [[m b]|] eqn:E.
  - apply find_some in E as [E1 E2]. cbn in *. apply has_name_iff in E2. assert (m = n) by congruence. subst.
    f_equal. clear - ND Hn E1. induction named as [|[m c] l IH]; [destruct Hn|]. cbn in ND. inversion ND as [|? ? N1 N2]; subst.
    assert (X : forall z, In (n, z) l -> In n (map fst l)) by (intros z Hz; change n with (fst (n, z)); now apply in_map).
    destruct Hn as [Hn|Hn]; destruct E1 as [E1|E1]; auto; [congruence | |]; exfalso; apply N1; [injection Hn as -> ->|injection E1 as -> ->]; eauto.
  - exfalso. apply (find_none _ _ E) in Hn. cbn in Hn. rewrite (proj2 (has_name_iff n p) Np) in Hn. discriminate.
Qed.
Lemma bind_param_default : forall named p, (forall n a, In (n, a) named -> pa_name p <> Some n) -> bind_param named p = pa_def p.
Proof.
  intros named p H. unfold bind_param. destruct (find _ named) as [[m b]|] eqn:E; auto.
  apply find_some in E as [E1 E2]. apply has_name_iff in E2. exfalso. exact (H m b E1 E2).
Qed.
Lemma somes : forall (A : Type) (l : list (option A)), (forall x, In x l -> x <> None) -> exists k, l = map Some k.
Proof.
  intros A. induction l as [|x l IH]; intros H; [exists []; auto|]. destruct IH as [k ->]; [intros; apply H; cbn; auto|].
  destruct x as [a|]; [exists (a :: k); auto | exfalso; apply (H None); cbn; auto].
Qed.
Lemma nth_some : forall (A : Type) (l : list A) i a, nth_error (map Some l) i = Some (Some a) -> nth_error l i = Some a.
Proof. intros A l i a H. rewrite nth_error_map in H. destruct (nth_error l i); cbn in H; congruence. Qed.
Lemma binding_g : forall f pos named, NoDup (map fst named) -> name_compatible (length pos) (map fst named) f = true ->
  exists args, reorder f pos named = map Some args /\ binds f pos named args.
Proof.
  intros f pos named ND NC. unfold name_compatible in NC. rewrite !andb_true_iff, Nat.leb_le, forallb_skipn, forallb_forall in NC. destruct NC as ((L & NN) & DF).
  unfold param_count in L.
  assert (SK : forall j p, length pos <= j -> nth_error (fn_params f) j = Some p -> nth_error (reorder f pos named) j = Some (bind_param named p)).
  { intros j p Hj Hp. unfold reorder. rewrite nth_error_app2; rewrite map_length; [|auto]. rewrite nth_error_map, nth_error_skipn. replace (length pos + (j - length pos)) with j by lia. now rewrite Hp. }
  destruct (somes nat (reorder f pos named)) as [args E].
  { intros x Hx. unfold reorder in Hx. apply in_app_iff in Hx as [Hx|Hx].
    - apply in_map_iff in Hx as (a & <- & _). discriminate.
    - apply in_map_iff in Hx as (p & <- & Hp). apply In_nth_error in Hp as [j Hp]. rewrite nth_error_skipn in Hp. specialize (DF _ p (Nat.le_add_r _ _) Hp).
      unfold bind_param. destruct (find _ named) as [na|] eqn:F; [discriminate|]. apply orb_true_iff in DF as [DF|DF]; [|now destruct (pa_def p)].
      apply existsb_exists in DF as (n & Hn & H). apply in_map_iff in Hn as ([m a] & <- & Hn). apply (find_none _ _ F) in Hn. cbn in *. congruence. }
  exists args. split; auto. rewrite E in SK. unfold binds. split; [|split; [|split]].
  - rewrite <- (map_length Some args), <- E. unfold reorder. rewrite app_length, !map_length, skipn_length. lia.
  - intros i a Hi. apply nth_some. rewrite <- E. unfold reorder. rewrite nth_error_app1; [|rewrite map_length; apply nth_error_Some; congruence]. rewrite nth_error_map. now rewrite Hi.
  - intros n a Hn. assert (HI : In n (map fst named)) by (change n with (fst (n, a)); now apply in_map). specialize (NN n HI). apply andb_true_iff in NN as [N1 N2].
    destruct (find_param f n (length pos)) as [j|] eqn:F; [|discriminate]. apply find_param_some in F as (Lj & p & P1 & P2).
    exists j. split; auto. split; [exists p; auto|]. split.
    + apply nth_some. rewrite (SK j p Lj P1). f_equal. eapply bind_param_named; eauto.
    + intros i Hi Q. apply negb_true_iff in N1. rewrite (proj2 (prefix_has_iff _ _ _)) in N1; [discriminate | eauto].
  - intros j p Hj Hp HN. specialize (SK j p Hj Hp). rewrite (bind_param_default named p HN) in SK.
    destruct (pa_def p) as [d|] eqn:Dp; [exists d; split; auto; now apply nth_some|].
    exfalso. rewrite nth_error_map in SK. destruct (nth_error args j); cbn in SK; congruence.
Qed.
Lemma binding_l : forall sub acc anch skip v (pos : list (nat * ty)) (named : list (str * (nat * ty))) f, NoDup (map fst named) ->
  match_named sub acc anch skip v (map snd pos) (map (fun na => (fst na, snd (snd na))) named) = Found f ->
  exists args, reorder f (map fst pos) (map (fun na => (fst na, fst (snd na))) named) = map Some args /\
    binds f (map fst pos) (map (fun na => (fst na, fst (snd na))) named) args.
Proof.
  intros sub acc anch skip v pos named f ND H. rewrite match_named_eq in H. destruct (scan _ _ _ _ _) as [x|] eqn:S; [|discriminate].
  destruct (existsb _ v); [discriminate|]. injection H as <-. apply scan_in in S as [S|[S1 S2]]; [discriminate|].
  unfold named_ok in S2. rewrite !andb_true_iff in S2. destruct S2 as ((_ & NC) & _).
  rewrite map_map in NC. cbn in NC. rewrite map_length in NC.
  apply binding_g; [rewrite map_map; exact ND|]. rewrite map_map, map_length. exact NC.
Qed.
(** a positional call *)
Lemma positional_l : forall sub acc anch thr v (args : list (nat * ty)) f, well_formed v ->
  match_fn sub acc None anch thr v (map snd args) = Found f ->
  exists full, complete f (map fst args) = map Some full /\ binds f (map fst args) [] full.
Proof.
  intros sub acc anch thr v args f W H. apply accepts_l in H as (x & Hx & <- & L & _ & DF); auto. rewrite map_length in *.
  rewrite W in L by auto. destruct (binding_g (en_fi x) (map fst args) []) as (full & E & B); [constructor| |].
  - unfold name_compatible, param_count. cbn. rewrite map_length, Nat.add_0_r, andb_true_r. apply andb_true_iff. split; [now apply Nat.leb_le|].
    apply forallb_skipn. intros j p Hj Hp. specialize (DF j p Hj Hp). now destruct (pa_def p).
  - exists full. split; auto.
Qed.

(** ** The best declaration *)
Section Best.
Variables (e : env) (sub acc : ty -> ty -> bool) (v : list entry).
Hypothesis W : well_formed v.
Hypothesis DN : forall x, In x v -> distinct_names (en_fi x).
Hypothesis DE : decides_on e sub (bucket_types v).
Hypothesis EF : forall t, In t (bucket_types v) -> enum_free e t.
Variables (pos : list ty) (named : list (str * ty)).
Lemma named_type_in : forall x n t, In x v -> type_of_name (length pos) x n t -> In t (bucket_types v).
Proof. intros x n t Hx (j & _ & _ & T). exact (in_bucket v x t Hx (nth_error_In _ _ T)). Qed.
Lemma takes_has_type : forall x n, takes_named acc pos named x -> In n (map fst named) -> exists t, type_of_name (length pos) x n t.
Proof. intros x n (_ & _ & A & _) Hn. apply in_map_iff in Hn as ([m a] & <- & Hn). destruct (A m a Hn) as [(t & T & _) _]. eauto. Qed.
Lemma at_least_named_iff : forall x y, In x v -> In y v -> takes_named acc pos named x -> takes_named acc pos named y ->
  (at_least_named sub (length pos) (map fst named) x y = true <-> as_specific_named e (length pos) (map fst named) x y).
Proof.
  intros x y Hx Hy Tx Ty. unfold at_least_named, as_specific_named.
  rewrite andb_true_iff, (at_least_iff e sub v DE EF) by (auto; try (destruct Tx; lia); destruct Ty; lia).
  apply and_iff_compat_l. rewrite forallb_forall. split.
  - intros H n a b Hn Ha Hb. specialize (H n Hn). rewrite (proj2 (ty_named_iff _ x n a (DN x Hx) (W x Hx)) Ha), (proj2 (ty_named_iff _ y n b (DN y Hy) (W y Hy)) Hb) in H.
    apply (leq_iff e sub v DE EF) in H; eauto using named_type_in.
  - intros H n Hn. destruct (takes_has_type x n Tx Hn) as [a Ha]. destruct (takes_has_type y n Ty Hn) as [b Hb].
    rewrite (proj2 (ty_named_iff _ x n a (DN x Hx) (W x Hx)) Ha), (proj2 (ty_named_iff _ y n b (DN y Hy) (W y Hy)) Hb).
    apply (leq_iff e sub v DE EF); eauto using named_type_in.
Qed.
Lemma as_specific_named_trans : forall x y z, In x v -> In y v -> In z v -> takes_named acc pos named y ->
  as_specific_named e (length pos) (map fst named) x y -> as_specific_named e (length pos) (map fst named) y z -> as_specific_named e (length pos) (map fst named) x z.
Proof.
  intros x y z Hx Hy Hz Ty [A1 A2] [B1 B2]. split.
  - apply (as_specific_trans e v EF (length pos) x y z); auto. destruct Ty. lia.
  - intros n a c Hn Ha Hc. destruct (takes_has_type y n Ty Hn) as [b Hb].
    apply (C35_trans_l e true a b c); [exact (proj1 (EF a (named_type_in x n a Hx Ha))) | exact (proj1 (EF b (named_type_in y n b Hy Hb))) | exact (proj1 (EF c (named_type_in z n c Hz Hc))) | eauto | eauto].
Qed.
(** if a declaration has exactly the parameters that the call gives, every parameter is positional or named *)
Lemma covered : forall x j, NoDup (map fst named) -> In x v -> takes_named acc pos named x -> length (en_t x) = length pos + length named ->
  length pos <= j -> j < length (en_t x) -> exists n, In n (map fst named) /\ named_param (en_fi x) j n.
Proof.
  intros x j ND Hx Tx L Hj Lj.
  set (idx n := match find_param (en_fi x) n (length pos) with Some i => i | None => 0 end).
  assert (I : forall n, In n (map fst named) -> length pos <= idx n /\ named_param (en_fi x) (idx n) n /\ idx n < length (en_t x)).
  { intros n Hn. destruct (takes_has_type x n Tx Hn) as (t & i & Li & N & T). unfold idx. rewrite (find_param_unique _ _ _ _ (DN x Hx) Li N). repeat split; auto. apply nth_error_Some. congruence. }
  assert (ND' : NoDup (map idx (map fst named))).
  { assert (forall a b, In a (map fst named) -> In b (map fst named) -> idx a = idx b -> a = b) as INJ.
    { intros a b Ha Hb E. destruct (I a Ha) as (_ & (p & P1 & P2) & _). destruct (I b Hb) as (_ & (q & Q1 & Q2) & _). rewrite E in P1. congruence. }
    clear - ND INJ. induction (map fst named) as [|a l IH]; cbn; constructor.
    - intros H. apply in_map_iff in H as (b & E & Hb). inversion ND; subst. assert (b = a) by (apply INJ; cbn; auto). congruence.
    - inversion ND; subst. apply IH; auto. intros; apply INJ; cbn; auto. }
  assert (IN : In j (map idx (map fst named))).
  { apply (NoDup_length_incl ND' (l' := seq (length pos) (length named))).
    - rewrite seq_length, !map_length. auto.
    - intros i Hi. apply in_map_iff in Hi as (n & <- & Hn). destruct (I n Hn) as (A & _ & B). apply in_seq. lia.
    - apply in_seq. lia. }
  apply in_map_iff in IN as (n & <- & Hn). exists n. split; auto. apply I; auto.
Qed.
Lemma named_best_l : forall anch skip f, sorted sub v -> NoDup (map fst named) ->
  match_named sub acc anch skip v pos named = Found f ->
  exists x, In x v /\ en_fi x = f /\ takes_named acc pos named x /\
    forall y, In y v -> takes_named acc pos named y -> ~ (skip = true /\ anch (en_fi y) = true) ->
      (exists z, In z v /\ length pos + length named < length (en_t z)) \/ (forall j n, named_param (en_fi x) j n <-> named_param (en_fi y) j n) ->
      ~ (as_specific_named e (length pos) (map fst named) y x /\ ~ as_specific_named e (length pos) (map fst named) x y).
Proof.
  intros anch skip f S ND H. rewrite match_named_eq in H. destruct (scan _ _ _ _ _) as [x|] eqn:SC; [|discriminate].
  destruct (existsb _ v); [discriminate|]. injection H as <-. pose proof SC as SC'. apply scan_in in SC' as [SC'|[Hx Ox]]; [discriminate|].
  pose proof Ox as Ox'. apply named_ok_iff in Ox' as [_ Tx]; auto.
  exists x. split; [auto|]. split; [auto|]. split; [auto|]. intros y Hy Ty Ay C [M1 M2].
  assert (Oy : named_ok acc anch skip pos named y = true) by (apply named_ok_iff; auto).
  apply (at_least_named_iff y x) in M1; auto.
  assert (M2' : at_least_named sub (length pos) (map fst named) x y = false).
  { destruct (at_least_named _ _ _ x y) eqn:E; auto. apply (at_least_named_iff x y) in E; auto. contradiction. }
  destruct (may_fill v (length pos + length named)) eqn:F.
  - destruct (scan_best (named_ok acc anch skip pos named) (at_least_named sub (length pos) (map fst named)) (fun z => In z v)) with (v := v) (best := @None entry) (x := x) as [B1 _]; auto; try discriminate.
    + intros a b c Ha Hb Hc Oa Ob Oc A1 A2. apply named_ok_iff in Oa as [_ Ta]; auto. apply named_ok_iff in Ob as [_ Tb]; auto. apply named_ok_iff in Oc as [_ Tc]; auto.
      apply (at_least_named_iff a b) in A1; auto. apply (at_least_named_iff b c) in A2; auto. apply (at_least_named_iff a c); auto.
      apply (as_specific_named_trans a b c); auto.
    + apply (B1 y Hy Oy). split; auto.
  - assert (Ex : length (en_t x) = length pos + length named) by (pose proof (may_fill_false sub v _ x S Hx F); destruct Tx; lia).
    assert (Ey : length (en_t y) = length pos + length named) by (pose proof (may_fill_false sub v _ y S Hy F); destruct Ty; lia).
    destruct C as [(z & Hz & Lz)|C]; [pose proof (may_fill_false sub v _ z S Hz F); lia|].
    assert (AL : forall a b, In a v -> In b v -> takes_named acc pos named a -> takes_named acc pos named b -> length (en_t a) = length pos + length named -> length (en_t b) = length pos + length named ->
      (forall j n, named_param (en_fi a) j n <-> named_param (en_fi b) j n) ->
      (at_least sub (en_t a) (en_t b) (length (en_t a)) = true <-> at_least_named sub (length pos) (map fst named) a b = true)).
    { intros a b Ha Hb Ta Tb La Lb C'. unfold at_least_named. rewrite andb_true_iff, forallb_forall. unfold at_least. rewrite !forallb_seq. split.
      - intros Q. split; [intros j Hj; apply Q; lia|]. intros n Hn.
        destruct (takes_has_type a n Ta Hn) as (t & j & Lj & N & T). unfold ty_named. rewrite (find_param_unique _ _ _ _ (DN a Ha) Lj N).
        rewrite (find_param_unique (en_fi b) n (length pos) j (DN b Hb) Lj) by (apply C'; auto). cbn. apply Q. apply nth_error_Some. congruence.
      - intros [Q1 Q2] j Hj. destruct (Nat.lt_ge_cases j (length pos)) as [Lj|Lj]; [auto|].
        destruct (covered a j ND Ha Ta La Lj Hj) as (n & Hn & N). specialize (Q2 n Hn). unfold ty_named in Q2.
        rewrite (find_param_unique _ _ _ _ (DN a Ha) Lj N), (find_param_unique (en_fi b) n (length pos) j (DN b Hb) Lj) in Q2 by (apply C'; auto). exact Q2. }
    assert (IL : types_less sub (en_t y) (en_t x) = true).
    { apply at_least_less; [congruence | apply AL; auto; intros; symmetry; apply C|].
      replace (length (en_t y)) with (length (en_t x)) by congruence. apply not_true_iff_false. intros Q. apply AL in Q; auto. congruence. }
    apply scan_first in SC as (v1 & v2 & E & _ & F1). rewrite E in Hy. apply in_app_iff in Hy as [Hy|[->|Hy]].
    + rewrite F1 in Oy; [discriminate | auto].
    + congruence.
    + apply In_nth_error in Hy as [j Hj].
      assert (EL : entry_less sub y x = false).
      { apply (S (length v1) (length v1 + Datatypes.S j)); rewrite ?E; [lia | rewrite nth_error_app2, Nat.sub_diag by lia; reflexivity|].
        rewrite nth_error_app2 by lia. replace (length v1 + Datatypes.S j - length v1) with (Datatypes.S j) by lia. exact Hj. }
      unfold entry_less in EL. rewrite Ex, Ey, Nat.ltb_irrefl, Nat.eqb_refl in EL. congruence.
Qed.
End Best.

(** ** Declarations that no call by names tells apart *)
Lemma nameable_iff : forall p n, pa_name p <> Some [] -> (nameable p = Some n <-> pa_name p = Some n /\ writable n).
Proof.
  intros p n NE. unfold nameable, writable. destruct (pa_name p) as [[|c m]|]; [exfalso; apply NE; reflexivity | | split; [discriminate | intros []; discriminate]].
  destruct (Z.eqb_spec c 95) as [->|N].
  - split; [discriminate|]. intros [[= <-] [_ H]]. exfalso. exact (H m eq_refl).
  - split; [intros [= <-]; split; [auto | split; [discriminate | intros r E; injection E; intros; congruence]] | intros [[= <-] _]; auto].
Qed.
Lemma lookup_some : forall n m p, lookup n m = Some p -> In (n, p) m.
Proof. induction m as [|[k q] m IH]; intros p H; cbn in *; [discriminate|]. destruct (str_eqb k n) eqn:E; [apply str_eqb_eq in E; left; congruence | right; auto]. Qed.
Lemma lookup_none : forall n m, lookup n m = None -> forall p, ~ In (n, p) m.
Proof. induction m as [|[k q] m IH]; intros H p Hp; [destruct Hp|]. cbn in H. destruct (str_eqb k n) eqn:E; [discriminate|]. destruct Hp as [[= -> ->]|Hp]; [rewrite (proj2 (str_eqb_eq n n) eq_refl) in E; discriminate | eapply IH; eauto]. Qed.
(** the map holds the nameable parameters *)
Lemma nameable_params_some : forall ps m0 m, nameable_params ps m0 = Some m ->
  (forall n p, In (n, p) m <-> In (n, p) m0 \/ (In p ps /\ nameable p = Some n)) /\
  (forall p, In p ps -> pa_def p = None -> nameable p <> None).
Proof.
  induction ps as [|q ps IH]; intros m0 m H; cbn in H.
  - injection H as <-. split; [intros; cbn; tauto | intros p []].
  - destruct (nameable q) as [n'|] eqn:Nq.
    + destruct (lookup n' m0); [discriminate|]. apply IH in H as [H1 H2]. split.
      * intros n p. rewrite H1. cbn. split; [intros [[[= <- <-]|X]|[X Y]]; auto | intros [X|[[<-|X] Y]]; auto; left; left; congruence].
      * intros p [<-|Hp] Dp; [congruence | auto].
    + destruct (pa_def q) as [dq|] eqn:Dq; [|discriminate]. apply IH in H as [H1 H2]. split.
      * intros n p. rewrite H1. cbn. split; [intros [X|[X Y]]; auto | intros [X|[[<-|X] Y]]; auto; congruence].
      * intros p [<-|Hp] Dp; [congruence | auto].
Qed.
Lemma nameable_params_ok : forall ps m0,
  (forall p, In p ps -> pa_def p = None -> nameable p <> None) ->
  (forall i j p q n, nth_error ps i = Some p -> nth_error ps j = Some q -> nameable p = Some n -> nameable q = Some n -> i = j) ->
  (forall n p q, In p ps -> nameable p = Some n -> ~ In (n, q) m0) ->
  nameable_params ps m0 <> None.
Proof.
  induction ps as [|q ps IH]; intros m0 H1 H2 H3; cbn; [discriminate|].
  assert (H1' : forall p, In p ps -> pa_def p = None -> nameable p <> None) by (intros; apply H1; cbn; auto).
  assert (H2' : forall i j p q n, nth_error ps i = Some p -> nth_error ps j = Some q -> nameable p = Some n -> nameable q = Some n -> i = j).
  { intros i j p r n A B C D. assert (S i = S j) by (apply (H2 (S i) (S j) p r n); auto). lia. }
  destruct (nameable q) as [n|] eqn:Nq.
  - destruct (lookup n m0) as [r|] eqn:L; [exfalso; apply (H3 n q r); cbn; auto; now apply lookup_some|].
    apply IH; auto. intros n' p r Hp Np [[= <- <-]|Hr]; [|apply (H3 n' p r); cbn; auto].
    apply In_nth_error in Hp as [i Hi]. assert (0 = S i) by (apply (H2 0 (S i) q p n); auto). lia.
  - destruct (pa_def q) as [dq|] eqn:Dq; [|exfalso; apply (H1 q); cbn; auto]. apply IH; auto. intros n p r Hp Np. apply (H3 n p r); cbn; auto.
Qed.

Lemma confusable_l : forall f g, distinct_names f -> distinct_names g -> no_anonymous f -> no_anonymous g ->
  (ambiguous_named_call f g = true <-> confusable f g).
Proof.
  intros f g Df Dg Af Ag. unfold ambiguous_named_call.
  assert (UQ : forall h, distinct_names h -> forall p q n, In p (fn_params h) -> In q (fn_params h) -> pa_name p = Some n -> pa_name q = Some n -> p = q).
  { intros h D p q n Hp Hq Np Nq. apply In_nth_error in Hp as [i Hi]. apply In_nth_error in Hq as [j Hj]. assert (i = j) by (apply (D i j p q n); auto). congruence. }
  split.
  - destruct (nameable_params (fn_params f) []) as [pa|] eqn:Pf; [|discriminate]. destruct (nameable_params (fn_params g) []) as [pb|] eqn:Pg; [|discriminate].
    intros H. rewrite forallb_forall in H. apply nameable_params_some in Pf as [F1 F2]. apply nameable_params_some in Pg as [G1 G2].
    assert (F3 : forall n p, In (n, p) pa <-> In p (fn_params f) /\ pa_name p = Some n /\ writable n).
    { intros n p. rewrite F1. split; [intros [[]|[X Y]]; split; auto; now apply nameable_iff; auto | intros (X & Y); right; split; auto; apply nameable_iff; auto]. }
    assert (G3 : forall n p, In (n, p) pb <-> In p (fn_params g) /\ pa_name p = Some n /\ writable n).
    { intros n p. rewrite G1. split; [intros [[]|[X Y]]; split; auto; now apply nameable_iff; auto | intros (X & Y); right; split; auto; apply nameable_iff; auto]. }
    set (req := filter (fun p => match pa_def p with None => true | Some _ => false end) (fn_params f ++ fn_params g)).
    set (K := concat (map (fun p => match pa_name p with Some n => [n] | None => [] end) req)).
    assert (KI : forall n, In n K <-> exists p, In p (fn_params f ++ fn_params g) /\ pa_def p = None /\ pa_name p = Some n).
    { intros n. unfold K. rewrite in_concat. split.
      - intros (l & Hl & Hn). apply in_map_iff in Hl as (p & <- & Hp). apply filter_In in Hp as [Hp Dp]. exists p. split; auto.
        destruct (pa_def p); [discriminate|]. destruct (pa_name p) as [m|]; [|destruct Hn]. destruct Hn as [->|[]]. auto.
      - intros (p & Hp & Dp & Np). exists [n]. split; [|cbn; auto]. apply in_map_iff. exists p. rewrite Np. split; auto. apply filter_In. rewrite Dp. auto. }
    assert (KB : forall n, In n K -> exists x y, lookup n pa = Some x /\ lookup n pb = Some y /\ ty_eqb (pa_ty x) (pa_ty y) = true).
    { intros n Hn. apply KI in Hn as (p & Hp & Dp & Np). specialize (H p Hp). rewrite Dp, Np in H.
      destruct (lookup n pa) as [x|] eqn:La; [|discriminate]. destruct (lookup n pb) as [y|] eqn:Lb; [|discriminate]. exists x, y. auto. }
    exists K. split; [|split].
    + split.
      * intros n Hn. destruct (KB n Hn) as (x & y & La & _ & _). apply lookup_some in La. apply F3 in La as (X1 & X2 & X3). split; auto.
        apply In_nth_error in X1 as [j Hj]. exists j, x. auto.
      * intros p Hp Dp. specialize (F2 p Hp Dp). destruct (nameable p) as [n|] eqn:Np; [|congruence]. apply nameable_iff in Np as [Np _]; auto.
        exists n. split; auto. apply KI. exists p. split; auto. apply in_app_iff. auto.
    + split.
      * intros n Hn. destruct (KB n Hn) as (x & y & _ & Lb & _). apply lookup_some in Lb. apply G3 in Lb as (X1 & X2 & X3). split; auto.
        apply In_nth_error in X1 as [j Hj]. exists j, y. auto.
      * intros p Hp Dp. specialize (G2 p Hp Dp). destruct (nameable p) as [n|] eqn:Np; [|congruence]. apply nameable_iff in Np as [Np _]; auto.
        exists n. split; auto. apply KI. exists p. split; auto. apply in_app_iff. auto.
    + intros n p q Hn Hp Hq Np Nq. destruct (KB n Hn) as (x & y & La & Lb & T).
      apply lookup_some in La. apply F3 in La as (X1 & X2 & _). apply lookup_some in Lb. apply G3 in Lb as (Y1 & Y2 & _).
      rewrite (UQ f Df p x n), (UQ g Dg q y n); auto.
  - intros (K & [F1 F2] & [G1 G2] & T).
    assert (OK : forall h, distinct_names h -> no_anonymous h -> (forall n, In n K -> writable n /\ exists j, named_param h j n) ->
      (forall p, In p (fn_params h) -> pa_def p = None -> exists n, pa_name p = Some n /\ In n K) ->
      exists m, nameable_params (fn_params h) [] = Some m /\ (forall n, In n K -> exists x, lookup n m = Some x /\ In x (fn_params h) /\ pa_name x = Some n)).
    { intros h D A K1 K2. destruct (nameable_params (fn_params h) []) as [m|] eqn:P.
      - exists m. split; auto. apply nameable_params_some in P as [P1 P2]. intros n Hn. destruct (K1 n Hn) as (Wn & j & p & Q1 & Q2).
        assert (Hp : In p (fn_params h)) by eauto using nth_error_In.
        destruct (lookup n m) as [x|] eqn:L.
        + exists x. split; auto. apply lookup_some in L. apply P1 in L as [[]|[L1 L2]]. apply nameable_iff in L2 as [L2 _]; auto.
        + exfalso. apply (lookup_none n m L p). apply P1. right. split; auto. apply nameable_iff; auto.
      - exfalso. apply (nameable_params_ok (fn_params h) []); auto.
        + intros p Hp Dp. destruct (K2 p Hp Dp) as (n & Np & Hn). rewrite (proj2 (nameable_iff p n (A p Hp))); [discriminate|]. split; auto. apply K1; auto.
        + intros i j p q n Hi Hj Np Nq. apply nameable_iff in Np as [Np _]; [|apply A; eauto using nth_error_In]. apply nameable_iff in Nq as [Nq _]; [|apply A; eauto using nth_error_In]. apply (D i j p q n); auto. }
    destruct (OK f Df Af F1 F2) as (pa & -> & La). destruct (OK g Dg Ag G1 G2) as (pb & -> & Lb).
    apply forallb_forall. intros p Hp. destruct (pa_def p) as [dp|] eqn:Dp; auto.
    assert (exists n, pa_name p = Some n /\ In n K) as (n & Np & Hn) by (apply in_app_iff in Hp as [Hp|Hp]; auto).
    rewrite Np. destruct (La n Hn) as (x & -> & X1 & X2). destruct (Lb n Hn) as (y & -> & Y1 & Y2). apply (T n x y); auto.
Qed.
