Require Import ZArith List Bool Lia ZifyBool Permutation.
From Verif Require Import Base IntValModel IntValSpec IntValProofs SetModel SetSpec SetProofs SetProofs2 SetProofs3.
Import ListNotations.
Open Scope Z_scope.

Definition Bz (z : Z) : Z := Z.max BIG (Z.abs z + 1).
Lemma Bz_ok : forall z, BIG <= Bz z /\ - Bz z < z < Bz z.
Proof. intros z; unfold Bz, BIG, LLONG_MAX; lia. Qed.
Lemma BIG_ok : BIG <= BIG. Proof. lia. Qed.

Definition edge2 (s t : iset) : Prop := at_edge s \/ at_edge t.

Lemma hi_l : forall s t, hiE (edge2 s t) s.
Proof. intros s t [a b] Hr E. left. exists a, b. auto. Qed.
Lemma hi_r : forall s t, hiE (edge2 s t) t.
Proof. intros s t [a b] Hr E. right. exists a, b. auto. Qed.
Lemma lo_l : forall s t, loE (edge2 s t) s.
Proof. intros s t [a b] Hr E. left. exists a, b. auto. Qed.
Lemma lo_r : forall s t, loE (edge2 s t) t.
Proof. intros s t [a b] Hr E. right. exists a, b. auto. Qed.

Lemma elem_k : forall s z, nf s -> (elem z s <-> memk (Bz z) z s).
Proof.
  intros s z N. destruct (Bz_ok z) as [H1 H2].
  apply (elem_memk (Bz z) H1 s (- Bz z)); [apply nf_nfk; assumption|assumption].
Qed.
Lemma elem_kB : forall B s z, BIG <= B -> - B < z < B -> nf s -> (elem z s <-> memk B z s).
Proof. intros B s z HB Hz N. apply (elem_memk B HB s (- B)); [apply nf_nfk; assumption|assumption]. Qed.

(** transfer of a key-level characterisation at every B to the specification *)
Lemma lift2 : forall (f : iset -> iset -> res iset) (R : Prop -> Prop -> Prop) (E : Prop) s t,
  (forall a b a' b', (a <-> a') -> (b <-> b') -> (R a b <-> R a' b')) ->
  nf s -> nf t ->
  (forall B, BIG <= B -> post (fun r => nfk B (- B) r /\ forall z, - B < z < B -> (memk B z r <-> R (memk B z s) (memk B z t))) E (f s t)) ->
  (exists r, f s t = Ok r /\ nf r /\ forall z, elem z r <-> R (elem z s) (elem z t)) \/
  (f s t = Err ArithmeticError /\ E).
Proof.
  intros f R E s t HR Ns Nt H.
  pose proof (H BIG BIG_ok) as H0. destruct (f s t) as [r|[]|] eqn:F; cbn in H0; try contradiction.
  - left. exists r. split; [reflexivity|]. destruct H0 as [N0 _].
    assert (Nr : nf r) by (eapply nfk_nf; [exact BIG_ok|exact N0]).
    split; [assumption|]. intros z. destruct (Bz_ok z) as [HB Hz].
    rewrite (elem_k r z Nr). rewrite (HR _ _ _ _ (elem_k s z Ns) (elem_k t z Nt)).
    specialize (H _ HB). cbn in H. destruct H as [_ H]. apply H; assumption.
  - right; auto.
Qed.

Lemma C06_union_l : forall s t, nf s -> nf t ->
  (exists r, set_union s t = Ok r /\ nf r /\ forall z, elem z r <-> elem z s \/ elem z t) \/
  (set_union s t = Err ArithmeticError /\ (at_edge s \/ at_edge t)).
Proof.
  intros s t Ns Nt. apply (lift2 set_union (fun a b => a \/ b) (edge2 s t)); try assumption; [tauto|].
  intros B HB. eapply post_weaken; [apply (set_union_ok B HB (edge2 s t) s t (- B))| |auto].
  - apply nf_nfk; assumption.
  - apply nf_nfk; assumption.
  - apply hi_l.
  - apply hi_r.
  - intros r [N M]. split; [assumption|]. intros; apply M.
Qed.

Lemma C06_inter_l : forall s t, nf s -> nf t ->
  exists r, set_inter s t = Ok r /\ nf r /\ forall z, elem z r <-> elem z s /\ elem z t.
Proof.
  intros s t Ns Nt. destruct (lift2 set_inter (fun a b => a /\ b) False s t) as [H|[_ []]]; try assumption; [tauto|].
  intros B HB. destruct (set_inter_ok B HB s t (- B)) as (r & E & N & M); try (apply nf_nfk; assumption).
  rewrite E. cbn. split; [assumption|]. intros; apply M.
Qed.

Lemma C06_diff_l : forall s t, nf s -> nf t ->
  (exists r, set_diff s t = Ok r /\ nf r /\ forall z, elem z r <-> elem z s /\ ~ elem z t) \/
  (set_diff s t = Err ArithmeticError /\ (at_edge s \/ at_edge t)).
Proof.
  intros s t Ns Nt. apply (lift2 set_diff (fun a b => a /\ ~ b) (edge2 s t)); try assumption; [tauto|].
  intros B HB. eapply post_weaken; [apply (set_diff_ok B HB (edge2 s t) s t (- B))| |auto].
  - apply nf_nfk; assumption.
  - exists (- B). apply nf_nfk; assumption.
  - apply hi_l.
  - apply hi_r.
  - apply lo_l.
  - apply lo_r.
  - auto.
Qed.

Lemma C05_unique_l : forall s t, nf s -> nf t -> (forall z, elem z s <-> elem z t) -> s = t.
Proof.
  intros s t Ns Nt H. eapply (memk_unique BIG BIG_ok s t); try (apply nf_nfk; [exact BIG_ok|assumption]).
  intros z Hz. rewrite <- !(elem_kB BIG _ z BIG_ok Hz) by assumption. apply H.
Qed.

Lemma C07_equal_l : forall s t, nf s -> nf t -> (set_equal s t = true <-> forall z, elem z s <-> elem z t).
Proof.
  intros s t Ns Nt.
  assert (EQ : forall s t, set_equal s t = true <-> s = t).
  { clear. induction s as [|[a b] s IH]; intros [|[c d] t]; cbn; try (split; congruence).
    destruct (iv_eq a c && iv_eq b d) eqn:E.
    - rewrite IH. apply andb_prop in E. destruct E as [E1 E2]. apply iv_eq_iff in E1, E2. subst. split; congruence.
    - split; [discriminate|]. intros X; inversion X; subst.
      assert (iv_eq c c = true) by (apply iv_eq_iff; reflexivity). assert (iv_eq d d = true) by (apply iv_eq_iff; reflexivity).
      rewrite H, H0 in E. discriminate. }
  rewrite EQ. split; [intros ->; tauto|]. intros; apply C05_unique_l; assumption.
Qed.

Lemma C07_subset_l : forall s t, nf s -> nf t -> (set_subset s t = true <-> forall z, elem z s -> elem z t).
Proof.
  intros s t Ns Nt. split.
  - intros H z. destruct (Bz_ok z) as [HB Hz]. rewrite !elem_k by assumption.
    apply (subset_k (Bz z) HB (length s + length t) s t (- Bz z) (- Bz z)); try assumption; try (apply nf_nfk; assumption). lia.
  - intros H. destruct (set_subset s t) eqn:E; [reflexivity|]. exfalso.
    destruct (subset_k BIG BIG_ok (length s + length t) s t (- BIG) (- BIG)) as [_ Q]; try (apply nf_nfk; [exact BIG_ok|assumption]); [lia|].
    destruct (Q E) as (z & Hz & M1 & M2). apply M2. apply (elem_kB BIG t z BIG_ok Hz Nt). apply H. apply (elem_kB BIG s z BIG_ok Hz Ns). assumption.
Qed.

Lemma C07_disjoint_l : forall s t, nf s -> nf t -> (set_disjoint s t = true <-> forall z, ~ (elem z s /\ elem z t)).
Proof.
  intros s t Ns Nt. split.
  - intros H z. destruct (Bz_ok z) as [HB Hz]. rewrite !elem_k by assumption.
    intros [M1 M2]. apply (proj1 (disjoint_k (Bz z) HB (length s + length t) s t (- Bz z) (- Bz z) ltac:(lia) ltac:(apply nf_nfk; assumption) ltac:(apply nf_nfk; assumption)) H z); assumption.
  - intros H. destruct (set_disjoint s t) eqn:E; [reflexivity|]. exfalso.
    destruct (disjoint_k BIG BIG_ok (length s + length t) s t (- BIG) (- BIG)) as [_ Q]; try (apply nf_nfk; [exact BIG_ok|assumption]); [lia|].
    destruct (Q E) as (z & Hz & M1 & M2). apply (H z). rewrite !(elem_kB BIG _ z BIG_ok Hz) by assumption. auto.
Qed.

Lemma nf_wfs : forall s, nf s -> wfs s.
Proof.
  intros s N r Hr. pose proof (nf_nfk BIG BIG_ok s N) as H. revert H. generalize (- BIG).
  clear N. induction s as [|r0 s IH]; intros lo H; [destruct Hr|].
  cbn in H. destruct H as ((H1 & H2 & H3 & _) & _ & H4). destruct Hr as [->|Hr]; [auto|]. eapply IH; eassumption.
Qed.

Lemma C07_compare_l : forall s t, nf s -> nf t ->
  (set_compare s t = CS_SUBSET <-> forall z, elem z s -> elem z t) /\
  (set_compare s t = CS_DISJOINT <-> (~ (forall z, elem z s -> elem z t)) /\ forall z, ~ (elem z s /\ elem z t)).
Proof.
  intros s t Ns Nt. unfold set_compare.
  rewrite (compare_k (length s + length t)); [|lia|apply nf_wfs; assumption|apply nf_wfs; assumption].
  rewrite <- C07_subset_l, <- C07_disjoint_l by assumption. cbn [andb].
  destruct (set_subset s t), (set_disjoint s t); (split; split); intros; try discriminate; try tauto; try reflexivity;
    try (split; [discriminate|reflexivity]); try (exfalso; destruct H; congruence).
Qed.

Lemma is_int_wfv : forall v k, is_int v k -> wfv v /\ v = ofZ k /\ fits64 k /\ forall B, key B v = k.
Proof.
  intros v k H. apply is_int_iff in H. destruct H as [-> F]. unfold wfv, key; cbn. auto.
Qed.

Lemma C07_contains_l : forall s v k, nf s -> is_int v k -> (set_contains s v = true <-> elem k s).
Proof.
  intros s v k N H. destruct (is_int_wfv v k H) as (W & -> & F & HK).
  destruct (Bz_ok k) as [HB Hz].
  rewrite elem_k by assumption. rewrite <- (HK (Bz k)) at 2.
  apply (contains_k (Bz k) HB s (- Bz k)); [apply nf_nfk; assumption|assumption|rewrite HK; assumption].
Qed.

Lemma C07_has_range_l : forall s a b, nf s -> good_range (a, b) ->
  (set_has_range s (a, b) = true <-> forall z, between z a b -> elem z s).
Proof.
  intros s a b N G. split.
  - intros H z Hz. destruct (Bz_ok z) as [HB Hzz]. rewrite elem_k by assumption.
    assert (O : okr (Bz z) (a, b)) by (apply okr_good; assumption).
    apply (proj1 (has_range_k (Bz z) HB s (- Bz z) a b ltac:(apply nf_nfk; assumption) O) H z Hzz).
    apply (between_k (Bz z) HB z a b Hzz) in Hz. tauto.
  - intros H.
    assert (O : okr BIG (a, b)) by (apply okr_good; [exact BIG_ok|assumption]).
    apply (has_range_k BIG BIG_ok s (- BIG) a b ltac:(apply nf_nfk; [exact BIG_ok|assumption]) O).
    intros z Hz Z1. apply (elem_kB BIG s z BIG_ok Hz N). apply H.
    apply (between_k BIG BIG_ok z a b Hz). destruct O as (W1 & W2 & _). auto.
Qed.

(** ** C08 *)

Lemma all_finite_dec : forall s, all_finite s \/ ~ all_finite s.
Proof.
  induction s as [|[a b] s [IH|IH]].
  - left. intros r [].
  - destruct (iv_inf a) eqn:Ea; [right; intros H; destruct (H _ (or_introl eq_refl)) as [X _]; cbn in X; congruence|].
    destruct (iv_inf b) eqn:Eb; [right; intros H; destruct (H _ (or_introl eq_refl)) as [_ X]; cbn in X; congruence|].
    left. intros r [<-|Hr]; auto.
  - right. intros H. apply IH. eapply all_finite_tail; eassumption.
Qed.

Lemma elems_enumerates : forall s, nf s -> all_finite s -> enumerates (elems s) s.
Proof.
  intros s N F. split.
  - apply increasing_from. right. exists (- BIG). apply (elems_incr BIG s); [exact BIG_ok|apply nf_nfk; [exact BIG_ok|assumption]|assumption].
  - intros z. rewrite elem_k by assumption. destruct (Bz_ok z) as [HB _].
    apply (elems_memk (Bz z) s (- Bz z)); [assumption|apply nf_nfk; assumption|assumption].
Qed.

(** an infinite bound makes the set unbounded *)
Lemma not_finite_unbounded : forall s, nf s -> ~ all_finite s -> ~ bounded s.
Proof.
  intros s N F (lo & hi & H). apply F. intros [a b] Hr. cbn.
  set (B := Z.max BIG (Z.max (Z.abs lo) (Z.abs hi) + 2)).
  assert (HB : BIG <= B) by (unfold B; lia).
  assert (O : okr B (a, b)).
  { apply okr_good; [assumption|]. clear - N Hr. induction N; cbn in Hr; [contradiction|destruct Hr as [->|[]]; assumption|].
    destruct Hr as [->|Hr]; [assumption|auto]. }
  destruct O as (W1 & W2 & O1 & O2 & O3). cbn [fst snd] in *.
  assert (IN : forall z, - B < z < B -> key B a <= z <= key B b -> lo <= z <= hi).
  { intros z Hz Hab. apply H. exists a, b. split; [assumption|]. apply (between_k B HB z a b Hz). auto. }
  split.
  - destruct (iv_inf a) eqn:E; [exfalso|reflexivity].
    unfold key in *. rewrite E in *. unfold wfv in W1. rewrite E in W1. 
    destruct W1 as [W1|W1]; rewrite W1 in *; [lia|].
    assert (X : lo <= - B + 1 <= hi). { apply IN; unfold BIG, LLONG_MAX in *; lia. }
    unfold B in X. lia.
  - destruct (iv_inf b) eqn:E; [exfalso|reflexivity].
    unfold key in *. rewrite E in *. unfold wfv in W2. rewrite E in W2. 
    destruct W2 as [W2|W2]; rewrite W2 in *; [|lia].
    assert (X : lo <= B - 1 <= hi). { apply IN; unfold BIG, LLONG_MAX in *; lia. }
    unfold B in X. lia.
Qed.

Lemma finite_of_enum : forall s l, nf s -> enumerates l s -> all_finite s.
Proof.
  intros s l N E. destruct (all_finite_dec s) as [F|F]; [assumption|]. exfalso.
  apply (not_finite_unbounded s N F). destruct E as [_ E].
  exists (- fold_right Z.max 0 (map Z.abs l)), (fold_right Z.max 0 (map Z.abs l)).
  intros z Hz. apply E in Hz. clear - Hz.
  assert (Z.abs z <= fold_right Z.max 0 (map Z.abs l)); [|lia].
  induction l as [|x l IH]; cbn in *; [contradiction|]. destruct Hz as [->|Hz]; [lia|]. specialize (IH Hz). lia.
Qed.

Lemma C08_finite_l : forall s l, nf s -> enumerates l s ->
  cardinality s = if Z.of_nat (length l) <=? LLONG_MAX then Ok (ofZ (Z.of_nat (length l))) else Err ArithmeticError.
Proof.
  intros s l N E. pose proof (finite_of_enum s l N E) as F.
  rewrite (enumerates_unique l (elems s) s E (elems_enumerates s N F)).
  unfold cardinality. rewrite (cardinality_fin BIG s (- BIG) 0 BIG_ok (nf_nfk BIG BIG_ok s N) F); [|unfold LLONG_MAX; lia].
  reflexivity.
Qed.
Lemma C08_has_list_l : forall s, nf s -> bounded s -> exists l, enumerates l s.
Proof.
  intros s N Hb. destruct (all_finite_dec s) as [F|F].
  - exists (elems s). apply elems_enumerates; assumption.
  - exfalso. eapply not_finite_unbounded; eassumption.
Qed.
Lemma C08_infinite_l : forall s, nf s -> ~ bounded s ->
  cardinality s = Ok iv_infinity \/ cardinality s = Err ArithmeticError.
Proof.
  intros s N Hb. apply (cardinality_inf BIG s (- BIG) 0 BIG_ok (nf_nfk BIG BIG_ok s N)); [|unfold LLONG_MAX; lia].
  intros F. apply Hb. destruct (elems_enumerates s N F) as [_ E].
  set (m := fold_right Z.max 0 (map Z.abs (elems s))). exists (- m), m.
  intros z Hz. apply E in Hz. unfold m. clear - Hz. revert Hz. generalize (elems s) as l. intros l Hz.
  assert (Z.abs z <= fold_right Z.max 0 (map Z.abs l)); [|lia].
  induction l as [|x l IH]; cbn in *; [contradiction|]. destruct Hz as [->|Hz]; [lia|]. specialize (IH Hz). lia.
Qed.

(** card: the same sum from the last range to the first *)
Definition wid (r : range) : Z := iv_v (snd r) - iv_v (fst r) + 1.
Definition total (s : iset) : Z := fold_right (fun r n => wid r + n) 0 s.
Lemma card_sum : forall s acc, (forall x, In x s -> okr BIG x /\ iv_inf (fst x) = false /\ iv_inf (snd x) = false) ->
  0 <= acc <= LLONG_MAX ->
  cardinality_loop s (ofZ acc) = if acc + total s <=? LLONG_MAX then Ok (ofZ (acc + total s)) else Err ArithmeticError.
Proof.
  induction s as [|[a b] s IH]; intros acc H Ha; cbn [cardinality_loop total fold_right].
  - replace (acc + 0) with acc by lia. replace (_ <=? _) with true by lia. reflexivity.
  - destruct (H (a, b) (or_introl eq_refl)) as ((W1 & W2 & O1 & O2 & O3) & Fa & Fb). cbn [fst snd] in *.
    rewrite (key_finite BIG a Fa) in *. rewrite (key_finite BIG b Fb) in *.
    assert (POS : 0 <= total s).
    { assert (H' : forall x, In x s -> okr BIG x /\ iv_inf (fst x) = false /\ iv_inf (snd x) = false) by (intros; apply H; right; assumption).
      clear - H'. induction s as [|[c d] s IH]; cbn; [lia|].
      destruct (H' (c, d) (or_introl eq_refl)) as ((W1 & W2 & O1 & O2 & O3) & Fa & Fb). cbn [fst snd] in *.
      rewrite (key_finite BIG c Fa), (key_finite BIG d Fb) in O1.
      assert (0 <= total s) by (apply IH; intros; apply H'; right; assumption). unfold total in H. unfold wid at 1. cbn [fst snd]. lia. }
    unfold width, isFinite. cbn [fst snd]. rewrite Fa, Fb. cbn [negb andb].
    destruct a as [va ia], b as [vb ib]. cbn [iv_v iv_inf] in *. subst ia ib.
    unfold wfv in W1, W2. cbn in W1, W2.
    change (mkIV vb false) with (ofZ vb). change (mkIV va false) with (ofZ va).
    rewrite (iv_sub_spec _ _ vb va) by (apply is_int_ofZ; assumption).
    fold (total s). unfold wid. cbn [fst snd ofZ iv_v].
    unfold outcome at 1. destruct (fits64b (vb - va)) eqn:E1; cbn [bind].
    2:{ unfold fits64b, fits64, LLONG_MIN, LLONG_MAX in *. replace (_ <=? _) with false by lia. reflexivity. }
    rewrite (iv_add_spec _ _ (vb - va) 1); [| apply is_int_ofZ; unfold fits64b, fits64 in *; lia | apply is_int_ofZ; apply fits1].
    unfold outcome at 1. destruct (fits64b (vb - va + 1)) eqn:E2; cbn [bind isFinite ofZ iv_inf negb].
    2:{ unfold fits64b, fits64, LLONG_MIN, LLONG_MAX in *. replace (_ <=? _) with false by lia. reflexivity. }
    change (add_assign (mkIV acc false) (mkIV (vb - va + 1) false)) with (iv_add (ofZ acc) (ofZ (vb - va + 1))).
    rewrite (iv_add_spec _ _ acc (vb - va + 1)); [| apply is_int_ofZ; unfold fits64, LLONG_MIN in *; lia | apply is_int_ofZ; unfold fits64b, fits64 in *; lia].
    unfold outcome at 1. destruct (fits64b (acc + (vb - va + 1))) eqn:E3; cbn [bind].
    2:{ unfold fits64b, fits64, LLONG_MIN, LLONG_MAX in *. replace (_ <=? _) with false by lia. reflexivity. }
    rewrite IH; [|intros; apply H; right; assumption|unfold fits64b, fits64 in *; lia].
    replace (acc + (vb - va + 1) + total s) with (acc + (vb - va + 1 + total s)) by lia. reflexivity.
Qed.

Lemma nf_okr : forall s, nf s -> all_finite s -> forall x, In x s -> okr BIG x /\ iv_inf (fst x) = false /\ iv_inf (snd x) = false.
Proof.
  intros s N F x Hx. split; [|apply F; assumption]. apply okr_good; [exact BIG_ok|].
  clear F. induction N; cbn in Hx; [contradiction|destruct Hx as [->|[]]; assumption|].
  destruct Hx as [->|Hx]; [assumption|auto].
Qed.
Lemma total_rev : forall s, total (rev s) = total s.
Proof.
  induction s as [|r s IH]; cbn; [reflexivity|]. unfold total in *. rewrite fold_right_app. cbn.
  rewrite <- IH. generalize (rev s). intros l. induction l as [|x l IHl]; cbn; [reflexivity|]. lia.
Qed.
Lemma C08_card_l : forall s l, nf s -> enumerates l s -> card s = cardinality s.
Proof.
  intros s l N E. pose proof (finite_of_enum s l N E) as F. unfold card, cardinality.
  rewrite !card_sum; try (unfold LLONG_MAX; lia).
  - rewrite total_rev. reflexivity.
  - apply (nf_okr s); assumption.
  - intros x Hx. apply in_rev in Hx. apply (nf_okr s); assumption.
Qed.

Lemma C08_values_l : forall s l, nf s -> enumerates l s -> ~ In LLONG_MAX l -> to_values s = Ok (map ofZ l).
Proof.
  intros s l N E NM. pose proof (finite_of_enum s l N E) as F.
  rewrite (enumerates_unique l (elems s) s E (elems_enumerates s N F)) in NM |- *.
  apply (to_values_ok BIG s (- BIG)); [exact BIG_ok|apply nf_nfk; [exact BIG_ok|assumption]|assumption|].
  intros r Hr X. apply NM. destruct (elems_enumerates s N F) as [_ EE]. apply EE.
  destruct r as [a b]. cbn in X. subst b. exists a, (ofZ LLONG_MAX). split; [assumption|].
  apply (between_k BIG BIG_ok); [unfold BIG, LLONG_MAX; lia|].
  destruct (nf_okr s N F _ Hr) as ((W1 & W2 & O1 & O2 & O3) & Fa & Fb). cbn [fst snd] in *.
  split; [assumption|]. split; [assumption|]. change (key BIG (ofZ LLONG_MAX)) with LLONG_MAX in *. lia.
Qed.

(** ** C09 *)
Lemma C09_less_l : forall s t l m, nf s -> nf t -> enumerates l s -> enumerates m t ->
  (set_less s t = true <-> lex_lt l m) /\ (set_less_eq s t = true <-> lex_lt l m \/ l = m).
Proof.
  intros s t l m Ns Nt El Em.
  pose proof (finite_of_enum s l Ns El) as Fs. pose proof (finite_of_enum t m Nt Em) as Ft.
  rewrite (enumerates_unique l (elems s) s El (elems_enumerates s Ns Fs)).
  rewrite (enumerates_unique m (elems t) t Em (elems_enumerates t Nt Ft)).
  destruct (less_lex BIG s t (- BIG) (- BIG)) as [P Q]; try assumption; try exact BIG_ok; try (apply nf_nfk; [exact BIG_ok|assumption]).
  split; [exact P|]. rewrite Q. split; (intros [X|X]; [left; exact X|right]).
  - subst; reflexivity.
  - apply C05_unique_l; try assumption. intros z.
    destruct (elems_enumerates s Ns Fs) as [_ E1]. destruct (elems_enumerates t Nt Ft) as [_ E2].
    rewrite <- E1, <- E2, X. tauto.
Qed.

Lemma lex_trans : forall l m n, lex_lt l m -> lex_lt m n -> lex_lt l n.
Proof.
  intros l m n H. revert n. induction H; intros n H'; inversion H'; subst;
    first [apply lex_nil | apply lex_head; lia | apply lex_tail; auto].
Qed.
Lemma lex_total : forall l m, lex_lt l m \/ l = m \/ lex_lt m l.
Proof.
  induction l as [|x l IH]; intros [|y m]; auto using lex_nil.
  destruct (Z.lt_trichotomy x y) as [H|[->|H]].
  - left; apply lex_head; assumption.
  - destruct (IH m) as [H|[->|H]]; [left; apply lex_tail; assumption|auto|right; right; apply lex_tail; assumption].
  - right; right; apply lex_head; assumption.
Qed.

Lemma C09_order_l : forall s t u, nf s -> nf t -> nf u -> bounded s -> bounded t -> bounded u ->
  set_less s s = false /\
  (set_less s t = true -> set_less t u = true -> set_less s u = true) /\
  (set_less s t = true \/ s = t \/ set_less t s = true) /\
  (set_less_eq s t = true <-> set_less s t = true \/ s = t).
Proof.
  intros s t u Ns Nt Nu Bs Bt Bu.
  destruct (C08_has_list_l s Ns Bs) as [l El]. destruct (C08_has_list_l t Nt Bt) as [m Em]. destruct (C08_has_list_l u Nu Bu) as [n En].
  destruct (C09_less_l s s l l) as [P1 _]; try assumption.
  destruct (C09_less_l s t l m) as [P2 Q2]; try assumption.
  destruct (C09_less_l t u m n) as [P3 _]; try assumption.
  destruct (C09_less_l s u l n) as [P4 _]; try assumption.
  destruct (C09_less_l t s m l) as [P5 _]; try assumption.
  assert (EQ : l = m -> s = t).
  { intros ->. apply C05_unique_l; try assumption. intros z. destruct El as [_ E1], Em as [_ E2]. rewrite <- E1, <- E2. tauto. }
  split; [|split; [|split]].
  - destruct (set_less s s) eqn:E; [|reflexivity]. exfalso. apply (lex_irrefl l), P1. reflexivity.
  - rewrite P2, P3, P4. apply lex_trans.
  - rewrite P2, P5. destruct (lex_total l m) as [H|[H|H]]; auto.
  - rewrite Q2, P2. split; (intros [H|H]; [left; exact H|right]); [auto|].
    subst t. eapply enumerates_unique; eassumption.
Qed.

(** ** C05: sets from vectors *)
Lemma C05_vector_l : forall l, (forall z, In z l -> fits64 z) ->
  (exists s, set_of_vector (map ofZ l) = Ok s /\ nf s /\ forall z, elem z s <-> In z l) \/
  (set_of_vector (map ofZ l) = Err ArithmeticError /\ exists l1 l2 l3, l = l1 ++ LLONG_MAX :: l2 ++ LLONG_MAX :: l3).
Proof.
  intros l F. unfold set_of_vector.
  assert (Fin : forall y, In y (sort_iv (map ofZ l)) -> iv_inf y = false /\ wfv y).
  { intros y Hy. apply sort_In, in_map_iff in Hy. destruct Hy as (z & <- & Hz). split; [reflexivity|]. unfold wfv; cbn. auto. }
  destruct (sort_sorted (map ofZ l)) as [lo S].
  { intros y Hy. apply in_map_iff in Hy. destruct Hy as (z & <- & _). reflexivity. }
  pose proof (sort_perm (map ofZ l)) as PERM.
  assert (IN : forall z, In (ofZ z) (sort_iv (map ofZ l)) <-> In z l).
  { intros z. rewrite sort_In, in_map_iff. split; [intros (z' & E & H); inversion E; subst; assumption|intros; exists z; auto]. }
  destruct (sort_iv (map ofZ l)) as [|x l'] eqn:SL.
  { left. exists []. split; [reflexivity|]. split; [constructor|]. intros z. rewrite <- IN. cbn. split; [intros (a & b & [] & _)|tauto]. }
  destruct S as [S1 S2].
  set (E := exists l1 l2 l3, l = l1 ++ LLONG_MAX :: l2 ++ LLONG_MAX :: l3).
  (* a second LLONG_MAX in the sorted list yields two occurrences in l *)
  assert (TWO : forall l1 y l2, x :: l' = l1 ++ y :: l2 -> l2 <> [] -> y = ofZ LLONG_MAX -> E).
  { intros l1 y l2 EQ NE ->.
    assert (exists w, In w l2 /\ w = ofZ LLONG_MAX) as (w & Hw & ->).
    { destruct l2 as [|w l2]; [contradiction|]. exists w. split; [left; reflexivity|].
      assert (SS : sortedv lo (x :: l')) by (split; assumption). rewrite EQ in SS.
      assert (LE : iv_v (ofZ LLONG_MAX) <= iv_v w).
      { clear - SS. revert lo SS. induction l1 as [|u l1 IH]; cbn; intros lo [H1 H2]; [tauto|]. eapply IH; eassumption. }
      destruct (Fin w) as [Fw Ww]; [rewrite EQ; apply in_or_app; right; right; left; reflexivity|].
      unfold wfv in Ww. rewrite Fw in Ww. unfold fits64 in Ww. cbn in LE. destruct w as [v i]; cbn in *. subst i. unfold ofZ. f_equal. lia. }
    apply in_split in Hw. destruct Hw as (k1 & k2 & ->).
    rewrite EQ in PERM.
    assert (PZ : Permutation (map iv_v (l1 ++ ofZ LLONG_MAX :: k1 ++ ofZ LLONG_MAX :: k2)) l).
    { apply (Permutation_map iv_v) in PERM. rewrite map_map in PERM. cbn in PERM. rewrite map_id in PERM. exact PERM. }
    rewrite !map_app in PZ. cbn [map] in PZ. rewrite map_app in PZ. cbn [map iv_v ofZ] in PZ.
    assert (I1 : In LLONG_MAX l). { eapply Permutation_in; [exact PZ|]. apply in_or_app; right; left; reflexivity. }
    apply in_split in I1. destruct I1 as (p1 & p2 & ->).
    apply Permutation_app_inv in PZ.
    assert (I2 : In LLONG_MAX (p1 ++ p2)). { eapply Permutation_in; [exact PZ|]. apply in_or_app; right; apply in_or_app; right; left; reflexivity. }
    apply in_app_or in I2. destruct I2 as [I2|I2]; apply in_split in I2; destruct I2 as (q1 & q2 & ->).
    - exists q1, q2, p2. rewrite <- app_assoc. reflexivity.
    - exists p1, q1, q2. reflexivity. }
  destruct (Fin x (or_introl eq_refl)) as [Fx Wx].
  assert (HH : forall B, BIG <= B -> post (fun r => nfk B (iv_v x) r /\ all_finite r /\ forall z, memk B z r <-> iv_v x <= z <= iv_v x \/ In (ofZ z) l') E (ranges_of_sorted x x l')).
  { intros B HB. apply (ranges_of_sorted_ok B E HB); try assumption; try lia.
    - intros; apply Fin; right; assumption.
    - intros NE EQ. apply (TWO [] x l'); auto.
    - intros y l1 l2 EQ NE EY. apply (TWO (x :: l1) y l2); [cbn; rewrite EQ; reflexivity|assumption|assumption]. }
  pose proof (HH BIG BIG_ok) as H0.
  destruct (ranges_of_sorted x x l') as [r|[]|] eqn:R; cbn in H0; try contradiction; [left|right; auto].
  exists r. split; [reflexivity|]. destruct H0 as [N0 _].
  assert (Nr : nf r) by (eapply nfk_nf; [exact BIG_ok|exact N0]). split; [assumption|].
  intros z. destruct (Bz_ok z) as [HB Hz]. rewrite elem_k by assumption.
  specialize (HH _ HB). cbn in HH. destruct HH as (_ & _ & M). rewrite M, <- IN. cbn [In].
  assert (X : x = ofZ z <-> z = iv_v x).
  { destruct x as [v i]; cbn in *; subst i. unfold ofZ. split; [intros Q; inversion Q; reflexivity|intros ->; reflexivity]. }
  rewrite X. intuition lia.
Qed.

Lemma C05_interval_l : forall a b, wf a -> wf b -> denote a <> Some PInf -> denote b <> Some MInf ->
  nf (set_interval a b) /\ forall z, elem z (set_interval a b) <-> between z a b.
Proof.
  intros a b Wa Wb Ha Hb. apply wf_wfv in Wa, Wb.
  assert (KA : forall B, BIG <= B -> key B a < B).
  { intros B HB. destruct (denote_cases B HB a Wa) as [[D K1]|[[D K1]|(z1 & D & K1 & F & _)]]; [congruence| |]; rewrite K1; unfold fits64, BIG, LLONG_MIN, LLONG_MAX in *; lia. }
  assert (KB : forall B, BIG <= B -> - B < key B b).
  { intros B HB. destruct (denote_cases B HB b Wb) as [[D K1]|[[D K1]|(z1 & D & K1 & F & _)]]; [|congruence|]; rewrite K1; unfold fits64, BIG, LLONG_MIN, LLONG_MAX in *; lia. }
  change (set_interval a b) with (const_range a b).
  assert (N : nf (const_range a b)).
  { destruct (const_range_ok BIG BIG_ok a b Wa Wb (KA _ BIG_ok) (KB _ BIG_ok)) as (_ & N & _). eapply nfk_nf; [exact BIG_ok|exact N]. }
  split; [exact N|]. intros z. destruct (Bz_ok z) as [HB Hz]. rewrite elem_k by assumption.
  rewrite (between_k (Bz z) HB z a b Hz).
  destruct (const_range_ok (Bz z) HB a b Wa Wb (KA _ HB) (KB _ HB)) as (_ & _ & M). rewrite M. tauto.
Qed.

(** ** C10 *)

Lemma bmax_l : forall s v k, nf s -> is_int v k -> nf (bounded_max s v) /\ forall z, elem z (bounded_max s v) <-> elem z s /\ z <= k.
Proof.
  intros s v k N H. destruct (is_int_wfv v k H) as (W & _ & F & HK).
  assert (G : forall B, BIG <= B -> - B < key B v) by (intros B HB; rewrite HK; unfold fits64, BIG, LLONG_MIN, LLONG_MAX in *; lia).
  assert (Nr : nf (bounded_max s v)).
  { destruct (bounded_max_ok BIG BIG_ok s (- BIG) v (nf_nfk BIG BIG_ok s N) W (G _ BIG_ok)) as [P _]. eapply nfk_nf; [exact BIG_ok|exact P]. }
  split; [exact Nr|]. intros z. destruct (Bz_ok z) as [HB Hz]. rewrite !elem_k by assumption.
  destruct (bounded_max_ok (Bz z) HB s (- Bz z) v (nf_nfk _ HB s N) W (G _ HB)) as [_ M]. rewrite M, HK. tauto.
Qed.
Lemma bmin_l : forall s v k, nf s -> is_int v k -> nf (bounded_min s v) /\ forall z, elem z (bounded_min s v) <-> elem z s /\ k <= z.
Proof.
  intros s v k N H. destruct (is_int_wfv v k H) as (W & _ & F & HK).
  assert (G : forall B, BIG <= B -> key B v < B) by (intros B HB; rewrite HK; unfold fits64, BIG, LLONG_MIN, LLONG_MAX in *; lia).
  assert (Nr : nf (bounded_min s v)).
  { destruct (bounded_min_ok BIG BIG_ok s (- BIG) v (nf_nfk BIG BIG_ok s N) W (G _ BIG_ok)) as [P _]. eapply nfk_nf; [exact BIG_ok|exact P]. }
  split; [exact Nr|]. intros z. destruct (Bz_ok z) as [HB Hz]. rewrite !elem_k by assumption.
  destruct (bounded_min_ok (Bz z) HB s (- Bz z) v (nf_nfk _ HB s N) W (G _ HB)) as [_ M]. rewrite M, HK. tauto.
Qed.

Lemma fin_denote : forall v k, is_int v k -> wf v /\ denote v <> Some PInf /\ denote v <> Some MInf.
Proof. intros v k H. unfold is_int in H. unfold wf. rewrite H. repeat split; [eexists; reflexivity|discriminate|discriminate]. Qed.

Lemma C10_limit_l : forall op dom v k, nf dom -> is_int v k -> op <> BOT_EQ ->
  (exists r, limitDomain op dom v = Ok r /\ nf r /\ forall z, elem z r <-> elem z dom /\ allowed op z k) \/
  (limitDomain op dom v = Err ArithmeticError /\ (k = LLONG_MIN \/ k = LLONG_MAX \/ at_edge dom)).
Proof.
  intros op dom v k N H NE. destruct (is_int_wfv v k H) as (W & EV & F & HK).
  destruct op; cbn [limitDomain allowed]; try contradiction.
  - change (sub_assign v (ofZ 1)) with (iv_sub v (ofZ 1)). rewrite (iv_sub_spec v (ofZ 1) k 1 H) by (apply is_int_ofZ, fits1).
    unfold outcome. destruct (fits64b (k - 1)) eqn:E; cbn [bind].
    + left. exists (bounded_max dom (ofZ (k - 1))). split; [reflexivity|].
      destruct (bmax_l dom (ofZ (k - 1)) (k - 1) N) as [P Q]; [apply is_int_ofZ; unfold fits64b, fits64 in *; lia|].
      split; [exact P|]. intros z. rewrite Q. intuition lia.
    + right. split; [reflexivity|]. left. unfold fits64b, fits64, LLONG_MIN, LLONG_MAX in *. lia.
  - left. exists (bounded_max dom v). split; [reflexivity|]. destruct (bmax_l dom v k N H) as [P Q]. split; [exact P|]. exact Q.
  - change (add_assign v (ofZ 1)) with (iv_add v (ofZ 1)). rewrite (iv_add_spec v (ofZ 1) k 1 H) by (apply is_int_ofZ, fits1).
    unfold outcome. destruct (fits64b (k + 1)) eqn:E; cbn [bind].
    + left. exists (bounded_min dom (ofZ (k + 1))). split; [reflexivity|].
      destruct (bmin_l dom (ofZ (k + 1)) (k + 1) N) as [P Q]; [apply is_int_ofZ; unfold fits64b, fits64 in *; lia|].
      split; [exact P|]. intros z. rewrite Q. intuition lia.
    + right. split; [reflexivity|]. right; left. unfold fits64b, fits64, LLONG_MIN, LLONG_MAX in *. lia.
  - left. exists (bounded_min dom v). split; [reflexivity|]. destruct (bmin_l dom v k N H) as [P Q]. split; [exact P|].
    intros z. rewrite Q. intuition lia.
  - destruct (fin_denote v k H) as (Wv & D1 & D2).
    destruct (C05_interval_l v v Wv Wv D1 D2) as [NI MI]. change (set_interval v v) with (const_range v v) in *.
    assert (MK : forall z, elem z (const_range v v) <-> z = k).
    { intros z. rewrite MI. destruct (Bz_ok z) as [HB Hz]. rewrite (between_k _ HB z v v Hz), HK. intuition lia. }
    destruct (C06_diff_l dom (const_range v v) N NI) as [(r & E & Nr & M)|[E ED]].
    + left. exists r. split; [assumption|]. split; [assumption|]. intros z. rewrite M, MK. tauto.
    + right. split; [assumption|]. destruct ED as [ED|(a & b & Hab & ED)]; [auto|].
      unfold const_range in Hab. destruct (iv_gt v v); [destruct Hab|]. destruct Hab as [X|[]]. inversion X; subst a b.
      rewrite EV in ED. unfold ofZ in ED. destruct ED as [ED|ED]; inversion ED; auto.
Qed.

Lemma C10_intersect_l : forall dom v0 v1, nf dom -> wf v0 -> wf v1 -> denote v0 <> Some PInf -> denote v1 <> Some MInf ->
  exists r, intersectDomain_range dom v0 v1 = Ok r /\ nf r /\ forall z, elem z r <-> elem z dom /\ between z v0 v1.
Proof.
  intros dom v0 v1 N W0 W1 D0 D1. destruct (C05_interval_l v0 v1 W0 W1 D0 D1) as [NI MI].
  change (set_interval v0 v1) with (const_range v0 v1) in *.
  destruct (C06_inter_l dom (const_range v0 v1) N NI) as (r & E & Nr & M).
  exists r. split; [exact E|]. split; [assumption|]. intros z. rewrite M, MI. tauto.
Qed.

Lemma C10_domain_equals_l : forall dom v k, nf dom -> is_int v k ->
  (domainEquals_val dom v = true <-> forall z, elem z dom <-> z = k).
Proof.
  intros dom v k N H. destruct (is_int_wfv v k H) as (W & EV & F & HK).
  destruct (fin_denote v k H) as (Wv & D1 & D2).
  destruct (C05_interval_l v v Wv Wv D1 D2) as [NI MI].
  assert (ST : set_interval v v = [(v, v)]).
  { unfold set_interval, iv_gt. rewrite (iv_lt_key BIG v v W W BIG_ok). replace (_ <? _) with false by lia. reflexivity. }
  rewrite ST in *.
  assert (MK : forall z, elem z [(v, v)] <-> z = k).
  { intros z. rewrite MI. destruct (Bz_ok z) as [HB Hz]. rewrite (between_k _ HB z v v Hz), HK. intuition lia. }
  assert (X : domainEquals_val dom v = true <-> dom = [(v, v)]).
  { unfold domainEquals_val. destruct dom as [|[a b] [|? ?]]; try (split; congruence).
    rewrite andb_true_iff, !iv_eq_iff. split; [intros [-> ->]; reflexivity|intros Q; inversion Q; auto]. }
  rewrite X. split.
  - intros ->. exact MK.
  - intros Q. apply C05_unique_l; try assumption. intros z. rewrite Q, MK. tauto.
Qed.
