(** The operators of the evaluator compute the operators of the specification. *)
Require Import ZArith List Bool Lia.
From Verif Require Import Base IntValModel IntValSpec IntValProofs IntValPropProofs SetModel SetSpec SetPropProofs EvalModel EvalSpec EvalProofs.
Import ListNotations.
Open Scope Z_scope.

Lemma safe_fits : forall z, safe z -> fits64 z.
Proof. unfold safe, fits64. lia. Qed.

Ltac cmp2 H1 H2 :=
  destruct (C02_comparisons_l _ _ _ _ H1 H2) as (? & ? & ? & ? & ? & ?).

Lemma iv_eq_dec : forall x y a b, is_int x a -> is_int y b -> iv_eq x y = (a =? b).
Proof.
  intros x y a b Hx Hy. cmp2 Hx Hy. destruct (a =? b) eqn:E.
  - apply Z.eqb_eq in E. apply H3. congruence.
  - apply Z.eqb_neq in E. apply not_true_is_false. rewrite H3. congruence.
Qed.
Lemma iv_lt_dec : forall x y a b, is_int x a -> is_int y b -> iv_lt x y = (a <? b).
Proof.
  intros x y a b Hx Hy. cmp2 Hx Hy. destruct (a <? b) eqn:E.
  - apply Z.ltb_lt in E. apply H0. split; [cbn; lia|intros F; injection F; lia].
  - apply Z.ltb_ge in E. apply not_true_is_false. rewrite H0. intros [F1 F2]. cbn in F1.
    apply F2. f_equal. lia.
Qed.
Lemma iv_le_dec : forall x y a b, is_int x a -> is_int y b -> iv_le x y = (a <=? b).
Proof.
  intros x y a b Hx Hy. cmp2 Hx Hy. destruct (a <=? b) eqn:E.
  - apply Z.leb_le in E. apply H. cbn. lia.
  - apply Z.leb_gt in E. apply not_true_is_false. rewrite H. cbn. lia.
Qed.
Lemma int0 : is_int (ofZ 0) 0.
Proof. apply is_int_ofZ. unfold fits64, LLONG_MIN, LLONG_MAX. lia. Qed.

Definition arith (o : binop) : bool :=
  match o with BPlus | BMinus | BMult | BPow | BDiv | BMod => true | _ => false end.

Lemma int_bin_means : forall o x y a b r s, arith o = true -> is_int x a -> is_int y b -> safe a -> safe b ->
  op_means o (SInt a) (SInt b) r -> (forall v, r = Some v -> safe_val v) ->
  match r with
  | Some (SInt z) => int_bin o x y s = (s, Val (ofZ z)) /\ is_int (ofZ z) z
  | None => int_bin o x y s = (s, Und)
  | _ => False
  end.
Proof.
  intros o x y a b r s Ho Hx Hy Sa Sb Hm Hr.
  assert (Hs : forall z, r = Some (SInt z) -> safe z) by (intros z E; apply (Hr _ E)).
  clear Hr.
  destruct o; try discriminate Ho; cbn [op_means] in Hm; cbn [int_bin].
  - subst r. specialize (Hs _ eq_refl).
    destruct (proj1 (C01_add_l _ _ _ _ Hx Hy) (safe_fits _ Hs)) as (w & E & W).
    rewrite E. apply is_int_iff in W as [-> W]. split; [reflexivity|apply is_int_ofZ; assumption].
  - subst r. specialize (Hs _ eq_refl).
    destruct (proj1 (C01_sub_l _ _ _ _ Hx Hy) (safe_fits _ Hs)) as (w & E & W).
    rewrite E. apply is_int_iff in W as [-> W]. split; [reflexivity|apply is_int_ofZ; assumption].
  - subst r. specialize (Hs _ eq_refl).
    destruct (C51_mul_l _ _ _ _ Hx Hy) as [A _]; [unfold safe in Sa; lia|unfold safe in Sb; lia|].
    destruct A as (w & E & W); [unfold safe in Hs; lia|].
    rewrite E. apply is_int_iff in W as [-> W]. split; [reflexivity|apply is_int_ofZ; assumption].
  - rewrite (iv_eq_dec _ _ _ _ Hx int0), (iv_lt_dec _ _ _ _ Hy int0).
    destruct Hm as [[Hb ->]|[(Hb & Ha & ->)|(Hb & Ha & ->)]].
    + specialize (Hs _ eq_refl). replace (b <? 0) with false by (symmetry; apply Z.ltb_ge; lia). rewrite andb_false_r.
      destruct (C03_pow_l _ _ _ _ Hx Hy) as [A _]; [unfold safe in Sa; lia|lia|].
      destruct A as (w & E & W); [unfold safe, LLONG_MIN, LLONG_MAX in *; lia|].
      rewrite E. apply is_int_iff in W as [-> W]. split; [reflexivity|apply is_int_ofZ; assumption].
    + replace (a =? 0) with false by (symmetry; apply Z.eqb_neq; lia). cbn [andb].
      destruct (C03_pow_neg_l _ _ _ _ Hx Hy Hb) as [_ A]. destruct (A Ha) as (w & E & W).
      rewrite E. apply is_int_iff in W as [-> W]. split; [reflexivity|apply is_int_ofZ; assumption].
    + replace (a =? 0) with true by (symmetry; apply Z.eqb_eq; lia).
      replace (b <? 0) with true by (symmetry; apply Z.ltb_lt; lia). reflexivity.
  - rewrite (iv_eq_dec _ _ _ _ Hy int0).
    destruct Hm as [[Hb ->]|[Hb ->]].
    + replace (b =? 0) with true by (symmetry; apply Z.eqb_eq; lia). reflexivity.
    + replace (b =? 0) with false by (symmetry; apply Z.eqb_neq; lia).
      destruct (C51_div_l _ _ _ _ Hx Hy) as [A _]; [unfold safe in Sa; lia|].
      destruct (A Hb) as (w & E & W).
      rewrite E. apply is_int_iff in W as [-> W]. split; [reflexivity|apply is_int_ofZ; assumption].
  - rewrite (iv_eq_dec _ _ _ _ Hy int0).
    destruct Hm as [[Hb ->]|[Hb ->]].
    + replace (b =? 0) with true by (symmetry; apply Z.eqb_eq; lia). reflexivity.
    + replace (b =? 0) with false by (symmetry; apply Z.eqb_neq; lia).
      destruct (proj1 (C01_mod_l _ _ _ _ Hx Hy) Hb) as (w & E & W).
      replace (a - b * Z.quot a b) with (Z.rem a b) in W by (pose proof (Z.quot_rem' a b); lia).
      rewrite E. apply is_int_iff in W as [-> W]. split; [reflexivity|apply is_int_ofZ; assumption].
Qed.

Lemma dec_true : forall b c Q, decides b Q -> (c = true <-> Q) -> c = b.
Proof. unfold decides. intros [] [] Q; intuition congruence. Qed.

Definition is_cmp (o : binop) : bool :=
  match o with BLe | BLq | BGr | BGq | BEq | BNq => true | _ => false end.

Lemma cmp_int_means : forall o x y a b r s, is_int x a -> is_int y b -> is_cmp o = true ->
  op_means o (SInt a) (SInt b) r -> exists c, r = Some (SBool c) /\ cmp_int o x y s = (s, Val c).
Proof.
  intros o x y a b r s Hx Hy Ho Hm.
  destruct o; try discriminate Ho; cbn [op_means] in Hm; destruct Hm as (c & -> & Hc); exists c; (split; [reflexivity|]);
    cbn [cmp_int compares] in *; unfold ret; do 2 f_equal; eapply dec_true; try exact Hc.
  - rewrite (iv_lt_dec _ _ _ _ Hx Hy), Z.ltb_lt. reflexivity.
  - rewrite (iv_le_dec _ _ _ _ Hx Hy), Z.leb_le. lia.
  - unfold iv_gt. rewrite (iv_lt_dec _ _ _ _ Hy Hx), Z.ltb_lt. lia.
  - unfold iv_ge. rewrite (iv_le_dec _ _ _ _ Hy Hx), Z.leb_le. lia.
  - rewrite (iv_eq_dec _ _ _ _ Hx Hy), Z.eqb_eq. lia.
  - unfold iv_ne. rewrite (iv_eq_dec _ _ _ _ Hx Hy), negb_true_iff, Z.eqb_neq. lia.
Qed.

(** sets *)
Lemma nf_good : forall s r, nf s -> In r s -> good_range r.
Proof.
  induction 1 as [|r0 H|r1 r2 s H1 H2 H3 IH]; intros Hi.
  - destruct Hi.
  - destruct Hi as [->|[]]. assumption.
  - destruct Hi as [->|Hi]; auto.
Qed.
Lemma safe_not_edge : forall s l, nf s -> enumerates l s -> Forall safe l -> ~ at_edge s.
Proof.
  intros s l Hn [_ He] Hs (a & b & Hi & Hab).
  destruct (nf_good _ _ Hn Hi) as (z & x & y & Hx & Hy & L1 & L2). cbn in Hx, Hy.
  rewrite Forall_forall in Hs. destruct Hab as [->| ->].
  - assert (E : elem LLONG_MIN s).
    { exists (ofZ LLONG_MIN), b. split; [assumption|]. exists x, y. repeat split; try assumption.
      - vm_compute in Hx. injection Hx as <-. cbn. unfold LLONG_MIN. lia.
      - vm_compute in Hx. injection Hx as <-. destruct y; cbn in *; try tauto; unfold LLONG_MIN; lia. }
    apply He, Hs in E. unfold safe in E. lia.
  - assert (E : elem LLONG_MAX s).
    { exists a, (ofZ LLONG_MAX). split; [assumption|]. exists x, y. repeat split; try assumption.
      - vm_compute in Hy. injection Hy as <-. destruct x; cbn in *; try tauto; unfold LLONG_MAX; lia.
      - vm_compute in Hy. injection Hy as <-. cbn. unfold LLONG_MAX. lia. }
    apply He, Hs in E. unfold safe in E. lia.
Qed.

Definition is_setop (o : binop) : bool :=
  match o with BUnion | BDiff | BSymdiff | BIntersect => true | _ => false end.

Lemma set_bin_means : forall o s t l m r st, is_setop o = true -> nf s -> nf t -> enumerates l s -> enumerates m t ->
  Forall safe l -> Forall safe m -> op_means o (SSet l) (SSet m) r ->
  exists k u, r = Some (SSet k) /\ set_bin o s t st = (st, Val u) /\ nf u /\ enumerates k u.
Proof.
  intros o s t l m r st Ho Hs Ht El Em Sl Sm Hm.
  pose proof (safe_not_edge _ _ Hs El Sl) as Ns. pose proof (safe_not_edge _ _ Ht Em Sm) as Nt.
  assert (EL : forall z, elem z s <-> In z l) by (intros z; symmetry; apply El).
  assert (EM : forall z, elem z t <-> In z m) by (intros z; symmetry; apply Em).
  destruct o; try discriminate Ho; cbn [op_means] in Hm; destruct Hm as (k & -> & Ik & Hk); exists k.
  - destruct (C06_union_l s t Hs Ht) as [(u & E & Nu & Hu)|[_ [E|E]]]; [|tauto|tauto].
    exists u. cbn. rewrite E. repeat split; try assumption; rewrite Hk, Hu, EL, EM; tauto.
  - destruct (C06_diff_l s t Hs Ht) as [(u & E & Nu & Hu)|[_ [E|E]]]; [|tauto|tauto].
    exists u. cbn. rewrite E. repeat split; try assumption; rewrite Hk, Hu, EL, EM; tauto.
  - destruct (C06_union_l s t Hs Ht) as [(u & E & Nu & Hu)|[_ [E|E]]]; [|tauto|tauto].
    destruct (C06_inter_l s t Hs Ht) as (i & Ei & Ni & Hi).
    assert (Eu : ~ at_edge u).
    { intros (a & b & Hin & Hab). destruct (nf_good _ _ Nu Hin) as (z & x & y & Hx & Hy & L1 & L2). cbn in Hx, Hy.
      assert (Sz : forall z, elem z u -> safe z).
      { intros w Hw. apply Hu in Hw. rewrite EL, EM in Hw. rewrite Forall_forall in Sl, Sm. destruct Hw; auto. }
      destruct Hab as [->| ->].
      - assert (F : elem LLONG_MIN u).
        { exists (ofZ LLONG_MIN), b. split; [assumption|]. exists x, y. repeat split; try assumption.
          - vm_compute in Hx. injection Hx as <-. cbn. unfold LLONG_MIN. lia.
          - vm_compute in Hx. injection Hx as <-. destruct y; cbn in *; try tauto; unfold LLONG_MIN; lia. }
        apply Sz in F. unfold safe in F. lia.
      - assert (F : elem LLONG_MAX u).
        { exists a, (ofZ LLONG_MAX). split; [assumption|]. exists x, y. repeat split; try assumption.
          - vm_compute in Hy. injection Hy as <-. destruct x; cbn in *; try tauto; unfold LLONG_MAX; lia.
          - vm_compute in Hy. injection Hy as <-. cbn. unfold LLONG_MAX. lia. }
        apply Sz in F. unfold safe in F. lia. }
    assert (Ed : ~ at_edge i).
    { intros (a & b & Hin & Hab). destruct (nf_good _ _ Ni Hin) as (z & x & y & Hx & Hy & L1 & L2). cbn in Hx, Hy.
      assert (Sz : forall z, elem z i -> safe z).
      { intros w Hw. apply Hi in Hw. rewrite EL, EM in Hw. rewrite Forall_forall in Sl, Sm. destruct Hw; auto. }
      destruct Hab as [->| ->].
      - assert (F : elem LLONG_MIN i).
        { exists (ofZ LLONG_MIN), b. split; [assumption|]. exists x, y. repeat split; try assumption.
          - vm_compute in Hx. injection Hx as <-. cbn. unfold LLONG_MIN. lia.
          - vm_compute in Hx. injection Hx as <-. destruct y; cbn in *; try tauto; unfold LLONG_MIN; lia. }
        apply Sz in F. unfold safe in F. lia.
      - assert (F : elem LLONG_MAX i).
        { exists a, (ofZ LLONG_MAX). split; [assumption|]. exists x, y. repeat split; try assumption.
          - vm_compute in Hy. injection Hy as <-. destruct x; cbn in *; try tauto; unfold LLONG_MAX; lia.
          - vm_compute in Hy. injection Hy as <-. cbn. unfold LLONG_MAX. lia. }
        apply Sz in F. unfold safe in F. lia. }
    destruct (C06_diff_l u i Nu Ni) as [(d & Ed' & Nd & Hd)|[_ [F|F]]]; [|tauto|tauto].
    exists d. cbn. rewrite E. cbn. rewrite Ei. cbn. rewrite Ed'.
    assert (A : forall z, In z k <-> elem z d).
    { intros z. rewrite Hk, Hd, Hu, Hi, EL, EM. destruct (in_dec Z.eq_dec z l), (in_dec Z.eq_dec z m); tauto. }
    repeat split; try assumption; apply A.
  - destruct (C06_inter_l s t Hs Ht) as (u & E & Nu & Hu).
    exists u. cbn. rewrite E. repeat split; try assumption; rewrite Hk, Hu, EL, EM; tauto.
Qed.

Definition is_setcmp (o : binop) : bool :=
  match o with BLe | BLq | BGr | BGq | BEq | BNq | BSubset | BSuperset => true | _ => false end.

Lemma set_eq_lists : forall s t l m, nf s -> nf t -> enumerates l s -> enumerates m t ->
  (set_equal s t = true <-> l = m).
Proof.
  intros s t l m Hs Ht [Il El] [Im Em]. rewrite (C07_equal_l s t Hs Ht). split.
  - intros H. apply increasing_unique; try assumption. intros z. rewrite El, Em. apply H.
  - intros -> z. rewrite <- El, <- Em. reflexivity.
Qed.

Lemma cmp_set_means : forall o s t l m r st, is_setcmp o = true -> nf s -> nf t -> enumerates l s -> enumerates m t ->
  op_means o (SSet l) (SSet m) r -> exists c, r = Some (SBool c) /\ cmp_set o s t st = (st, Val c).
Proof.
  intros o s t l m r st Ho Hs Ht El Em Hm.
  destruct (C09_less_l s t l m Hs Ht El Em) as [L1 L2].
  destruct (C09_less_l t s m l Ht Hs Em El) as [G1 G2].
  pose proof (set_eq_lists s t l m Hs Ht El Em) as Q.
  destruct o; try discriminate Ho; cbn [op_means] in Hm; destruct Hm as (c & -> & Hc); exists c; (split; [reflexivity|]);
    cbn [cmp_set compares] in *; unfold ret; do 2 f_equal; eapply dec_true; try exact Hc.
  - exact L1.
  - exact L2.
  - exact G1.
  - rewrite G2. split; (intros [H|H]; [left; exact H|right; congruence]).
  - exact Q.
  - rewrite negb_true_iff, <- Q, not_true_iff_false. reflexivity.
  - rewrite (C07_subset_l s t Hs Ht). destruct El as [_ El], Em as [_ Em].
    split; intros H z Hz; [apply Em, H, El, Hz|apply Em, H, El, Hz].
  - rewrite (C07_subset_l t s Ht Hs). destruct El as [_ El], Em as [_ Em].
    split; intros H z Hz; [apply El, H, Em, Hz|apply El, H, Em, Hz].
Qed.

Lemma interval_means : forall x y a b l, is_int x a -> is_int y b -> increasing l ->
  (forall z, In z l <-> a <= z <= b) -> nf (set_interval x y) /\ enumerates l (set_interval x y).
Proof.
  intros x y a b l Hx Hy Il Hl.
  destruct (C05_interval_l x y) as [N E].
  - exists (Fin a). exact Hx.
  - exists (Fin b). exact Hy.
  - rewrite Hx. discriminate.
  - rewrite Hy. discriminate.
  - split; [exact N|]. split; [exact Il|]. intros z. rewrite Hl, E. split.
    + intros [H1 H2]. exists (Fin a), (Fin b). repeat split; cbn; try assumption.
    + intros (p & q & Hp & Hq & L1 & L2). rewrite Hx in Hp. rewrite Hy in Hq. injection Hp as <-. injection Hq as <-.
      cbn in *. lia.
Qed.

Lemma vector_means : forall zs l, Forall safe zs -> increasing l -> (forall z, In z l <-> In z zs) ->
  exists u, set_of_vector (map ofZ zs) = Ok u /\ nf u /\ enumerates l u.
Proof.
  intros zs l Hs Il Hl. rewrite Forall_forall in Hs.
  destruct (C05_vector_l zs) as [(u & E & N & H)|(E & l1 & l2 & l3 & H)].
  - intros z Hz. apply safe_fits. auto.
  - exists u. repeat split; try assumption; rewrite Hl, H; tauto.
  - exfalso. assert (safe LLONG_MAX) as S. { apply Hs. rewrite H. apply in_or_app. right. left. reflexivity. }
    unfold safe in S. lia.
Qed.
