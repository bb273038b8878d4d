(** Proofs about array accesses: the flattened access has the value of the access. *)
Require Import ZArith List Bool Lia.
From Verif Require Import SliceModel SliceSpec SliceProofs.
Import ListNotations.
Open Scope Z_scope.

Fixpoint ix_all (P : ix -> Prop) (HP : forall v, P (IPar v)) (HV : forall k, P (IVar k)) (HA : forall y l, Forall P l -> P (IAcc y l)) (i : ix) : P i :=
  match i with
  | IPar v => HP v
  | IVar k => HV k
  | IAcc y l => HA y l ((fix go (l : list ix) : Forall P l :=
                           match l with [] => Forall_nil P | x :: r => Forall_cons x (ix_all P HP HV HA x) (go r) end) l)
  end.

Lemma ix_value_acc : forall r y l, ix_value r (IAcc y l) = source_value r y l.
Proof.
  intros r y l. unfold source_value. cbn [ix_value].
  match goal with |- match ?g l with _ => _ end = _ => assert (H : forall l, g l = ix_values r l) end.
  { clear. induction l as [|i l IH]; [reflexivity|]. cbn [ix_values]. rewrite <- IH. reflexivity. }
  rewrite H. reflexivity.
Qed.
Lemma ix_ok_acc : forall y l, ix_ok (IAcc y l) <-> wf y /\ length l = length (adims y) /\ Forall ix_ok l.
Proof.
  intros y l. cbn [ix_ok].
  match goal with |- _ /\ _ /\ ?g l <-> _ => assert (H : forall l, g l <-> Forall ix_ok l) end.
  { clear. induction l as [|i l IH]; [split; [constructor|exact (fun _ => I)]|]. rewrite Forall_cons_iff, <- IH. reflexivity. }
  rewrite H. reflexivity.
Qed.
Lemma ix_nonempty_acc : forall y l, ix_nonempty (IAcc y l) <-> nonempty (adims y) /\ Forall ix_nonempty l.
Proof.
  intros y l. cbn [ix_nonempty].
  match goal with |- _ /\ ?g l <-> _ => assert (H : forall l, g l <-> Forall ix_nonempty l) end.
  { clear. induction l as [|i l IH]; [split; [constructor|exact (fun _ => I)]|]. rewrite Forall_cons_iff, <- IH. reflexivity. }
  rewrite H. reflexivity.
Qed.

(** * Values that are not absent *)
Definition strip (vs : list (option Z)) : list Z := map (fun o => match o with Some z => z | None => 0 end) vs.
Definition present (vs : list (option Z)) : Prop := Forall (fun o => o <> None) vs.

Lemma present_fill : forall ds vs, present vs -> length vs = length ds -> fill_absent ds vs = strip vs.
Proof.
  induction ds as [|d ds IH]; intros [|[v|] vs] P L; cbn in *; try reflexivity; try discriminate.
  - inversion_clear P. f_equal. apply IH; [assumption|lia].
  - inversion_clear P. congruence.
Qed.
Lemma present_flags : forall (vs : list (option Z)), present vs -> existsb absentb vs = false /\ (vs <> [] -> forallb absentb vs = false).
Proof.
  induction vs as [|[v|] vs IH]; intros P; cbn.
  - split; [reflexivity|congruence].
  - inversion_clear P. split; [apply IH; assumption|reflexivity].
  - inversion_clear P. congruence.
Qed.
Lemma access_value_present : forall {E} (a : arr E) vs, adims a <> [] -> ranges_ok (adims a) -> present vs -> length vs = length (adims a) ->
  access_value a vs = option_map Some (access a (strip vs)).
Proof.
  intros E a vs N R P L. destruct (present_flags vs P) as [A B]. unfold access_value. rewrite A, B.
  - rewrite (present_fill _ _ P L), (access_element _ _ R). destruct (element _ _ _); reflexivity.
  - intros ->. destruct (adims a); [congruence|discriminate].
Qed.

Lemma ix_values_length : forall r l vs, ix_values r l = Some vs -> length vs = length l.
Proof.
  induction l as [|i l IH]; intros vs H; cbn [ix_values] in H; [injection H as <-; reflexivity|].
  destruct (ix_value r i); [|discriminate]. destruct (ix_values r l) as [ws|]; [|discriminate]. injection H as <-. cbn. f_equal. apply IH. reflexivity.
Qed.
Lemma ix_values_present0 : forall r l, Forall (fun i => ix_ok i -> forall v, ix_value r i = Some v -> v <> None) l -> Forall ix_ok l ->
  forall vs, ix_values r l = Some vs -> present vs.
Proof.
  induction l as [|i l IH]; intros F O vs H; cbn [ix_values] in H; [injection H as <-; constructor|].
  inversion_clear F as [|? ? F1 F2]. inversion_clear O as [|? ? O1 O2].
  destruct (ix_value r i) as [v|] eqn:V; [|discriminate]. destruct (ix_values r l) as [ws|]; [|discriminate]. injection H as <-.
  constructor; [apply (F1 O1); first [exact V|reflexivity]|apply IH; auto].
Qed.
Lemma ix_value_present : forall r i, ix_ok i -> forall v, ix_value r i = Some v -> v <> None.
Proof.
  intros r i. induction i as [v|k|y l IH] using ix_all; intros O v' H.
  - cbn in *. congruence.
  - cbn in H. congruence.
  - rewrite ix_value_acc in H. apply ix_ok_acc in O as (W & L & O). unfold source_value in H.
    destruct (ix_values r l) as [vs|] eqn:V; [|discriminate].
    pose proof (ix_values_present0 r l IH O vs V) as P. apply wf_wf' in W as (N & R & _).
    rewrite (access_value_present y vs N R P) in H by (rewrite (ix_values_length _ _ _ V); exact L).
    destruct (access y (strip vs)); [|discriminate]. cbn in H. congruence.
Qed.
Lemma ix_values_present : forall r l vs, Forall ix_ok l -> ix_values r l = Some vs -> present vs.
Proof.
  intros r l vs O H. eapply ix_values_present0; [|exact O|exact H]. apply Forall_forall. intros i _ Oi v. apply ix_value_present. exact Oi.
Qed.
Lemma source_present : forall {E} r (a : arr E) l, adims a <> [] -> ranges_ok (adims a) -> Forall ix_ok l -> length l = length (adims a) ->
  source_value r a l = match ix_values r l with Some vs => option_map Some (access a (strip vs)) | None => None end.
Proof.
  intros E r a l N R O L. unfold source_value. destruct (ix_values r l) as [vs|] eqn:V; [|reflexivity].
  apply access_value_present; [exact N|exact R|eapply ix_values_present; eassumption|]. rewrite (ix_values_length _ _ _ V). exact L.
Qed.

(** * Filling in the fixed indices *)
Lemma fill_values : forall r ixs ds, Forall ix_ok ixs -> length ixs = length ds ->
  match ix_values r ixs with
  | Some vs => exists ws, ix_values r (var_ixs ixs) = Some ws /\ strip vs = fill ds ixs (strip ws) /\ length ws = length (var_dims ds ixs)
  | None => ix_values r (var_ixs ixs) = None
  end.
Proof.
  intros r. induction ixs as [|i ixs IH]; intros [|d ds] O L; cbn in L; try discriminate.
  - exists []. auto.
  - inversion_clear O as [|? ? O1 O2]. specialize (IH ds O2 ltac:(lia)). cbn [ix_values].
    destruct i as [v|k|y l].
    + cbn [ix_value var_ixs filter is_par negb]. cbn [ix_ok] in O1. destruct v as [v|]; [|congruence].
      destruct (ix_values r ixs) as [vs|]; [|exact IH]. destruct IH as (ws & A & B & C). exists ws.
      split; [exact A|]. split; [|exact C]. cbn. f_equal. exact B.
    + cbn [ix_value var_ixs filter is_par negb]. fold (var_ixs ixs). cbn [ix_values ix_value].
      destruct (ix_values r ixs) as [vs|].
      * destruct IH as (ws & A & B & C). rewrite A. eexists. split; [reflexivity|]. split; [|cbn; f_equal; exact C]. cbn. f_equal. exact B.
      * rewrite IH. reflexivity.
    + cbn [var_ixs filter is_par negb]. fold (var_ixs ixs). cbn [ix_values].
      destruct (ix_value r (IAcc y l)) as [v|]; [|reflexivity].
      destruct (ix_values r ixs) as [vs|].
      * destruct IH as (ws & A & B & C). rewrite A. eexists. split; [reflexivity|]. split; [|cbn; f_equal; exact C]. cbn. f_equal. exact B.
      * rewrite IH. reflexivity.
Qed.

Fixpoint par_ok (ds : list range) (ixs : list ix) : Prop :=
  match ds, ixs with
  | d :: ds, IPar (Some v) :: r => fst d <= v <= snd d /\ par_ok ds r
  | d :: ds, IPar None :: r => fst d <= fst d <= snd d /\ par_ok ds r
  | d :: ds, _ :: r => par_ok ds r
  | _, _ => True
  end.
Lemma inside_cons : forall d ds v vs, inside (d :: ds) (v :: vs) <-> fst d <= v <= snd d /\ inside ds vs.
Proof.
  intros d ds v vs. split; [intros H; inversion_clear H; split; assumption|intros [A B]; constructor; assumption].
Qed.
Lemma fill_inside : forall ixs ds ws, length ixs = length ds -> length ws = length (var_dims ds ixs) ->
  (inside ds (fill ds ixs ws) <-> par_ok ds ixs /\ inside (var_dims ds ixs) ws).
Proof.
  induction ixs as [|i ixs IH]; intros [|d ds] ws L W; cbn in L; try discriminate.
  - destruct ws; [|discriminate]. cbn. split; [intros H; split; [exact I|constructor]|intros _; constructor].
  - destruct i as [[v|]|k|y l]; cbn [fill par_ok var_dims] in *.
    + rewrite inside_cons, IH by (try exact W; lia). tauto.
    + rewrite inside_cons, IH by (try exact W; lia). tauto.
    + destruct ws as [|w ws]; [discriminate|]. cbn in W. rewrite !inside_cons, IH by lia. tauto.
    + destruct ws as [|w ws]; [discriminate|]. cbn in W. rewrite !inside_cons, IH by lia. tauto.
Qed.
Lemma var_dims_ok : forall ixs ds, ranges_ok ds -> ranges_ok (var_dims ds ixs).
Proof.
  induction ixs as [|i ixs IH]; intros [|d ds] H; cbn [var_dims]; try constructor; inversion_clear H as [|? ? H1 H2].
  destruct i; [apply IH; exact H2|constructor; [exact H1|apply IH; exact H2]|constructor; [exact H1|apply IH; exact H2]].
Qed.
Lemma var_dims_nonempty : forall ixs ds, nonempty ds -> nonempty (var_dims ds ixs).
Proof.
  induction ixs as [|i ixs IH]; intros [|d ds] H; cbn [var_dims]; try constructor; inversion_clear H as [|? ? H1 H2].
  destruct i; [apply IH; exact H2|constructor; [exact H1|apply IH; exact H2]|constructor; [exact H1|apply IH; exact H2]].
Qed.
Lemma var_dims_nil : forall ixs ds, length ixs = length ds -> forallb is_par ixs = false -> var_dims ds ixs <> [].
Proof.
  induction ixs as [|i ixs IH]; intros [|d ds] L H; cbn in *; try discriminate.
  destruct i; cbn in H; try discriminate. apply IH; [lia|exact H].
Qed.
Lemma var_lengths : forall ixs ds, length ixs = length ds -> length (var_ixs ixs) = length (var_dims ds ixs).
Proof.
  induction ixs as [|i ixs IH]; intros [|d ds] L; cbn in *; try discriminate; try reflexivity.
  destruct i; cbn; try (f_equal); apply IH; lia.
Qed.
Lemma product_empty : forall ds, ranges_ok ds -> Exists (fun d => snd d < fst d) ds -> product ds = 0.
Proof.
  intros ds R X. induction X as [d ds H|d ds X IH]; inversion_clear R as [|? ? R1 R2]; cbn [product].
  - unfold rwidth. replace (snd d - fst d + 1) with 0 by lia. lia.
  - rewrite IH by exact R2. lia.
Qed.
Lemma empty_not_inside : forall ds ws, Exists (fun d => snd d < fst d) ds -> ~ inside ds ws.
Proof.
  intros ds ws X H. induction H as [|d w ds ws H1 H2 IH]; inversion X; subst; [lia|auto].
Qed.
Lemma access_outside : forall {E} (a : arr E) idx, wf' a -> ~ inside (adims a) idx -> access a idx = None.
Proof.
  intros E a idx W N. destruct (access a idx) eqn:A; [|reflexivity]. exfalso. apply N. apply (access_inside a idx W). congruence.
Qed.

Lemma slice_ok : forall {E} fuel (a : arr E) ixs o, wf' a -> length ixs = length (adims a) -> forallb is_par ixs = false ->
  slice fuel a ixs = Some o ->
  match o with
  | None => forall ws, length ws = length (var_dims (adims a) ixs) -> access a (fill (adims a) ixs ws) = None
  | Some a' => wf' a' /\ adims a' = var_dims (adims a) ixs /\
      forall ws, length ws = length (var_dims (adims a) ixs) -> access a' ws = access a (fill (adims a) ixs ws)
  end.
Proof.
  intros E fuel a ixs o W L NP S. unfold slice in S. set (ds := var_dims (adims a) ixs) in *.
  set (f := fun vs => access a (fill (adims a) ixs vs)) in *.
  assert (R : ranges_ok ds) by (apply var_dims_ok; apply W).
  assert (NE : ds <> []) by (apply var_dims_nil; assumption).
  destruct (Forall_Exists_dec (fun d : range => fst d <= snd d) (fun d => Z_le_dec (fst d) (snd d)) ds) as [NN|X].
  - destruct (loop_ends ds f NE NN) as [n EN]. specialize (EN 0%nat).
    destruct (run fuel ds f (map fst ds, rev (seq 0 (length ds)), [])) as [q|] eqn:Q; [|discriminate].
    pose proof (run_unique ds f _ _ _ _ _ Q EN) as ->.
    destruct (collect (enum f [] ds)) as [es|] eqn:C; injection S as <-.
    + split; [|split; [reflexivity|]].
      * split; [exact NE|]. split; [exact R|]. cbn [adims aelems]. rewrite (collect_length _ _ C), (enum_length f ds [] R). lia.
      * intros ws LW. rewrite access_element by exact R. cbn [adims aelems]. rewrite element_pos by exact R.
        destruct (pos ds ws) as [p|] eqn:P.
        -- pose proof (enum_nth f ds [] ws p R P) as EN'. cbn [app] in EN'. rewrite (collect_nth _ _ _ C) in EN'.
           destruct (nth_error es (Z.to_nat p)); [|discriminate]. injection EN' as EN'. unfold f in EN'. exact EN'.
        -- symmetry. apply access_outside; [exact W|]. intros IN. apply fill_inside in IN; [|exact L|exact LW].
           destruct IN as [_ IN]. apply pos_inside in IN as [p' IN]. fold ds in IN. congruence.
    + intros ws LW. apply collect_none in C. apply enum_in in C as (idx & IN & EQ). cbn [app] in EQ. symmetry in EQ. unfold f in EQ.
      apply access_outside; [exact W|]. intros IN2. apply fill_inside in IN2; [|exact L|exact LW]. destruct IN2 as [PO _].
      apply (proj2 (access_inside a (fill (adims a) ixs idx) W)); [|exact EQ].
      apply fill_inside; [exact L| |split; [exact PO|exact IN]].
      clear -IN. fold ds. induction IN; cbn; congruence.
  - assert (X' : Exists (fun d => snd d < fst d) ds) by (eapply Exists_impl; [|exact X]; cbn; intros d; lia).
    assert (A0 : forall ws, length ws = length ds -> access a (fill (adims a) ixs ws) = None).
    { intros ws LW. apply access_outside; [exact W|]. intros IN. apply fill_inside in IN; [|exact L|exact LW].
      exact (empty_not_inside ds ws X' (proj2 IN)). }
    destruct (run fuel ds f _) as [[es|]|]; try discriminate; injection S as <-.
    + split; [|split; [reflexivity|]].
      * split; [exact NE|]. split; [exact R|]. cbn [adims aelems]. rewrite (product_empty ds R X'). lia.
      * intros ws LW. rewrite A0 by exact LW. rewrite access_element by exact R. cbn [adims aelems]. rewrite element_pos by exact R.
        destruct (pos ds ws) as [p|] eqn:P; [|reflexivity]. exfalso. apply (empty_not_inside ds ws X'). apply pos_inside. eexists. exact P.
    + exact A0.
Qed.

(** * Fixed accesses, with absent indices *)
Lemma fixed_ok : forall {E} r (a : arr E) ixs, ranges_ok (adims a) -> forallb is_par ixs = true -> length ixs = length (adims a) ->
  out_value r (fixed_access a ixs) = source_value r a ixs.
Proof.
  intros E r a ixs R P L. unfold source_value.
  assert (V : exists vs, ix_values r ixs = Some vs /\ forallb absentb vs = forallb absent_par ixs /\ existsb absentb vs = existsb absent_par ixs /\
    forall ds, fill_absent ds vs = fill ds ixs []).
  { clear L R. induction ixs as [|i ixs IH]; [exists []; repeat split; intros [|d ds]; reflexivity|].
    cbn [forallb] in P. apply andb_true_iff in P as [P1 P2]. destruct (IH P2) as (vs & A & B & C & D).
    destruct i as [v| |]; try discriminate. exists (v :: vs). cbn [ix_values ix_value]. rewrite A.
    split; [reflexivity|]. cbn [forallb existsb absent_par]. rewrite B, C. destruct v as [v|]; cbn; (split; [reflexivity|split; [reflexivity|]]);
      intros [|d ds]; cbn; rewrite ?D; reflexivity. }
  destruct V as (vs & -> & B & C & D). unfold fixed_access, access_value. rewrite B, C, D, (access_element _ _ R).
  destruct (forallb absent_par ixs); [reflexivity|]. destruct (element _ _ _); reflexivity.
Qed.

(** * Accesses with an access to a fixed array as the index *)
Lemma compose_ok : forall {E} r (a a' : arr E) y l, wf' a -> ix_ok (IAcc y l) -> compose a y = Some a' ->
  wf' a' /\ adims a' = adims y /\ source_value r a' l = source_value r a [IAcc y l].
Proof.
  intros E r a a' y l W O C. pose proof O as O'. apply ix_ok_acc in O' as (Wy & L & Ol). apply wf_wf' in Wy. destruct Wy as (Ny & Ry & Ly).
  unfold compose in C. destruct (adims a) as [|d [|]] eqn:Da; try discriminate.
  destruct (collect _) as [es|] eqn:Ce; [|discriminate]. injection C as <-.
  split; [|split; [reflexivity|]].
  - split; [exact Ny|]. split; [exact Ry|]. cbn [aelems adims]. rewrite (collect_length _ _ Ce), map_length. exact Ly.
  - destruct W as (Na & Ra & La).
    rewrite source_present by assumption.
    rewrite (source_present r a [IAcc y l]); [|exact Na|exact Ra|constructor; [exact O|constructor]|rewrite Da; reflexivity].
    cbn [ix_values]. rewrite ix_value_acc. rewrite source_present by assumption.
    destruct (ix_values r l) as [vs|]; [|reflexivity].
    rewrite (access_element y _ Ry), (element_pos _ _ _ Ry).
    rewrite access_element by exact Ry. cbn [adims aelems]. rewrite element_pos by exact Ry.
    destruct (pos (adims y) (strip vs)) as [p|]; [|reflexivity].
    pose proof (collect_nth _ _ (Z.to_nat p) Ce) as CN. rewrite nth_error_map in CN.
    destruct (nth_error (aelems y) (Z.to_nat p)) as [v|]; cbn [option_map] in CN |- *.
    + destruct (nth_error es (Z.to_nat p)) as [x|]; [|discriminate]. injection CN as CN.
      cbn [strip map]. rewrite access_element by exact Ra. rewrite element_pos by exact Ra. rewrite Da. cbn [pos product].
      rewrite out_inb in CN. destruct (inb d v) eqn:I; [|discriminate]. cbn [negb] in CN.
      replace ((v - fst d) * 1 + 0) with (v - fst d) by lia. rewrite CN. reflexivity.
    + destruct (nth_error es (Z.to_nat p)); [discriminate|reflexivity].
Qed.

Theorem flatten_access_ok : forall {E} r fuel (a : arr E) ixs o, wf' a -> length ixs = length (adims a) ->
  Forall ix_ok ixs \/ forallb is_par ixs = true -> flatten_access fuel a ixs = Some o -> out_value r o = source_value r a ixs.
Proof.
  intros E r. induction fuel as [|f IH]; intros a ixs o W L O F; [discriminate|]. cbn [flatten_access] in F.
  assert (Go : forall (a : arr E) ixs o, wf' a -> length ixs = length (adims a) -> Forall ix_ok ixs ->
    match ixs with [IAcc y l] => match compose a y with Some a' => flatten_access f a' l | None => Some (OElement a ixs) end | _ => Some (OElement a ixs) end = Some o ->
    out_value r o = source_value r a ixs).
  { clear a ixs o W L O F. intros a ixs o W L O F.
    assert (Def : Some (OElement a ixs) = Some o -> out_value r o = source_value r a ixs) by (intros H; injection H as <-; reflexivity).
    destruct ixs as [|[v|k|y l] [|j q]]; try exact (Def F).
    destruct (compose a y) as [a'|] eqn:C; [|exact (Def F)]. inversion_clear O as [|? ? O1 _].
    destruct (compose_ok r a a' y l W O1 C) as (W' & D' & <-). apply ix_ok_acc in O1 as (_ & Ll & Ol).
    apply IH; [exact W'|rewrite D'; exact Ll|left; exact Ol|exact F]. }
  destruct (existsb is_par ixs) eqn:X.
  - destruct (forallb is_par ixs) eqn:A.
    + injection F as <-. apply fixed_ok; [apply W|exact A|exact L].
    + destruct O as [O|O]; [|congruence].
      destruct (slice f a ixs) as [o'|] eqn:S; [|discriminate]. pose proof (slice_ok f a ixs o' W L A S) as SO.
      pose proof (fill_values r ixs (adims a) O L) as FV.
      rewrite (source_present r a ixs (proj1 W) (proj1 (proj2 W)) O L).
      destruct o' as [a'|].
      * destruct SO as (W' & D' & AC). apply Go in F.
        -- rewrite F. rewrite (source_present r a'); [|apply W'|apply W'| |rewrite D'; apply var_lengths; exact L].
           ++ destruct (ix_values r ixs) as [vs|].
              ** destruct FV as (ws & -> & -> & LW). rewrite AC; [reflexivity|]. unfold strip. rewrite map_length. exact LW.
              ** rewrite FV. reflexivity.
           ++ apply Forall_forall. intros i Hi. apply filter_In in Hi. rewrite Forall_forall in O. apply O, Hi.
        -- exact W'.
        -- rewrite D'. apply var_lengths. exact L.
        -- apply Forall_forall. intros i Hi. apply filter_In in Hi. rewrite Forall_forall in O. apply O, Hi.
      * injection F as <-. cbn [out_value]. destruct (ix_values r ixs) as [vs|]; [|reflexivity].
        destruct FV as (ws & _ & -> & LW). rewrite SO; [reflexivity|]. unfold strip. rewrite map_length. exact LW.
  - apply Go; try assumption. destruct O as [O|O]; [exact O|].
    destruct ixs as [|i ixs]; [constructor|]. cbn in X, O. apply orb_false_iff in X as [X _]. apply andb_true_iff in O as [O _]. congruence.
Qed.

(** * The flattening ends *)
Definition ends_on {E} (a : arr E) (l : list ix) : Prop := exists n, forall f, (n <= f)%nat -> flatten_access f a l <> None.
Lemma slice_ends : forall {E} (a : arr E) ixs, wf' a -> length ixs = length (adims a) -> forallb is_par ixs = false ->
  nonempty (adims a) -> exists n, forall f, (n <= f)%nat -> slice f a ixs <> None.
Proof.
  intros E a ixs W L NP NN. set (ds := var_dims (adims a) ixs).
  destruct (loop_ends ds (fun vs => access a (fill (adims a) ixs vs)) (var_dims_nil _ _ L NP) (var_dims_nonempty _ _ NN)) as [n H].
  exists n. intros f Hf. unfold slice. fold ds. replace f with (n + (f - n))%nat by lia. rewrite H.
  destruct (collect _); discriminate.
Qed.

Lemma flatten_ends0 : forall {E} ixs, Forall (fun i => match i with IAcc y l => ix_ok i -> ix_nonempty i -> forall a : arr E, wf' a -> adims a = adims y -> ends_on a l | _ => True end) ixs ->
  Forall ix_ok ixs -> Forall ix_nonempty ixs -> forall a : arr E, wf' a -> nonempty (adims a) -> length ixs = length (adims a) -> ends_on a ixs.
Proof.
  intros E ixs P O N a W NN L.
  assert (Go : forall (a : arr E) l, wf' a -> incl l ixs -> exists n, forall f, (n <= f)%nat ->
    match l with [IAcc y l'] => match compose a y with Some a' => flatten_access f a' l' | None => Some (OElement a l) end | _ => Some (OElement a l) end <> None).
  { clear a W NN L. intros a l W I.
    destruct l as [|[v|k|y l'] [|j q]]; try (exists 0%nat; intros f _; discriminate).
    assert (Hin : In (IAcc y l') ixs) by (apply I; left; reflexivity).
    destruct (compose a y) as [a'|] eqn:C; [|exists 0%nat; intros f _; discriminate].
    rewrite Forall_forall in O, N, P. pose proof (P _ Hin (O _ Hin) (N _ Hin)) as Q. cbn in Q.
    destruct (compose_ok (fun _ => 0) a a' y l' W (O _ Hin) C) as (W' & D' & _). exact (Q a' W' D'). }
  unfold ends_on. destruct (existsb is_par ixs) eqn:X.
  - destruct (forallb is_par ixs) eqn:A.
    + exists 1%nat. intros [|f] Hf; [lia|]. cbn [flatten_access]. rewrite X, A. discriminate.
    + destruct (slice_ends a ixs W L A NN) as [n Hn].
      assert (K : exists s, forall f, (n <= f)%nat -> slice f a ixs = Some s).
      { destruct (slice n a ixs) as [s|] eqn:S; [|exfalso; apply (Hn n); [lia|exact S]]. exists s. intros f Hf.
        specialize (Hn f Hf). destruct (slice f a ixs) as [s'|] eqn:S'; [|congruence]. f_equal.
        unfold slice in S, S'. destruct (run f _ _ _) as [q'|] eqn:R'; [|discriminate]. destruct (run n _ _ _) as [q|] eqn:R; [|discriminate].
        pose proof (run_unique _ _ _ _ _ _ _ R R'). subst q'. destruct q; congruence. }
      destruct K as [s K].
      destruct s as [a'|].
      * pose proof (slice_ok n a ixs (Some a') W L A (K n ltac:(lia))) as (W' & _ & _).
        destruct (Go a' (var_ixs ixs) W') as [m Hm]; [intros i Hi; apply filter_In in Hi; apply Hi|].
        exists (S (n + m)). intros [|f] Hf; [lia|]. cbn [flatten_access]. rewrite X, A, K by lia. apply Hm. lia.
      * exists (S n). intros [|f] Hf; [lia|]. cbn [flatten_access]. rewrite X, A, K by lia. discriminate.
  - destruct (Go a ixs W) as [m Hm]; [intros i Hi; exact Hi|].
    exists (S m). intros [|f] Hf; [lia|]. cbn [flatten_access]. rewrite X. apply Hm. lia.
Qed.
Lemma flatten_ends1 : forall {E} i, match i with IAcc y l => ix_ok i -> ix_nonempty i -> forall a : arr E, wf' a -> adims a = adims y -> ends_on a l | _ => True end.
Proof.
  intros E i. induction i as [v|k|y l IH] using ix_all; [exact I|exact I|].
  intros O N a W D. apply ix_ok_acc in O as (_ & L & O). apply ix_nonempty_acc in N as [N1 N2].
  apply flatten_ends0; [exact IH|exact O|exact N2|exact W|rewrite D; exact N1|rewrite D; exact L].
Qed.
Theorem flatten_ends : forall {E} (a : arr E) ixs, wf' a -> nonempty (adims a) -> length ixs = length (adims a) ->
  Forall ix_ok ixs -> Forall ix_nonempty ixs -> exists n, forall f, (n <= f)%nat -> flatten_access f a ixs <> None.
Proof.
  intros E a ixs W NN L O N. apply flatten_ends0; try assumption. apply Forall_forall. intros i _. apply flatten_ends1.
Qed.
