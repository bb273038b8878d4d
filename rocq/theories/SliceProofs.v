(** Proofs about array accesses: the access itself, and the loop that fills in the fixed indices. *)
Require Import ZArith List Bool Lia.
From Verif Require Import SliceModel SliceSpec.
Import ListNotations.
Open Scope Z_scope.

(** * Positions *)
Definition inb (d : range) (i : Z) : bool := (fst d <=? i) && (i <=? snd d).
Fixpoint pos (ds : list range) (idx : list Z) : option Z :=
  match ds, idx with
  | [], [] => Some 0
  | d :: ds, i :: idx => if inb d i then match pos ds idx with Some p => Some ((i - fst d) * product ds + p) | None => None end else None
  | _, _ => None
  end.

Lemma out_inb : forall d i, (i <? fst d) || (snd d <? i) = negb (inb d i).
Proof.
  intros d i. unfold inb. rewrite negb_andb. f_equal; rewrite Z.leb_antisym, negb_involutive; reflexivity.
Qed.
Lemma inb_spec : forall d i, inb d i = true <-> fst d <= i <= snd d.
Proof. intros d i. unfold inb. rewrite andb_true_iff, !Z.leb_le. reflexivity. Qed.

Lemma walk_pos : forall ds idx b, walk ds idx (product ds) b = match pos ds idx with Some p => Some (b + p) | None => None end.
Proof.
  induction ds as [|d ds IH]; intros [|i idx] b; cbn [walk pos]; try reflexivity.
  - rewrite Z.add_0_r. reflexivity.
  - rewrite out_inb. destruct (inb d i) eqn:I; cbn [negb]; [|reflexivity]. apply inb_spec in I.
    assert (Q : Z.quot (product (d :: ds)) (rwidth d) = product ds).
    { cbn [product]. rewrite Z.mul_comm. apply Z.quot_mul. unfold rwidth. lia. }
    rewrite Q, IH. destruct (pos ds idx); [f_equal; lia|reflexivity].
Qed.

Definition ranges_ok (ds : list range) : Prop := Forall (fun d => fst d <= snd d + 1) ds.
Lemma product_nonneg : forall ds, ranges_ok ds -> 0 <= product ds.
Proof.
  induction ds as [|d ds IH]; intros H; cbn [product]; [lia|]. inversion_clear H as [|? ? H1 H2].
  apply Z.mul_nonneg_nonneg; [unfold rwidth; lia|apply IH; exact H2].
Qed.
Lemma pos_bound : forall ds idx p, ranges_ok ds -> pos ds idx = Some p -> 0 <= p < product ds.
Proof.
  induction ds as [|d ds IH]; intros [|i idx] p H E; cbn [pos] in E; try discriminate.
  - injection E as <-. cbn. lia.
  - inversion_clear H as [|? ? H1 H2]. destruct (inb d i) eqn:I; [|discriminate]. apply inb_spec in I.
    destruct (pos ds idx) as [q|] eqn:Q; [|discriminate]. injection E as <-.
    pose proof (IH _ _ H2 Q) as B. cbn [product]. unfold rwidth. nia.
Qed.

Lemma nth_block : forall {E} (l : list E) n b p, (p < b)%nat -> nth_error (firstn b (skipn n l)) p = nth_error l (n + p).
Proof.
  intros E l n b p H.
  assert (A : forall (m : list E) b p, (p < b)%nat -> nth_error (firstn b m) p = nth_error m p).
  { induction m as [|x m IH]; intros [|b'] [|p'] Hp; cbn; try reflexivity; try lia. apply IH. lia. }
  rewrite A by exact H. clear.
  revert l. induction n as [|n IH]; intros l; [reflexivity|]. destruct l as [|x l]; cbn; [destruct p; reflexivity|apply IH].
Qed.

Lemma element_pos : forall {E} ds (l : list E) idx, ranges_ok ds ->
  element ds l idx = match pos ds idx with Some p => nth_error l (Z.to_nat p) | None => None end.
Proof.
  intros E. induction ds as [|d ds IH]; intros l [|i idx] H; cbn [element pos]; try reflexivity.
  inversion_clear H as [|? ? H1 H2]. fold (inb d i). destruct (inb d i) eqn:I; [|reflexivity]. apply inb_spec in I.
  rewrite IH by exact H2. destruct (pos ds idx) as [p|] eqn:P; [|reflexivity].
  pose proof (pos_bound _ _ _ H2 P) as B. rewrite nth_block by lia. f_equal.
  rewrite Z2Nat.inj_add, Z2Nat.inj_mul by (try apply Z.mul_nonneg_nonneg; lia). reflexivity.
Qed.

Lemma access_element : forall {E} (a : arr E) idx, ranges_ok (adims a) -> access a idx = element (adims a) (aelems a) idx.
Proof.
  intros E a idx H. unfold access. rewrite walk_pos, (element_pos _ _ _ H). destruct (pos (adims a) idx); reflexivity.
Qed.

(** enough elements *)
Definition wf' {E} (a : arr E) : Prop :=
  adims a <> [] /\ ranges_ok (adims a) /\ product (adims a) <= Z.of_nat (length (aelems a)).
Lemma wf_wf' : forall {E} (a : arr E), wf a -> wf' a.
Proof. intros E a (N & R & L). split; [exact N|]. split; [exact R|lia]. Qed.

Definition inside (ds : list range) (idx : list Z) : Prop := Forall2 (fun d i => fst d <= i <= snd d) ds idx.
Lemma pos_inside : forall ds idx, inside ds idx <-> exists p, pos ds idx = Some p.
Proof.
  induction ds as [|d ds IH]; intros [|i idx]; cbn [pos].
  - split; [intros _; eexists; reflexivity|intros _; constructor].
  - split; [intros H; inversion H|intros [p E]; discriminate].
  - split; [intros H; inversion H|intros [p E]; discriminate].
  - split.
    + intros H. inversion_clear H as [|? ? ? ? H1 H2]. apply inb_spec in H1. rewrite H1. apply IH in H2 as [p ->]. eexists. reflexivity.
    + intros [p E]. destruct (inb d i) eqn:I; [|discriminate]. apply inb_spec in I. destruct (pos ds idx) eqn:P; [|discriminate].
      constructor; [exact I|]. apply IH. eexists. exact P.
Qed.
Lemma access_inside : forall {E} (a : arr E) idx, wf' a -> (access a idx <> None <-> inside (adims a) idx).
Proof.
  intros E a idx (N & R & L). rewrite (access_element _ _ R), (element_pos _ _ _ R). rewrite pos_inside.
  destruct (pos (adims a) idx) as [p|] eqn:P.
  - split; [intros _; eexists; reflexivity|intros _]. apply nth_error_Some. pose proof (pos_bound _ _ _ R P). lia.
  - split; [congruence|intros [q E']; discriminate].
Qed.

(** * All tuples of indices *)
Fixpoint enum {E} (f : list Z -> option E) (p : list Z) (ds : list range) : list (option E) :=
  match ds with
  | [] => [f p]
  | d :: ds => flat_map (fun i => enum f (p ++ [i]) ds) (zrange (fst d) (snd d))
  end.

Lemma zrange_cons : forall lo hi, lo <= hi -> zrange lo hi = lo :: zrange (lo + 1) hi.
Proof.
  intros lo hi H. unfold zrange. replace (Z.to_nat (hi - lo + 1)) with (S (Z.to_nat (hi - (lo + 1) + 1))) by lia.
  cbn [seq map]. f_equal; [lia|]. rewrite <- seq_shift, map_map. apply map_ext. intros k. lia.
Qed.
Lemma zrange_nil : forall lo hi, hi < lo -> zrange lo hi = [].
Proof. intros lo hi H. unfold zrange. replace (Z.to_nat (hi - lo + 1)) with 0%nat by lia. reflexivity. Qed.
Lemma zrange_in : forall lo hi i, In i (zrange lo hi) <-> lo <= i <= hi.
Proof.
  intros lo hi i. unfold zrange. rewrite in_map_iff. split.
  - intros (k & <- & H). apply in_seq in H. lia.
  - intros H. exists (Z.to_nat (i - lo)). split; [lia|]. apply in_seq. lia.
Qed.
Lemma zrange_length : forall lo hi, length (zrange lo hi) = Z.to_nat (hi - lo + 1).
Proof. intros lo hi. unfold zrange. rewrite map_length, seq_length. reflexivity. Qed.
Lemma zrange_nth : forall lo hi k, (k < Z.to_nat (hi - lo + 1))%nat -> nth_error (zrange lo hi) k = Some (lo + Z.of_nat k).
Proof.
  intros lo hi k H. unfold zrange. rewrite nth_error_map.
  rewrite (nth_error_nth' _ 0%nat) by (rewrite seq_length; exact H). rewrite seq_nth by exact H. reflexivity.
Qed.

Lemma enum_length : forall {E} (f : list Z -> option E) ds p, ranges_ok ds -> Z.of_nat (length (enum f p ds)) = product ds.
Proof.
  intros E f. induction ds as [|d ds IH]; intros p H; [reflexivity|]. inversion_clear H as [|? ? H1 H2]. cbn [enum product].
  assert (G : forall l, Z.of_nat (length (flat_map (fun i => enum f (p ++ [i]) ds) l)) = Z.of_nat (length l) * product ds).
  { induction l as [|i l IHl]; [reflexivity|]. cbn [flat_map length]. rewrite app_length, Nat2Z.inj_add, IHl, IH by exact H2. lia. }
  rewrite G, zrange_length. unfold rwidth. f_equal. lia.
Qed.

Lemma nth_flat_map : forall {A B} (f : A -> list B) n l k i q, (forall a, length (f a) = n) -> nth_error l k = Some i -> (q < n)%nat ->
  nth_error (flat_map f l) (k * n + q) = nth_error (f i) q.
Proof.
  intros A B f n l. induction l as [|a l IH]; intros k i q L H Q; [destruct k; discriminate|].
  cbn [flat_map]. destruct k as [|k]; cbn in H.
  - injection H as <-. cbn [Nat.mul Nat.add]. rewrite nth_error_app1 by (rewrite L; exact Q). reflexivity.
  - rewrite nth_error_app2 by (rewrite L; lia). rewrite L. replace (S k * n + q - n)%nat with (k * n + q)%nat by lia. apply IH; assumption.
Qed.

Lemma enum_nth : forall {E} (f : list Z -> option E) ds p idx q, ranges_ok ds -> pos ds idx = Some q ->
  nth_error (enum f p ds) (Z.to_nat q) = Some (f (p ++ idx)).
Proof.
  intros E f. induction ds as [|d ds IH]; intros p [|i idx] q H P; cbn [pos] in P; try discriminate.
  - injection P as <-. rewrite app_nil_r. reflexivity.
  - pose proof H as H0. inversion_clear H as [|? ? H1 H2]. destruct (inb d i) eqn:I; [|discriminate]. apply inb_spec in I.
    destruct (pos ds idx) as [r|] eqn:R; [|discriminate]. injection P as <-. pose proof (pos_bound _ _ _ H2 R) as B.
    cbn [enum]. rewrite Z2Nat.inj_add, Z2Nat.inj_mul by (try apply Z.mul_nonneg_nonneg; lia).
    rewrite (nth_flat_map _ (Z.to_nat (product ds)) _ _ i).
    + rewrite (IH _ _ _ H2 R). rewrite <- app_assoc. reflexivity.
    + intros j. pose proof (enum_length f ds (p ++ [j]) H2). lia.
    + rewrite zrange_nth by lia. f_equal. lia.
    + lia.
Qed.

Lemma enum_in : forall {E} (f : list Z -> option E) ds p o, In o (enum f p ds) -> exists idx, inside ds idx /\ o = f (p ++ idx).
Proof.
  intros E f. induction ds as [|d ds IH]; intros p o H; cbn [enum] in H.
  - destruct H as [<-|[]]. exists []. split; [constructor|]. rewrite app_nil_r. reflexivity.
  - apply in_flat_map in H as (i & I & H). apply zrange_in in I. apply IH in H as (idx & J & ->).
    exists (i :: idx). split; [constructor; assumption|]. rewrite <- app_assoc. reflexivity.
Qed.

(** * collect *)
Lemma collect_app : forall {A} (l m : list (option A)), collect (l ++ m) =
  match collect l with Some xs => match collect m with Some ys => Some (xs ++ ys) | None => None end | None => None end.
Proof.
  induction l as [|[x|] l IH]; intros m; cbn [collect app]; [destruct (collect m); reflexivity| |reflexivity].
  rewrite IH. destruct (collect l); [|reflexivity]. destruct (collect m); reflexivity.
Qed.
Lemma collect_nth : forall {A} (l : list (option A)) xs k, collect l = Some xs ->
  nth_error l k = match nth_error xs k with Some x => Some (Some x) | None => None end.
Proof.
  induction l as [|[x|] l IH]; intros xs k H; cbn [collect] in H; try discriminate.
  - injection H as <-. destruct k; reflexivity.
  - destruct (collect l) as [ys|]; [|discriminate]. injection H as <-. destruct k as [|k]; [reflexivity|]. cbn. apply IH. reflexivity.
Qed.
Lemma collect_length : forall {A} (l : list (option A)) xs, collect l = Some xs -> length xs = length l.
Proof.
  induction l as [|[x|] l IH]; intros xs H; cbn [collect] in H; try discriminate.
  - injection H as <-. reflexivity.
  - destruct (collect l) as [ys|]; [|discriminate]. injection H as <-. cbn. f_equal. apply IH. reflexivity.
Qed.
Lemma collect_none : forall {A} (l : list (option A)), collect l = None -> In None l.
Proof.
  induction l as [|[x|] l IH]; intros H; cbn [collect] in H; try discriminate.
  - right. apply IH. destruct (collect l); [discriminate|reflexivity].
  - left. reflexivity.
Qed.

(** * The loop *)
Section Loop.
Context {E : Type}.
Variable ds : list range.
Variable acc : list Z -> option E.

Definition reaches (s s' : state E) : Prop := exists n, forall k, run (n + k) ds acc s = run k ds acc s'.
Definition ends_with (s : state E) (o : option (list E)) : Prop := exists n, forall k, run (n + k) ds acc s = Some o.

Lemma reach_refl : forall s, reaches s s.
Proof. intros s. exists 0%nat. reflexivity. Qed.
Lemma reach_trans : forall s t u, reaches s t -> reaches t u -> reaches s u.
Proof.
  intros s t u [n N] [m M]. exists (n + m)%nat. intros k. rewrite <- Nat.add_assoc, N, M. reflexivity.
Qed.
Lemma reach_end : forall s t o, reaches s t -> ends_with t o -> ends_with s o.
Proof. intros s t o [n N] [m M]. exists (n + m)%nat. intros k. rewrite <- Nat.add_assoc, N, M. reflexivity. Qed.
Lemma turn_reach : forall s t, turn ds acc s = inl t -> reaches s t.
Proof. intros s t H. exists 1%nat. intros k. cbn [Nat.add run]. rewrite H. reflexivity. Qed.
Lemma turn_end : forall s o, turn ds acc s = inr o -> ends_with s o.
Proof. intros s o H. exists 1%nat. intros k. cbn [Nat.add run]. rewrite H. reflexivity. Qed.

Lemma set_at_app : forall (p s : list Z) v w, set_at (p ++ v :: s) (length p) w = p ++ w :: s.
Proof.
  intros p s v w. unfold set_at. rewrite firstn_app, Nat.sub_diag, firstn_all. cbn [firstn]. rewrite app_nil_r. f_equal. f_equal.
  induction p as [|x p IH]; [reflexivity|exact IH].
Qed.
Lemma nth_app_here : forall (p s : list Z) v, nth (length p) (p ++ v :: s) 0 = v.
Proof. intros p s v. rewrite app_nth2 by lia. rewrite Nat.sub_diag. reflexivity. Qed.

(** the values at the places from here on: the minimum, except at the last place *)
Inductive fresh : list range -> list Z -> Prop :=
  | fresh_last d v : fresh [d] [v]
  | fresh_cons d es s : es <> [] -> fresh es s -> fresh (d :: es) (fst d :: s).

Lemma fresh_mins : forall es, es <> [] -> fresh es (map fst es).
Proof.
  induction es as [|d es IH]; intros H; [congruence|]. destruct es as [|d' es]; [constructor|].
  cbn [map]. constructor; [discriminate|]. apply IH. discriminate.
Qed.

Definition loop_result (s : state E) (p : list Z) (es : list range) (rest : list nat) (elems : list E) (l : list (option E)) : Prop :=
  match collect l with
  | Some xs => exists s', fresh es s' /\ reaches s (p ++ s', rest, elems ++ xs)
  | None => ends_with s None
  end.

Lemma last_turn : forall d p v rest elems, skipn (length p) ds = [d] ->
  loop_result (p ++ [v], length p :: rest, elems) p [d] rest elems (enum acc p [d]).
Proof.
  intros d p v rest elems S.
  assert (L : length ds = Datatypes.S (length p)).
  { pose proof (f_equal (@length _) S) as L. rewrite skipn_length in L. cbn in L. lia. }
  assert (N : nth (length p) ds (0, 0) = d).
  { rewrite <- (firstn_skipn (length p) ds), S, app_nth2; rewrite firstn_length_le by lia; [|lia]. rewrite Nat.sub_diag. reflexivity. }
  assert (M : map (fun i => acc (set_at (p ++ [v]) (length p) i)) (zrange (fst d) (snd d)) = enum acc p [d]).
  { cbn [enum]. induction (zrange (fst d) (snd d)) as [|i l IH]; [reflexivity|]. cbn [map flat_map app]. rewrite IH, set_at_app. reflexivity. }
  assert (T : turn ds acc (p ++ [v], length p :: rest, elems) =
    match collect (enum acc p [d]) with
    | None => inr None
    | Some es => inl (match zrange (fst d) (snd d) with [] => p ++ [v] | _ => p ++ [snd d] end, rest, elems ++ es)
    end).
  { unfold turn. rewrite N, L. cbn [Nat.sub]. rewrite Nat.sub_0_r, Nat.eqb_refl, M. rewrite set_at_app. reflexivity. }
  unfold loop_result. destruct (collect (enum acc p [d])) as [xs|].
  - destruct (zrange (fst d) (snd d)).
    + exists [v]. split; [constructor|]. apply turn_reach. exact T.
    + exists [snd d]. split; [constructor|]. apply turn_reach. exact T.
  - apply turn_end. exact T.
Qed.

Lemma loop_from : forall es p s rest elems, es <> [] -> skipn (length p) ds = es -> fresh es s -> nonempty es ->
  loop_result (p ++ s, rev (seq (length p) (length es)) ++ rest, elems) p es rest elems (enum acc p es).
Proof.
  induction es as [|d es IH]; intros p s rest elems NE SK F NN; [congruence|].
  destruct es as [|d' es].
  - inversion F as [? v|? ? ? C]; subst; [|congruence]. cbn [length seq rev app]. apply last_turn. exact SK.
  - set (es' := d' :: es) in *. inversion F as [|? ? s2 C F2]; subst; clear F.
    inversion_clear NN as [|? ? Hd NN2].
    assert (L : length ds = (length p + S (length es'))%nat).
    { pose proof (f_equal (@length _) SK) as L. rewrite skipn_length in L. cbn [length] in L. cbn [length]. lia. }
    assert (N : nth (length p) ds (0, 0) = d).
    { rewrite <- (firstn_skipn (length p) ds), SK, app_nth2; rewrite firstn_length_le by lia; [|lia]. rewrite Nat.sub_diag. reflexivity. }
    assert (SK' : forall v : Z, skipn (length (p ++ [v])) ds = es').
    { intros v. rewrite app_length. cbn [length]. rewrite Nat.add_1_r. clear -SK. revert SK. generalize (length p) as n.
      generalize ds as l. induction l as [|x l IHl]; intros [|n] H; cbn in *; try discriminate.
      - injection H as _ H. exact H.
      - apply IHl. exact H. }
    assert (Ep : (0 < length es')%nat) by (unfold es'; cbn [length]; lia).
    assert (Inner : forall m v s2 elems, m = Z.to_nat (snd d - v) -> fst d <= v <= snd d -> fresh es' s2 ->
      loop_result (p ++ v :: s2, rev (seq (S (length p)) (length es')) ++ length p :: rest, elems) p (d :: es') rest elems
        (flat_map (fun i => enum acc (p ++ [i]) es') (zrange v (snd d)))).
    { clear elems s2 F2. induction m as [|m IHm]; intros v s2 elems M V F2.
      - (* the last value *)
        assert (v = snd d) by lia. subst v. rewrite zrange_cons by lia. rewrite (zrange_nil (snd d + 1)) by lia. cbn [flat_map]. rewrite app_nil_r.
        pose proof (IH (p ++ [snd d]) s2 (length p :: rest) elems ltac:(discriminate) (SK' _) F2 NN2) as R.
        unfold loop_result in *. rewrite <- app_assoc in R. cbn [app] in R. rewrite app_length in R. cbn [length] in R. rewrite Nat.add_1_r in R.
        fold (length es') in R.
        destruct (collect (enum acc (p ++ [snd d]) es')) as [xs|]; [|exact R].
        destruct R as (s3 & F3 & R). exists (fst d :: s3). split; [constructor; [discriminate|exact F3]|].
        eapply reach_trans; [exact R|]. apply turn_reach. unfold turn. rewrite N.
        rewrite <- app_assoc. cbn [app]. rewrite nth_app_here, Z.eqb_refl.
        assert (Q : Nat.eqb (length p) (length ds - 1) = false) by (apply Nat.eqb_neq; rewrite L; lia).
        rewrite Q, set_at_app. reflexivity.
      - rewrite zrange_cons by lia. cbn [flat_map].
        pose proof (IH (p ++ [v]) s2 (length p :: rest) elems ltac:(discriminate) (SK' _) F2 NN2) as R.
        unfold loop_result in R |- *. rewrite <- app_assoc in R. cbn [app] in R. rewrite app_length in R. cbn [length] in R. rewrite Nat.add_1_r in R.
        fold (length es') in R. rewrite collect_app.
        destruct (collect (enum acc (p ++ [v]) es')) as [xs|]; [|exact R].
        destruct R as (s3 & F3 & R).
        assert (R2 : reaches (p ++ v :: s2, rev (seq (S (length p)) (length es')) ++ length p :: rest, elems)
          (p ++ (v + 1) :: s3, rev (seq (S (length p)) (length es')) ++ length p :: rest, elems ++ xs)).
        { eapply reach_trans; [exact R|]. apply turn_reach. unfold turn. rewrite N.
          rewrite <- app_assoc. cbn [app]. rewrite nth_app_here.
          assert (Q : Nat.eqb (length p) (length ds - 1) = false) by (apply Nat.eqb_neq; rewrite L; lia).
          rewrite Q. assert (Q2 : (v =? snd d) = false) by (apply Z.eqb_neq; lia). rewrite Q2.
          replace (length ds - S (length p))%nat with (length es') by lia. rewrite set_at_app. reflexivity. }
        pose proof (IHm (v + 1) s3 (elems ++ xs) ltac:(lia) ltac:(lia) F3) as R3. unfold loop_result in R3.
        destruct (collect (flat_map (fun i => enum acc (p ++ [i]) es') (zrange (v + 1) (snd d)))) as [ys|].
        + destruct R3 as (s4 & F4 & R3). exists s4. split; [exact F4|]. rewrite app_assoc. eapply reach_trans; eassumption.
        + eapply reach_end; eassumption. }
    change (seq (length p) (length (d :: es'))) with (length p :: seq (S (length p)) (length es')). cbn [rev].
    rewrite <- app_assoc. cbn [app]. apply (Inner (Z.to_nat (snd d - fst d)) (fst d) s2 elems eq_refl); [lia|exact F2].
Qed.

Theorem loop_ends : ds <> [] -> nonempty ds ->
  ends_with (map fst ds, rev (seq 0 (length ds)), []) (collect (enum acc [] ds)).
Proof.
  intros NE NN. pose proof (loop_from ds [] (map fst ds) [] [] NE eq_refl (fresh_mins ds NE) NN) as R.
  unfold loop_result in R. cbn [length app] in R. rewrite app_nil_r in R.
  destruct (collect (enum acc [] ds)) as [xs|]; [|exact R].
  destruct R as (s' & _ & R). eapply reach_end; [exact R|]. apply turn_end. reflexivity.
Qed.

Lemma run_unique : forall n m s o o', run n ds acc s = Some o -> run m ds acc s = Some o' -> o = o'.
Proof.
  induction n as [|n IH]; intros m s o o' H G; [discriminate|]. destruct m as [|m]; [discriminate|]. cbn [run] in H, G.
  destruct (turn ds acc s) as [t|q]; [|congruence]. eapply IH; eassumption.
Qed.
End Loop.
