Require Import List Arith Bool Lia Sorted.
From Verif Require Import SpecialiseModel SpecialiseSpec.
Import ListNotations.

Lemma upd_same : forall A (f : nat -> A) i x, upd f i x i = x.
Proof. intros; unfold upd; rewrite Nat.eqb_refl; reflexivity. Qed.
Lemma upd_other : forall A (f : nat -> A) i x j, j <> i -> upd f i x j = f j.
Proof. intros A f i x j N; unfold upd. destruct (j =? i) eqn:E; [apply Nat.eqb_eq in E; contradiction|reflexivity]. Qed.

Lemma base_eqb_eq : forall a b, base_eqb a b = true <-> a = b.
Proof.
  intros [| | |k] [| | |l]; cbn; split; intros E; try discriminate; try reflexivity.
  - apply Nat.eqb_eq in E. subst. reflexivity.
  - injection E as <-. apply Nat.eqb_refl.
Qed.
Lemma base_type_eq : forall T o, base_type T o = (place_base T o, place_enum T o).
Proof. intros T [i [j|]]; reflexivity. Qed.

Lemma adapt_same : forall T o b,
  place_base (adapt T o b) o = match snd o with None => fst b | Some _ => IntBase end /\
  place_enum (adapt T o b) o = if snd b =? 0 then 0 else place_enum T o.
Proof.
  intros T [i [j|]] b; unfold adapt, place_base, place_enum; cbn [fst snd]; rewrite ?upd_same; cbn; (split; [reflexivity|]);
    destruct (snd b =? 0); rewrite ?upd_same; reflexivity.
Qed.
Lemma adapt_other : forall T o b o', o' <> o ->
  place_base (adapt T o b) o' = place_base T o' /\ place_enum (adapt T o b) o' = place_enum T o'.
Proof.
  intros T [i p] b [i' p'] N. destruct (Nat.eq_dec i' i) as [->|NE].
  - unfold adapt, place_base, place_enum; destruct p as [j|], p' as [j'|]; cbn [fst snd]; rewrite ?upd_same; cbn;
      try (split; reflexivity); try congruence.
    + split; [reflexivity|]. destruct (snd b =? 0); [|reflexivity]. apply upd_other. congruence.
  - unfold adapt, place_base, place_enum; destruct p as [j|], p' as [j'|]; cbn [fst snd]; rewrite ?upd_other by assumption; split; reflexivity.
Qed.
Lemma adapt_rest : forall T o b i, trest (adapt T o b i) = trest (T i).
Proof.
  intros T [k [j|]] b i; unfold adapt; cbn [fst snd]; unfold upd; destruct (i =? k) eqn:E; try reflexivity;
    apply Nat.eqb_eq in E; subst; reflexivity.
Qed.

Definition adapts (T : nat -> aty) (l : list occ) (b : base * nat) : nat -> aty := fold_left (fun t o => adapt t o b) l T.
Lemma adapts_other : forall l T b o, ~ In o l ->
  place_base (adapts T l b) o = place_base T o /\ place_enum (adapts T l b) o = place_enum T o.
Proof.
  induction l as [|a l IH]; intros T b o N; cbn; [split; reflexivity|].
  destruct (IH (adapt T a b) b o (fun X => N (or_intror X))) as [A B].
  destruct (adapt_other T a b o (fun X => N (or_introl (eq_sym X)))) as [C D].
  unfold adapts in *. split; congruence.
Qed.
Lemma occ_dec : forall a b : occ, {a = b} + {a <> b}. Proof. repeat decide equality. Qed.
Lemma adapts_in : forall l T b o, In o l ->
  place_base (adapts T l b) o = match snd o with None => fst b | Some _ => IntBase end /\
  place_enum (adapts T l b) o = if snd b =? 0 then 0 else place_enum T o.
Proof.
  induction l as [|a l IH]; intros T b o I; [contradiction|]. cbn. change (fold_left _ l (adapt T a b)) with (adapts (adapt T a b) l b).
  destruct (in_dec occ_dec o l) as [X|X].
  - destruct (IH (adapt T a b) b o X) as [A B]. split; [exact A|]. rewrite B. destruct (snd b =? 0) eqn:Z; [reflexivity|].
    destruct (occ_dec o a) as [->|NE]; [destruct (adapt_same T a b) as [_ C]; rewrite C, Z; reflexivity|apply adapt_other; assumption].
  - destruct I as [->|I]; [|contradiction]. destruct (adapts_other l (adapt T o b) b o X) as [A B]. rewrite A, B. apply adapt_same.
Qed.
Lemma adapts_rest : forall l T b i, trest (adapts T l b i) = trest (T i).
Proof.
  induction l as [|a l IH]; intros T b i; [reflexivity|]. cbn. change (fold_left _ l (adapt T a b)) with (adapts (adapt T a b) l b).
  rewrite IH. apply adapt_rest.
Qed.

Lemma below_trans : forall a b c, below a b -> below b c -> below a c.
Proof. intros a b c [] B; inversion B; subst; constructor. Qed.

Lemma meet_base : forall b e c e', below b c \/ below c b ->
  let r := fst (type_meet (b, e) (c, e')) in below b r /\ below c r /\ (r = b \/ r = c).
Proof.
  intros b e c e' [X|X]; destruct X as [b| | |]; cbn; try (destruct b); cbn; repeat split; auto; constructor.
Qed.

(** ** the loop over the occurrences *)
Definition occs_of (v : nat) (l : list (nat * occ)) : list occ := map snd (filter (fun x => fst x =? v) l).
Lemma occs_of_in : forall v l o, In o (occs_of v l) <-> In (v, o) l.
Proof.
  intros v l o. unfold occs_of. rewrite in_map_iff. split.
  - intros ([v' o'] & E & X). cbn in E. subst o'. apply filter_In in X. destruct X as [X Q]. cbn in Q. apply Nat.eqb_eq in Q. subst. exact X.
  - intros X. exists (v, o). split; [reflexivity|]. apply filter_In. split; [exact X|cbn; apply Nat.eqb_refl].
Qed.
Lemma occs_of_app : forall v l l', occs_of v (l ++ l') = occs_of v l ++ occs_of v l'.
Proof. intros. unfold occs_of. rewrite filter_app, map_app. reflexivity. Qed.

Record Inv (T0 : nat -> aty) (done : list (nat * occ)) (T : nat -> aty) (m : nat -> list occ) : Prop := {
  i_out : forall o, ~ In o (map snd done) -> place_base T o = place_base T0 o /\ place_enum T o = place_enum T0 o;
  i_map : forall v, m v = occs_of v done;
  i_base : forall v, m v <> [] -> exists b,
     (forall o, In o (m v) -> place_base T o = b /\ below (place_base T0 o) b) /\ exists o, In o (m v) /\ place_base T0 o = b;
  i_zero : forall v o0 r, m v = o0 :: r -> place_enum T0 o0 = 0 -> forall o, In o (m v) -> place_enum T o = 0;
  i_enum : forall v e, (forall o, In o (m v) -> place_enum T0 o = e) -> forall o, In o (m v) -> place_enum T o = e;
  i_rest : forall i, trest (T i) = trest (T0 i)
}.

Lemma supertype_cons : forall T l o0 r o, l = o0 :: r ->
  supertype T l o = let lcs := type_meet (base_type T o0) (base_type T o) in
    adapt (if base_eqb (fst lcs) (fst (base_type T o0)) then T else adapts T l lcs) o lcs.
Proof. intros T l o0 r o ->. reflexivity. Qed.
Lemma nil_or_cons : forall A (l : list A), l = [] \/ exists a r, l = a :: r.
Proof. intros A [|a r]; [left; reflexivity|right; exists a, r; reflexivity]. Qed.

Section L.
Context (T0 : nat -> aty) (all : list (nat * occ)).
Context (ND : NoDup (map snd all)).
Context (CMP : forall v o o', In (v, o) all -> In (v, o') all ->
           below (place_base T0 o) (place_base T0 o') \/ below (place_base T0 o') (place_base T0 o)).
Context (NF : forall v o i j, In (v, o) all -> In (v, (i, Some j)) all -> place_base T0 o <> FloatBase).
Context (EI : forall o, place_enum T0 o <> 0 -> place_base T0 o = IntBase).

Lemma one_var : forall v v' o, In (v, o) all -> In (v', o) all -> v = v'.
Proof.
  clear - ND. induction all as [|[w p] l IH]; intros v v' o A B; [contradiction|]. cbn in ND. inversion ND as [|x y N1 N2]; subst.
  destruct A as [A|A], B as [B|B].
  - congruence.
  - injection A as -> ->. exfalso. apply N1. apply (in_map snd) in B. exact B.
  - injection B as -> ->. exfalso. apply N1. apply (in_map snd) in A. exact A.
  - eapply IH; eassumption.
Qed.

Lemma step_inv : forall done v o rest T m, all = done ++ (v, o) :: rest -> Inv T0 done T m ->
  Inv T0 (done ++ [(v, o)]) (supertype T (m v) o) (upd m v (m v ++ [o])).
Proof.
  intros done v o rest T m AE I.
  assert (INA : forall x, In x done -> In x all) by (intros x X; rewrite AE; apply in_or_app; left; exact X).
  assert (IVO : In (v, o) all) by (rewrite AE; apply in_or_app; right; left; reflexivity).
  assert (NO : ~ In o (map snd done)).
  { pose proof ND as N. rewrite AE, map_app in N. cbn in N. apply NoDup_remove_2 in N. intros X. apply N. apply in_or_app. left. exact X. }
  assert (MIN : forall w p, In p (m w) <-> In (w, p) done) by (intros w p; rewrite (i_map _ _ _ _ I); apply occs_of_in).
  assert (MO : forall w p, In p (m w) -> p <> o).
  { intros w p X ->. apply NO. apply MIN in X. apply (in_map snd) in X. exact X. }
  assert (MV : forall w p, In p (m w) -> In p (m v) -> w = v).
  { intros w p X Y. apply MIN in X. apply MIN in Y. eapply one_var; [apply INA; exact X|apply INA; exact Y]. }
  destruct (i_out _ _ _ _ I o NO) as [OB OE].
  (* what the step does to the places *)
  set (T' := supertype T (m v) o).
  assert (OTH : forall p, p <> o -> ~ In p (m v) -> place_base T' p = place_base T p /\ place_enum T' p = place_enum T p).
  { intros p N1 N2. unfold T', supertype. destruct (m v) as [|o0 r] eqn:MQ; [split; reflexivity|]. cbv zeta.
    match goal with |- context [adapt ?t o ?b] => destruct (adapt_other t o b p N1) as [A B]; rewrite A, B end.
    destruct (base_eqb _ _); [split; reflexivity|]. apply (adapts_other (o0 :: r)). exact N2. }
  assert (RS : forall i, trest (T' i) = trest (T i)).
  { intros i. unfold T', supertype. destruct (m v) as [|o0 r]; [reflexivity|]. cbv zeta. rewrite adapt_rest.
    destruct (base_eqb _ _); [reflexivity|]. apply (adapts_rest (o0 :: r)). }
  (* the variable v itself *)
  assert (BV : exists b, (forall p, In p (m v ++ [o]) -> place_base T' p = b /\ below (place_base T0 p) b) /\
                exists p, In p (m v ++ [o]) /\ place_base T0 p = b).
  { destruct (nil_or_cons _ (m v)) as [MQ|(o0 & r & MQ)].
    { unfold T'. rewrite MQ. exists (place_base T0 o). split; [|exists o; cbn; auto]. intros p [<-|[]]. split; [exact OB|constructor]. }
    destruct (i_base _ _ _ _ I v ltac:(rewrite MQ; discriminate)) as (b & B1 & o1 & B2 & B3).
    assert (B0 : place_base T o0 = b) by (apply B1; rewrite MQ; left; reflexivity).
    assert (C : below b (place_base T0 o) \/ below (place_base T0 o) b) by (rewrite <- B3; apply (CMP v); [apply INA, MIN; exact B2|exact IVO]).
    unfold T'. rewrite (supertype_cons _ _ _ _ _ MQ). cbv zeta. rewrite !base_type_eq, B0, OB, OE.
    pose proof (meet_base b (place_enum T o0) (place_base T0 o) (place_enum T0 o) C) as MB. cbv zeta in MB.
    set (lcs := type_meet (b, place_enum T o0) (place_base T0 o, place_enum T0 o)) in *. cbn [fst].
    destruct MB as (M1 & M2 & M3).
    assert (IX : forall p j, In p (m v ++ [o]) -> snd p = Some j -> fst lcs = IntBase).
    { intros [i s] j X Q. cbn in Q. subst s. assert (X' : In (v, (i, Some j)) all).
      { apply in_app_or in X. destruct X as [X|[X|[]]]; [apply INA, MIN; exact X|rewrite <- X; exact IVO]. }
      assert (F1 : b <> FloatBase) by (rewrite <- B3; eapply (NF v); [apply INA, MIN; exact B2|exact X']).
      assert (F2 : place_base T0 o <> FloatBase) by (eapply (NF v); eassumption).
      assert (II : b = IntBase \/ place_base T0 o = IntBase).
      { apply in_app_or in X. destruct X as [X|[X|[]]].
        - left. destruct (B1 _ X) as [Y _]. rewrite <- Y. reflexivity.
        - right. rewrite X. reflexivity. }
      destruct II as [II|II]; rewrite II in *.
      - destruct M3 as [M3|M3]; [exact M3|]. destruct C as [C|C]; inversion C; subst; congruence || (rewrite M3 in M1; inversion M1; subst; congruence).
      - destruct M3 as [M3|M3]; [|exact M3]. rewrite M3 in *. inversion M2; subst; congruence. }
    exists (fst lcs). split.
    - intros p X. apply in_app_or in X.
      destruct X as [X|[<-|[]]].
      + match goal with |- context [adapt ?t o ?bb] => destruct (adapt_other t o bb p (MO _ _ X)) as [A _]; rewrite A end.
        split; [|eapply below_trans; [apply B1; exact X|exact M1]].
        destruct (base_eqb (fst lcs) b) eqn:Q; [apply base_eqb_eq in Q; rewrite Q; apply B1; exact X|].
        destruct (adapts_in (m v) T lcs p X) as [Y _]. rewrite Y.
        destruct (snd p) as [j|] eqn:SP; [|reflexivity]. symmetry. eapply IX; [apply in_or_app; left; exact X|exact SP].
      + split; [|exact M2]. match goal with |- context [adapt ?t o ?bb] => destruct (adapt_same t o bb) as [A _]; rewrite A end.
        destruct (snd o) as [j|] eqn:SP; [|reflexivity]. symmetry. eapply IX; [apply in_or_app; right; left; reflexivity|exact SP].
    - destruct M3 as [M3|M3]; [exists o1|exists o]; (split; [apply in_or_app; auto; right; left; reflexivity|congruence]). }
  assert (ZV : forall o0 r, m v ++ [o] = o0 :: r -> place_enum T0 o0 = 0 -> forall p, In p (m v ++ [o]) -> place_enum T' p = 0).
  { intros o0 r E Z p X. unfold T'. destruct (nil_or_cons _ (m v)) as [MQ|(o0' & r' & MQ)].
    { rewrite MQ in *. cbn in E. injection E as <- <-. destruct X as [<-|[]]. cbn. congruence. }
    rewrite MQ in E. cbn [app] in E. injection E as -> _. rewrite (supertype_cons _ _ _ _ _ MQ). cbv zeta.
    assert (E0 : place_enum T o0 = 0) by (eapply (i_zero _ _ _ _ I v); [exact MQ|exact Z|rewrite MQ; left; reflexivity]).
    rewrite !base_type_eq, E0. set (lcs := type_meet _ _).
    assert (SZ : snd lcs = 0).
    { unfold lcs, type_meet. cbn [fst snd]. destruct (base_eqb _ _ || base_eqb _ _); [reflexivity|].
      destruct (base_eqb _ _ || base_eqb _ _); cbn [snd]; [|reflexivity]. destruct (0 =? _); reflexivity. }
    apply in_app_or in X. destruct X as [X|[<-|[]]].
    - match goal with |- context [adapt ?t o ?bb] => destruct (adapt_other t o bb p (MO _ _ X)) as [_ A]; rewrite A end.
      pose proof (i_zero _ _ _ _ I v _ _ MQ Z p X) as PZ.
      destruct (base_eqb _ _); [exact PZ|].
      destruct (adapts_in (m v) T lcs p X) as [_ Y]. rewrite Y, PZ. destruct (snd lcs =? 0); reflexivity.
    - match goal with |- context [adapt ?t o ?bb] => destruct (adapt_same t o bb) as [_ A]; rewrite A end. rewrite SZ. reflexivity. }
  assert (EV : forall e, (forall p, In p (m v ++ [o]) -> place_enum T0 p = e) -> forall p, In p (m v ++ [o]) -> place_enum T' p = e).
  { intros e Q p X. destruct (Nat.eq_dec e 0) as [->|NE].
    { destruct (m v ++ [o]) as [|o0 r] eqn:E; [contradiction|]. eapply ZV; [reflexivity|apply Q; left; reflexivity|exact X]. }
    unfold T'. destruct (nil_or_cons _ (m v)) as [MQ|(o0 & r & MQ)].
    { rewrite MQ in *. destruct X as [<-|[]]. cbn. rewrite OE. apply Q. left. reflexivity. }
    rewrite (supertype_cons _ _ _ _ _ MQ). cbv zeta.
    assert (I0 : In o0 (m v)) by (rewrite MQ; left; reflexivity).
    assert (QV : forall q, In q (m v) -> place_enum T0 q = e) by (intros q Y; apply Q; apply in_or_app; left; exact Y).
    assert (BI : place_base T o0 = IntBase).
    { destruct (i_base _ _ _ _ I v ltac:(rewrite MQ; discriminate)) as (b & B1 & o1 & B2 & B3).
      destruct (B1 o0 I0) as [Y _]. rewrite Y, <- B3. apply EI. rewrite (QV _ B2). exact NE. }
    assert (QO : place_enum T0 o = e) by (apply Q; apply in_or_app; right; left; reflexivity).
    assert (BO : place_base T0 o = IntBase) by (apply EI; rewrite QO; exact NE).
    rewrite !base_type_eq, BI, OB, OE, BO, QO, (i_enum _ _ _ _ I v e QV o0 I0).
    unfold type_meet. cbn [fst snd base_eqb orb]. rewrite Nat.eqb_refl.
    apply in_app_or in X. destruct X as [X|[<-|[]]].
    - destruct (adapt_other T o (IntBase, e) p (MO _ _ X)) as [_ A]. rewrite A. apply (i_enum _ _ _ _ I v e QV p X).
    - destruct (adapt_same T o (IntBase, e)) as [_ A]. rewrite A. cbn [snd]. apply Nat.eqb_neq in NE. rewrite NE. congruence. }
  assert (OV : forall w p, w <> v -> In p (m w) -> place_base T' p = place_base T p /\ place_enum T' p = place_enum T p).
  { intros w p NW X. apply OTH; [eapply MO; exact X|]. intros Y. apply NW. eapply MV; eassumption. }
  split.
  - intros p N. rewrite map_app in N. cbn in N.
    assert (N1 : ~ In p (map snd done)) by (intros X; apply N; apply in_or_app; left; exact X).
    assert (N2 : p <> o) by (intros ->; apply N; apply in_or_app; right; left; reflexivity).
    destruct (OTH p N2) as [A B]; [intros X; apply N1; apply MIN in X; apply (in_map snd) in X; exact X|].
    destruct (i_out _ _ _ _ I p N1) as [C D]. split; congruence.
  - intros w. rewrite occs_of_app. unfold upd. destruct (w =? v) eqn:Q.
    + apply Nat.eqb_eq in Q. subst w. rewrite (i_map _ _ _ _ I). unfold occs_of at 3. cbn. rewrite Nat.eqb_refl. reflexivity.
    + rewrite (i_map _ _ _ _ I). unfold occs_of at 3. cbn. rewrite Nat.eqb_sym, Q. cbn. rewrite app_nil_r. reflexivity.
  - intros w. unfold upd. destruct (w =? v) eqn:Q; [intros _; exact BV|]. apply Nat.eqb_neq in Q. intros N.
    destruct (i_base _ _ _ _ I w N) as (b & B1 & B2). exists b. split; [|exact B2]. intros p X. destruct (OV w p Q X) as [A _]. rewrite A. apply B1. exact X.
  - intros w o0 r. unfold upd. destruct (w =? v) eqn:Q; [apply ZV|]. apply Nat.eqb_neq in Q. intros E Z p X.
    destruct (OV w p Q X) as [_ A]. rewrite A. eapply (i_zero _ _ _ _ I); eassumption.
  - intros w e. unfold upd. destruct (w =? v) eqn:Q; [apply EV|]. apply Nat.eqb_neq in Q. intros E p X.
    destruct (OV w p Q X) as [_ A]. rewrite A. eapply (i_enum _ _ _ _ I); eassumption.
  - intros i. rewrite RS. apply (i_rest _ _ _ _ I).
Qed.

Lemma run_inv : forall rest done T m, all = done ++ rest -> Inv T0 done T m ->
  exists m', Inv T0 all (run_occs T m rest) m'.
Proof.
  induction rest as [|[v o] rest IH]; intros done T m E I; cbn.
  - rewrite app_nil_r in E. subst done. exists m. exact I.
  - apply (IH (done ++ [(v, o)])); [rewrite <- app_assoc; exact E|]. eapply step_inv; eassumption.
Qed.
End L.

(** ** the list of occurrences *)
Lemma range_occs_in : forall l i j v o, In (v, o) (range_occs i j l) <->
  exists k, o = (i, Some (j + k)) /\ nth_error l k = Some (Some v).
Proof.
  induction l as [|[w|] l IH]; intros i j v o; cbn [range_occs].
  - split; [contradiction|]. intros ([|k] & _ & X); discriminate.
  - cbn [In]. rewrite IH. split.
    + intros [X|(k & -> & X)]; [injection X as <- <-; exists 0; rewrite Nat.add_0_r; split; reflexivity|].
      exists (S k). split; [f_equal; f_equal; lia|exact X].
    + intros ([|k] & -> & X); [left; cbn in X; injection X as <-; rewrite Nat.add_0_r; reflexivity|].
      right. exists k. split; [f_equal; f_equal; lia|exact X].
  - rewrite IH. split.
    + intros (k & -> & X). exists (S k). split; [f_equal; f_equal; lia|exact X].
    + intros ([|k] & -> & X); [discriminate|]. exists k. split; [f_equal; f_equal; lia|exact X].
Qed.
Lemma param_occs_in : forall i p v o, In (v, o) (param_occs i p) <->
  fst o = i /\ match snd o with None => p_dom p = Some v | Some j => nth_error (p_ranges p) j = Some (Some v) end.
Proof.
  intros i p v [i' s]. unfold param_occs. rewrite in_app_iff, range_occs_in. cbn [fst snd]. split.
  - intros [(k & X & Y)|X].
    + injection X as -> ->. split; [reflexivity|exact Y].
    + destruct (p_dom p) as [w|]; [|contradiction]. destruct X as [X|[]]. injection X as <- <- <-. split; reflexivity.
  - intros [-> X]. destruct s as [j|]; [left; exists j; split; [reflexivity|exact X]|right; rewrite X; left; reflexivity].
Qed.
Lemma all_occs_in : forall ps i v o, In (v, o) (all_occs i ps) <->
  exists k p, fst o = i + k /\ nth_error ps k = Some p /\
    match snd o with None => p_dom p = Some v | Some j => nth_error (p_ranges p) j = Some (Some v) end.
Proof.
  induction ps as [|p ps IH]; intros i v o; cbn [all_occs].
  - split; [contradiction|]. intros ([|k] & p & _ & X & _); discriminate.
  - rewrite in_app_iff, param_occs_in, IH. split.
    + intros [[A B]|(k & q & A & B & C)]; [exists 0, p; repeat split; [lia|exact B]|exists (S k), q; repeat split; [lia|exact B|exact C]].
    + intros ([|k] & q & A & B & C); [left; cbn in B; injection B as <-; split; [lia|exact C]|right; exists k, q; repeat split; [lia|exact B|exact C]].
Qed.
Lemma all_occs_governed : forall ps v o, In (v, o) (all_occs 0 ps) <-> governed ps v o.
Proof.
  intros ps v o. rewrite all_occs_in. unfold governed. split.
  - intros (k & p & A & B & C). exists p. rewrite A. split; assumption.
  - intros (p & A & B). exists (fst o), p. repeat split; assumption.
Qed.

Lemma before_irrefl : forall o, ~ before o o.
Proof. intros [i [j|]] [X|[_ X]]; cbn in X; lia || contradiction. Qed.
Lemma before_asym : forall o o', before o o' -> before o' o -> False.
Proof. intros [i [j|]] [i' [j'|]] [X|[E X]] [Y|[E' Y]]; cbn in *; lia || contradiction. Qed.

Definition ord (l : list (nat * occ)) : Prop := StronglySorted before (map snd l).
Lemma ord_app : forall l l', ord l -> ord l' -> (forall a b, In a (map snd l) -> In b (map snd l') -> before a b) -> ord (l ++ l').
Proof.
  unfold ord. intros l l' A B C. rewrite map_app. induction A as [|a m A IH F]; cbn; [exact B|]. constructor.
  - apply IH. intros x y X Y. apply C; [right; exact X|exact Y].
  - apply Forall_app. split; [exact F|]. apply Forall_forall. intros y Y. apply C; [left; reflexivity|exact Y].
Qed.
Lemma in_snd : forall (l : list (nat * occ)) o, In o (map snd l) -> exists v, In (v, o) l.
Proof. intros l o X. apply in_map_iff in X. destruct X as ([v p] & E & X). cbn in E. subst. exists v. exact X. Qed.
Lemma range_occs_ord : forall l i j, ord (range_occs i j l).
Proof.
  induction l as [|[w|] l IH]; intros i j; cbn [range_occs]; [constructor| |apply IH].
  unfold ord. cbn. constructor; [apply IH|]. apply Forall_forall. intros o X. apply in_snd in X. destruct X as [v X].
  apply range_occs_in in X. destruct X as (k & -> & _). right. cbn. split; [reflexivity|lia].
Qed.
Lemma param_occs_ord : forall i p, ord (param_occs i p).
Proof.
  intros i p. apply ord_app; [apply range_occs_ord|destruct (p_dom p); repeat constructor|].
  intros a b X Y. apply in_snd in X. destruct X as [v X]. apply range_occs_in in X. destruct X as (k & -> & _).
  destruct (p_dom p) as [w|]; [|contradiction]. destruct Y as [<-|[]]. right. cbn. auto.
Qed.
Lemma all_occs_ord : forall ps i, ord (all_occs i ps).
Proof.
  induction ps as [|p ps IH]; intros i; cbn [all_occs]; [constructor|]. apply ord_app; [apply param_occs_ord|apply IH|].
  intros a b X Y. apply in_snd in X. destruct X as [v X]. apply param_occs_in in X. destruct X as [X _].
  apply in_snd in Y. destruct Y as [w Y]. apply all_occs_in in Y. destruct Y as (k & q & Y & _). left. lia.
Qed.
Lemma ord_nodup : forall l, ord l -> NoDup (map snd l).
Proof.
  unfold ord. intros l O. induction O as [|a m O IH F]; constructor; [|exact IH].
  intros X. rewrite Forall_forall in F. apply (before_irrefl a). apply F. exact X.
Qed.
Lemma occs_of_head : forall l v o, ord l -> In (v, o) l -> (forall o', In (v, o') l -> o' = o \/ before o o') ->
  exists r, occs_of v l = o :: r.
Proof.
  intros l v o O X F. destruct (occs_of v l) as [|o1 r] eqn:E; [exfalso; apply occs_of_in in X; rewrite E in X; contradiction|].
  exists r. f_equal. assert (Y : In (v, o1) l) by (apply occs_of_in; rewrite E; left; reflexivity).
  destruct (F o1 Y) as [Z|Z]; [exact Z|exfalso].
  revert O X Y E Z. clear. unfold ord. induction l as [|[w p] l IH]; intros O X Y E Z; [contradiction|].
  cbn in O. inversion O as [|x y O1 O2]; subst. unfold occs_of in E. cbn in E. destruct (w =? v) eqn:Q.
  - cbn in E. injection E as -> E. destruct X as [X|X]; [injection X as _ <-; exact (before_irrefl _ Z)|].
    rewrite Forall_forall in O2. apply (before_asym _ _ Z). apply O2. apply (in_map snd) in X. exact X.
  - apply Nat.eqb_neq in Q. destruct X as [X|X]; [congruence|]. destruct Y as [Y|Y]; [congruence|]. eapply IH; eassumption.
Qed.

Theorem instantiated_inv : forall ps T, well_typed_call ps T ->
  exists m, Inv T (all_occs 0 ps) (instantiated_types ps T) m.
Proof.
  intros ps T (W1 & W2 & W3). unfold instantiated_types.
  apply (run_inv T (all_occs 0 ps) (ord_nodup _ (all_occs_ord ps 0))) with (done := []).
  - intros v o o' X Y. apply (W1 v); apply all_occs_governed; assumption.
  - intros v o i j X Y. apply (W2 v o i j); apply all_occs_governed; assumption.
  - exact W3.
  - reflexivity.
  - split; intros; cbn in *; try contradiction; try reflexivity; try discriminate; split; reflexivity.
Qed.
