(** Proofs for C44: edit distance. *)
Require Import ZArith List Bool Lia.
From Verif Require Import Base ArrModel DenseModel DenseProofs StrModel StrSpec.
Import ListNotations.
Open Scope Z_scope.

Definition cost (x y : Z) : Z := if x =? y then 0 else 1.
Fixpoint lev (a : str) : str -> Z :=
  match a with
  | [] => fun b => len b
  | x :: a' =>
      fix go (b : str) : Z :=
        match b with
        | [] => len a
        | y :: b' => Z.min (lev a' b + 1) (Z.min (go b' + 1) (lev a' b' + cost x y))
        end
  end.
Lemma lev_nil : forall b, lev [] b = len b. Proof. reflexivity. Qed.
Lemma lev_nil_r : forall a, lev a [] = len a. Proof. destruct a; reflexivity. Qed.
Lemma lev_cons : forall x a y b, lev (x :: a) (y :: b) = Z.min (lev a (y :: b) + 1) (Z.min (lev (x :: a) b + 1) (lev a b + cost x y)).
Proof. reflexivity. Qed.
Lemma len_cons : forall (x : Z) a, len (x :: a) = len a + 1.
Proof. intros. unfold len. cbn [length]. lia. Qed.
Lemma len_nonneg : forall a, 0 <= len a. Proof. intros. unfold len. lia. Qed.
Lemma cost_range : forall x y, 0 <= cost x y <= 1. Proof. intros. unfold cost. destruct (x =? y); lia. Qed.

Lemma lev_range : forall a b, 0 <= lev a b <= Z.max (len a) (len b).
Proof.
  induction a as [|x a IHa]; intros b; [rewrite lev_nil; cbn; pose proof (len_nonneg b); change (len []) with 0; lia|].
  induction b as [|y b IHb]; [rewrite lev_nil_r; change (len []) with 0; pose proof (len_nonneg (x :: a)); lia|].
  rewrite lev_cons, !len_cons. pose proof (IHa (y :: b)) as H1. pose proof (IHa b) as H2. rewrite len_cons in *.
  pose proof (cost_range x y). lia.
Qed.
Lemma lev_up_l : forall x a b, lev (x :: a) b <= lev a b + 1.
Proof. intros x a [|y b]; [rewrite !lev_nil_r, len_cons; lia|]. rewrite lev_cons. lia. Qed.
Lemma lev_up_r : forall y a b, lev a (y :: b) <= lev a b + 1.
Proof. intros y [|x a] b; [cbn [lev]; rewrite len_cons; lia|]. rewrite lev_cons. lia. Qed.
Lemma lev_down_l : forall x a b, lev a b <= lev (x :: a) b + 1.
Proof.
  intros x a b. induction b as [|y b IH]; [rewrite !lev_nil_r, len_cons; lia|]. rewrite lev_cons.
  pose proof (lev_up_r y a b). pose proof (cost_range x y). lia.
Qed.
Lemma lev_sub_l : forall x x' a b, lev (x :: a) b <= lev (x' :: a) b + 1.
Proof.
  intros x x' a b. induction b as [|y b IH]; [rewrite !lev_nil_r, !len_cons; lia|]. rewrite !lev_cons.
  pose proof (cost_range x y). pose proof (cost_range x' y). lia.
Qed.
Lemma lev_cong : forall z a a', (forall c, lev a c <= lev a' c + 1) -> forall c, lev (z :: a) c <= lev (z :: a') c + 1.
Proof.
  intros z a a' H. induction c as [|y c IH].
  - specialize (H []). rewrite !lev_nil_r, !len_cons in *. lia.
  - rewrite !lev_cons. pose proof (H (y :: c)). pose proof (H c). lia.
Qed.
Lemma lev_edit1 : forall a b, edit1 a b -> forall c, lev a c <= lev b c + 1.
Proof.
  intros a b H. destruct H as [p q x|p q x|p q x x']; induction p as [|z p IH]; cbn [app]; try (apply lev_cong; exact IH); intros c.
  - apply lev_down_l.
  - apply lev_up_l.
  - apply lev_sub_l.
Qed.
Lemma lev_refl : forall a, lev a a = 0.
Proof.
  induction a as [|x a IH]; [reflexivity|]. rewrite lev_cons. unfold cost. rewrite Z.eqb_refl.
  pose proof (lev_range a (x :: a)). pose proof (lev_range (x :: a) a). lia.
Qed.
Lemma lev_lower : forall k a b, edits k a b -> lev a b <= Z.of_nat k.
Proof.
  induction 1 as [a|k a b c H1 H2 IH].
  - rewrite lev_refl. lia.
  - pose proof (lev_edit1 _ _ H1 c). lia.
Qed.
Lemma edits_cons : forall k a b x, edits k a b -> edits k (x :: a) (x :: b).
Proof.
  induction 1 as [a|k a b c H1 H2 IH]; [constructor|]. eapply E_step; [|exact IH].
  destruct H1 as [p q z|p q z|p q z z'].
  - apply (E_ins (x :: p)). 
  - apply (E_del (x :: p)).
  - apply (E_sub (x :: p)).
Qed.
Lemma edits_snoc : forall k a b c, edits k a b -> edit1 b c -> edits (S k) a c.
Proof. induction 1; intros E; [eapply E_step; [exact E|constructor]|]. eapply E_step; eauto. Qed.
Lemma lev_attained : forall a b, edits (Z.to_nat (lev a b)) a b.
Proof.
  induction a as [|x a IHa].
  - induction b as [|y b IHb]; [constructor|]. rewrite lev_nil in *. rewrite len_cons.
    replace (Z.to_nat (len b + 1)) with (S (Z.to_nat (len b))) by (pose proof (len_nonneg b); lia).
    eapply E_step; [apply (E_ins [] [] y)|]. cbn. apply edits_cons. exact IHb.
  - induction b as [|y b IHb].
    + rewrite lev_nil_r, len_cons. replace (Z.to_nat (len a + 1)) with (S (Z.to_nat (len a))) by (pose proof (len_nonneg a); lia).
      eapply E_step; [apply (E_del [] a x)|]. cbn. specialize (IHa []). now rewrite lev_nil_r in IHa.
    + rewrite lev_cons. pose proof (lev_range a (y :: b)). pose proof (lev_range (x :: a) b). pose proof (lev_range a b).
      assert (C : Z.min (lev a (y :: b) + 1) (Z.min (lev (x :: a) b + 1) (lev a b + cost x y)) = lev a (y :: b) + 1 \/
        Z.min (lev a (y :: b) + 1) (Z.min (lev (x :: a) b + 1) (lev a b + cost x y)) = lev (x :: a) b + 1 \/
        Z.min (lev a (y :: b) + 1) (Z.min (lev (x :: a) b + 1) (lev a b + cost x y)) = lev a b + cost x y) by lia.
      destruct C as [->|[->| ->]].
      * replace (Z.to_nat (lev a (y :: b) + 1)) with (S (Z.to_nat (lev a (y :: b)))) by lia.
        eapply E_step; [apply (E_del [] a x)|]. apply IHa.
      * replace (Z.to_nat (lev (x :: a) b + 1)) with (S (Z.to_nat (lev (x :: a) b))) by lia.
        eapply E_step; [apply (E_ins [] (x :: a) y)|]. cbn. apply edits_cons. exact IHb.
      * unfold cost. destruct (Z.eqb_spec x y).
        -- subst. rewrite Z.add_0_r. apply edits_cons. apply IHa.
        -- replace (Z.to_nat (lev a b + 1)) with (S (Z.to_nat (lev a b))) by lia.
           eapply E_step; [apply (E_sub [] a x y)|]. cbn. apply edits_cons. apply IHa.
Qed.
Lemma edit1_rev : forall a b, edit1 a b -> edit1 (rev a) (rev b).
Proof.
  intros a b [p q x|p q x|p q x x']; rewrite !rev_app_distr; cbn [rev]; rewrite <- !app_assoc; cbn [app]; constructor.
Qed.
Lemma edits_rev : forall k a b, edits k a b -> edits k (rev a) (rev b).
Proof. induction 1; [constructor|]. eapply E_step; [apply edit1_rev; eauto|auto]. Qed.

Lemma lev_rev_distance : forall a b, edit_distance a b (lev (rev a) (rev b)).
Proof.
  intros a b. pose proof (lev_range (rev a) (rev b)). split.
  - exists (Z.to_nat (lev (rev a) (rev b))). split; [lia|]. pose proof (edits_rev _ _ _ (lev_attained (rev a) (rev b))) as E.
    now rewrite !rev_involutive in E.
  - intros k E. apply lev_lower. now apply edits_rev.
Qed.

(** rows of the dynamic program *)
Definition pre (n : nat) (s : str) : str := rev (firstn n s).
Lemma pre_S : forall n s c, nth_error s n = Some c -> pre (S n) s = c :: pre n s.
Proof.
  intros n s c H. unfold pre. assert (firstn (S n) s = firstn n s ++ [c]) as ->.
  { revert s H. induction n; intros [|x s] H; cbn in *; try discriminate; [congruence|]. f_equal. now apply IHn. }
  now rewrite rev_app_distr.
Qed.
Definition is_row (s t : str) (i : nat) (d : list Z) : Prop :=
  length d = S (length t) /\ forall j, (j <= length t)%nat -> nth_error d j = Some (lev (pre i s) (pre j t)).
Lemma pre_len : forall n s, (n <= length s)%nat -> len (pre n s) = Z.of_nat n.
Proof. intros. unfold len, pre. rewrite rev_length, firstn_length. lia. Qed.

Lemma at_some : forall A (l : list A) i x, nth_error l i = Some x -> at_ l (Z.of_nat i) = Ok x.
Proof. intros. unfold at_. destruct (Z.ltb_spec (Z.of_nat i) 0); [lia|]. now rewrite Nat2Z.id, H. Qed.
Lemma i32_ok' : forall z, INT_MIN <= z <= INT_MAX -> i32 z = Ok z.
Proof. intros. unfold i32. destruct (Z.leb_spec INT_MIN z); [|lia]. destruct (Z.leb_spec z INT_MAX); [reflexivity|lia]. Qed.

Lemma init_ok : forall t n i d, (i + n = S (length t))%nat -> length d = S (length t) ->
  (forall j, (j < i)%nat -> nth_error d j = Some (Z.of_nat j)) ->
  exists d', lev_init n i d = Ok d' /\ is_row [] t 0 d'.
Proof.
  intros t. induction n as [|n IH]; intros i d E L H; cbn [lev_init].
  - exists d. split; [reflexivity|]. split; [auto|]. intros j Hj. rewrite H by lia. cbn. now rewrite pre_len.
  - destruct (set_at_ok _ (Z.of_nat i) (Z.of_nat i) d) as (d' & -> & L' & N'); [lia|]. cbn [bind]. apply IH; [lia|lia|].
    intros j Hj. rewrite N', Nat2Z.id. destruct (Nat.eqb_spec j i); [subst; auto|]. apply H. lia.
Qed.

Lemma inner_ok : forall s t i si dp0, Z.of_nat (length s) < INT_MAX -> Z.of_nat (length t) < INT_MAX ->
  (i < length s)%nat -> nth_error s i = Some si -> is_row s t i dp0 ->
  forall n j dp1, (j + n = S (length t))%nat -> (1 <= j)%nat -> length dp1 = S (length t) ->
  (forall k, (k < j)%nat -> nth_error dp1 k = Some (lev (pre (S i) s) (pre k t))) ->
  exists d, lev_inner n j si t dp0 dp1 = Ok d /\ is_row s t (S i) d.
Proof.
  intros s t i si dp0 Ls Lt Hi Hsi (L0 & R0). induction n as [|n IH]; intros j dp1 E J L H; cbn [lev_inner].
  - exists dp1. split; [reflexivity|]. split; [auto|]. intros k Hk. apply H. lia.
  - destruct j as [|j]; [lia|]. replace (Z.of_nat (S j) - 1) with (Z.of_nat j) by lia.
    destruct (nth_error t j) as [tj|] eqn:Tj; [|apply nth_error_None in Tj; lia].
    rewrite (at_some _ _ _ _ (R0 (S j) ltac:(lia))), (at_some _ _ _ _ (H j ltac:(lia))), (at_some _ _ _ _ (R0 j ltac:(lia))), (at_some _ _ _ _ Tj).
    cbn [bind].
    assert (RG : forall a b, (a <= length s)%nat -> (b <= length t)%nat -> 0 <= lev (pre a s) (pre b t) < INT_MAX).
    { intros a b Ha Hb. pose proof (lev_range (pre a s) (pre b t)) as R. rewrite !pre_len in R by auto. lia. }
    pose proof (RG i (S j) ltac:(lia) ltac:(lia)) as R1. pose proof (RG (S i) j ltac:(lia) ltac:(lia)) as R2.
    pose proof (RG i j ltac:(lia) ltac:(lia)) as R3.
    assert (M : INT_MIN = -2147483648) by reflexivity.
    rewrite (i32_ok' (lev (pre i s) (pre (S j) t) + 1)) by lia. rewrite (i32_ok' (lev (pre (S i) s) (pre j t) + 1)) by lia. cbn [bind].
    rewrite i32_ok' by (destruct (si =? tj); lia). cbn [bind].
    destruct (set_at_ok _ (Z.of_nat (S j)) (Z.min (lev (pre i s) (pre (S j) t) + 1)
      (Z.min (lev (pre (S i) s) (pre j t) + 1) (lev (pre i s) (pre j t) + (if si =? tj then 0 else 1)))) dp1) as (d' & -> & L' & N'); [lia|].
    cbn [bind]. apply IH; [lia|lia|lia|]. intros k Hk. rewrite N', Nat2Z.id. destruct (Nat.eqb_spec k (S j)).
    + subst k. f_equal. rewrite (pre_S j t tj Tj), (pre_S i s si Hsi). rewrite lev_cons. reflexivity.
    + apply H. lia.
Qed.

Lemma outer_ok : forall s t, Z.of_nat (length s) < INT_MAX -> Z.of_nat (length t) < INT_MAX ->
  forall m i dp0 dp1, (i + m = length s)%nat -> is_row s t i dp0 -> length dp1 = S (length t) ->
  exists d, lev_outer m (S i) s t dp0 dp1 = Ok d /\ is_row s t (length s) d.
Proof.
  intros s t Ls Lt. induction m as [|m IH]; intros i dp0 dp1 E R L; cbn [lev_outer].
  - exists dp0. replace (length s) with i by lia. auto.
  - destruct (set_at_ok _ 0 (Z.of_nat (S i)) dp1) as (d' & -> & L' & N'); [lia|]. cbn [bind].
    destruct (nth_error s i) as [si|] eqn:Si; [|apply nth_error_None in Si; lia].
    replace (Z.of_nat (S i) - 1) with (Z.of_nat i) by lia. rewrite (at_some _ _ _ _ Si). cbn [bind].
    destruct (inner_ok s t i si dp0 Ls Lt ltac:(lia) Si R (length t) 1 d') as (row & -> & RR); [lia|lia|lia| |].
    + intros k Hk. assert (k = 0%nat) by lia. subst. rewrite N'. cbn [Nat.eqb Z.to_nat]. change (pre 0 t) with (@nil Z).
      rewrite lev_nil_r, pre_len by lia. reflexivity.
    + cbn [bind]. apply IH; [lia|auto|]. apply R.
Qed.

Lemma levenshtein_ok : forall s t, s <> [] -> t <> [] -> len s < INT_MAX -> len t < INT_MAX ->
  exists d, levenshtein s t = Ok d /\ edit_distance s t d.
Proof.
  intros s t Hs Ht Ls Lt. exists (lev (rev s) (rev t)). split; [|apply lev_rev_distance].
  unfold levenshtein. destruct s as [|x s']; [congruence|]. destruct t as [|y t']; [congruence|].
  set (s := x :: s') in *. set (t := y :: t') in *.
  assert (len s =? 0 = false) as -> by reflexivity. assert (len t =? 0 = false) as -> by reflexivity. cbn [orb].
  destruct (Z.leb_spec INT_MAX (len s)); [lia|]. destruct (Z.leb_spec INT_MAX (len t)); [lia|]. cbn [orb].
  destruct (init_ok t (S (length t)) 0 (repeat 0 (S (length t)))) as (d0 & -> & R0); [lia|apply repeat_length|lia|]. cbn [bind].
  destruct (outer_ok s t Ls Lt (length s) 0 d0 (repeat 0 (S (length t)))) as (d & -> & LR & R); [lia|exact R0|apply repeat_length|]. cbn [bind].
  unfold len. rewrite (at_some _ _ _ _ (R (length t) (le_n _))). unfold pre. now rewrite !firstn_all.
Qed.

(* the distance is at least the difference of the lengths *)
Lemma edit1_len : forall a b, edit1 a b -> Z.abs (len a - len b) <= 1.
Proof. intros a b [p q x|p q x|p q x x']; unfold len; rewrite !app_length; cbn [length]; lia. Qed.
Lemma edits_len : forall k a b, edits k a b -> Z.abs (len a - len b) <= Z.of_nat k.
Proof. induction 1; [lia|]. apply edit1_len in H. lia. Qed.

Section Similar.
Context {D : Type}.
Variable ident : str.
Definition admissible (s : str) : Prop := s <> [] /\ len s < INT_MAX.
Lemma distance_unique : forall a b d d', edit_distance a b d -> edit_distance a b d' -> d = d'.
Proof. intros a b d d' [(k & <- & K) M] [(k' & <- & K') M']. specialize (M _ K'). specialize (M' _ K). lia. Qed.

Lemma similar_loop_ok : forall (decls : list (str * D)) m best, admissible ident -> (forall nm d, In (nm, d) decls -> admissible nm) -> m <= 3 ->
  exists r, similar_loop ident decls m best = Ok r /\
    ((exists l1 nm d l2 e, decls = l1 ++ (nm, d) :: l2 /\ r = Some d /\ edit_distance ident nm e /\ e < m /\
        (forall nm' d' e', In (nm', d') l1 -> edit_distance ident nm' e' -> e < e') /\
        (forall nm' d' e', In (nm', d') l2 -> edit_distance ident nm' e' -> e <= e')) \/
     (r = best /\ forall nm' d' e', In (nm', d') decls -> edit_distance ident nm' e' -> m <= e')).
Proof.
  induction decls as [|[nm d] r IH]; intros m best A AD M3; cbn [similar_loop].
  - exists best. split; [reflexivity|]. right. split; [auto|]. intros nm d e [].
  - destruct (levenshtein_ok ident nm) as (e & -> & E); [apply A|eapply AD; now left|apply A|eapply AD; now left|]. cbn [bind].
    assert (LD : Z.abs (len ident - len nm) <= e). { destruct E as [(k & <- & K) _]. now apply edits_len. }
    assert (AD' : forall nm d, In (nm, d) r -> admissible nm) by (intros; eapply AD; right; eauto).
    destruct (Z.ltb_spec e m).
    + destruct (Z.leb_spec (Z.abs (len ident - len nm)) 3); [|lia]. cbn [andb].
      destruct (IH e (Some d) A AD' ltac:(lia)) as (res & -> & [(l1 & nm' & d' & l2 & e' & -> & -> & E' & Lt & H1 & H2)|[-> H1]]).
      * exists (Some d'). split; [reflexivity|]. left. exists ((nm, d) :: l1), nm', d', l2, e'. split; [reflexivity|]. split; [auto|]. split; [auto|].
        split; [lia|]. split; [|auto]. intros n2 d2 e2 [Q|Q] E2; [|eauto]. injection Q as <- <-. rewrite (distance_unique _ _ _ _ E2 E). auto.
      * exists (Some d). split; [reflexivity|]. left. exists [], nm, d, r, e. split; [reflexivity|]. split; [auto|]. split; [auto|]. split; [lia|].
        split; [intros ? ? ? []|auto].
    + cbn [andb]. destruct (IH m best A AD' M3) as (res & -> & [(l1 & nm' & d' & l2 & e' & -> & -> & E' & Lt & H1 & H2)|[-> H1]]).
      * exists (Some d'). split; [reflexivity|]. left. exists ((nm, d) :: l1), nm', d', l2, e'. split; [reflexivity|]. split; [auto|]. split; [auto|].
        split; [lia|]. split; [|auto]. intros n2 d2 e2 [Q|Q] E2; [|eauto]. injection Q as <- <-. rewrite (distance_unique _ _ _ _ E2 E). lia.
      * exists best. split; [reflexivity|]. right. split; [auto|]. intros n2 d2 e2 [Q|Q] E2; [|eauto]. injection Q as <- <-.
        rewrite (distance_unique _ _ _ _ E2 E). auto.
Qed.
End Similar.

Lemma similar_ok : forall D ident (decls : list (str * D)), admissible ident -> (forall nm d, In (nm, d) decls -> admissible nm) ->
  exists r, find_similar ident decls = Ok r /\
    match r with
    | Some d => exists l1 nm l2 e, decls = l1 ++ (nm, d) :: l2 /\ edit_distance ident nm e /\ e <= 2 /\
        (forall nm' d' e', In (nm', d') l1 -> edit_distance ident nm' e' -> e < e') /\
        (forall nm' d' e', In (nm', d') l2 -> edit_distance ident nm' e' -> e <= e')
    | None => forall nm' d' e', In (nm', d') decls -> edit_distance ident nm' e' -> 2 < e'
    end.
Proof.
  intros D ident decls A AD. destruct (similar_loop_ok ident decls 3 None A AD) as (r & E & H); [lia|]. exists r. split; [exact E|].
  destruct H as [(l1 & nm & d & l2 & e & -> & -> & E' & Lt & H1 & H2)|[-> H1]].
  - exists l1, nm, l2, e. split; [auto|]. split; [auto|]. split; [lia|]. auto.
  - intros nm d e I1 I2. specialize (H1 nm d e I1 I2). lia.
Qed.
