Require Import ZArith List Bool Lia ZifyBool.
From Verif Require Import Base LitProofs TypeModel TypeSpec.
Import ListNotations.
Open Scope Z_scope.

(** ** C34 *)
Lemma bt_num_inj : forall a b, bt_num a = bt_num b -> a = b.
Proof. intros [] [] H; cbn in H; congruence. Qed.
Lemma bt_num_range : forall b, 0 <= bt_num b <= 9.
Proof. intros []; cbn; lia. Qed.
Lemma bt_eqb_eq : forall a b, bt_eqb a b = true <-> a = b.
Proof. intros a b. unfold bt_eqb. rewrite Z.eqb_eq. split; [apply bt_num_inj | congruence]. Qed.
Lemma bt_eqb_refl : forall a, bt_eqb a a = true.
Proof. intros. apply bt_eqb_eq. reflexivity. Qed.
Lemma bt_eqb_neq : forall a b, bt_eqb a b = false <-> a <> b.
Proof. intros a b. rewrite <- bt_eqb_eq. destruct (bt_eqb a b); split; congruence. Qed.
Lemma b2z_range : forall b, 0 <= b2z b <= 1.
Proof. intros []; cbn; lia. Qed.
Lemma b2z_inj : forall a b, b2z a = b2z b -> a = b.
Proof. intros [] []; cbn; congruence. Qed.
Definition dimcode (t : ty) : Z := if t_dim t =? -1 then 1 else if t_dim t =? 0 then 0 else t_dim t + 1.
Lemma toInt_eq : forall t, toInt t = (1 - b2z (t_st t)) * 67108864 + bt_num (t_bt t) * 4194304 + b2z (t_ti t) * 2097152 + b2z (t_ot t) * 1048576 + t_id t * 16 + dimcode t.
Proof. intros t. unfold toInt, dimcode. rewrite !Z.shiftl_mul_pow2 by lia. reflexivity. Qed.
Lemma dimcode_range : forall t, type_ok t -> 0 <= dimcode t <= 7.
Proof. intros t [_ H]. unfold dimcode. destruct (t_dim t =? -1) eqn:A; destruct (t_dim t =? 0) eqn:B; lia. Qed.
Lemma dimcode_inj : forall a b, type_ok a -> type_ok b -> dimcode a = dimcode b -> t_dim a = t_dim b.
Proof.
  intros a b [_ Ha] [_ Hb]. unfold dimcode.
  destruct (t_dim a =? -1) eqn:A; destruct (t_dim a =? 0) eqn:B; destruct (t_dim b =? -1) eqn:C; destruct (t_dim b =? 0) eqn:D; lia.
Qed.
Lemma toInt_inj : forall a b, type_ok a -> type_ok b -> toInt a = toInt b -> same_type a b.
Proof.
  intros a b Ha Hb H. rewrite !toInt_eq in H.
  pose proof (b2z_range (t_st a)). pose proof (b2z_range (t_st b)). pose proof (b2z_range (t_ti a)). pose proof (b2z_range (t_ti b)).
  pose proof (b2z_range (t_ot a)). pose proof (b2z_range (t_ot b)). pose proof (bt_num_range (t_bt a)). pose proof (bt_num_range (t_bt b)).
  pose proof (dimcode_range a Ha). pose proof (dimcode_range b Hb). pose proof Ha as [Ia _]. pose proof Hb as [Ib _].
  assert (b2z (t_st a) = b2z (t_st b)) by lia. assert (bt_num (t_bt a) = bt_num (t_bt b)) by lia.
  assert (b2z (t_ti a) = b2z (t_ti b)) by lia. assert (b2z (t_ot a) = b2z (t_ot b)) by lia. assert (t_id a = t_id b) by lia.
  assert (dimcode a = dimcode b) by lia.
  unfold same_type. repeat split; auto using bt_num_inj, b2z_inj, dimcode_inj.
Qed.
Lemma toInt_same : forall a b, same_type a b -> toInt a = toInt b.
Proof. intros a b (H1 & H2 & H3 & H4 & H5 & H6). unfold toInt. rewrite H1, H2, H3, H4, H5, H6. reflexivity. Qed.
Lemma land_7 : forall x, Z.land x 7 = x mod 8. Proof. intros. change 7 with (Z.ones 3). rewrite Z.land_ones by lia. reflexivity. Qed.
Lemma land_1 : forall x, Z.land x 1 = x mod 2. Proof. intros. change 1 with (Z.ones 1). rewrite Z.land_ones by lia. reflexivity. Qed.
Lemma land_15 : forall x, Z.land x 15 = x mod 16. Proof. intros. change 15 with (Z.ones 4). rewrite Z.land_ones by lia. reflexivity. Qed.
Lemma land_4095 : forall x, Z.land x 4095 = x mod 4096. Proof. intros. change 4095 with (Z.ones 12). rewrite Z.land_ones by lia. reflexivity. Qed.
Lemma bt_of_num : forall b, bt_of (bt_num b) = b. Proof. intros []; reflexivity. Qed.
Lemma b2z_eqb : forall b, (b2z b =? 1) = b. Proof. intros []; reflexivity. Qed.
Lemma fromInt_toInt : forall t, type_ok t ->
  fromInt (toInt t) = mkT (t_bt t) (t_ti t) (t_st t) (t_ot t) false false (t_id t mod 4096) (t_dim t).
Proof.
  intros t Ht. unfold fromInt. rewrite toInt_eq. rewrite !Z.shiftr_div_pow2 by lia. rewrite !land_1, land_7, land_15, land_4095.
  pose proof (b2z_range (t_st t)). pose proof (b2z_range (t_ti t)). pose proof (b2z_range (t_ot t)). pose proof (bt_num_range (t_bt t)).
  pose proof (dimcode_range t Ht). pose proof Ht as [Ia Hd].
  set (x := (1 - b2z (t_st t)) * 67108864 + _ + _ + _ + _ + _).
  assert (Ex : x = (1 - b2z (t_st t)) * 67108864 + bt_num (t_bt t) * 4194304 + b2z (t_ti t) * 2097152 + b2z (t_ot t) * 1048576 + t_id t * 16 + dimcode t) by reflexivity.
  clearbody x. change (2 ^ 22) with 4194304. change (2 ^ 21) with 2097152. change (2 ^ 20) with 1048576. change (2 ^ 26) with 67108864. change (2 ^ 4) with 16.
  assert (E26 : x / 67108864 = 1 - b2z (t_st t)) by lia.
  assert (E22 : x / 4194304 = (1 - b2z (t_st t)) * 16 + bt_num (t_bt t)) by lia.
  assert (E21 : x / 2097152 = (1 - b2z (t_st t)) * 32 + bt_num (t_bt t) * 2 + b2z (t_ti t)) by lia.
  assert (E20 : x / 1048576 = (1 - b2z (t_st t)) * 64 + bt_num (t_bt t) * 4 + b2z (t_ti t) * 2 + b2z (t_ot t)) by lia.
  assert (E4 : x / 16 = ((1 - b2z (t_st t)) * 64 + bt_num (t_bt t) * 4 + b2z (t_ti t) * 2 + b2z (t_ot t)) * 65536 + t_id t) by lia.
  rewrite E26, E22, E21, E20, E4.
  replace (x mod 8) with (dimcode t) by lia.
  replace (((1 - b2z (t_st t)) * 16 + bt_num (t_bt t)) mod 16) with (bt_num (t_bt t)) by lia. rewrite bt_of_num.
  replace (((1 - b2z (t_st t)) * 32 + bt_num (t_bt t) * 2 + b2z (t_ti t)) mod 2) with (b2z (t_ti t)) by lia. rewrite b2z_eqb.
  replace (1 - (1 - b2z (t_st t)) mod 2) with (b2z (t_st t)) by lia. rewrite b2z_eqb.
  replace (((1 - b2z (t_st t)) * 64 + bt_num (t_bt t) * 4 + b2z (t_ti t) * 2 + b2z (t_ot t)) mod 2) with (b2z (t_ot t)) by lia. rewrite b2z_eqb.
  f_equal.
  - set (q := (1 - b2z (t_st t)) * 64 + bt_num (t_bt t) * 4 + b2z (t_ti t) * 2 + b2z (t_ot t)).
    replace (q * 65536 + t_id t) with (t_id t + (q * 16) * 4096) by lia. apply Z.mod_add. lia.
  - unfold dimcode in *. destruct (t_dim t =? -1) eqn:A; [cbn; lia|]. destruct (t_dim t =? 0) eqn:B; [cbn; lia|].
    destruct (t_dim t + 1 =? 0) eqn:C; [lia|]. destruct (t_dim t + 1 =? 1) eqn:D; lia.
Qed.
Lemma cmp_spec : forall a b, (ty_cmp a b = 0 <-> toInt a = toInt b) /\ (ty_cmp a b = -1 <-> toInt a < toInt b) /\ (ty_cmp a b = 1 <-> toInt a > toInt b).
Proof. intros a b. unfold ty_cmp. destruct (toInt a <? toInt b) eqn:A; [|destruct (toInt a >? toInt b) eqn:B]; lia. Qed.
Lemma C34_cmp_l : forall a b c, type_ok a -> type_ok b -> type_ok c ->
  (ty_cmp a b = 0 <-> same_type a b) /\ ty_cmp b a = - ty_cmp a b /\
  (ty_cmp a b <= 0 -> ty_cmp b c <= 0 -> ty_cmp a c <= 0) /\ (ty_cmp a b < 0 -> ty_cmp b c < 0 -> ty_cmp a c < 0).
Proof.
  intros a b c Ha Hb Hc. destruct (cmp_spec a b) as [H _]. rewrite H. clear H.
  split; [|unfold ty_cmp; generalize (toInt a) (toInt b) (toInt c); clear; intros x y z;
    destruct (x <? y) eqn:E1; destruct (x >? y) eqn:E2; destruct (y <? x) eqn:E3; destruct (y >? x) eqn:E4; try lia;
    destruct (y <? z) eqn:E5; destruct (y >? z) eqn:E6; try lia; destruct (x <? z) eqn:E7; destruct (x >? z) eqn:E8; lia].
  split; [apply toInt_inj; auto | apply toInt_same].
Qed.
Lemma C34_eq_l : forall a b, ty_eqb a b = true <->
  t_ti a = t_ti b /\ t_bt a = t_bt b /\ t_st a = t_st b /\ t_ot a = t_ot b /\ t_dim a = t_dim b /\ (is_struct a -> t_id a = t_id b).
Proof.
  intros a b. unfold ty_eqb, structBT, is_struct. rewrite !andb_true_iff, !eqb_true_iff, bt_eqb_eq, Z.eqb_eq, orb_true_iff, Z.eqb_eq, negb_true_iff, orb_false_iff, !bt_eqb_neq.
  split.
  - intros (((((H1 & H2) & H3) & H4) & H5) & H6). repeat split; auto. intros [H|H]; destruct H6 as [[H6 H7]|H6]; auto; congruence.
  - intros (H1 & H2 & H3 & H4 & H5 & H6). repeat split; auto.
    destruct (bt_eqb (t_bt a) BT_TUPLE) eqn:A; [apply bt_eqb_eq in A; auto|]. destruct (bt_eqb (t_bt a) BT_RECORD) eqn:B; [apply bt_eqb_eq in B; auto|].
    left. split; apply bt_eqb_neq; assumption.
Qed.
Lemma C34_cmp_eq_l : forall a b, type_ok a -> type_ok b -> ty_cmp a b = 0 -> ty_eqb a b = true.
Proof.
  intros a b Ha Hb H. apply cmp_spec in H. apply toInt_inj in H; auto. destruct H as (H1 & H2 & H3 & H4 & H5 & H6).
  apply C34_eq_l. repeat split; auto.
Qed.

(** ** C35: subtyping *)
Lemma list_eqb_eq : forall (A : Type) (f : A -> A -> bool), (forall x y, f x y = true <-> x = y) -> forall a b, list_eqb f a b = true <-> a = b.
Proof.
  intros A f Hf. induction a as [|x a IH]; intros [|y b]; cbn; try (split; congruence). rewrite andb_true_iff, Hf, IH. split; [intros []; congruence | intros H; injection H; auto].
Qed.
Lemma names_eqb_eq : forall a b, list_eqb Z.eqb a b = true <-> a = b.
Proof. apply list_eqb_eq. intros. apply Z.eqb_eq. Qed.

Lemma sub_list_true : forall sub a b, sub_list sub a b = Ok true <-> Forall2 (fun x y => sub x y = Ok true) a b.
Proof.
  intros sub. induction a as [|x a IH]; intros [|y b]; cbn [sub_list]; try (split; [discriminate | intros H; inversion H]); [split; auto|].
  split.
  - intros H. destruct (sub x y) as [[]| |] eqn:E; cbn [bind] in H; try discriminate. constructor; auto. apply IH. exact H.
  - intros H. inversion H; subst. rewrite H3. cbn [bind]. apply IH. assumption.
Qed.
Lemma tuple_sub_true : forall sub a b, tuple_sub sub a b = Ok true <-> Forall2 (fun x y => sub x y = Ok true) a b.
Proof.
  intros sub a b. unfold tuple_sub. rewrite <- sub_list_true. destruct (len b =? len a) eqn:E; cbn [negb]; [reflexivity|]. split; [discriminate|].
  intros H. apply sub_list_true in H. assert (length a = length b) by (clear - H; induction H; cbn; congruence). unfold len in E. lia.
Qed.
Lemma rec_sub_list_true : forall sub na a nb b, length na = length a -> length nb = length b ->
  (rec_sub_list sub (combine na a) (combine nb b) = Ok true <-> na = nb /\ Forall2 (fun x y => sub x y = Ok true) a b).
Proof.
  intros sub. induction na as [|n na IH]; intros [|x a] [|m nb] [|y b] Ha Hb; cbn [combine rec_sub_list length] in *; try discriminate;
    try (split; [discriminate | intros [H1 H2]; inversion H2]); [split; auto|].
  destruct (list_eqb Z.eqb n m) eqn:E; cbn [negb].
  - apply names_eqb_eq in E. subst m. split.
    + intros H. destruct (sub x y) as [[]| |] eqn:E; cbn [bind] in H; try discriminate. apply IH in H; [|lia|lia]. destruct H as [-> H]. auto.
    + intros [H1 H2]. injection H1 as ->. inversion H2 as [|? ? ? ? HX HY]; subst. rewrite HX. cbn [bind]. apply IH; auto; lia.
  - split; [discriminate|]. intros [H _]. injection H as -> _. assert (list_eqb Z.eqb m m = true) by (apply names_eqb_eq; reflexivity). congruence.
Qed.
Lemma rec_names_len : forall r, length (rec_names r) = length (rec_types r).
Proof. intros. unfold rec_names, rec_types. rewrite !map_length, seq_length. reflexivity. Qed.
Lemma rec_sub_true : forall sub a b, rec_sub sub a b = Ok true <-> rec_names a = rec_names b /\ Forall2 (fun x y => sub x y = Ok true) (rec_types a) (rec_types b).
Proof.
  intros sub a b. unfold rec_sub. destruct (len (r_fields b) =? len (r_fields a)) eqn:E; cbn [negb].
  - apply rec_sub_list_true; apply rec_names_len.
  - split; [discriminate|]. intros [H _]. assert (length (rec_names a) = length (rec_names b)) by congruence.
    rewrite !rec_names_len in H0. unfold rec_types in H0. rewrite !map_length in H0. unfold len in E. lia.
Qed.

(* scalars *)
Definition scal_sub (a t : ty) (s : bool) : Prop :=
  (t_bt a = t_bt t /\ (s = false \/ t_dim a <> 0 \/ t_id a = t_id t \/ t_id t = 0)) \/
  (t_bt a = BT_BOOL /\ (t_bt t = BT_INT \/ t_bt t = BT_FLOAT)) \/ (t_bt a = BT_INT /\ t_bt t = BT_FLOAT).
Lemma struct_dec : forall t, is_struct t \/ ~ is_struct t.
Proof. intros t. unfold is_struct. destruct (t_bt t); intuition congruence. Qed.
Lemma bts_scalar : forall sub e a t s, ~ is_struct a -> t_bt a <> BT_BOT ->
  exists b, btSubtype sub e a t s = Ok b /\ (b = true <-> scal_sub a t s).
Proof.
  intros sub e a t s Ha Hb. unfold btSubtype, scal_sub, is_struct in *.
  assert (HT : bt_eqb (t_bt a) BT_TUPLE = false) by (apply bt_eqb_neq; tauto).
  assert (HR : bt_eqb (t_bt a) BT_RECORD = false) by (apply bt_eqb_neq; tauto). rewrite HT, HR.
  destruct (bt_eqb (t_bt a) (t_bt t)) eqn:E.
  - apply bt_eqb_eq in E. destruct (negb s || negb (t_dim a =? 0) || (t_id a =? t_id t) || (t_id t =? 0)) eqn:C.
    + exists true. split; [reflexivity|]. split; [|auto]. intros _. left. split; [exact E|].
      destruct s; [|auto]. destruct (t_dim a =? 0) eqn:D; [|right; left; lia]. cbn in C. right. right. lia.
    + eexists. split; [reflexivity|]. rewrite <- E. split.
      * destruct (t_bt a); cbn; try congruence.
      * destruct s; [|cbn in C; discriminate]. intros [[_ H]|H]; [exfalso; lia | destruct (t_bt a); cbn; intuition congruence].
  - apply bt_eqb_neq in E. eexists. split; [reflexivity|]. destruct (t_bt a), (t_bt t); cbn; intuition congruence.
Qed.
Lemma bts_struct : forall sub e a t s na fa nt ft, is_struct a -> has_fields e a na fa -> (is_struct t -> has_fields e t nt ft) ->
  (btSubtype sub e a t s = Ok true <-> t_bt a = t_bt t /\ (t_id a = t_id t \/ t_id a <> t_id t /\ na = nt /\ Forall2 (fun x y => sub x y = Ok true) fa ft)).
Proof.
  intros sub e a t s na fa nt ft Hs Ha Ht. unfold btSubtype. destruct (bt_eqb (t_bt a) (t_bt t)) eqn:E.
  - apply bt_eqb_eq in E. assert (Hst : is_struct t) by (unfold is_struct in *; rewrite <- E; exact Hs). specialize (Ht Hst).
    destruct Ha as [(Ba & -> & Ga) | (Ba & r & Ga & -> & ->)]; destruct Ht as [(Bt & -> & Gt) | (Bt & r' & Gt & -> & ->)]; try congruence.
    + rewrite Ba. change (bt_eqb BT_TUPLE BT_TUPLE) with true. cbv iota.
      destruct (Z.eqb_spec (t_id a) (t_id t)); [split; auto|].
      rewrite Ga, Gt. cbn [bind]. rewrite tuple_sub_true. split; [intros H; split; [congruence|]; right; auto | intros [_ [H|[_ [_ H]]]]; [congruence | exact H]].
    + rewrite Ba. change (bt_eqb BT_RECORD BT_TUPLE) with false. change (bt_eqb BT_RECORD BT_RECORD) with true. cbv iota.
      destruct (Z.eqb_spec (t_id a) (t_id t)); [split; auto|].
      rewrite Ga, Gt. cbn [bind]. rewrite rec_sub_true. split; [intros H; split; [congruence|]; right; tauto | intros [_ [H|[_ H]]]; [congruence | exact H]].
  - apply bt_eqb_neq in E. destruct Hs as [Hs|Hs]; rewrite Hs in *; (split; [discriminate | intros [H _]; congruence]).
Qed.
(* the general form, for types of the language *)
Lemma ot_sub_true : forall a t, ot_sub a t = true <-> otsub a t.
Proof. intros a t. unfold ot_sub, otsub. destruct (t_ot a), (t_ot t); cbn; intuition congruence. Qed.
Definition plain (t : ty) : Prop := t_bt t <> BT_TOP /\ t_bt t <> BT_BOT /\ t_any t = false.
Lemma sub_form : forall n e a t s, plain a -> plain t ->
  let bts z := btSubtype (fun x y => isSubtypeOf n e x y z) e a t z in
  isSubtypeOf (S n) e a t s =
   (if (t_dim a =? 0) && negb (t_dim t =? 0) && t_st a && negb (t_st t) && negb (bt_eqb (t_bt a) BT_FLOAT)
    then do b <- bts false; Ok (b && negb (t_ti a) && ot_sub a t)
    else if negb (t_dim a =? t_dim t) && ((t_dim a =? 0) || negb (t_dim t =? -1)) then Ok false
    else if Bool.eqb (t_ti a) (t_ti t) || negb (t_ti a) then do b <- bts s; Ok (b && Bool.eqb (t_st a) (t_st t) && ot_sub a t)
    else Ok false).
Proof.
  intros n e a t s (A1 & A2 & A3) (T1 & T2 & T3). cbv zeta. cbn [isSubtypeOf].
  assert (Ba : isbot a = false) by (apply bt_eqb_neq; exact A2). assert (Bt : isbot t = false) by (apply bt_eqb_neq; exact T2).
  assert (Tt : bt_eqb (t_bt t) BT_TOP = false) by (apply bt_eqb_neq; exact T1). rewrite Ba, Bt, Tt, A3, T3.
  set (cond := (t_dim a =? 0) && negb (t_dim t =? 0) && t_st a && negb (t_st t) && negb (bt_eqb (t_bt a) BT_FLOAT)).
  destruct cond eqn:EC.
  - assert (ED : negb (t_dim a =? t_dim t) && ((t_dim a =? 0) || negb (t_dim t =? -1)) = true) by (unfold cond in EC; lia).
    rewrite ED. destruct (btSubtype (fun x y => isSubtypeOf n e x y false) e a t false) as [b| |]; cbn [bind]; try reflexivity.
    rewrite orb_false_r. destruct (b && negb (t_ti a) && ot_sub a t); reflexivity.
  - cbn [bind]. destruct (negb (t_dim a =? t_dim t) && ((t_dim a =? 0) || negb (t_dim t =? -1))); [reflexivity|].
    rewrite !andb_false_r. cbn [andb].
    destruct (Bool.eqb (t_ti a) (t_ti t)) eqn:Eti; cbn [orb].
    + destruct (btSubtype (fun x y => isSubtypeOf n e x y s) e a t s) as [b| |]; cbn [bind]; try reflexivity.
      destruct (b && Bool.eqb (t_st a) (t_st t)) eqn:Ebs; cbn [bind]; [reflexivity|].
      destruct (t_ti a); cbn [negb bind]; reflexivity.
    + destruct (t_ti a); cbn [negb bind andb]; [reflexivity|].
      destruct (btSubtype (fun x y => isSubtypeOf n e x y s) e a t s) as [b| |]; cbn [bind]; try reflexivity.
      destruct (b && Bool.eqb (t_st a) (t_st t)) eqn:Ebs; cbn [bind andb]; reflexivity.
Qed.
Lemma sub_true : forall n e a t s, plain a -> plain t ->
  let bts z := btSubtype (fun x y => isSubtypeOf n e x y z) e a t z in
  (isSubtypeOf (S n) e a t s = Ok true <->
   (set_to_array a t /\ bts false = Ok true /\ t_ti a = false /\ otsub a t) \/
   (dims_ok a t /\ (t_ti a = t_ti t \/ t_ti a = false) /\ bts s = Ok true /\ t_st a = t_st t /\ otsub a t)).
Proof.
  intros n e a t s Ha Ht. cbv zeta. rewrite (sub_form n e a t s Ha Ht). cbv zeta.
  destruct ((t_dim a =? 0) && negb (t_dim t =? 0) && t_st a && negb (t_st t) && negb (bt_eqb (t_bt a) BT_FLOAT)) eqn:EC.
  - rewrite !andb_true_iff in EC. destruct EC as ((((E1 & E2) & E3) & E4) & E5).
    apply negb_true_iff in E5. rewrite bt_eqb_neq in E5. apply negb_true_iff in E4.
    assert (HS : set_to_array a t) by (unfold set_to_array; repeat split; auto; lia).
    destruct (btSubtype (fun x y => isSubtypeOf n e x y false) e a t false) as [b| |] eqn:Eb; cbn [bind].
    + split.
      * intros H. injection H as H. rewrite !andb_true_iff, negb_true_iff, ot_sub_true in H. left. intuition congruence.
      * intros [(_ & H2 & H3 & H4) | (H1 & _)]; [|unfold dims_ok, set_to_array in *; lia]. injection H2 as ->. rewrite H3. apply ot_sub_true in H4. rewrite H4. reflexivity.
    + split; [discriminate|]. intros [(_ & H2 & _)|(H1 & _)]; [discriminate|unfold dims_ok, set_to_array in *; lia].
    + split; [discriminate|]. intros [(_ & H2 & _)|(H1 & _)]; [discriminate|unfold dims_ok, set_to_array in *; lia].
  - assert (HS : ~ set_to_array a t).
    { intros (H1 & H2 & H3 & H4 & H5). apply bt_eqb_neq in H5. rewrite H3, H4, H5 in EC. cbn in EC. lia. }
    destruct (negb (t_dim a =? t_dim t) && ((t_dim a =? 0) || negb (t_dim t =? -1))) eqn:ED.
    + split; [discriminate|]. intros [[H _]|[H _]]; [tauto|]. unfold dims_ok in H. lia.
    + assert (HD : dims_ok a t) by (unfold dims_ok; lia).
      destruct (Bool.eqb (t_ti a) (t_ti t) || negb (t_ti a)) eqn:ET.
      * assert (HT : t_ti a = t_ti t \/ t_ti a = false) by (destruct (t_ti a), (t_ti t); cbn in ET; auto).
        destruct (btSubtype (fun x y => isSubtypeOf n e x y s) e a t s) as [b| |] eqn:Eb; cbn [bind].
        -- split.
           ++ intros H. injection H as H. rewrite !andb_true_iff, eqb_true_iff, ot_sub_true in H. right. intuition congruence.
           ++ intros [[H _]|(_ & _ & H3 & H4 & H5)]; [tauto|]. injection H3 as ->. rewrite H4, eqb_reflx. apply ot_sub_true in H5. rewrite H5. reflexivity.
        -- split; [discriminate|]. intros [[H _]|(_ & _ & H3 & _)]; [tauto|discriminate].
        -- split; [discriminate|]. intros [[H _]|(_ & _ & H3 & _)]; [tauto|discriminate].
      * split; [discriminate|]. intros [[H _]|(_ & H & _)]; [tauto|]. destruct (t_ti a), (t_ti t); cbn in ET; intuition congruence.
Qed.
Lemma lang_plain : forall e t, lang e t -> plain t.
Proof. intros e t H. destruct H; unfold plain; auto. repeat split; auto; destruct H; congruence. Qed.
Lemma lang_fields : forall e t, lang e t -> is_struct t -> t_st t = false /\ exists na fs, has_fields e t na fs /\ forall f, In f fs -> lang e f.
Proof. intros e t H Hs. destruct H; [tauto|]. split; auto. eauto. Qed.
Lemma has_fields_eq : forall e a t na fa, has_fields e a na fa -> t_bt a = t_bt t -> t_id a = t_id t -> (t_dim a = 0 <-> t_dim t = 0) -> has_fields e t na fa.
Proof.
  intros e a t na fa H Hb Hi Hd. unfold has_fields, get_tuple, get_record, struct_id in *. rewrite <- Hb, <- Hi.
  replace (t_dim t =? 0) with (t_dim a =? 0) by lia. exact H.
Qed.
Lemma has_fields_fun : forall e t n1 f1 n2 f2, has_fields e t n1 f1 -> has_fields e t n2 f2 -> n1 = n2 /\ f1 = f2.
Proof.
  intros e t n1 f1 n2 f2 [(A & B & C)|(A & r & B & C & D)] [(A' & B' & C')|(A' & r' & B' & C' & D')]; try congruence; split; congruence.
Qed.
Lemma Forall2_trans : forall (R : ty -> ty -> Prop) a b c, (forall x y z, In x a -> In y b -> In z c -> R x y -> R y z -> R x z) ->
  Forall2 R a b -> Forall2 R b c -> Forall2 R a c.
Proof.
  intros R a b c H H1. revert c H. induction H1; intros c HR H2; inversion H2; subst; constructor.
  - apply (HR x y y0); cbn; auto.
  - apply IHForall2; auto. intros x0 y1 z A B C. apply HR; cbn; auto.
Qed.

Lemma subtype_trans_n : forall n e s a t u, lang e a -> lang e t -> lang e u ->
  isSubtypeOf n e a t s = Ok true -> isSubtypeOf n e t u s = Ok true -> isSubtypeOf n e a u s = Ok true.
Proof.
  induction n as [|n IH]; intros e s a t u La Lt Lu H1 H2; [discriminate|].
  pose proof (lang_plain _ _ La) as Pa. pose proof (lang_plain _ _ Lt) as Pt. pose proof (lang_plain _ _ Lu) as Pu.
  pose proof Pa as (_ & Na & _). pose proof Pt as (_ & Nt & _).
  apply sub_true in H1; auto. apply sub_true in H2; auto. apply sub_true; auto. cbv zeta in *.
  destruct (struct_dec a) as [Sa|Sa].
  - (* structs *)
    destruct (lang_fields _ _ La Sa) as (STa & na & fa & Fa & Ia).
    destruct H1 as [((_ & _ & HH & _) & _)|(D1 & T1 & B1 & S1 & O1)]; [congruence|].
    assert (Bat : t_bt a = t_bt t).
    { destruct (struct_dec t) as [St|St].
      - destruct (lang_fields _ _ Lt St) as (_ & nt & ft & Ft & _). apply (bts_struct _ e a t s na fa nt ft Sa Fa (fun _ => Ft)) in B1. tauto.
      - apply (bts_struct _ e a t s na fa [] [] Sa Fa) in B1; [tauto | intros HH; tauto]. }
    assert (St : is_struct t) by (unfold is_struct in *; rewrite <- Bat; exact Sa).
    destruct (lang_fields _ _ Lt St) as (STt & nt & ft & Ft & It).
    apply (bts_struct _ e a t s na fa nt ft Sa Fa (fun _ => Ft)) in B1. destruct B1 as [_ B1].
    destruct H2 as [((_ & _ & HH & _) & _)|(D2 & T2 & B2 & S2 & O2)]; [congruence|].
    assert (Btu : t_bt t = t_bt u).
    { destruct (struct_dec u) as [Su|Su].
      - destruct (lang_fields _ _ Lu Su) as (_ & nu & fu & Fu & _). apply (bts_struct _ e t u s nt ft nu fu St Ft (fun _ => Fu)) in B2. tauto.
      - apply (bts_struct _ e t u s nt ft [] [] St Ft) in B2; [tauto | intros HH; tauto]. }
    assert (Su : is_struct u) by (unfold is_struct in *; rewrite <- Btu; exact St).
    destruct (lang_fields _ _ Lu Su) as (STu & nu & fu & Fu & Iu).
    apply (bts_struct _ e t u s nt ft nu fu St Ft (fun _ => Fu)) in B2. destruct B2 as [_ B2].
    right. split; [unfold dims_ok in *; lia|]. split; [destruct T1, T2; auto; first [left; congruence | right; congruence]|].
    split; [|split; [congruence | unfold otsub in *; destruct O1, O2; auto; first [left; congruence | right; congruence]]].
    apply (bts_struct _ e a u s na fa nu fu Sa Fa (fun _ => Fu)). split; [congruence|].
    destruct (Z.eq_dec (t_id a) (t_id u)) as [Hid|Hid]; [auto|]. right. split; [exact Hid|].
    destruct B1 as [B1|(B1 & N1 & F1)]; destruct B2 as [B2|(B2 & N2 & F2)].
    + congruence.
    + pose proof (has_fields_eq e a t na fa Fa Bat B1 ltac:(unfold dims_ok in D1; lia)) as Fa'.
      destruct (has_fields_fun _ _ _ _ _ _ Fa' Ft) as [-> ->]. auto.
    + pose proof (has_fields_eq e t u nt ft Ft Btu B2 ltac:(unfold dims_ok in D2; lia)) as Ft'.
      destruct (has_fields_fun _ _ _ _ _ _ Ft' Fu) as [-> ->]. auto.
    + split; [congruence|]. apply (Forall2_trans _ fa ft fu); auto. intros x y z Hx Hy Hz Hxy Hyz. eapply (IH e s x y z); eauto.
  - (* scalars *)
    assert (HB1 : forall z, btSubtype (fun x y => isSubtypeOf n e x y z) e a t z = Ok true <-> scal_sub a t z).
    { intros z. destruct (bts_scalar (fun x y => isSubtypeOf n e x y z) e a t z Sa Na) as (b & -> & Hb). rewrite <- Hb. split; congruence. }
    assert (St : scal_sub a t false -> ~ is_struct t).
    { intros Hs Hst. unfold scal_sub, is_struct in *. destruct Hs as [[Hs _]|[[_ Hs]|[_ Hs]]]; intuition congruence. }
    assert (Hfs : forall z, scal_sub a t z -> scal_sub a t false) by (intros z; unfold scal_sub; tauto).
    assert (Nst : ~ is_struct t) by (destruct H1 as [(_ & B1 & _)|(_ & _ & B1 & _)]; apply HB1 in B1; eauto).
    assert (HB2 : forall z, btSubtype (fun x y => isSubtypeOf n e x y z) e t u z = Ok true <-> scal_sub t u z).
    { intros z. destruct (bts_scalar (fun x y => isSubtypeOf n e x y z) e t u z Nst Nt) as (b & -> & Hb). rewrite <- Hb. split; congruence. }
    assert (HB3 : forall z, btSubtype (fun x y => isSubtypeOf n e x y z) e a u z = Ok true <-> scal_sub a u z).
    { intros z. destruct (bts_scalar (fun x y => isSubtypeOf n e x y z) e a u z Sa Na) as (b & -> & Hb). rewrite <- Hb. split; congruence. }
    rewrite HB1 in H1. rewrite HB1 in H1. rewrite !HB2 in H2. rewrite !HB3.
    assert (HTF : t_bt t <> BT_FLOAT -> scal_sub a t false -> t_bt a <> BT_FLOAT).
    { unfold scal_sub. intros Q H Hf. rewrite Hf in H. intuition congruence. }
    destruct H1 as [((C1 & C2 & C3 & C4 & C5) & B1 & T1 & O1)|(D1 & T1 & B1 & S1 & O1)];
    destruct H2 as [((C1' & C2' & C3' & C4' & C5') & B2 & T2 & O2)|(D2 & T2 & B2 & S2 & O2)].
    + congruence.
    + left. assert (t_dim u <> 0) by (unfold dims_ok in D2; lia). split; [unfold set_to_array; repeat split; auto; congruence|].
      split; [|split; [exact T1 | unfold otsub in *; destruct O1, O2; auto; first [left; congruence | right; congruence]]].
      clear - B1 B2 Hfs. unfold scal_sub in *. intuition congruence.
    + left. assert (t_dim a = 0) by (unfold dims_ok in D1; lia). split; [unfold set_to_array; repeat split; auto; [congruence | apply HTF; [exact C5' | eauto]]|].
      split; [|split; [destruct T1; congruence | unfold otsub in *; destruct O1, O2; auto; first [left; congruence | right; congruence]]].
      clear - B1 B2 Hfs. unfold scal_sub in *. intuition congruence.
    + right. split; [unfold dims_ok in *; lia|]. split; [destruct T1, T2; auto; first [left; congruence | right; congruence]|].
      split; [|split; [congruence | unfold otsub in *; destruct O1, O2; auto; first [left; congruence | right; congruence]]].
      assert (HD : t_dim a <> 0 \/ t_dim t = 0) by (unfold dims_ok in D1; lia).
      assert (HD' : t_dim t <> 0 -> t_dim a <> 0) by (unfold dims_ok in D1; lia).
      clear - B1 B2 HD HD'. unfold scal_sub in *. destruct s; [|intuition congruence].
      destruct B1 as [[B1 I1]|B1]; destruct B2 as [[B2 I2]|B2]; try (intuition congruence).
Qed.

(* fuel *)
Lemma sub_list_mono : forall (f g : ty -> ty -> res bool), (forall x y b, f x y = Ok b -> g x y = Ok b) ->
  forall a b r, sub_list f a b = Ok r -> sub_list g a b = Ok r.
Proof.
  intros f g H. induction a as [|x a IH]; intros [|y b] r HH; cbn [sub_list] in *; auto.
  destruct (f x y) as [q| |] eqn:E; try discriminate. rewrite (H _ _ _ E). cbn [bind] in *. destruct q; auto.
Qed.
Lemma rec_sub_list_mono : forall (f g : ty -> ty -> res bool), (forall x y b, f x y = Ok b -> g x y = Ok b) ->
  forall a b r, rec_sub_list f a b = Ok r -> rec_sub_list g a b = Ok r.
Proof.
  intros f g H. induction a as [|[n x] a IH]; intros [|[m y] b] r HH; cbn [rec_sub_list] in *; auto.
  destruct (negb (list_eqb Z.eqb n m)); auto.
  destruct (f x y) as [q| |] eqn:E; try discriminate. rewrite (H _ _ _ E). cbn [bind] in *. destruct q; auto.
Qed.
Lemma bts_mono : forall (f g : ty -> ty -> res bool), (forall x y b, f x y = Ok b -> g x y = Ok b) ->
  forall e a t s r, btSubtype f e a t s = Ok r -> btSubtype g e a t s = Ok r.
Proof.
  intros f g H e a t s r. unfold btSubtype. destruct (bt_eqb (t_bt a) (t_bt t)); auto.
  destruct (bt_eqb (t_bt a) BT_TUPLE).
  { destruct (t_id a =? t_id t); auto. destruct (get_tuple e a); cbn [bind]; auto. destruct (get_tuple e t); cbn [bind]; auto.
    unfold tuple_sub. destruct (negb (len a1 =? len a0)); auto. apply sub_list_mono. exact H. }
  destruct (bt_eqb (t_bt a) BT_RECORD); auto.
  destruct (t_id a =? t_id t); auto. destruct (get_record e a); cbn [bind]; auto. destruct (get_record e t); cbn [bind]; auto.
  unfold rec_sub. destruct (negb (len (r_fields a1) =? len (r_fields a0))); auto. apply rec_sub_list_mono. exact H.
Qed.
Lemma sub_step : forall n e a t s r, isSubtypeOf n e a t s = Ok r -> isSubtypeOf (S n) e a t s = Ok r.
Proof.
  induction n as [|n IH]; intros e a t s r H; [discriminate|]. 
  remember (S n) as m. cbn [isSubtypeOf]. subst m. cbn [isSubtypeOf] in H.
  assert (HM : forall z b, btSubtype (fun x y => isSubtypeOf n e x y z) e a t z = Ok b -> btSubtype (fun x y => isSubtypeOf (S n) e x y z) e a t z = Ok b).
  { intros z b. apply bts_mono. intros x y q. apply IH. }
  revert H. 
  assert (G : forall (A : Type) (x y : res A) (f g : A -> res bool), (forall v, x = Ok v -> y = Ok v) -> (forall v r, f v = Ok r -> g v = Ok r) -> forall r, bind x f = Ok r -> bind y g = Ok r).
  { intros A x y f g Hx Hf q Hq. destruct x as [v| |]; try discriminate. rewrite (Hx v eq_refl). cbn [bind] in *. auto. }
  apply G.
  - intros v Hv. destruct ((t_dim a =? 0) && negb (t_dim t =? 0) && t_st a && negb (t_st t) && negb (bt_eqb (t_bt a) BT_FLOAT)); auto.
    destruct (isbot a); cbn [bind] in *; auto.
    destruct (btSubtype (fun x y => isSubtypeOf n e x y false) e a t false) as [b| |] eqn:E; try discriminate. rewrite (HM _ _ E). exact Hv.
  - intros v q Hq. destruct v; auto. destruct (negb (t_dim a =? t_dim t) && ((t_dim a =? 0) || negb (t_dim t =? -1))); auto.
    destruct (t_any a); auto. destruct (t_any t); auto. revert Hq. apply G.
    + intros v Hv. destruct (Bool.eqb (t_ti a) (t_ti t)); auto.
      destruct (btSubtype (fun x y => isSubtypeOf n e x y s) e a t s) as [b| |] eqn:E; try discriminate. rewrite (HM _ _ E). exact Hv.
    + intros v q2 Hq. destruct v; auto. revert Hq. apply G; [|auto].
      intros v Hv. destruct (negb (t_ti a)); auto.
      destruct (btSubtype (fun x y => isSubtypeOf n e x y s) e a t s) as [b| |] eqn:E; try discriminate. rewrite (HM _ _ E). exact Hv.
Qed.
Lemma sub_mono : forall m n e a t s r, (n <= m)%nat -> isSubtypeOf n e a t s = Ok r -> isSubtypeOf m e a t s = Ok r.
Proof. intros m n e a t s r H HH. induction H; auto. apply sub_step. exact IHle. Qed.

Lemma C35_refl_l : forall e s t, subtype e s t t.
Proof.
  intros e s t. exists 1%nat. cbn [isSubtypeOf].
  assert (HB : forall f z, btSubtype f e t t z = Ok true).
  { intros f z. unfold btSubtype. rewrite bt_eqb_refl, !Z.eqb_refl. destruct (bt_eqb (t_bt t) BT_TUPLE); auto. destruct (bt_eqb (t_bt t) BT_RECORD); auto.
    destruct z, (t_dim t =? 0); cbn; reflexivity. }
  replace ((t_dim t =? 0) && negb (t_dim t =? 0)) with false by (destruct (t_dim t =? 0); reflexivity). cbn [andb bind].
  rewrite Z.eqb_refl. cbn [negb andb]. destruct (t_any t); [reflexivity|].
  rewrite !eqb_reflx, HB. cbn [bind andb]. unfold ot_sub. rewrite eqb_reflx, orb_true_r. reflexivity.
Qed.
Lemma C35_trans_l : forall e s a b c, lang e a -> lang e b -> lang e c -> subtype e s a b -> subtype e s b c -> subtype e s a c.
Proof.
  intros e s a b c La Lb Lc [n H1] [m H2]. exists (max n m).
  apply (subtype_trans_n (max n m) e s a b c); auto; [apply (sub_mono _ n); [lia | exact H1] | apply (sub_mono _ m); [lia | exact H2]].
Qed.
(* termination: the answer is always determined *)
Lemma sub_list_total : forall e s fa fb, (forall x y, In x fa -> In y fb -> exists n r, isSubtypeOf n e x y s = Ok r) ->
  exists n r, sub_list (fun x y => isSubtypeOf n e x y s) fa fb = Ok r.
Proof.
  intros e s. induction fa as [|x fa IH]; intros [|y fb] H; cbn [sub_list]; try (exists 0%nat; eexists; reflexivity).
  destruct (H x y) as (n & r & Hn); cbn; auto. destruct (IH fb) as (m & q & Hm); [intros; apply H; cbn; auto|].
  exists (max n m). rewrite (sub_mono (max n m) n e x y s r) by (auto; lia). cbn [bind]. destruct r; [|eauto].
  exists q. eapply sub_list_mono; [|exact Hm]. intros. eapply (sub_mono _ m); [lia | eassumption].
Qed.
Lemma rec_sub_list_total : forall e s fa fb, (forall x y, In x (map snd fa) -> In y (map snd fb) -> exists n r, isSubtypeOf n e x y s = Ok r) ->
  exists n r, rec_sub_list (fun x y => isSubtypeOf n e x y s) fa fb = Ok r.
Proof.
  intros e s. induction fa as [|[p x] fa IH]; intros [|[q y] fb] H; cbn [rec_sub_list]; try (exists 0%nat; eexists; reflexivity).
  destruct (negb (list_eqb Z.eqb p q)); [exists 0%nat; eauto|].
  destruct (H x y) as (n & r & Hn); cbn; auto. destruct (IH fb) as (m & v & Hm); [intros; apply H; cbn; auto|].
  exists (max n m). rewrite (sub_mono (max n m) n e x y s r) by (auto; lia). cbn [bind]. destruct r; [|eauto].
  exists v. eapply rec_sub_list_mono; [|exact Hm]. intros. eapply (sub_mono _ m); [lia | eassumption].
Qed.
Lemma map_snd_combine : forall (A B : Type) (x : list A) (y : list B) z, In z (map snd (combine x y)) -> In z y.
Proof. intros A B x y z H. apply in_map_iff in H. destruct H as ([a b] & <- & H). eapply in_combine_r; eauto. Qed.
Lemma bts_total : forall e a t s, lang e a -> lang e t ->
  (forall na fa nt ft, is_struct a -> has_fields e a na fa -> has_fields e t nt ft -> forall x y, In x fa -> In y ft -> exists n r, isSubtypeOf n e x y s = Ok r) ->
  exists n r, btSubtype (fun x y => isSubtypeOf n e x y s) e a t s = Ok r.
Proof.
  intros e a t s La Lt HF. destruct (struct_dec a) as [Sa|Sa].
  - destruct (lang_fields _ _ La Sa) as (_ & na & fa & Fa & _). unfold btSubtype. destruct (bt_eqb (t_bt a) (t_bt t)) eqn:E.
    2:{ exists 0%nat. eauto. }
    apply bt_eqb_eq in E. assert (St : is_struct t) by (unfold is_struct in *; rewrite <- E; exact Sa).
    destruct (lang_fields _ _ Lt St) as (_ & nt & ft & Ft & _). specialize (HF na fa nt ft Sa Fa Ft).
    destruct Fa as [(Ba & -> & Ga) | (Ba & r & Ga & -> & ->)]; destruct Ft as [(Bt & -> & Gt) | (Bt & r' & Gt & -> & ->)]; try congruence.
    + rewrite Ba. change (bt_eqb BT_TUPLE BT_TUPLE) with true. cbv iota. destruct (t_id a =? t_id t); [exists 0%nat; eauto|].
      rewrite Ga, Gt. cbn [bind]. unfold tuple_sub. destruct (negb (len ft =? len fa)); [exists 0%nat; eauto|]. apply sub_list_total. exact HF.
    + rewrite Ba. change (bt_eqb BT_RECORD BT_TUPLE) with false. change (bt_eqb BT_RECORD BT_RECORD) with true. cbv iota. destruct (t_id a =? t_id t); [exists 0%nat; eauto|].
      rewrite Ga, Gt. cbn [bind]. unfold rec_sub. destruct (negb (len (r_fields r') =? len (r_fields r))); [exists 0%nat; eauto|]. apply rec_sub_list_total.
      intros x y Hx Hy. apply HF; eapply map_snd_combine; eauto.
  - pose proof (lang_plain _ _ La) as (_ & Nb & _). destruct (bts_scalar (fun x y => isSubtypeOf 0 e x y s) e a t s Sa Nb) as (b & Hb & _). eauto.
Qed.
Lemma C35_decided_l : forall e s a t, lang e a -> lang e t -> subtype e s a t \/ not_subtype e s a t.
Proof.
  assert (H : forall e a, lang e a -> forall t s, lang e t -> exists n r, isSubtypeOf n e a t s = Ok r).
  { intros e a La. induction La as [a Sa N1 N2 N3|a na fa Sa STa Aa Fa Ia IH]; intros t s Lt.
    - assert (La : lang e a) by (constructor; auto). pose proof (lang_plain _ _ La) as Pa. pose proof (lang_plain _ _ Lt) as Pt.
      exists 1%nat. rewrite (sub_form 0 e a t s Pa Pt). cbv zeta.
      assert (HS : forall z, exists b, btSubtype (fun x y => isSubtypeOf 0 e x y z) e a t z = Ok b).
      { intros z. destruct (bts_scalar (fun x y => isSubtypeOf 0 e x y z) e a t z Sa N2) as (b & -> & _). eauto. }
      destruct ((t_dim a =? 0) && negb (t_dim t =? 0) && t_st a && negb (t_st t) && negb (bt_eqb (t_bt a) BT_FLOAT)).
      + destruct (HS false) as [b ->]. cbn [bind]. eauto.
      + destruct (negb (t_dim a =? t_dim t) && ((t_dim a =? 0) || negb (t_dim t =? -1))); eauto.
        destruct (Bool.eqb (t_ti a) (t_ti t) || negb (t_ti a)); eauto. destruct (HS s) as [b ->]. cbn [bind]. eauto.
    - assert (La : lang e a) by (eapply lang_struct; eauto). pose proof (lang_plain _ _ La) as Pa. pose proof (lang_plain _ _ Lt) as Pt.
      destruct (bts_total e a t s La Lt) as (n & r & Hn).
      { intros na' fa' nt ft _ Fa' Ft x y Hx Hy. destruct (has_fields_fun _ _ _ _ _ _ Fa Fa') as [_ <-]. apply IH; auto.
        assert (St : is_struct t) by (unfold is_struct; destruct Ft as [[H _]|[H _]]; auto).
        destruct (lang_fields _ _ Lt St) as (_ & nt' & ft' & Ft' & It). destruct (has_fields_fun _ _ _ _ _ _ Ft Ft') as [_ <-]. auto. }
      exists (S n). rewrite (sub_form n e a t s Pa Pt). cbv zeta. rewrite STa, !andb_false_r. cbn [andb].
      destruct (negb (t_dim a =? t_dim t) && ((t_dim a =? 0) || negb (t_dim t =? -1))); eauto.
      destruct (Bool.eqb (t_ti a) (t_ti t) || negb (t_ti a)); eauto. rewrite Hn. cbn [bind]. eauto. }
  intros e s a t La Lt. destruct (H e a La t s Lt) as (n & [] & Hn); [left|right]; exists n; exact Hn.
Qed.
Lemma C35_unique_l : forall e s a t, subtype e s a t -> not_subtype e s a t -> False.
Proof.
  intros e s a t [n H1] [m H2]. apply (sub_mono (max n m)) in H1; [|lia]. apply (sub_mono (max n m)) in H2; [|lia]. congruence.
Qed.

(** the declarative relation *)
Lemma base_le_cases : forall x y, base_le x y -> x = y \/ (x = BT_BOOL /\ (y = BT_INT \/ y = BT_FLOAT)) \/ (x = BT_INT /\ y = BT_FLOAT).
Proof. intros x y H. destruct H; auto. Qed.
Lemma base_le_scal : forall a b s, scal_sub a b s <-> base_le (t_bt a) (t_bt b) /\ (s = true -> t_bt a = t_bt b -> t_dim a = 0 -> t_id a = t_id b \/ t_id b = 0).
Proof.
  intros a b s. unfold scal_sub. split.
  - intros [[H1 H2]|[[H1 [H2|H2]]|[H1 H2]]].
    + split; [rewrite H1; constructor|]. intros -> _ D. destruct H2 as [H2|[H2|H2]]; [discriminate | congruence | exact H2].
    + split; [rewrite H1, H2; constructor|]. congruence.
    + split; [rewrite H1, H2; constructor|]. congruence.
    + split; [rewrite H1, H2; constructor|]. congruence.
  - intros [H1 H2]. apply base_le_cases in H1. destruct H1 as [E|H1]; [|right; exact H1].
    left. split; [exact E|]. destruct s; [|auto]. destruct (Z.eq_dec (t_dim a) 0) as [D|D]; [|auto]. destruct (H2 eq_refl E D); auto.
Qed.
Lemma Sub_refl : forall e s t, lang e t -> Sub e s t t.
Proof.
  intros e s t H. induction H as [t S1 S2 S3 S4|t na fs S1 S2 S3 S4 IH1 IH2].
  - apply s_scalar; unfold dims_ok, otsub, tisub; auto. constructor.
  - eapply (s_struct e s t t na fs fs); unfold dims_ok, otsub, tisub; auto. clear - IH2. induction fs; constructor; [apply IH2; cbn; auto | apply IHfs; intros; apply IH2; cbn; auto].
Qed.
Lemma C35_decl_l : forall e s a b, lang e a -> lang e b -> (subtype e s a b <-> Sub e s a b).
Proof.
  intros e s a b La. revert b. induction La as [a Sa N1 N2 N3|a na fa Sa STa Aa Fa Ia IH]; intros b Lb.
  - assert (La : lang e a) by (constructor; auto). pose proof (lang_plain _ _ La) as Pa. pose proof (lang_plain _ _ Lb) as Pb.
    assert (HB : forall n z, btSubtype (fun x y => isSubtypeOf n e x y z) e a b z = Ok true <-> scal_sub a b z).
    { intros n z. destruct (bts_scalar (fun x y => isSubtypeOf n e x y z) e a b z Sa N2) as (q & -> & Hq). rewrite <- Hq. split; congruence. }
    split.
    + intros [[|n] H]; [discriminate|]. apply (sub_true n e a b s Pa Pb) in H. cbv zeta in H. rewrite !HB in H.
      destruct H as [(H1 & H2 & H3 & H4)|(H1 & H2 & H3 & H4 & H5)]; apply base_le_scal in H2 || apply base_le_scal in H3.
      * apply s_set; tauto.
      * apply s_scalar; unfold tisub; tauto.
    + intros H. exists 1%nat. apply (sub_true 0 e a b s Pa Pb). cbv zeta. rewrite !HB. destruct H as [a b _ H1 H2 H3 H4 H5 H6|a b _ H1 H2 H3 H4|a b n' f1 f2 Hs _ _ _ _ _ _ _ _]; [right|left|tauto].
      * split; [auto|]. split; [auto|]. split; [apply base_le_scal; auto | auto].
      * split; [auto|]. split; [apply base_le_scal; split; [auto | discriminate] | auto].
  - assert (La : lang e a) by (eapply lang_struct; eauto). pose proof (lang_plain _ _ La) as Pa. pose proof (lang_plain _ _ Lb) as Pb.
    split.
    + intros [[|n] H]; [discriminate|]. apply (sub_true n e a b s Pa Pb) in H. cbv zeta in H.
      destruct H as [((_ & _ & HH & _) & _)|(D1 & T1 & B1 & S1 & O1)]; [congruence|].
      assert (Bab : t_bt a = t_bt b).
      { destruct (struct_dec b) as [Sb|Sb].
        - destruct (lang_fields _ _ Lb Sb) as (_ & nb & fb & Fb & _). apply (bts_struct _ e a b s na fa nb fb Sa Fa (fun _ => Fb)) in B1. tauto.
        - apply (bts_struct _ e a b s na fa [] [] Sa Fa) in B1; [tauto | intros HH; tauto]. }
      assert (Sb : is_struct b) by (unfold is_struct in *; rewrite <- Bab; exact Sa).
      destruct (lang_fields _ _ Lb Sb) as (STb & nb & fb & Fb & Ib).
      apply (bts_struct _ e a b s na fa nb fb Sa Fa (fun _ => Fb)) in B1. destruct B1 as [_ [B1|(B1 & <- & F1)]].
      * pose proof (has_fields_eq e a b na fa Fa Bab B1 ltac:(unfold dims_ok in D1; lia)) as Fb'.
        eapply (s_struct e s a b na fa fa); auto. clear - Ia. induction fa; constructor; [apply Sub_refl; apply Ia; cbn; auto | apply IHfa; intros; apply Ia; cbn; auto].
      * eapply (s_struct e s a b na fa fb); auto.
        assert (G : forall x y, In x fa -> In y fb -> isSubtypeOf n e x y s = Ok true -> Sub e s x y) by (intros x y Hx Hy Hxy; apply IH; auto; exists n; exact Hxy).
        clear - F1 G. induction F1; constructor; [apply G; cbn; auto | apply IHF1; intros; apply G; cbn; auto].
    + intros H. destruct H as [a b Hs H1 H2 H3 H4 H5 H6|a b Hs H1 H2 H3 H4|a b n' f1 f2 Hs Fa1 Fb1 Bab D1 S1 T1 O1 HF]; [tauto | tauto|].
      destruct (has_fields_fun _ _ _ _ _ _ Fa Fa1) as [<- <-].
      assert (Sb : is_struct b) by (unfold is_struct in *; rewrite <- Bab; exact Sa).
      destruct (lang_fields _ _ Lb Sb) as (STb & nb & fb & Fb & Ib). destruct (has_fields_fun _ _ _ _ _ _ Fb Fb1) as [-> ->].
      assert (G : exists n, Forall2 (fun x y => isSubtypeOf n e x y s = Ok true) fa f2).
      { clear - HF IH Ib. induction HF as [|x y l l' Hxy HF IHF]; [exists 0%nat; constructor|].
        destruct IHF as [n Hn]; [intros; apply IH; cbn; auto | intros; apply Ib; cbn; auto|].
        destruct (proj2 (IH x (or_introl eq_refl) y (Ib y (or_introl eq_refl))) Hxy) as [m Hm].
        exists (max n m). constructor; [apply (sub_mono _ m); [lia | exact Hm]|]. clear - Hn. induction Hn as [|p q u v Hpq Hn IHn]; constructor; auto. apply (sub_mono _ n); [lia | exact Hpq]. }
      destruct G as [n G]. exists (S n). apply (sub_true n e a b s Pa Pb). cbv zeta. right. repeat (split; [assumption|]). split; [|split; assumption].
      apply (bts_struct _ e a b s na fa na f2 Sa Fa (fun _ => Fb1)). split; [exact Bab|]. destruct (Z.eq_dec (t_id a) (t_id b)); auto.
Qed.
