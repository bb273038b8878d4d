Require Import ZArith List Bool Lia ZifyBool.
From Verif Require Import Base TypeModel TypeSpec TypeProofs TypeProofs2.
Import ListNotations.
Open Scope Z_scope.

(** ** C55: common types *)
(* the parts of a type that matter for a common type of scalars *)
Record joined (a b c : ty) (s : bool) : Prop := {
  j_bt : t_bt c <> BT_UNKNOWN; j_any : t_any c = false; j_dim : t_dim c = 0;
  j_sta : t_st c = t_st a; j_stb : t_st c = t_st b; j_ti : t_ti c = t_ti a || t_ti b; j_ot : t_ot c = t_ot a || t_ot b;
  j_b : (scal_sub b a s /\ t_bt c = t_bt a) \/ (scal_sub a b s /\ t_bt c = t_bt b);
  j_id : t_id c = 0 \/ (t_id c = t_id a /\ t_id c = t_id b) }.
Definition hopeless (a b : ty) (s : bool) : Prop :=
  t_st a <> t_st b \/ (~ scal_sub a b s /\ ~ scal_sub b a s) \/ (t_st a = true /\ t_ti a || t_ti b = true /\ t_ot a || t_ot b = true).

Lemma not_bot_eq : forall t, t_bt t <> BT_BOT -> ty_eqb t (t_bot 0) = false.
Proof. intros t H. destruct (ty_eqb t (t_bot 0)) eqn:E; auto. apply C34_eq_l in E. destruct E as (_ & E & _). cbn in E. congruence. Qed.
Lemma simple_bots : forall t, simple t -> isbot t = false /\ isunknown t = false /\ structBT t = false /\ istuple t = false.
Proof.
  intros t (H1 & H2 & H3 & H4 & H5 & H6). unfold isbot, isunknown, structBT, istuple, is_struct in *.
  assert (bt_eqb (t_bt t) BT_TUPLE = false) by (apply bt_eqb_neq; tauto). assert (bt_eqb (t_bt t) BT_RECORD = false) by (apply bt_eqb_neq; tauto).
  rewrite H, H0. cbn. rewrite andb_false_r. repeat split; apply bt_eqb_neq; assumption.
Qed.
Lemma simple_isSet : forall t, simple t -> isOptBot t = false.
Proof. intros t H. unfold isOptBot. destruct (simple_bots t H) as (H1 & _). unfold isbot in H1. rewrite H1, andb_false_r. reflexivity. Qed.
Lemma scal_refl : forall t s, scal_sub t t s. Proof. intros. left. auto. Qed.

(* commonType after the conversion of a set to an array *)
Definition common_tail (fuel : nat) (e : env) (t1 t2 : ty) (strict : bool) : res (env * ty) :=
        if isunknown t1 || isunknown t2 || negb (t_dim t1 =? t_dim t2) ||
           (negb (Bool.eqb (t_st t1) (t_st t2)) && negb (isbot t1) && negb (isbot t2)) then Ok (e, t_unknown)
        else if negb (t_dim t1 =? 0) then
          do x1 <- elemType e t1; do e1 <- getTransparentType e x1;
          do x2 <- elemType e t2; do e2 <- getTransparentType e x2;
          do ' (e, el) <- commonType fuel e e1 e2 strict;
          if isunknown el then Ok (e, t_unknown)
          else
            let (e, el) := if negb (t_dim el =? 0) then
                             let (e, w) := register_tuple e [el; t_unknown] in
                             (e, set_id (mk_ty false BT_TUPLE false 0 0) w)
                           else (e, el) in
            if negb (t_id t1 =? 0) && negb (t_id t2 =? 0) then
              do a1 <- get_array e (t_id t1); do a2 <- get_array e (t_id t2);
              do m <- meet_ids a1 a2;
              do m <- set_last m (t_id el);
              let (e, i) := register_array e m in
              Ok (e, set_id (set_dim (set_id el 0) (t_dim t1)) i)
            else arrType e (t_parint (t_dim t1)) el
        else if structBT t1 && negb (t_ti t1) && isOptBot t2 then Ok (e, set_ot t1 true)
        else if structBT t2 && negb (t_ti t2) && isOptBot t1 then Ok (e, set_ot t2 true)
        else if (structBT t1 || structBT t2) && negb (bt_eqb (t_bt t1) (t_bt t2)) then Ok (e, t_unknown)
        else if bt_eqb (t_bt t1) BT_TUPLE then commonTuple (fun e a b => commonType fuel e a b strict) e t1 t2
        else if bt_eqb (t_bt t1) BT_RECORD then commonRecord (fun e a b => commonType fuel e a b strict) e t1 t2
        else
          do s21 <- btSubtype (fun _ _ => Ok false) e t2 t1 strict;
          do common <- (if s21 then Ok (Some t1)
                        else do s12 <- btSubtype (fun _ _ => Ok false) e t1 t2 strict; Ok (if s12 then Some t2 else None));
          match common with
          | None => Ok (e, t_unknown)
          | Some c =>
              let c := if negb (t_id t1 =? t_id t2) && negb (isbot t1) && negb (isbot t2) then set_id c 0 else c in
              let c := if negb (Bool.eqb (t_ti t1) (t_ti t2)) then set_ti c true else c in
              let c := if negb (Bool.eqb (t_ot t1) (t_ot t2)) then set_ot c true else c in
              let c := set_cv c (t_cv t1 || t_cv t2) in
              if t_ti c && t_ot c && t_st c then Ok (e, t_unknown) else Ok (e, c)
          end.
Lemma common_unfold : forall n e t1 t2 s, commonType (S n) e t1 t2 s =
  (if (ty_eqb t1 t2 && (t_id t1 =? t_id t2)) || ty_eqb t2 (t_bot 0) then Ok (e, set_cv t1 (t_cv t1 || t_cv t2))
   else if ty_eqb t1 (t_bot 0) then Ok (e, t2)
   else
    do ' (e, t1, t2) <-
      (if isSet t1 && (t_dim t2 =? 1) then do ' (e, t) <- arrType e (t_parint 1) (set_st t1 false); Ok (e, t, t2)
       else if isSet t2 && (t_dim t1 =? 1) then do ' (e, t) <- arrType e (t_parint 1) (set_st t2 false); Ok (e, t1, t)
       else Ok (e, t1, t2));
    common_tail n e t1 t2 s).
Proof. reflexivity. Qed.

Lemma common_scalar : forall n e a b s, simple a -> simple b -> t_dim a = 0 -> t_dim b = 0 ->
  exists c, commonType (S n) e a b s = Ok (e, c) /\ (joined a b c s \/ (c = t_unknown /\ hopeless a b s)).
Proof.
  intros n e a b s Ha Hb Da Db. rewrite common_unfold.
  pose proof Ha as (Sa & _ & Ba & Ua & Aa & _). pose proof Hb as (Sb & _ & Bb & Ub & Ab & _).
  rewrite (not_bot_eq a Ba), (not_bot_eq b Bb), orb_false_r.
  destruct (ty_eqb a b && (t_id a =? t_id b)) eqn:E.
  - rewrite andb_true_iff in E. destruct E as [E1 E2]. apply C34_eq_l in E1. destruct E1 as (E1 & E3 & E4 & E5 & E6 & _).
    eexists. split; [reflexivity|]. left. constructor; unfold set_cv; cbn [t_bt t_any t_dim t_st t_ti t_ot t_id]; auto.
    + rewrite E1. destruct (t_ti b); reflexivity.
    + rewrite E5. destruct (t_ot b); reflexivity.
    + left. split; auto. left. split; auto. right. right. left. lia.
    + right. split; auto. lia.
  - unfold isSet. rewrite Da, Db. change (0 =? 1) with false. change (0 =? 0) with true. rewrite !andb_false_r. cbn [bind]. unfold common_tail.
    destruct (simple_bots a Ha) as (-> & -> & -> & _). destruct (simple_bots b Hb) as (-> & -> & -> & _). rewrite Da, Db.
    change (0 =? 0) with true. cbn [negb orb andb]. rewrite !andb_true_r.
    destruct (Bool.eqb (t_st a) (t_st b)) eqn:Est; cbn [negb].
    2:{ eexists. split; [reflexivity|]. right. split; auto. left. intros H. rewrite H, eqb_reflx in Est. discriminate. }
    apply eqb_prop in Est.
    assert (Ta : bt_eqb (t_bt a) BT_TUPLE = false) by (apply bt_eqb_neq; unfold is_struct in Sa; tauto).
    assert (Ra : bt_eqb (t_bt a) BT_RECORD = false) by (apply bt_eqb_neq; unfold is_struct in Sa; tauto).
    rewrite Ta, Ra. cbn [andb].
    destruct (bts_scalar (fun _ _ => Ok false) e b a s Sb Bb) as (x & -> & Hx). destruct (bts_scalar (fun _ _ => Ok false) e a b s Sa Ba) as (y & -> & Hy).
    cbn [bind].
    assert (HJ : forall c0, ((scal_sub b a s /\ c0 = a) \/ (scal_sub a b s /\ c0 = b)) ->
      exists c, (let c := if negb (t_id a =? t_id b) then set_id c0 0 else c0 in
                 let c := if negb (Bool.eqb (t_ti a) (t_ti b)) then set_ti c true else c in
                 let c := if negb (Bool.eqb (t_ot a) (t_ot b)) then set_ot c true else c in
                 let c := set_cv c (t_cv a || t_cv b) in
                 if t_ti c && t_ot c && t_st c then Ok (e, t_unknown) else Ok (e, c)) = Ok (e, c) /\ (joined a b c s \/ (c = t_unknown /\ hopeless a b s))).
    { intros c0 Hc. cbv zeta.
      set (c := set_cv _ _).
      assert (J : joined a b c s).
      { unfold c.
        destruct Hc as [[Hc ->]|[Hc ->]]; destruct (Z.eqb_spec (t_id a) (t_id b)) as [Ei|Ei]; cbn [negb];
        destruct (t_ti a) eqn:TA; destruct (t_ti b) eqn:TB; cbn [Bool.eqb negb]; destruct (t_ot a) eqn:OA; destruct (t_ot b) eqn:OB; cbn [Bool.eqb negb];
        (constructor; unfold set_cv, set_ot, set_ti, set_id; cbn [t_bt t_any t_dim t_st t_ti t_ot t_id]; rewrite ?TA, ?TB, ?OA, ?OB; auto). }
      destruct (t_ti c && t_ot c && t_st c) eqn:EL.
      - exists t_unknown. split; [reflexivity|]. right. split; auto. right. right.
        rewrite !andb_true_iff in EL. destruct EL as ((L1 & L2) & L3). rewrite (j_ti _ _ _ _ J) in L1. rewrite (j_ot _ _ _ _ J) in L2. rewrite (j_sta _ _ _ _ J) in L3. auto.
      - exists c. split; [reflexivity|]. left. exact J. }
    destruct x; cbn [bind].
    + apply HJ. left. split; auto. apply Hx. reflexivity.
    + destruct y; cbn [bind].
      * apply HJ. right. split; auto. apply Hy. reflexivity.
      * exists t_unknown. split; [reflexivity|]. right. split; auto. right. left. split; [intros H; apply Hy in H | intros H; apply Hx in H]; discriminate.
Qed.

Lemma scal_up : forall a b c s, joined a b c s -> t_dim a = 0 -> t_dim b = 0 -> scal_sub a c s /\ scal_sub b c s.
Proof.
  intros a b c s J Da Db. destruct (j_b _ _ _ _ J) as [[H Hb]|[H Hb]]; destruct (j_id _ _ _ _ J) as [Hi|[Hi1 Hi2]]; (split; unfold scal_sub in *; rewrite Hb).
  - left. auto.
  - destruct H as [[H H1]|H]; [left; split; auto | right; exact H].
  - left. auto.
  - destruct H as [[H H1]|H]; [left; split; auto | right; exact H].
  - destruct H as [[H H1]|H]; [left; split; auto | right; exact H].
  - left. auto.
  - destruct H as [[H H1]|H]; [left; split; auto | right; exact H].
  - left. auto.
Qed.

(* arrays: what the result has in common with the element type *)
Definition array_of (el c : ty) (d : Z) : Prop :=
  t_bt c = t_bt el /\ t_ti c = t_ti el /\ t_st c = t_st el /\ t_ot c = t_ot el /\ t_any c = t_any el /\ t_dim c = d.
Lemma arrType_shape : forall e d el e' c, d <> 0 -> t_dim el = 0 -> arrType e (t_parint d) el = Ok (e', c) -> array_of el c d.
Proof.
  intros e d el e' c Hd De H. unfold arrType in H. cbn [t_parint mk_ty t_id t_dim] in H. change (0 =? 0) with true in H. cbn [andb negb] in H.
  destruct (t_id el =? 0). { injection H as <- <-. unfold array_of. cbn. auto 10. }
  destruct (d =? t_dim el) eqn:E; [lia|]. cbn [bind] in H.
  destruct (if negb (t_dim el =? 0) && true then _ else _) as [x| |]; cbn [bind] in H; try discriminate.
  destruct (set_last _ x) as [l| |]; cbn [bind] in H; try discriminate. destruct (register_array e l) as [e2 i]. injection H as <- <-. unfold array_of. cbn. auto 10.
Qed.
Lemma elem_shape : forall e t x, t_dim t <> 0 -> elemType e t = Ok x -> array_of x t (t_dim t) /\ t_dim x = 0.
Proof.
  intros e t x Hd H. unfold elemType in H. destruct (t_dim t =? 0) eqn:E; [lia|]. destruct (t_id t =? 0).
  - injection H as <-. unfold array_of. cbn. auto 10.
  - destruct (get_array e (t_id t)) as [l| |]; cbn [bind] in H; try discriminate. destruct (last_ l); cbn [bind] in H; try discriminate. injection H as <-. unfold array_of. cbn. auto 10.
Qed.
Lemma array_of_simple : forall x t d, array_of x t d -> t_dim x = 0 -> simple t -> simple x.
Proof. intros x t d (H1 & H2 & H3 & H4 & H5 & H6) Hx (S1 & S2 & S3 & S4 & S5 & S6). unfold simple, is_struct in *. rewrite <- H1, <- H5. repeat split; auto; lia. Qed.

Lemma common_array : forall n e a b s e' c, simple a -> simple b -> t_dim a <> 0 -> t_dim b = t_dim a ->
  common_tail (S n) e a b s = Ok (e', c) ->
  exists x y, array_of x a (t_dim a) /\ array_of y b (t_dim a) /\ simple x /\ simple y /\ t_dim x = 0 /\ t_dim y = 0 /\
   ((exists el, joined x y el s /\ array_of el c (t_dim a)) \/ (c = t_unknown /\ hopeless x y s)).
Proof.
  intros n e a b s e' c Ha Hb Da Db H.
  pose proof Ha as (Sa & _ & Ba & Ua & Aa & _). pose proof Hb as (Sb & _ & Bb & Ub & Ab & _).
  remember (S n) as m. unfold common_tail in H.
  destruct (simple_bots a Ha) as (Xa & Ya & Za & Wa). destruct (simple_bots b Hb) as (Xb & Yb & Zb & Wb).
  rewrite Xa, Ya, Za in H. rewrite Xb, Yb, Zb in H.
  assert (D0 : (t_dim a =? 0) = false) by lia. assert (D1 : (t_dim b =? 0) = false) by lia. 
  rewrite D0, Db, Z.eqb_refl in H. cbn [negb orb] in H. rewrite !andb_true_r in H.
  assert (EX : forall t, simple t -> t_dim t <> 0 -> exists x, array_of x t (t_dim t) /\ simple x /\ t_dim x = 0).
  { intros t St Dt. exists (set_dim (set_id t 0) 0). assert (array_of (set_dim (set_id t 0) 0) t (t_dim t)) by (unfold array_of; cbn; auto 10).
    split; auto. split; auto. eapply array_of_simple; eauto. }
  destruct (Bool.eqb (t_st a) (t_st b)) eqn:Est; cbn [negb] in H.
  2:{ injection H as <- <-. destruct (EX a Ha Da) as (x & X1 & X2 & X3). destruct (EX b Hb ltac:(lia)) as (y & Y1 & Y2 & Y3). rewrite Db in Y1.
      exists x, y. repeat (split; [assumption|]). right. split; auto. left. destruct X1 as (_ & _ & X1 & _). destruct Y1 as (_ & _ & Y1 & _).
      intros HH. assert (t_st a = t_st b) by congruence. rewrite H, eqb_reflx in Est. discriminate. }
  destruct (elemType e a) as [x| |] eqn:EA; cbn [bind] in H; try discriminate. apply elem_shape in EA; auto. destruct EA as [X1 X3].
  pose proof (array_of_simple _ _ _ X1 X3 Ha) as X2.
  unfold getTransparentType in H. destruct (simple_bots x X2) as (_ & _ & _ & Wx). rewrite Wx in H. cbn [bind] in H.
  destruct (elemType e b) as [y| |] eqn:EB; cbn [bind] in H; try discriminate. apply elem_shape in EB; [|lia]. destruct EB as [Y1 Y3]. rewrite Db in Y1.
  pose proof (array_of_simple _ _ _ Y1 Y3 Hb) as Y2.
  destruct (simple_bots y Y2) as (_ & _ & _ & Wy). rewrite Wy in H. cbn [bind] in H.
  exists x, y. repeat (split; [assumption|]). subst m.
  destruct (common_scalar n e x y s X2 Y2 X3 Y3) as (el & HC & HD). rewrite HC in H. cbn [bind] in H.
  destruct HD as [J|[-> HD]].
  2:{ right. cbn in H. injection H as <- <-. auto. }
  left. exists el. split; auto.
  assert (Uel : isunknown el = false) by (apply bt_eqb_neq; apply (j_bt _ _ _ _ J)). rewrite Uel in H.
  pose proof (j_dim _ _ _ _ J) as Del. rewrite Del in H. change (0 =? 0) with true in H. cbn [negb] in H.
  destruct (negb (t_id a =? 0) && negb (t_id b =? 0)).
  - destruct (get_array e (t_id a)) as [a1| |]; cbn [bind] in H; try discriminate. destruct (get_array e (t_id b)) as [a2| |]; cbn [bind] in H; try discriminate.
    destruct (meet_ids a1 a2) as [m| |]; cbn [bind] in H; try discriminate. destruct (set_last m (t_id el)) as [m2| |]; cbn [bind] in H; try discriminate.
    destruct (register_array e m2) as [e2 i]. injection H as <- <-. unfold array_of. cbn. auto 10.
  - apply arrType_shape in H; auto.
Qed.

Lemma common_array' : forall n e a b s e' c, simple a -> simple b -> t_dim a <> 0 -> t_dim b = t_dim a ->
  ~ (ty_eqb a b = true /\ t_id a = t_id b) ->
  commonType (S (S n)) e a b s = Ok (e', c) -> common_tail (S n) e a b s = Ok (e', c).
Proof.
  intros n e a b s e' c Ha Hb Da Db NE H. rewrite common_unfold in H.
  pose proof Ha as (_ & _ & Ba & _). pose proof Hb as (_ & _ & Bb & _).
  rewrite (not_bot_eq a Ba), (not_bot_eq b Bb), orb_false_r in H.
  destruct (ty_eqb a b && (t_id a =? t_id b)) eqn:E; [exfalso; apply NE; rewrite andb_true_iff in E; destruct E; split; auto; lia|].
  unfold isSet in H. assert (D0 : (t_dim a =? 0) = false) by lia. assert (D1 : (t_dim b =? 0) = false) by lia. rewrite D0, D1 in H. exact H.
Qed.

(* when a type of the language without structs is below another *)
Lemma sub_scalar_true : forall n e a t s, plain a -> plain t -> ~ is_struct a ->
  (isSubtypeOf (S n) e a t s = Ok true <->
   (set_to_array a t /\ scal_sub a t false /\ t_ti a = false /\ otsub a t) \/
   (dims_ok a t /\ (t_ti a = t_ti t \/ t_ti a = false) /\ scal_sub a t s /\ t_st a = t_st t /\ otsub a t)).
Proof.
  intros n e a t s Pa Pt Sa. rewrite (sub_true n e a t s Pa Pt). cbv zeta.
  assert (HB : forall z, btSubtype (fun x y => isSubtypeOf n e x y z) e a t z = Ok true <-> scal_sub a t z).
  { intros z. destruct Pa as (_ & Na & _). destruct (bts_scalar (fun x y => isSubtypeOf n e x y z) e a t z Sa Na) as (b & -> & Hb). rewrite <- Hb. split; congruence. }
  rewrite !HB. reflexivity.
Qed.
Lemma simple_plain : forall t, simple t -> plain t.
Proof. intros t (H1 & H2 & H3 & H4 & H5 & H6). unfold plain. auto. Qed.
Lemma subtype_scalar : forall e a t s, plain a -> plain t -> ~ is_struct a ->
  (subtype e s a t <->
   (set_to_array a t /\ scal_sub a t false /\ t_ti a = false /\ otsub a t) \/
   (dims_ok a t /\ (t_ti a = t_ti t \/ t_ti a = false) /\ scal_sub a t s /\ t_st a = t_st t /\ otsub a t)).
Proof.
  intros e a t s Pa Pt Sa. split.
  - intros [[|n] H]; [discriminate|]. apply (sub_scalar_true n e a t s Pa Pt Sa). exact H.
  - intros H. exists 1%nat. apply sub_scalar_true; auto.
Qed.
Lemma joined_simple : forall a b c s, simple a -> simple b -> joined a b c s -> simple c.
Proof.
  intros a b c s (A1 & A2 & A3 & A4 & A5 & A6) (B1 & B2 & B3 & B4 & B5 & B6) J. destruct J. unfold simple, is_struct in *.
  destruct j_b0 as [[_ ->]|[_ ->]]; rewrite j_any0, j_dim0; repeat split; auto; lia.
Qed.
Lemma set_cv_sub : forall e s a v, simple a -> subtype e s a (set_cv a v).
Proof.
  intros e s a v Ha. apply subtype_scalar; [apply simple_plain; auto | | destruct Ha; auto |].
  - destruct (simple_plain a Ha) as (P1 & P2 & P3). unfold plain. cbn. auto.
  - right. cbn. unfold dims_ok, otsub, scal_sub. cbn. intuition.
Qed.
Lemma scal_sub_bt : forall a b a' b' s, scal_sub a b s -> t_bt a' = t_bt a -> t_bt b' = t_bt b -> t_dim a' <> 0 -> scal_sub a' b' s.
Proof. intros a b a' b' s H Ea Eb Hd. unfold scal_sub in *. rewrite Ea, Eb. intuition. Qed.
Lemma orb_or : forall x y z, z = x || y -> (x = z \/ x = false) /\ (y = z \/ y = false).
Proof. intros [] [] z ->; auto. Qed.
Lemma array_upper : forall n e a b s e' c, simple a -> simple b -> t_dim a <> 0 -> t_dim b = t_dim a ->
  common_tail (S n) e a b s = Ok (e', c) -> t_bt c <> BT_UNKNOWN -> plain c /\ ~ is_struct c /\ subtype e' s a c /\ subtype e' s b c.
Proof.
  intros n e a b s e' c Ha Hb D Hd H Hc.
  destruct (common_array n e a b s e' c Ha Hb D Hd) as (x & y & X1 & Y1 & X2 & Y2 & X3 & Y3 & [(el & J & C1)|[-> _]]); auto.
  2:{ cbn in Hc. congruence. }
  destruct (scal_up _ _ _ _ J X3 Y3) as [U1 U2].
  destruct (orb_or _ _ _ (j_ti _ _ _ _ J)) as [T1 T2]. destruct (orb_or _ _ _ (j_ot _ _ _ _ J)) as [O1 O2].
  pose proof (joined_simple _ _ _ _ X2 Y2 J) as Sel. pose proof (simple_plain _ Sel) as Pel.
  destruct X1 as (XA & XB & XC & XD & XE & XF). destruct Y1 as (YA & YB & YC & YD & YE & YF). destruct C1 as (CA & CB & CC & CD & CE & CF).
  assert (Pc : plain c) by (unfold plain in *; rewrite CA, CE; exact Pel).
  pose proof (j_sta _ _ _ _ J). pose proof (j_stb _ _ _ _ J). split; [exact Pc|]. split; [unfold is_struct; rewrite CA; apply Sel|].
  split; (apply subtype_scalar; [apply simple_plain; assumption | exact Pc | apply Ha || apply Hb |]); right; unfold dims_ok, otsub.
  - split; [lia|]. split; [rewrite XB, CB; exact T1|]. split; [apply (scal_sub_bt x el); auto|]. split; [congruence|]. rewrite XD, CD. tauto.
  - split; [lia|]. split; [rewrite YB, CB; exact T2|]. split; [apply (scal_sub_bt y el); auto; lia|]. split; [congruence|]. rewrite YD, CD. tauto.
Qed.
Lemma C55_upper_l : forall e a b s e' c, simple a -> simple b -> t_dim a = t_dim b ->
  commonType 2 e a b s = Ok (e', c) -> t_bt c <> BT_UNKNOWN -> subtype e' s a c /\ subtype e' s b c.
Proof.
  intros e a b s e' c Ha Hb Hd H Hc.
  destruct (Z.eq_dec (t_dim a) 0) as [D|D].
  - destruct (common_scalar 1 e a b s Ha Hb D ltac:(lia)) as (c' & HC & [J|[-> _]]); rewrite HC in H; injection H as <- <-; [|cbn in Hc; congruence].
    pose proof (simple_plain _ (joined_simple _ _ _ _ Ha Hb J)) as Pc. destruct (scal_up _ _ _ _ J D ltac:(lia)) as [U1 U2].
    destruct (orb_or _ _ _ (j_ti _ _ _ _ J)) as [T1 T2]. destruct (orb_or _ _ _ (j_ot _ _ _ _ J)) as [O1 O2]. pose proof (j_dim _ _ _ _ J).
    split; (apply subtype_scalar; [apply simple_plain; assumption | exact Pc | apply Ha || apply Hb |]); right; unfold dims_ok, otsub.
    + split; [lia|]. split; [exact T1|]. split; [exact U1|]. split; [symmetry; apply J | tauto].
    + split; [lia|]. split; [exact T2|]. split; [exact U2|]. split; [symmetry; apply J | tauto].
  - destruct (bool_dec (ty_eqb a b && (t_id a =? t_id b)) true) as [E|E].
    + rewrite common_unfold, E in H. cbn [orb] in H. injection H as <- <-. split; [apply set_cv_sub; auto|].
      rewrite andb_true_iff in E. destruct E as [E1 E2]. apply C34_eq_l in E1. destruct E1 as (E1 & E3 & E4 & E5 & E6 & _).
      apply subtype_scalar; [apply simple_plain; auto | | apply Hb |].
      * destruct (simple_plain a Ha) as (P1 & P2 & P3). unfold plain. cbn. auto.
      * right. unfold dims_ok, otsub, scal_sub. cbn. rewrite E1, E3, E4, E5. intuition lia.
    + apply common_array' in H; auto. 2:{ intros [E1 E2]. apply E. rewrite E1. cbn. lia. }
      apply array_upper in H; auto. tauto.
Qed.

Lemma scal_chain : forall a b u, scal_sub a u false -> scal_sub b u false -> scal_sub a b false \/ scal_sub b a false.
Proof.
  intros a b u Ha Hb. unfold scal_sub in *.
  destruct Ha as [[Ha _]|[[Ha [Hu|Hu]]|[Ha Hu]]]; destruct Hb as [[Hb _]|[[Hb [Hv|Hv]]|[Hb Hv]]]; rewrite ?Ha, ?Hb, ?Hu, ?Hv;
    first [left; left; split; [congruence | auto; fail] | left; right; left; split; [congruence | first [left; congruence | right; congruence]] | left; right; right; split; congruence
         | right; left; split; [congruence | auto; fail] | right; right; left; split; [congruence | first [left; congruence | right; congruence]] | right; right; right; split; congruence].
Qed.
Lemma scal_false : forall a b a' b', scal_sub a b false -> t_bt a' = t_bt a -> t_bt b' = t_bt b -> scal_sub a' b' false.
Proof. intros a b a' b' H Ea Eb. unfold scal_sub in *. rewrite Ea, Eb. destruct H as [[H _]|H]; [left; auto | right; exact H]. Qed.
Lemma C55_least_l : forall e a b e' c u, simple a -> simple b -> t_dim a = t_dim b ->
  commonType 2 e a b false = Ok (e', c) -> plain u -> legal u -> subtype e false a u -> subtype e false b u ->
  t_bt c <> BT_UNKNOWN /\ subtype e' false c u.
Proof.
  intros e a b e' c u Ha Hb Hd H Pu Lu S1 S2.
  apply subtype_scalar in S1; [|apply simple_plain; auto | auto | apply Ha]. apply subtype_scalar in S2; [|apply simple_plain; auto | auto | apply Hb].
  (* a common form of the two hypotheses *)
  assert (F1 : scal_sub a u false /\ (t_ti a = t_ti u \/ t_ti a = false) /\ otsub a u) by tauto.
  assert (F2 : scal_sub b u false /\ (t_ti b = t_ti u \/ t_ti b = false) /\ otsub b u) by tauto.
  assert (F3 : (set_to_array a u /\ set_to_array b u /\ t_ti a = false /\ t_ti b = false) \/ (dims_ok a u /\ dims_ok b u /\ t_st a = t_st u /\ t_st b = t_st u)).
  { unfold set_to_array, dims_ok in *. destruct S1 as [((Q1 & Q2 & Q3 & Q4 & Q5) & Q6 & Q7 & Q8)|(Q1 & Q2 & Q3 & Q4 & Q5)];
    destruct S2 as [((R1 & R2 & R3 & R4 & R5) & R6 & R7 & R8)|(R1 & R2 & R3 & R4 & R5)]; try lia; [left; tauto | right; tauto]. }
  clear S1 S2. destruct F1 as (F1 & T1 & O1). destruct F2 as (F2 & T2 & O2).
  assert (HS : t_st a = t_st b) by (clear - F3; unfold set_to_array in F3; destruct F3 as [F3|F3]; intuition congruence).
  assert (NH : forall x y, t_bt x = t_bt a -> t_bt y = t_bt b -> t_ti x = t_ti a -> t_ti y = t_ti b -> t_st x = t_st a -> t_st y = t_st b -> t_ot x = t_ot a -> t_ot y = t_ot b -> ~ hopeless x y false).
  { intros x y X1 Y1 X2 Y2 X3 Y3 X4 Y4 [HH|[[H1 H2]|(H1 & H2 & H3)]].
    - congruence.
    - destruct (scal_chain a b u F1 F2) as [HH|HH]; [apply H1 | apply H2]; eapply scal_false; eauto.
    - rewrite X2, Y2 in H2. rewrite X4, Y4 in H3. rewrite X3 in H1. apply Lu. unfold otsub, set_to_array in *.
      assert (t_ti u = true) by (clear - T1 T2 H2; destruct (t_ti a), (t_ti b); cbn in H2; intuition congruence).
      assert (t_ot u = true) by (clear - O1 O2 H3; destruct (t_ot a), (t_ot b); cbn in H3; intuition congruence).
      repeat split; auto. destruct F3 as [(_ & _ & F3 & F4)|F3]; [rewrite F3, F4 in H2; discriminate | intuition congruence]. }
  (* the result, given its shape *)
  assert (FIN : forall k, plain k -> ~ is_struct k -> t_dim k = t_dim a -> t_st k = t_st a -> t_ti k = t_ti a || t_ti b -> t_ot k = t_ot a || t_ot b -> (t_bt k = t_bt a \/ t_bt k = t_bt b) -> subtype e' false k u).
  { intros k Pk Sk Dk STk TIk OTk Bk. apply subtype_scalar; auto.
    assert (SS : scal_sub k u false) by (destruct Bk as [Bk|Bk]; [apply (scal_false a u) | apply (scal_false b u)]; auto).
    assert (OO : otsub k u) by (clear - O1 O2 OTk; unfold otsub in *; rewrite OTk; destruct (t_ot a), (t_ot b); cbn; intuition congruence).
    destruct F3 as [(G1 & G2 & G3 & G4)|(G1 & G2 & G3 & G4)]; [left|right].
    - split; [|rewrite TIk, G3, G4; auto]. unfold set_to_array in *. clear - G1 G2 Bk Dk STk. destruct Bk as [->| ->]; intuition congruence.
    - unfold dims_ok in *. rewrite Dk. split; [tauto|]. split; [|split; [auto|split; [congruence|auto]]].
      rewrite TIk. clear - T1 T2. destruct (t_ti a), (t_ti b); cbn; intuition congruence. }
  destruct (Z.eq_dec (t_dim a) 0) as [D|D].
  - destruct (common_scalar 1 e a b false Ha Hb D ltac:(lia)) as (c' & HC & [J|[-> HH]]); rewrite HC in H; injection H as <- <-.
    2:{ exfalso. eapply (NH a b); eauto. }
    split; [apply J|]. pose proof (joined_simple _ _ _ _ Ha Hb J) as Sc. apply FIN; [apply simple_plain; auto | apply Sc | rewrite (j_dim _ _ _ _ J); lia | apply J | apply J | apply J |].
    destruct (j_b _ _ _ _ J) as [[_ G]|[_ G]]; auto.
  - destruct (bool_dec (ty_eqb a b && (t_id a =? t_id b)) true) as [E|E].
    + rewrite common_unfold, E in H. cbn [orb] in H. injection H as <- <-. split; [apply Ha|].
      rewrite andb_true_iff in E. destruct E as [E1 E2]. apply C34_eq_l in E1. destruct E1 as (E1 & E3 & E4 & E5 & E6 & _).
      apply FIN; cbn; auto; [|apply Ha | rewrite E1; destruct (t_ti b); reflexivity | rewrite E5; destruct (t_ot b); reflexivity].
      destruct (simple_plain a Ha) as (P1 & P2 & P3). unfold plain. cbn. auto.
    + apply common_array' in H; auto. 2:{ intros [E1 E2]. apply E. rewrite E1. cbn. lia. }
      destruct (common_array 0 e a b false e' c Ha Hb D ltac:(lia)) as (x & y & X1 & Y1 & X2 & Y2 & X3 & Y3 & HR); auto.
      destruct X1 as (XA & XB & XC & XD & XE & XF). destruct Y1 as (YA & YB & YC & YD & YE & YF).
      destruct HR as [(el & J & C1)|[-> HH]]. 2:{ exfalso. apply (NH x y); auto. }
      destruct C1 as (CA & CB & CC & CD & CE & CF). pose proof (joined_simple _ _ _ _ X2 Y2 J) as Sel. destruct (simple_plain _ Sel) as (P1 & P2 & P3).
      split; [rewrite CA; apply J|]. apply FIN.
      * unfold plain. rewrite CA, CE. auto.
      * unfold is_struct. rewrite CA. apply Sel.
      * exact CF.
      * rewrite CC, (j_sta _ _ _ _ J). congruence.
      * rewrite CB, (j_ti _ _ _ _ J). congruence.
      * rewrite CD, (j_ot _ _ _ _ J). congruence.
      * rewrite CA, XA, YA. destruct (j_b _ _ _ _ J) as [[_ G]|[_ G]]; auto.
Qed.

(* a set and a one-dimensional array *)
Lemma arr_of_set : forall e a e' t, arrType e (t_parint 1) (set_st a false) = Ok (e', t) -> t_dim a = 0 -> array_of (set_st a false) t 1.
Proof. intros e a e' t H D. apply arrType_shape in H; auto. lia. Qed.
Lemma C55_set_l : forall e a b s e' c, simple a -> simple b -> t_dim a = 0 -> t_st a = true -> t_ti a = false -> t_bt a <> BT_FLOAT -> t_dim b = 1 ->
  commonType 2 e a b s = Ok (e', c) -> t_bt c <> BT_UNKNOWN -> subtype e' s a c /\ subtype e' s b c.
Proof.
  intros e a b s e' c Ha Hb Da Sta Tia Fa Db H Hc.
  rewrite common_unfold in H. pose proof Ha as (_ & _ & Ba & _). pose proof Hb as (_ & _ & Bb & _).
  rewrite (not_bot_eq a Ba), (not_bot_eq b Bb), orb_false_r in H.
  assert (NE : ty_eqb a b = false). { destruct (ty_eqb a b) eqn:E; auto. apply C34_eq_l in E. destruct E as (_ & _ & _ & _ & E & _). lia. }
  rewrite NE in H. cbn [andb] in H. unfold isSet in H. rewrite Da, Sta, Db in H. change (0 =? 0) with true in H. change (1 =? 1) with true in H. cbn [andb] in H.
  destruct (arrType e (t_parint 1) (set_st a false)) as [[e1 t]| |] eqn:EA; cbn [bind] in H; try discriminate.
  pose proof (arr_of_set _ _ _ _ EA Da) as (A1 & A2 & A3 & A4 & A5 & A6). cbn in A1, A2, A3, A4, A5.
  assert (Ht : simple t). { destruct Ha as (P1 & P2 & P3 & P4 & P5 & P6). unfold simple, is_struct in *. rewrite A1, A5, A6. repeat split; auto; lia. }
  assert (St : subtype e' s a t).
  { apply subtype_scalar; [apply simple_plain; auto | apply simple_plain; auto | apply Ha |]. left. unfold set_to_array, otsub, scal_sub. rewrite A1, A3, A4, A6. intuition lia. }
  apply array_upper in H; auto; try lia. destruct H as (Pc & Sc & U1 & U2). split; auto.
  apply (C35_trans_l e' s a t c); auto; apply lang_scalar; auto; try apply Ha; try apply Ht; try apply Pc.
Qed.
Lemma C55_set_r_l : forall e a b s e' c, simple a -> simple b -> t_dim a = 0 -> t_st a = true -> t_ti a = false -> t_bt a <> BT_FLOAT -> t_dim b = 1 ->
  commonType 2 e b a s = Ok (e', c) -> t_bt c <> BT_UNKNOWN -> subtype e' s a c /\ subtype e' s b c.
Proof.
  intros e a b s e' c Ha Hb Da Sta Tia Fa Db H Hc.
  rewrite common_unfold in H. pose proof Ha as (_ & _ & Ba & _). pose proof Hb as (_ & _ & Bb & _).
  rewrite (not_bot_eq b Bb), (not_bot_eq a Ba), orb_false_r in H.
  assert (NE : ty_eqb b a = false). { destruct (ty_eqb b a) eqn:E; auto. apply C34_eq_l in E. destruct E as (_ & _ & _ & _ & E & _). lia. }
  rewrite NE in H. cbn [andb] in H. unfold isSet in H. rewrite Da, Sta, Db in H. change (0 =? 0) with true in H. change (1 =? 1) with true in H. change (1 =? 0) with false in H. cbn [andb] in H.
  destruct (arrType e (t_parint 1) (set_st a false)) as [[e1 t]| |] eqn:EA; cbn [bind] in H; try discriminate.
  pose proof (arr_of_set _ _ _ _ EA Da) as (A1 & A2 & A3 & A4 & A5 & A6). cbn in A1, A2, A3, A4, A5.
  assert (Ht : simple t). { destruct Ha as (P1 & P2 & P3 & P4 & P5 & P6). unfold simple, is_struct in *. rewrite A1, A5, A6. repeat split; auto; lia. }
  assert (St : subtype e' s a t).
  { apply subtype_scalar; [apply simple_plain; auto | apply simple_plain; auto | apply Ha |]. left. unfold set_to_array, otsub, scal_sub. rewrite A1, A3, A4, A6. intuition lia. }
  apply array_upper in H; auto; try lia. destruct H as (Pc & Sc & U2 & U1). split; auto.
  apply (C35_trans_l e' s a t c); auto; apply lang_scalar; auto; try apply Ha; try apply Ht; try apply Pc.
Qed.
