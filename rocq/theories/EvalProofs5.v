(** Evaluation agrees with the meaning: binary operators. *)
Require Import ZArith List Bool Lia.
From Verif Require Import Base IntValModel IntValSpec IntValProofs SetModel SetSpec SetPropProofs EvalModel EvalSpec EvalProofs EvalProofs2 EvalProofs3 EvalProofs4.
Import ListNotations.
Open Scope Z_scope.

Section Bin.
Variable P : program.
Hypothesis WP : wt_prog P.

Local Notation kept := (store_kept P).
Local Notation ok := (store_ok P).
Local Notation good := (good P).

Definition bool_typed (o : binop) : bool := match type_of P (EBin o (EBool true) (EBool true)) with TBool => true | _ => false end.

(** what eval_bool does with an operator, by the types of the operands *)
Definition bool_body (k : nat) (o : binop) (a b : expr) : M bool :=
  match type_of P a, type_of P b with
  | TBool, TBool => bool_bin (eval_bool P k) o a b
  | TInt, TInt => mbind (eval_int P k a) (fun x => mbind (eval_int P k b) (fun y => cmp_int o x y))
  | TInt, TSet => mbind (eval_int P k a) (fun x => mbind (eval_set P k b) (fun y => match o with BIn => ret (set_contains y x) | _ => fail end))
  | TSet, TSet => mbind (eval_set P k a) (fun x => mbind (eval_set P k b) (fun y => cmp_set o x y))
  | _, _ => fail
  end.
Lemma eval_bool_bin : forall k o a b, eval_bool P (S k) (EBin o a b) = catch (bool_body k o a b) false.
Proof. reflexivity. Qed.

Lemma bool_val : forall o a b s s' c, type_of P (EBin o a b) = TBool -> kept s s' ->
  conv (fun k => bool_body k o a b) s s' (Val c) -> ev_good P (EBin o a b) (Some (SBool c)) s.
Proof.
  intros o a b s s' c T K H. split; [symmetry; exact T|]. split; [exact Logic.I|]. exists s'. split; [exact K|].
  cbn [ev_val]. apply conv_S. eapply conv_ext; [|apply conv_catch; exact H]. intros k. reflexivity.
Qed.
Lemma bool_und : forall o a b s s', type_of P (EBin o a b) = TBool -> kept s s' ->
  conv (fun k => bool_body k o a b) s s' Und -> ev_good P (EBin o a b) (Some (SBool false)) s.
Proof.
  intros o a b s s' T K H. split; [symmetry; exact T|]. split; [exact Logic.I|]. exists s'. split; [exact K|].
  cbn [ev_val]. apply conv_S. eapply conv_ext; [|apply conv_catch_und; exact H]. intros k. reflexivity.
Qed.

Lemma ty_int : forall v, sval_ty v = TInt -> exists z, v = SInt z.
Proof. intros [] H; try discriminate. eauto. Qed.
Lemma ty_bool : forall v, sval_ty v = TBool -> exists z, v = SBool z.
Proof. intros [] H; try discriminate. eauto. Qed.
Lemma ty_set : forall v, sval_ty v = TSet -> exists z, v = SSet z.
Proof. intros [] H; try discriminate. eauto. Qed.

Definition int_body (k : nat) (o : binop) (a b : expr) : M IntVal :=
  mbind (eval_int P k a) (fun x => mbind (eval_int P k b) (fun y => int_bin o x y)).
Lemma eval_int_bin : forall k o a b, arith o = true -> eval_int P (S k) (EBin o a b) = int_body k o a b.
Proof. intros k o a b H. destruct o; try discriminate; reflexivity. Qed.

Lemma type_arith : forall o a b, arith o = true -> type_of P (EBin o a b) = TInt.
Proof. intros [] a b H; try discriminate; reflexivity. Qed.
Lemma types_arith : forall o t u, arith o = true -> op_types o t u = true -> t = TInt /\ u = TInt.
Proof. intros [] [] [] H1 H2; try discriminate; auto. Qed.

Lemma bin_arith : forall r o a b v w x s, arith o = true -> good r a (Some v) -> good r b (Some w) ->
  op_means o v w x -> (forall y, x = Some y -> safe_val y) -> wt P (EBin o a b) -> ok r s ->
  ev_good P (EBin o a b) x s.
Proof.
  intros r o a b v w x s Ho Ga Gb Hm Hx W Hs. inversion W; subst.
  destruct (types_arith _ _ _ Ho H4) as [Ta Tb].
  destruct (Ga H2 s Hs) as [(T1 & S1 & s1 & K1 & E1) _].
  destruct (Gb H3 s1 (kept_ok P _ _ _ Hs K1)) as [(T2 & S2 & s2 & K2 & E2) _].
  rewrite Ta in T1. rewrite Tb in T2. apply ty_int in T1 as [p ->]. apply ty_int in T2 as [q ->]. cbn in E1, E2, S1, S2.
  pose proof (int_bin_means o (ofZ p) (ofZ q) p q x s2 Ho (is_int_ofZ _ (safe_fits _ S1)) (is_int_ofZ _ (safe_fits _ S2)) S1 S2 Hm Hx) as R.
  destruct x as [[z| |]|]; try tauto.
  - destruct R as [R _]. split; [symmetry; apply type_arith; assumption|]. split; [exact (Hx _ eq_refl)|].
    exists s2. split; [eapply kept_trans; eassumption|]. cbn [ev_val]. apply conv_S.
    eapply conv_ext with (m' := fun k => int_body k o a b); [intros k; rewrite eval_int_bin by assumption; reflexivity|].
    eapply conv_bind; [exact E1|]. eapply conv_bind; [exact E2|]. apply conv_now. intros _. exact R.
  - split; [rewrite type_arith by assumption; discriminate|]. exists s2. split; [eapply kept_trans; eassumption|].
    unfold ev_und. rewrite type_arith by assumption. apply conv_S.
    eapply conv_ext with (m' := fun k => int_body k o a b); [intros k; rewrite eval_int_bin by assumption; reflexivity|].
    eapply conv_bind; [exact E1|]. eapply conv_bind; [exact E2|]. apply conv_now. intros _. exact R.
Qed.

Lemma bin_cmp : forall r o a b v w x s, lazy_op o = false -> type_of P (EBin o a b) = TBool ->
  good r a (Some v) -> good r b (Some w) ->
  op_means o v w x -> wt P (EBin o a b) -> ok r s ->
  ev_good P (EBin o a b) (close TBool x) s.
Proof.
  intros r o a b v w x s Hz To Ga Gb Hm W Hs. inversion W; subst.
  destruct (Ga H2 s Hs) as [(T1 & S1 & s1 & K1 & E1) _].
  destruct (Gb H3 s1 (kept_ok P _ _ _ Hs K1)) as [(T2 & S2 & s2 & K2 & E2) _].
  assert (K : kept s s2) by (eapply kept_trans; eassumption).
  destruct (type_of P a) eqn:Ta, (type_of P b) eqn:Tb; try (exfalso; destruct o; discriminate).
  - (* int int *) apply ty_int in T1 as [p ->]. apply ty_int in T2 as [q ->]. cbn in E1, E2, S1, S2.
    assert (Hc : is_cmp o = true) by (destruct o; try discriminate; reflexivity).
    destruct (cmp_int_means o (ofZ p) (ofZ q) p q x s2 (is_int_ofZ _ (safe_fits _ S1)) (is_int_ofZ _ (safe_fits _ S2)) Hc Hm) as (c & -> & R).
    cbn [close]. eapply bool_val; [exact To|exact K|]. unfold bool_body. rewrite Ta, Tb.
    eapply conv_bind; [exact E1|]. eapply conv_bind; [exact E2|]. apply conv_now. intros _. exact R.
  - (* int set *) apply ty_int in T1 as [p ->]. apply ty_set in T2 as [q ->]. cbn in E1, S1.
    destruct E2 as (t & N & En & E2). destruct Hm as (-> & c & -> & Hc).
    cbn [close]. eapply bool_val; [exact To|exact K|]. unfold bool_body. rewrite Ta, Tb.
    eapply conv_bind; [exact E1|]. eapply conv_bind; [exact E2|]. apply conv_now. intros _. unfold ret. do 2 f_equal.
    eapply dec_true; [exact Hc|]. rewrite (C07_contains_l t (ofZ p) p N (is_int_ofZ _ (safe_fits _ S1))). symmetry. apply En.
  - (* bool bool *) apply ty_bool in T1 as [p ->]. apply ty_bool in T2 as [q ->]. cbn in E1, E2.
    destruct Hm as (c & -> & Hc). cbn [close]. eapply bool_val; [exact To|exact K|]. unfold bool_body. rewrite Ta, Tb.
    destruct o; try discriminate; cbn [bool_bin];
      (eapply conv_bind; [exact E1|]); (eapply conv_bind; [exact E2|]); apply conv_now; intros _; unfold ret; do 2 f_equal;
      (eapply dec_true; [exact Hc|]); destruct p, q; cbn; intuition (try congruence; try lia).
  - (* set set *) apply ty_set in T1 as [p ->]. apply ty_set in T2 as [q ->].
    destruct E1 as (t & N1 & En1 & E1). destruct E2 as (u & N2 & En2 & E2).
    assert (Hc : is_setcmp o = true) by (destruct o; try discriminate; reflexivity).
    destruct (cmp_set_means o t u p q x s2 Hc N1 N2 En1 En2 Hm) as (c & -> & R).
    cbn [close]. eapply bool_val; [exact To|exact K|]. unfold bool_body. rewrite Ta, Tb.
    eapply conv_bind; [exact E1|]. eapply conv_bind; [exact E2|]. apply conv_now. intros _. exact R.
Qed.

Definition set_body (k : nat) (o : binop) (a b : expr) : M iset :=
  mbind (eval_par P k a) (fun l => mbind (eval_par P k b) (fun r =>
    match type_of P l, type_of P r with
    | TSet, TSet => mbind (eval_set P k l) (fun x => mbind (eval_set P k r) (fun y => set_bin o x y))
    | TInt, TInt =>
        match o with
        | BDotDot => mbind (eval_int P k l) (fun x => mbind (eval_int P k r) (fun y => ret (set_interval x y)))
        | _ => fail
        end
    | _, _ => fail
    end)).
Lemma eval_set_bin : forall k o a b, eval_set P (S k) (EBin o a b) = set_body k o a b.
Proof. reflexivity. Qed.

Lemma bin_set : forall r o a b v w x s, type_of P (EBin o a b) = TSet ->
  good r a (Some v) -> good r b (Some w) ->
  op_means o v w x -> (forall y, x = Some y -> safe_val y) -> wt P (EBin o a b) -> ok r s ->
  ev_good P (EBin o a b) x s.
Proof.
  intros r o a b v w x s To Ga Gb Hm Hx W Hs. inversion W; subst.
  destruct (Ga H2 s Hs) as [(T1 & S1 & _) (s1 & l1 & K1 & L1 & E1)].
  destruct (Gb H3 s1 (kept_ok P _ _ _ Hs K1)) as [(T2 & S2 & _) (s2 & l2 & K2 & L2 & E2)].
  assert (K : kept s s2) by (eapply kept_trans; eassumption).
  assert (B : exists l u, x = Some (SSet l) /\ nf u /\ enumerates l u /\ conv (fun k => set_body k o a b) s s2 (Val u)).
  { destruct (type_of P a) eqn:Ta, (type_of P b) eqn:Tb; try (exfalso; destruct o; discriminate).
    - apply ty_int in T1 as [p ->]. apply ty_int in T2 as [q ->]. cbn in S1, S2.
      assert (o = BDotDot) by (destruct o; try discriminate; reflexivity). subst o.
      destruct Hm as (l & -> & Il & Hl).
      destruct (interval_means (ofZ p) (ofZ q) p q l (is_int_ofZ _ (safe_fits _ S1)) (is_int_ofZ _ (safe_fits _ S2)) Il Hl) as [N En].
      exists l, (set_interval (ofZ p) (ofZ q)). split; [reflexivity|]. split; [exact N|]. split; [exact En|].
      eapply conv_bind; [exact E1|]. eapply conv_bind; [exact E2|].
      rewrite (literal_ty P _ _ L1), (literal_ty P _ _ L2). cbn [sval_ty].
      eapply conv_bind; [exact (literal_ev P l1 (SInt p) s2 L1)|].
      eapply conv_bind; [exact (literal_ev P l2 (SInt q) s2 L2)|]. apply conv_ret.
    - apply ty_set in T1 as [p ->]. apply ty_set in T2 as [q ->].
      assert (Ho : is_setop o = true) by (destruct o; try discriminate; reflexivity).
      destruct (literal_ev P l1 (SSet p) s2 L1) as (t & N1 & En1 & F1).
      destruct (literal_ev P l2 (SSet q) s2 L2) as (u & N2 & En2 & F2).
      destruct (set_bin_means o t u p q x s2 Ho N1 N2 En1 En2 (proj2 S1) (proj2 S2) Hm) as (l & d & -> & R & Nd & Ed).
      exists l, d. split; [reflexivity|]. split; [exact Nd|]. split; [exact Ed|].
      eapply conv_bind; [exact E1|]. eapply conv_bind; [exact E2|].
      rewrite (literal_ty P _ _ L1), (literal_ty P _ _ L2). cbn [sval_ty].
      eapply conv_bind; [exact F1|]. eapply conv_bind; [exact F2|]. apply conv_now. intros _. exact R. }
  destruct B as (l & u & -> & N & En & B). split; [symmetry; exact To|]. split; [exact (Hx _ eq_refl)|].
  exists s2. split; [exact K|]. exists u. split; [exact N|]. split; [exact En|]. apply conv_S. exact B.
Qed.

Lemma good_bin : forall r o a b v w x, lazy_op o = false -> good r a (Some v) -> good r b (Some w) ->
  op_means o v w x -> (forall y, x = Some y -> safe_val y) ->
  good r (EBin o a b) (close (type_of P (EBin o a b)) x).
Proof.
  intros r o a b v w x Hz Ga Gb Hm Hx. apply good_nonid; [discriminate|]. intros W s Hs.
  destruct (type_of P (EBin o a b)) eqn:To; cbn [close].
  - apply (bin_arith r o a b v w x s); try assumption. destruct o; try discriminate; reflexivity.
  - apply (bin_cmp r o a b v w x s); assumption.
  - apply (bin_set r o a b v w x s); assumption.
Qed.

(** an undefined operand *)
Lemma good_bin_undef_l : forall r o a b, lazy_op o = false -> good r a None ->
  good r (EBin o a b) (close (type_of P (EBin o a b)) None).
Proof.
  intros r o a b Hz Ga. apply good_nonid; [discriminate|]. intros W s Hs. inversion W; subst.
  destruct (Ga H2 s Hs) as [(T1 & s1 & K1 & E1) (s2 & K2 & E2)].
  destruct (type_of P (EBin o a b)) eqn:To; cbn [close].
  - assert (Ho : arith o = true) by (destruct o; try discriminate; reflexivity).
    destruct (types_arith _ _ _ Ho H4) as [Ta Tb]. unfold ev_und in E1. rewrite Ta in E1.
    split; [rewrite To; discriminate|]. exists s1. split; [exact K1|]. unfold ev_und. rewrite To. apply conv_S.
    eapply conv_ext with (m' := fun k => int_body k o a b); [intros k; rewrite eval_int_bin by assumption; reflexivity|].
    eapply conv_bind_und. exact E1.
  - unfold ev_und in E1. destruct (type_of P a) eqn:Ta; [| tauto|].
    + eapply bool_und; [exact To|exact K1|]. unfold bool_body. rewrite Ta.
      destruct (type_of P b) eqn:Tb; try (exfalso; destruct o; discriminate); eapply conv_bind_und; exact E1.
    + eapply bool_und; [exact To|exact K1|]. unfold bool_body. rewrite Ta.
      destruct (type_of P b) eqn:Tb; try (exfalso; destruct o; discriminate); eapply conv_bind_und; exact E1.
  - split; [rewrite To; discriminate|]. exists s2. split; [exact K2|]. unfold ev_und. rewrite To. apply conv_S.
    eapply conv_ext with (m' := fun k => set_body k o a b); [intros k; reflexivity|].
    eapply conv_bind_und. exact E2.
Qed.
Lemma good_bin_undef_r : forall r o a b v, lazy_op o = false -> good r a (Some v) -> good r b None ->
  good r (EBin o a b) (close (type_of P (EBin o a b)) None).
Proof.
  intros r o a b v Hz Ga Gb. apply good_nonid; [discriminate|]. intros W s Hs. inversion W; subst.
  destruct (Ga H2 s Hs) as [(T1 & S1 & s1 & K1 & E1) (s2 & l2 & K2 & L2 & E2)].
  destruct (Gb H3 s1 (kept_ok P _ _ _ Hs K1)) as [(T3 & s3 & K3 & E3) _].
  destruct (Gb H3 s2 (kept_ok P _ _ _ Hs K2)) as [_ (s4 & K4 & E4)].
  unfold ev_und in E3.
  destruct (type_of P (EBin o a b)) eqn:To; cbn [close].
  - assert (Ho : arith o = true) by (destruct o; try discriminate; reflexivity).
    destruct (types_arith _ _ _ Ho H4) as [Ta Tb]. rewrite Tb in E3. rewrite Ta in T1. apply ty_int in T1 as [p ->].
    split; [rewrite To; discriminate|]. exists s3. split; [exact (kept_trans P _ _ _ K1 K3)|]. unfold ev_und. rewrite To. apply conv_S.
    eapply conv_ext with (m' := fun k => int_body k o a b); [intros k; rewrite eval_int_bin by assumption; reflexivity|].
    eapply conv_bind; [exact E1|]. eapply conv_bind_und. exact E3.
  - assert (K : kept s s3) by exact (kept_trans P _ _ _ K1 K3).
    destruct (type_of P b) eqn:Tb; [|tauto|].
    + destruct (type_of P a) eqn:Ta; try (exfalso; destruct o; discriminate). apply ty_int in T1 as [p ->].
      eapply bool_und; [exact To|exact K|]. unfold bool_body. rewrite Ta, Tb.
      eapply conv_bind; [exact E1|]. eapply conv_bind_und. exact E3.
    + destruct (type_of P a) eqn:Ta; try (exfalso; destruct o; discriminate).
      * apply ty_int in T1 as [p ->].
        eapply bool_und; [exact To|exact K|]. unfold bool_body. rewrite Ta, Tb.
        eapply conv_bind; [exact E1|]. eapply conv_bind_und. exact E3.
      * apply ty_set in T1 as [p ->]. destruct E1 as (t & _ & _ & E1).
        eapply bool_und; [exact To|exact K|]. unfold bool_body. rewrite Ta, Tb.
        eapply conv_bind; [exact E1|]. eapply conv_bind_und. exact E3.
  - split; [rewrite To; discriminate|]. exists s4. split; [exact (kept_trans P _ _ _ K2 K4)|]. unfold ev_und. rewrite To. apply conv_S.
    eapply conv_ext with (m' := fun k => set_body k o a b); [intros k; reflexivity|].
    eapply conv_bind; [exact E2|]. eapply conv_bind_und. exact E4.
Qed.

(** the operators that may skip an operand *)
Lemma lazy_types : forall o a b, lazy_op o = true -> wt P (EBin o a b) ->
  wt P a /\ wt P b /\ type_of P a = TBool /\ type_of P b = TBool.
Proof.
  intros o a b Ho W. inversion W; subst. split; [assumption|]. split; [assumption|].
  destruct o; try discriminate; destruct (type_of P a), (type_of P b); try discriminate; auto.
Qed.
Lemma lazy_to : forall o a b, lazy_op o = true -> type_of P (EBin o a b) = TBool.
Proof. intros [] a b H; try discriminate; reflexivity. Qed.

Lemma good_lazy_one : forall r o a b fst_ p c, lazy_op o = true -> (fst_ = a \/ fst_ = b) ->
  good r fst_ (Some (SBool p)) ->
  (forall ev s s1, conv (fun k => ev k fst_) s s1 (Val p) -> conv (fun k => bool_bin (ev k) o a b) s s1 (Val c)) ->
  good r (EBin o a b) (Some (SBool c)).
Proof.
  intros r o a b f p c Ho Hf G Hb. apply good_nonid; [discriminate|]. intros W s Hs.
  destruct (lazy_types o a b Ho W) as (Wa & Wb & Ta & Tb).
  assert (Wf : wt P f) by (destruct Hf; subst; assumption).
  destruct (G Wf s Hs) as [(_ & _ & s1 & K1 & E1) _]. cbn in E1.
  eapply bool_val; [apply lazy_to; assumption|exact K1|]. unfold bool_body. rewrite Ta, Tb. apply Hb. exact E1.
Qed.
Lemma good_lazy_two : forall r o a b e1 e2 p x, lazy_op o = true -> (e1 = a /\ e2 = b \/ e1 = b /\ e2 = a) ->
  good r e1 (Some (SBool p)) -> good r e2 x ->
  (forall ev s s1 s2 c, conv (fun k => ev k e1) s s1 (Val p) -> conv (fun k => ev k e2) s1 s2 (Val c) ->
     conv (fun k => bool_bin (ev k) o a b) s s2 (Val c)) ->
  good r (EBin o a b) x.
Proof.
  intros r o a b e1 e2 p x Ho He G1 G2 Hb. apply good_nonid; [discriminate|]. intros W s Hs.
  destruct (lazy_types o a b Ho W) as (Wa & Wb & Ta & Tb).
  assert (W1 : wt P e1) by (destruct He as [[-> ->]|[-> ->]]; assumption).
  assert (W2 : wt P e2) by (destruct He as [[-> ->]|[-> ->]]; assumption).
  assert (T2 : type_of P e2 = TBool) by (destruct He as [[-> ->]|[-> ->]]; assumption).
  destruct (G1 W1 s Hs) as [(_ & _ & s1 & K1 & E1) _]. cbn in E1.
  destruct (G2 W2 s1 (kept_ok P _ _ _ Hs K1)) as [G _]. destruct x as [v|].
  - destruct G as (T & _ & s2 & K2 & E2). rewrite T2 in T. apply ty_bool in T as [c ->]. cbn in E2.
    eapply bool_val; [apply lazy_to; assumption|eapply kept_trans; eassumption|]. unfold bool_body. rewrite Ta, Tb.
    eapply Hb; eassumption.
  - destruct G as (T & _). congruence.
Qed.

Lemma good_or_true : forall r a b, good r a (Some (SBool true)) -> good r (EBin BOr a b) (Some (SBool true)).
Proof.
  intros r a b G. eapply (good_lazy_one r BOr a b a); [reflexivity|auto|exact G|].
  intros ev s s1 H. cbn [bool_bin]. eapply conv_bind; [exact H|]. apply conv_ret.
Qed.
Lemma good_or : forall r a b o, good r a (Some (SBool false)) -> good r b o -> good r (EBin BOr a b) o.
Proof.
  intros r a b o G1 G2. eapply (good_lazy_two r BOr a b a b); [reflexivity|auto|exact G1|exact G2|].
  intros ev s s1 s2 c H1 H2. cbn [bool_bin]. eapply conv_bind; [exact H1|]. exact H2.
Qed.
Lemma good_and_false : forall r a b, good r a (Some (SBool false)) -> good r (EBin BAnd a b) (Some (SBool false)).
Proof.
  intros r a b G. eapply (good_lazy_one r BAnd a b a); [reflexivity|auto|exact G|].
  intros ev s s1 H. cbn [bool_bin]. eapply conv_bind; [exact H|]. apply conv_ret.
Qed.
Lemma good_and : forall r a b o, good r a (Some (SBool true)) -> good r b o -> good r (EBin BAnd a b) o.
Proof.
  intros r a b o G1 G2. eapply (good_lazy_two r BAnd a b a b); [reflexivity|auto|exact G1|exact G2|].
  intros ev s s1 s2 c H1 H2. cbn [bool_bin]. eapply conv_bind; [exact H1|]. exact H2.
Qed.
Lemma good_impl_false : forall r a b, good r a (Some (SBool false)) -> good r (EBin BImpl a b) (Some (SBool true)).
Proof.
  intros r a b G. eapply (good_lazy_one r BImpl a b a); [reflexivity|auto|exact G|].
  intros ev s s1 H. cbn [bool_bin]. eapply conv_bind; [exact H|]. apply conv_ret.
Qed.
Lemma good_impl : forall r a b o, good r a (Some (SBool true)) -> good r b o -> good r (EBin BImpl a b) o.
Proof.
  intros r a b o G1 G2. eapply (good_lazy_two r BImpl a b a b); [reflexivity|auto|exact G1|exact G2|].
  intros ev s s1 s2 c H1 H2. cbn [bool_bin]. eapply conv_bind; [exact H1|]. exact H2.
Qed.
Lemma good_rimpl_false : forall r a b, good r b (Some (SBool false)) -> good r (EBin BRimpl a b) (Some (SBool true)).
Proof.
  intros r a b G. eapply (good_lazy_one r BRimpl a b b); [reflexivity|auto|exact G|].
  intros ev s s1 H. cbn [bool_bin]. eapply conv_bind; [exact H|]. apply conv_ret.
Qed.
Lemma good_rimpl : forall r a b o, good r b (Some (SBool true)) -> good r a o -> good r (EBin BRimpl a b) o.
Proof.
  intros r a b o G1 G2. eapply (good_lazy_two r BRimpl a b b a); [reflexivity|auto|exact G1|exact G2|].
  intros ev s s1 s2 c H1 H2. cbn [bool_bin]. eapply conv_bind; [exact H1|]. exact H2.
Qed.
End Bin.
