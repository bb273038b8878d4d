(** Evaluation agrees with the meaning: domains, lets and calls; the main induction. *)
Require Import ZArith List Bool Lia.
From Verif Require Import Base IntValModel IntValSpec IntValProofs SetModel SetSpec SetPropProofs EvalModel EvalSpec EvalProofs EvalProofs2 EvalProofs3 EvalProofs4 EvalProofs5.
Import ListNotations.
Open Scope Z_scope.

Section Main.
Variable P : program.
Hypothesis WP : wt_prog P.

Local Notation kept := (store_kept P).
Local Notation kept_but := (kept_but P).
Local Notation ok := (store_ok P).
Local Notation good := (good P).
Local Notation ev_good := (ev_good P).

Definition chk (k : nat) (t : ty) (dom : option expr) (v : expr) : M unit :=
  check_dom (eval_int P k) (eval_set P k) t dom v.

(** domains *)
Definition dom_good (r : env) (dom : option expr) (v : sval) (b : option bool) : Prop :=
  (forall de, dom = Some de -> wt P de /\ type_of P de = TSet) -> safe_val v ->
  forall s lit, ok r s -> literal lit v ->
  exists s', kept s s' /\
    conv (fun k => chk k (sval_ty v) dom lit) s s' (match b with Some true => Val tt | _ => Und end).

Lemma dom_none : forall r v, dom_good r None v (Some true).
Proof. intros r v _ _ s lit Hs _. exists s. split; [eapply kept_refl; eauto|]. apply conv_ret. Qed.
Lemma dom_bool : forall r de b, dom_good r (Some de) (SBool b) (Some true).
Proof. intros r de b _ _ s lit Hs _. exists s. split; [eapply kept_refl; eauto|]. apply conv_ret. Qed.
Lemma dom_some : forall r de v l b, sval_ty v <> TBool -> good r de (Some (SSet l)) -> decides b (within v l) ->
  dom_good r (Some de) v (Some b).
Proof.
  intros r de v l b Tv G D W Sv s lit Hs L. destruct (W de eq_refl) as [Wd Td].
  destruct (G Wd s Hs) as [(_ & _ & s1 & K1 & (t & N & En & E1)) _].
  exists s1. split; [exact K1|]. destruct v as [z|?|m]; cbn [sval_ty] in *; [|congruence|].
  - unfold chk, check_dom. eapply conv_bind; [exact E1|].
    eapply conv_bind; [exact (literal_ev P lit (SInt z) s1 L)|]. apply conv_now. intros _.
    assert (Q : set_contains t (ofZ z) = b).
    { eapply dec_true; [exact D|]. rewrite (C07_contains_l t (ofZ z) z N (is_int_ofZ _ (safe_fits _ Sv))). symmetry. apply En. }
    rewrite Q. destruct b; reflexivity.
  - unfold chk, check_dom. eapply conv_bind; [exact E1|].
    destruct (literal_ev P lit (SSet m) s1 L) as (u & Nu & Eu & E2).
    eapply conv_bind; [exact E2|]. apply conv_now. intros _.
    assert (Q : set_subset u t = b).
    { eapply dec_true; [exact D|]. rewrite (C07_subset_l u t Nu N). cbn [within]. destruct En as [_ En], Eu as [_ Eu].
      split; intros H z Hz; [apply En, H, Eu, Hz|apply En, H, Eu, Hz]. }
    rewrite Q. destruct b; reflexivity.
Qed.
Lemma dom_undef : forall r de v, sval_ty v <> TBool -> good r de None -> dom_good r (Some de) v None.
Proof.
  intros r de v Tv G W Sv s lit Hs L. destruct (W de eq_refl) as [Wd Td].
  destruct (G Wd s Hs) as [(_ & s1 & K1 & E1) _]. unfold ev_und in E1. rewrite Td in E1.
  exists s1. split; [exact K1|]. unfold chk, check_dom.
  destruct (sval_ty v); [|congruence|]; eapply conv_bind_und; exact E1.
Qed.

Lemma dom_wt : forall d de, p_dom P d = Some de -> wt P de /\ type_of P de = TSet.
Proof. destruct WP as (_ & W & _). exact W. Qed.

(** a value inside a one-element literal domain is that element *)
Lemma one_value : forall r d v a, means_dom P r (p_dom P d) v (Some true) -> sval_ty v = p_ty P d ->
  p_ty P d = TInt -> p_dom P d = Some (ESet [(a, a)]) -> literal (EInt a) v.
Proof.
  intros r d v a H Tv Ti E. rewrite E in H. rewrite Ti in Tv. apply ty_int in Tv as [z ->].
  inversion H; subst. match goal with H : means _ _ _ _ |- _ => inversion H; subst end.
  match goal with H : decides _ _ |- _ => pose proof (proj1 H eq_refl) as Hin end. cbn in Hin.
  match goal with H : enumerates _ _ |- _ => apply H in Hin end.
  destruct Hin as (x & y & [F|[]] & p & q & Hp & Hq & L1 & L2). injection F as <- <-.
  cbn. unfold is_int. rewrite Hp in Hq. injection Hq as <-. rewrite Hp. f_equal.
  destruct p; cbn in *; try tauto. f_equal. lia.
Qed.

(** extending an environment *)
Lemma ok_put : forall r s d v lit, ok r s -> p_top P d = None -> sval_ty v = p_ty P d -> safe_val v -> literal lit v ->
  (forall a, p_ty P d = TInt -> p_dom P d = Some (ESet [(a, a)]) -> literal (EInt a) v) ->
  ok (upd r d (Some v)) (set_slot d (Some lit) s).
Proof.
  intros r s d v lit [H1 H2] Hd Tv Sv L One. split; [|apply set_slot_top; assumption].
  intros k w Hk. destruct (Nat.eq_dec k d) as [->|N].
  - rewrite upd_same in Hk. injection Hk as <-. repeat split; try assumption.
    exists lit. rewrite slot_set_same. auto.
  - rewrite upd_other in Hk by assumption. destruct (H1 k w Hk) as (A & B & C & D & E).
    repeat split; try assumption. rewrite slot_set_other by assumption. exact D.
Qed.
Lemma ok_put_fresh : forall r s d lit, ok r s -> p_top P d = None -> r d = None -> ok r (set_slot d (Some lit) s).
Proof.
  intros r s d lit [H1 H2] Hd Hr. split; [|apply set_slot_top; assumption].
  intros k w Hk. destruct (H1 k w Hk) as (A & B & C & D & E).
  repeat split; try assumption. rewrite slot_set_other by congruence. exact D.
Qed.

(** let items *)
Definition item_wt (items : list item) : Prop :=
  (forall d e, In (LDecl d e) items -> wt P e /\ type_of P e = p_ty P d) /\
  (forall e, In (LCon e) items -> wt P e /\ type_of P e = TBool).
Definition dchk (k : nat) (d : nat) (v : expr) : M unit := chk k (p_ty P d) (p_dom P d) v.
Definition items_iter (k : nat) (items : list item) : M unit := iterM (let_item (eval_par P k) (eval_bool P k) (dchk k)) items.
Definition items_bool (k : nat) (items : list item) : M bool := let_items_bool (eval_par P k) (eval_bool P k) (dchk k) items.

Definition items_good (t : ty) (r : env) (items : list item) (x : option env) : Prop :=
  item_wt items -> (forall d, In d (declared items) -> r d = None /\ p_top P d = None) -> NoDup (declared items) ->
  forall s, ok r s -> (forall d e, In (LDecl d e) items -> slot s d = Some e) ->
  (t <> TBool -> exists s', kept_but (declared items) s s' /\
     match x with
     | Some r' => ok r' s' /\ conv (fun k => items_iter k items) s s' (Val tt)
     | None => conv (fun k => items_iter k items) s s' Und
     end) /\
  (t = TBool -> exists s', kept_but (declared items) s s' /\
     match x with
     | Some r' => ok r' s' /\ conv (fun k => items_bool k items) s s' (Val true)
     | None => conv (fun k => items_bool k items) s s' (Val false) \/ conv (fun k => items_bool k items) s s' Und
     end).

Lemma but_refl : forall ds r s, ok r s -> kept_but ds s s.
Proof. intros ds r s H. apply kept_is_but. eapply kept_refl; eauto. Qed.
Lemma but_weaken : forall ds es s s', (forall d, In d ds -> In d es) -> kept_but ds s s' -> kept_but es s s'.
Proof. intros ds es s s' H [A B]. split; [|exact B]. intros d Hd Hn. apply A; auto. Qed.

Lemma items_nil : forall t r, items_good t r [] (Some r).
Proof.
  intros t r _ _ _ s Hs _. split; intros _; exists s; (split; [eapply but_refl; eauto|]); (split; [exact Hs|]); apply conv_ret.
Qed.

(** a declaration that is evaluated and assigned *)
Lemma decl_step : forall r d e v s, good r e (Some v) -> wt P e -> type_of P e = p_ty P d -> ok r s -> slot s d = Some e ->
  r d = None -> p_top P d = None ->
  exists s1 lit, kept s s1 /\ literal lit v /\ sval_ty v = p_ty P d /\ safe_val v /\
    conv (fun k => decl_value (eval_par P k) d) s s1 (Val lit) /\ ok r (set_slot d (Some lit) s1) /\
    kept_but [d] s (set_slot d (Some lit) s1).
Proof.
  intros r d e v s G W T Hs Hsl Hr Ht. destruct (G W s Hs) as [(Tv & Sv & _) (s1 & lit & K & L & E)].
  exists s1, lit. pose proof (kept_ok P _ _ _ Hs K) as Hs1.
  split; [exact K|]. split; [exact L|]. split; [congruence|]. split; [exact Sv|]. split.
  { unfold decl_value. eapply conv_ext with (m' := fun k => eval_par P k e); [|exact E].
    intros k. unfold mbind, get_slot. rewrite Hsl. reflexivity. }
  split; [apply ok_put_fresh; assumption|]. split.
  - intros k Hk Hn. rewrite slot_set_other by (intros ->; apply Hn; left; reflexivity). apply K. assumption.
  - apply set_slot_top; [apply K|assumption].
Qed.

Lemma put_conv : forall d lit s, conv (fun _ : nat => put_slot d lit) s (set_slot d (Some lit) s) (Val tt).
Proof. intros. apply conv_now. reflexivity. Qed.

Lemma items_decl : forall t r d e v items x, good r e (Some v) -> means_dom P r (p_dom P d) v (Some true) ->
  dom_good r (p_dom P d) v (Some true) -> items_good t (upd r d (Some v)) items x -> items_good t r (LDecl d e :: items) x.
Proof.
  intros t r d e v items x G M D I [W1 W2] Hf Nd s Hs Hsl. cbn [declared] in *. inversion Nd as [|? ? Nd1 Nd2]; subst.
  destruct (Hf d (or_introl eq_refl)) as [Hr Ht].
  destruct (W1 d e (or_introl eq_refl)) as [We Te].
  destruct (decl_step r d e v s G We Te Hs (Hsl d e (or_introl eq_refl)) Hr Ht) as (s1 & lit & K1 & L & Tv & Sv & E1 & Hs1 & B1).
  destruct (D (dom_wt d) Sv (set_slot d (Some lit) s1) lit Hs1 L) as (s2 & K2 & E2). rewrite Tv in E2.
  assert (Ok2 : ok (upd r d (Some v)) s2).
  { eapply kept_ok; [|exact K2]. apply ok_put; try assumption; [exact (kept_ok P _ _ _ Hs K1)|].
    intros a. apply (one_value r d v a M Tv). }
  assert (B2 : kept_but [d] s s2).
  { eapply but_weaken; [|eapply kept_but_trans; [exact B1|apply (kept_is_but P []); exact K2]]. intros k. rewrite app_nil_r. auto. }
  assert (Hsl2 : forall d' e', In (LDecl d' e') items -> slot s2 d' = Some e').
  { intros d' e' Hi. assert (Hd' : In d' (declared items)).
    { clear - Hi. induction items as [|[k f|f] items IH]; cbn in *; [tauto| |].
      - destruct Hi as [E|Hi]; [injection E as -> ->; auto|auto].
      - destruct Hi as [E|Hi]; [discriminate|auto]. }
    assert (d' <> d) by (intros ->; tauto).
    destruct (Hf d' (or_intror Hd')) as [_ Ht']. rewrite (proj1 B2 d' Ht') by (intros [E|[]]; congruence).
    apply Hsl. right. exact Hi. }
  assert (W' : item_wt items) by (split; [intros; apply W1; right; assumption|intros; apply W2; right; assumption]).
  assert (Hf' : forall k, In k (declared items) -> upd r d (Some v) k = None /\ p_top P k = None).
  { intros k Hk. destruct (Hf k (or_intror Hk)) as [A B]. split; [|exact B]. rewrite upd_other by (intros ->; tauto). exact A. }
  destruct (I W' Hf' Nd2 s2 Ok2 Hsl2) as [I1 I2].
  assert (C : forall s3, kept_but (declared items) s2 s3 -> kept_but (d :: declared items) s s3).
  { intros s3 B3. eapply but_weaken; [|eapply kept_but_trans; [exact B2|exact B3]]. intros k. cbn. tauto. }
  split; intros Ht'.
  - destruct (I1 Ht') as (s3 & B3 & E3). exists s3. split; [auto|].
    assert (Q : forall o, conv (fun k => items_iter k items) s2 s3 o -> conv (fun k => items_iter k (LDecl d e :: items)) s s3 o).
    { intros o Eo. unfold items_iter. cbn [iterM let_item].
      eapply conv_bind; [eapply conv_bind; [exact E1|]; eapply conv_bind; [apply put_conv|]; exact E2|]. exact Eo. }
    destruct x as [r'|]; [destruct E3 as [A E3]; split; [exact A|]|]; apply Q; exact E3.
  - destruct (I2 Ht') as (s3 & B3 & E3). exists s3. split; [auto|].
    assert (Q : forall b, conv (fun k => items_bool k items) s2 s3 (Val b) -> conv (fun k => items_bool k (LDecl d e :: items)) s s3 (Val b)).
    { intros b Eo. unfold items_bool. cbn [let_items_bool].
      eapply conv_bind; [exact E1|]. eapply conv_bind; [apply put_conv|].
      eapply conv_bind; [apply conv_catch; eapply conv_bind; [exact E2|apply conv_ret]|].
      eapply conv_bind; [exact Eo|]. apply conv_ret. }
    destruct x as [r'|]; [destruct E3 as [A E3]; split; [exact A|]; apply Q; exact E3|].
    destruct E3 as [E3|E3]; [left; apply Q; exact E3|]. right. unfold items_bool. cbn [let_items_bool].
    eapply conv_bind; [exact E1|]. eapply conv_bind; [apply put_conv|].
    eapply conv_bind; [apply conv_catch; eapply conv_bind; [exact E2|apply conv_ret]|].
    eapply conv_bind_und. exact E3.
Qed.

Lemma items_decl_undef : forall t r d e items, good r e None -> items_good t r (LDecl d e :: items) None.
Proof.
  intros t r d e items G [W1 W2] Hf Nd s Hs Hsl. cbn [declared] in *.
  destruct (W1 d e (or_introl eq_refl)) as [We Te].
  destruct (G We s Hs) as [_ (s1 & K1 & E1)].
  assert (Q : conv (fun k => decl_value (eval_par P k) d) s s1 Und).
  { unfold decl_value. eapply conv_ext with (m' := fun k => eval_par P k e); [|exact E1].
    intros k. unfold mbind, get_slot. rewrite (Hsl d e (or_introl eq_refl)). reflexivity. }
  split; intros _; exists s1; (split; [apply kept_is_but; exact K1|]).
  - unfold items_iter. cbn [iterM let_item]. eapply conv_bind_und. eapply conv_bind_und. exact Q.
  - right. unfold items_bool. cbn [let_items_bool]. eapply conv_bind_und. exact Q.
Qed.

Lemma items_decl_out : forall t r d e v items b, good r e (Some v) -> dom_good r (p_dom P d) v b -> b <> Some true ->
  t <> TBool -> items_good t r (LDecl d e :: items) None.
Proof.
  intros t r d e v items b G D Hb Ht [W1 W2] Hf Nd s Hs Hsl. cbn [declared] in *.
  destruct (Hf d (or_introl eq_refl)) as [Hr Htp].
  destruct (W1 d e (or_introl eq_refl)) as [We Te].
  destruct (decl_step r d e v s G We Te Hs (Hsl d e (or_introl eq_refl)) Hr Htp) as (s1 & lit & K1 & L & Tv & Sv & E1 & Hs1 & B1).
  destruct (D (dom_wt d) Sv (set_slot d (Some lit) s1) lit Hs1 L) as (s2 & K2 & E2). rewrite Tv in E2.
  assert (E2' : conv (fun k => dchk k d lit) (set_slot d (Some lit) s1) s2 Und) by (destruct b as [[]|]; [congruence|exact E2|exact E2]).
  split; [|congruence]. intros _. exists s2. split.
  - eapply but_weaken; [|eapply kept_but_trans; [exact B1|apply (kept_is_but P []); exact K2]]. intros k. cbn. tauto.
  - unfold items_iter. cbn [iterM let_item]. eapply conv_bind_und.
    eapply conv_bind; [exact E1|]. eapply conv_bind; [apply put_conv|]. exact E2'.
Qed.

Lemma declared_in : forall d e items, In (LDecl d e) items -> In d (declared items).
Proof.
  induction items as [|[k f|f] items IH]; cbn; intros Hi; [tauto| |].
  - destruct Hi as [E|Hi]; [injection E as -> ->; auto|auto].
  - destruct Hi as [E|Hi]; [discriminate|auto].
Qed.

Lemma items_decl_out_bool : forall r d e v items b x, good r e (Some v) -> dom_good r (p_dom P d) v b -> b <> Some true ->
  ~ one_value_dom P d -> items_good TBool (upd r d (Some v)) items x -> items_good TBool r (LDecl d e :: items) None.
Proof.
  intros r d e v items b x G D Hb No I [W1 W2] Hf Nd s Hs Hsl. cbn [declared] in *. inversion Nd as [|? ? Nd1 Nd2]; subst.
  destruct (Hf d (or_introl eq_refl)) as [Hr Htp].
  destruct (W1 d e (or_introl eq_refl)) as [We Te].
  destruct (decl_step r d e v s G We Te Hs (Hsl d e (or_introl eq_refl)) Hr Htp) as (s1 & lit & K1 & L & Tv & Sv & E1 & Hs1 & B1).
  destruct (D (dom_wt d) Sv (set_slot d (Some lit) s1) lit Hs1 L) as (s2 & K2 & E2). rewrite Tv in E2.
  assert (E2' : conv (fun k => dchk k d lit) (set_slot d (Some lit) s1) s2 Und) by (destruct b as [[]|]; [congruence|exact E2|exact E2]).
  assert (Ok2 : ok (upd r d (Some v)) s2).
  { eapply kept_ok; [|exact K2]. apply ok_put; try assumption; [exact (kept_ok P _ _ _ Hs K1)|].
    intros a _ Hd. exfalso. apply No. exists a. exact Hd. }
  assert (B2 : kept_but [d] s s2).
  { eapply but_weaken; [|eapply kept_but_trans; [exact B1|apply (kept_is_but P []); exact K2]]. intros k. rewrite app_nil_r. auto. }
  assert (Hsl2 : forall d' e', In (LDecl d' e') items -> slot s2 d' = Some e').
  { intros d' e' Hi. pose proof (declared_in d' e' items Hi) as Hd'.
    assert (d' <> d) by (intros ->; tauto).
    destruct (Hf d' (or_intror Hd')) as [_ Ht']. rewrite (proj1 B2 d' Ht') by (intros [E|[]]; congruence).
    apply Hsl. right. exact Hi. }
  assert (W' : item_wt items) by (split; [intros; apply W1; right; assumption|intros; apply W2; right; assumption]).
  assert (Hf' : forall k, In k (declared items) -> upd r d (Some v) k = None /\ p_top P k = None).
  { intros k Hk. destruct (Hf k (or_intror Hk)) as [A B]. split; [|exact B]. rewrite upd_other by (intros ->; tauto). exact A. }
  destruct (I W' Hf' Nd2 s2 Ok2 Hsl2) as [_ I2].
  split; [congruence|]. intros _. destruct (I2 eq_refl) as (s3 & B3 & E3). exists s3. split.
  - eapply but_weaken; [|eapply kept_but_trans; [exact B2|exact B3]]. intros k. cbn. tauto.
  - assert (Q : forall c, conv (fun k => items_bool k items) s2 s3 (Val c) -> conv (fun k => items_bool k (LDecl d e :: items)) s s3 (Val false)).
    { intros c Ec. unfold items_bool. cbn [let_items_bool].
      eapply conv_bind; [exact E1|]. eapply conv_bind; [apply put_conv|].
      eapply conv_bind; [apply conv_catch_und; eapply conv_bind_und; exact E2'|].
      eapply conv_bind; [exact Ec|]. apply conv_ret. }
    destruct x as [r'|]; [destruct E3 as [_ E3]; left; eapply Q; exact E3|].
    destruct E3 as [E3|E3]; [left; eapply Q; exact E3|]. right. unfold items_bool. cbn [let_items_bool].
    eapply conv_bind; [exact E1|]. eapply conv_bind; [apply put_conv|].
    eapply conv_bind; [apply conv_catch_und; eapply conv_bind_und; exact E2'|].
    eapply conv_bind_und. exact E3.
Qed.

Lemma items_con : forall t r e items x, good r e (Some (SBool true)) -> items_good t r items x -> items_good t r (LCon e :: items) x.
Proof.
  intros t r e items x G I [W1 W2] Hf Nd s Hs Hsl. cbn [declared] in *.
  destruct (W2 e (or_introl eq_refl)) as [We Te].
  destruct (G We s Hs) as [(_ & _ & s1 & K1 & E1) _]. cbn in E1.
  assert (W' : item_wt items) by (split; [intros; apply W1; right; assumption|intros; apply W2; right; assumption]).
  assert (Hsl1 : forall d' e', In (LDecl d' e') items -> slot s1 d' = Some e').
  { intros d' e' Hi. rewrite (proj1 K1) by (apply Hf; eapply declared_in; exact Hi). apply Hsl. right. exact Hi. }
  destruct (I W' Hf Nd s1 (kept_ok P _ _ _ Hs K1) Hsl1) as [I1 I2].
  assert (C : forall s3, kept_but (declared items) s1 s3 -> kept_but (declared items) s s3).
  { intros s3 B3. eapply but_weaken; [|eapply kept_but_trans; [apply (kept_is_but P []); exact K1|exact B3]]. intros k. cbn. auto. }
  split; intros Ht.
  - destruct (I1 Ht) as (s2 & B2 & E2). exists s2. split; [auto|].
    assert (Q : forall o, conv (fun k => items_iter k items) s1 s2 o -> conv (fun k => items_iter k (LCon e :: items)) s s2 o).
    { intros o Eo. unfold items_iter. cbn [iterM let_item]. eapply conv_bind; [eapply conv_bind; [exact E1|apply conv_ret]|]. exact Eo. }
    destruct x as [r'|]; [destruct E2 as [A E2]; split; [exact A|]|]; apply Q; exact E2.
  - destruct (I2 Ht) as (s2 & B2 & E2). exists s2. split; [auto|].
    assert (Q : forall o, conv (fun k => items_bool k items) s1 s2 o -> conv (fun k => items_bool k (LCon e :: items)) s s2 o).
    { intros o Eo. unfold items_bool. cbn [let_items_bool]. eapply conv_bind; [exact E1|]. exact Eo. }
    destruct x as [r'|]; [destruct E2 as [A E2]; split; [exact A|]; apply Q; exact E2|].
    destruct E2 as [E2|E2]; [left|right]; apply Q; exact E2.
Qed.
Lemma items_con_false : forall t r e items, good r e (Some (SBool false)) -> items_good t r (LCon e :: items) None.
Proof.
  intros t r e items G [W1 W2] Hf Nd s Hs Hsl. cbn [declared] in *.
  destruct (W2 e (or_introl eq_refl)) as [We Te].
  destruct (G We s Hs) as [(_ & _ & s1 & K1 & E1) _]. cbn in E1.
  split; intros _; exists s1; (split; [apply kept_is_but; exact K1|]).
  - unfold items_iter. cbn [iterM let_item]. eapply conv_bind_und. eapply conv_bind; [exact E1|]. apply conv_now. reflexivity.
  - right. unfold items_bool. cbn [let_items_bool]. eapply conv_bind; [exact E1|]. apply conv_now. reflexivity.
Qed.

(** let *)
Lemma binds_declared : forall items, map fst (let_binds items) = declared items.
Proof. induction items as [|[d e|e] items IH]; cbn; [reflexivity| |exact IH]. rewrite IH. reflexivity. Qed.
Lemma binds_in : forall d e items, In (LDecl d e) items -> In (d, Some e) (let_binds items).
Proof.
  induction items as [|[k f|f] items IH]; cbn; intros Hi; [tauto| |].
  - destruct Hi as [E|Hi]; [injection E as -> ->; auto|auto].
  - destruct Hi as [E|Hi]; [discriminate|auto].
Qed.

Lemma let_start : forall r items s, ok r s -> (forall d, In d (declared items) -> r d = None /\ p_top P d = None) ->
  NoDup (declared items) ->
  ok r (assign (let_binds items) s) /\ (forall d e, In (LDecl d e) items -> slot (assign (let_binds items) s) d = Some e).
Proof.
  intros r items s [H1 H2] Hf Nd. split.
  - split.
    + intros d v Hd. destruct (H1 d v Hd) as (A & B & C & D & E). repeat split; try assumption.
      rewrite assign_other; [exact D|]. rewrite binds_declared. intros Hi. apply Hf in Hi as [F _]. congruence.
    + apply assign_top; [|exact H2]. intros d. rewrite binds_declared. intros Hi. apply (Hf d Hi).
  - intros d e Hi. apply assign_in; [rewrite binds_declared; exact Nd|]. apply binds_in. exact Hi.
Qed.

Definition let_int (k : nat) (items : list item) (body : expr) : M IntVal :=
  mbind (items_iter k items) (fun _ => eval_int P k body).
Definition let_set (k : nat) (items : list item) (body : expr) : M iset :=
  mbind (items_iter k items) (fun _ => eval_set P k body).
Definition let_bool (k : nat) (items : list item) (body : expr) : M bool :=
  mbind (items_bool k items) (fun okk => if okk then eval_bool P k body else ret false).

Lemma eval_int_let : forall k items body, type_of P body = TInt ->
  eval_int P (S k) (ELet items body) = bracket (let_binds items) (let_int k items body).
Proof. intros k items body T. cbn [eval_int type_of]. rewrite T. reflexivity. Qed.
Lemma eval_set_let : forall k items body,
  eval_set P (S k) (ELet items body) = bracket (let_binds items) (let_set k items body).
Proof. reflexivity. Qed.
Lemma eval_bool_let : forall k items body,
  eval_bool P (S k) (ELet items body) = catch (bracket (let_binds items) (let_bool k items body)) false.
Proof. reflexivity. Qed.

Lemma ok_env : forall r s s', ok r s -> kept s s' -> ok r s'.
Proof. exact (kept_ok P). Qed.

Lemma let_close : forall items s s1 s2, (forall d, In d (declared items) -> p_top P d = None) ->
  kept_but (declared items) (assign (let_binds items) s) s1 -> kept s1 s2 ->
  kept s (restore (map fst (let_binds items)) s s2).
Proof.
  intros items s s1 s2 Hf B K. apply bracket_kept; rewrite binds_declared; [exact Hf|].
  eapply but_weaken; [|eapply kept_but_trans; [exact B|apply (kept_is_but P []); exact K]]. intros k. rewrite app_nil_r. auto.
Qed.

Lemma good_let : forall r items body r' o,
  (forall d, In d (declared items) -> r d = None /\ p_top P d = None) -> NoDup (declared items) ->
  items_good (type_of P body) r items (Some r') -> good r' body o -> good r (ELet items body) o.
Proof.
  intros r items body r' o Hf Nd I G. apply good_nonid; [discriminate|]. intros W s Hs. inversion W; subst.
  destruct (let_start r items s Hs Hf Nd) as [Hs0 Hsl].
  destruct (I (conj H2 H3) Hf Nd _ Hs0 Hsl) as [I1 I2].
  assert (Ht : forall d, In d (declared items) -> p_top P d = None) by (intros d Hd; apply (Hf d Hd)).
  destruct (type_of P body) eqn:T.
  - destruct I1 as (s1 & B1 & Ok1 & E1); [discriminate|]. destruct (G H1 s1 Ok1) as [Gb _]. destruct o as [v|].
    + destruct Gb as (Tv & Sv & s2 & K2 & E2). rewrite T in Tv. apply ty_int in Tv as [z ->]. cbn in E2.
      split; [cbn; congruence|]. split; [exact Sv|]. eexists. split; [eapply let_close; eassumption|].
      cbn [ev_val]. apply conv_S. eapply conv_ext with (m' := fun k => bracket (let_binds items) (let_int k items body)); [intros k; rewrite eval_int_let by exact T; reflexivity|].
      apply conv_bracket. eapply conv_bind; [exact E1|exact E2].
    + destruct Gb as (Tv & s2 & K2 & E2). unfold ev_und in E2. rewrite T in E2.
      split; [cbn; congruence|]. eexists. split; [eapply let_close; eassumption|].
      unfold ev_und. cbn [type_of]. rewrite T. apply conv_S. eapply conv_ext with (m' := fun k => bracket (let_binds items) (let_int k items body)); [intros k; rewrite eval_int_let by exact T; reflexivity|].
      apply conv_bracket. eapply conv_bind; [exact E1|exact E2].
  - destruct I2 as (s1 & B1 & Ok1 & E1); [reflexivity|]. destruct (G H1 s1 Ok1) as [Gb _]. destruct o as [v|].
    + destruct Gb as (Tv & Sv & s2 & K2 & E2). rewrite T in Tv. apply ty_bool in Tv as [z ->]. cbn in E2.
      split; [cbn; congruence|]. split; [exact Sv|]. eexists. split; [eapply let_close; eassumption|].
      cbn [ev_val]. apply conv_S. eapply conv_ext with (m' := fun k => catch (bracket (let_binds items) (let_bool k items body)) false); [reflexivity|].
      apply conv_catch. apply conv_bracket. eapply conv_bind; [exact E1|exact E2].
    + destruct Gb as (Tv & _). congruence.
  - destruct I1 as (s1 & B1 & Ok1 & E1); [discriminate|]. destruct (G H1 s1 Ok1) as [Gb _]. destruct o as [v|].
    + destruct Gb as (Tv & Sv & s2 & K2 & E2). rewrite T in Tv. apply ty_set in Tv as [z ->]. destruct E2 as (u & N & En & E2).
      split; [cbn; congruence|]. split; [exact Sv|]. eexists. split; [eapply let_close; eassumption|].
      cbn [ev_val]. exists u. split; [exact N|]. split; [exact En|]. apply conv_S.
      eapply conv_ext with (m' := fun k => bracket (let_binds items) (let_set k items body)); [reflexivity|].
      apply conv_bracket. eapply conv_bind; [exact E1|exact E2].
    + destruct Gb as (Tv & s2 & K2 & E2). unfold ev_und in E2. rewrite T in E2.
      split; [cbn; congruence|]. eexists. split; [eapply let_close; eassumption|].
      unfold ev_und. cbn [type_of]. rewrite T. apply conv_S. eapply conv_ext with (m' := fun k => bracket (let_binds items) (let_set k items body)); [reflexivity|].
      apply conv_bracket. eapply conv_bind; [exact E1|exact E2].
Qed.

Lemma let_close0 : forall items s s1, (forall d, In d (declared items) -> p_top P d = None) ->
  kept_but (declared items) (assign (let_binds items) s) s1 -> kept s (restore (map fst (let_binds items)) s s1).
Proof. intros items s s1 Hf B. apply bracket_kept; rewrite binds_declared; assumption. Qed.

Lemma good_let_undef : forall r items body,
  (forall d, In d (declared items) -> r d = None /\ p_top P d = None) -> NoDup (declared items) ->
  items_good (type_of P body) r items None -> good r (ELet items body) (close (type_of P body) None).
Proof.
  intros r items body Hf Nd I. apply good_nonid; [discriminate|]. intros W s Hs. inversion W; subst.
  destruct (let_start r items s Hs Hf Nd) as [Hs0 Hsl].
  destruct (I (conj H2 H3) Hf Nd _ Hs0 Hsl) as [I1 I2].
  assert (Ht : forall d, In d (declared items) -> p_top P d = None) by (intros d Hd; apply (Hf d Hd)).
  destruct (type_of P body) eqn:T; cbn [close].
  - destruct I1 as (s1 & B1 & E1); [discriminate|].
    split; [cbn; congruence|]. eexists. split; [eapply let_close0; eassumption|].
    unfold ev_und. cbn [type_of]. rewrite T. apply conv_S. eapply conv_ext with (m' := fun k => bracket (let_binds items) (let_int k items body)); [intros k; rewrite eval_int_let by exact T; reflexivity|].
    apply conv_bracket. eapply conv_bind_und. exact E1.
  - destruct I2 as (s1 & B1 & E1); [reflexivity|].
    split; [cbn; congruence|]. split; [exact Logic.I|]. eexists. split; [eapply let_close0; eassumption|].
    cbn [ev_val]. apply conv_S. eapply conv_ext with (m' := fun k => catch (bracket (let_binds items) (let_bool k items body)) false); [reflexivity|]. destruct E1 as [E1|E1].
    + apply conv_catch. apply conv_bracket. eapply conv_bind; [exact E1|apply conv_ret].
    + apply conv_catch_und. apply conv_bracket. eapply conv_bind_und. exact E1.
  - destruct I1 as (s1 & B1 & E1); [discriminate|].
    split; [cbn; congruence|]. eexists. split; [eapply let_close0; eassumption|].
    unfold ev_und. cbn [type_of]. rewrite T. apply conv_S. eapply conv_ext with (m' := fun k => bracket (let_binds items) (let_set k items body)); [reflexivity|].
    apply conv_bracket. eapply conv_bind_und. exact E1.
Qed.
End Main.
