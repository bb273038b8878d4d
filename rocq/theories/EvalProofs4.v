(** Evaluation agrees with the meaning: identifiers, lists, conditionals and operators. *)
Require Import ZArith List Bool Lia.
From Verif Require Import Base IntValModel IntValSpec IntValProofs SetModel SetSpec SetPropProofs EvalModel EvalSpec EvalProofs EvalProofs2 EvalProofs3.
Import ListNotations.
Open Scope Z_scope.

Section Cases.
Variable P : program.
Hypothesis WP : wt_prog P.

Local Notation kept := (store_kept P).
Local Notation ok := (store_ok P).
Local Notation good := (good P).

Lemma good_int : forall r v z, is_int v z -> safe z -> good r (EInt v) (Some (SInt z)).
Proof.
  intros r v z Hv Hz. apply good_nonid; [discriminate|]. intros _ s Hs. split; [reflexivity|]. split; [exact Hz|].
  exists s. split; [eapply kept_refl; eauto|]. apply (literal_ev P (EInt v) (SInt z)). exact Hv.
Qed.
Lemma good_bool : forall r b, good r (EBool b) (Some (SBool b)).
Proof.
  intros r b. apply good_nonid; [discriminate|]. intros _ s Hs. split; [reflexivity|]. split; [exact Logic.I|].
  exists s. split; [eapply kept_refl; eauto|]. apply (literal_ev P (EBool b) (SBool b)). reflexivity.
Qed.
Lemma good_set : forall r s l, nf s -> enumerates l s -> Forall safe l -> good r (ESet s) (Some (SSet l)).
Proof.
  intros r t l N E S. apply good_nonid; [discriminate|]. intros _ s Hs. split; [reflexivity|].
  split; [split; [apply E|exact S]|].
  exists s. split; [eapply kept_refl; eauto|]. apply (literal_ev P (ESet t) (SSet l)). split; assumption.
Qed.

(** identifiers *)
Lemma eval_id_conv : forall A (ev : nat -> expr -> M A) lit d e s s1 r,
  slot s d = Some e -> conv (fun k => ev k e) s s1 (Val r) ->
  conv (fun k => eval_id P (ev k) lit d) s
    (if negb (evald s1 d) && is_top P d then mkSt (upd (slot s1) d (Some (lit r))) (upd (evald s1) d true) else s1) (Val r).
Proof.
  intros A ev lit d e s s1 r Hs [n H]. exists n. intros k Hk. unfold eval_id, mbind, get_slot. rewrite Hs, H by lia. reflexivity.
Qed.
Lemma eval_id_conv_und : forall A (ev : nat -> expr -> M A) lit d e s s1,
  slot s d = Some e -> conv (fun k => ev k e) s s1 Und -> conv (fun k => eval_id P (ev k) lit d) s s1 Und.
Proof.
  intros A ev lit d e s s1 Hs [n H]. exists n. intros k Hk. unfold eval_id, mbind, get_slot. rewrite Hs, H by lia. reflexivity.
Qed.

(** evaluating the identifier when its slot holds e0, and caching *)
Definition cache (d : nat) (lit : expr) (s1 : store) : store :=
  if negb (evald s1 d) && is_top P d then mkSt (upd (slot s1) d (Some lit)) (upd (evald s1) d true) else s1.

Lemma id_ev : forall d e v s s1, slot s d = Some e -> sval_ty v = p_ty P d -> safe_val v -> ev_val P e s s1 v ->
  exists lit, literal lit v /\ ev_val P (EId d) s (cache d lit s1) v.
Proof.
  intros d e v s s1 Hs Ht Hsv H. destruct v as [z|b|l]; cbn in Ht, H.
  - exists (EInt (ofZ z)). split; [apply is_int_ofZ, safe_fits, Hsv|]. cbn. apply conv_S.
    eapply conv_ext; [intros k; cbn [eval_int type_of]; rewrite <- Ht; cbn [ty_eqb]; reflexivity|].
    apply (eval_id_conv _ (eval_int P) EInt d e s s1 (ofZ z) Hs H).
  - exists (EBool b). split; [reflexivity|]. cbn. apply conv_S. cbn [eval_bool]. apply conv_catch.
    apply (eval_id_conv _ (eval_bool P) EBool d e s s1 b Hs H).
  - destruct H as (t & N & E & H). exists (ESet t). split; [split; assumption|]. exists t.
    split; [exact N|]. split; [exact E|]. apply conv_S. cbn [eval_set].
    apply (eval_id_conv _ (eval_set P) ESet d e s s1 t Hs H).
Qed.

Lemma cache_kept : forall d e lit v s, p_top P d = Some e -> holds_top P s -> literal lit v -> sval_ty v = p_ty P d ->
  safe_val v -> means P no_env e (Some v) -> kept s (cache d lit s).
Proof.
  intros d e lit v s Hd H L T Sv Hm. unfold cache. destruct (negb (evald s d) && is_top P d) eqn:E; [|split; [reflexivity|exact H]].
  split.
  - intros k Hk. cbn. apply upd_other. congruence.
  - intros k e' Hk. cbn. destruct (Nat.eq_dec k d) as [->|N].
    + right. exists lit, v. rewrite !upd_same. assert (e' = e) by congruence. subst. repeat split; assumption.
    + rewrite !upd_other by assumption. apply H. exact Hk.
Qed.
Lemma cache_local : forall d lit s, p_top P d = None -> cache d lit s = s.
Proof. intros d lit s H. unfold cache, is_top. rewrite H, andb_false_r. reflexivity. Qed.

Lemma single_none : forall d, p_dom P d = None -> single_value P d = None.
Proof. intros d H. unfold single_value. rewrite H. destruct (p_ty P d); reflexivity. Qed.

Lemma iv_eq_same : forall a b, iv_eq a b = true -> a = b.
Proof.
  intros [v i] [w j]. unfold iv_eq. cbn. intros H. apply andb_true_iff in H as [H1 H2].
  apply eqb_prop in H1. apply Z.eqb_eq in H2. congruence.
Qed.
Lemma single_some : forall d a, single_value P d = Some a -> p_ty P d = TInt /\ p_dom P d = Some (ESet [(a, a)]).
Proof.
  intros d a H. unfold single_value in H. destruct (p_ty P d); try discriminate.
  destruct (p_dom P d) as [[| | s| | | | | | |]|]; try discriminate.
  destruct s as [|[x y] [|]]; try discriminate. destruct (iv_eq x y) eqn:E; [|discriminate].
  apply iv_eq_same in E. injection H as <-. subst. auto.
Qed.

Lemma par_id : forall d e s s' o, single_value P d = None -> slot s d = Some e ->
  conv (fun k => eval_par P k e) s s' o -> conv (fun k => eval_par P k (EId d)) s s' o.
Proof.
  intros d e s s' o Hv Hs H. apply conv_S.
  eapply conv_ext with (m' := fun k => eval_par P k e); [intros k; cbn [eval_par]; rewrite Hv; unfold mbind, get_slot; rewrite Hs; reflexivity|]. exact H.
Qed.

Lemma good_local : forall r d v, r d = Some v -> good r (EId d) (Some v).
Proof.
  intros r d v Hr _ s Hs. destruct (proj1 Hs d v Hr) as (Ht & Hty & Sv & (lit & Hl & L) & Hone).
  split.
  - split; [exact Hty|]. split; [exact Sv|].
    destruct (id_ev d lit v s s Hl Hty Sv (literal_ev P lit v s L)) as (lit' & _ & H).
    rewrite (cache_local _ _ _ Ht) in H. exists s. split; [eapply kept_refl; eauto|exact H].
  - destruct (single_value P d) as [a|] eqn:E.
    + destruct (single_some d a E) as [E1 E2]. exists s, (EInt a). split; [eapply kept_refl; eauto|].
      split; [apply Hone; assumption|]. apply conv_S, conv_now. intros k. cbn [eval_par]. rewrite E. reflexivity.
    + destruct (literal_par P lit v s L Sv) as (lit' & L' & H). exists s, lit'.
      split; [eapply kept_refl; eauto|]. split; [exact L'|]. eapply par_id; eassumption.
Qed.

Lemma ok_empty : forall r s, ok r s -> ok no_env s.
Proof. intros r s [_ H]. split; [|exact H]. intros d v E. discriminate. Qed.

Lemma good_top : forall r d e o, r d = None -> p_top P d = Some e -> means P no_env e o -> good no_env e o -> good r (EId d) o.
Proof.
  intros r d e o Hr Ht Hm G _ s Hs. destruct WP as (W1 & _ & _). destruct (W1 d e Ht) as (We & Te & Nd).
  destruct (G We s (ok_empty r s Hs)) as [G1 G2].
  pose proof (single_none d Nd) as Sn.
  destruct (proj2 Hs d e Ht) as [[Hsl Hev]|(lit & v & Hsl & Hev & L & Tv & Sv & Mv)].
  - destruct o as [v|]; cbn in G1, G2.
    + destruct G1 as (Tv & Sv & s1 & K & H). rewrite Te in Tv. split.
      * split; [exact Tv|]. split; [exact Sv|].
        destruct (id_ev d e v s s1 Hsl Tv Sv H) as (lit & L & H').
        exists (cache d lit s1). split; [|exact H']. eapply kept_trans; [exact K|].
        eapply cache_kept; try eassumption. apply K.
      * destruct G2 as (s2 & lit & K2 & L2 & H2). exists s2, lit. repeat split; try apply K2; try exact L2.
        eapply par_id; eassumption.
    + destruct G1 as (Tv & s1 & K & H). rewrite Te in Tv. split.
      * split; [exact Tv|]. exists s1. split; [exact K|]. unfold ev_und in *. rewrite Te in H. cbn [type_of].
        destruct (p_ty P d) eqn:Ed; [|tauto|].
        -- apply conv_S. eapply conv_ext; [intros k; cbn [eval_int type_of]; rewrite Ed; cbn [ty_eqb]; reflexivity|].
           eapply (eval_id_conv_und _ (eval_int P)); eassumption.
        -- apply conv_S. cbn [eval_set]. eapply (eval_id_conv_und _ (eval_set P)); eassumption.
      * destruct G2 as (s2 & K2 & H2). exists s2. split; [exact K2|]. eapply par_id; eassumption.
  - pose proof (means_unique P _ _ _ _ Hm Mv) as ->. split.
    + split; [exact Tv|]. split; [exact Sv|].
      destruct (id_ev d lit v s s Hsl Tv Sv (literal_ev P lit v s L)) as (lit' & _ & H').
      exists (cache d lit' s). split; [|exact H']. unfold cache. rewrite Hev. cbn. eapply kept_refl; eauto.
    + destruct (literal_par P lit v s L Sv) as (lit' & L' & H). exists s, lit'.
      split; [eapply kept_refl; eauto|]. split; [exact L'|]. eapply par_id; eassumption.
Qed.

(** lists of expressions *)
Definition elt (k : nat) (x : expr) : M IntVal := mbind (eval_par P k x) (fun v => eval_int P k v).
Definition all_good (r : env) (es : list expr) (x : option (list sval)) : Prop :=
  (forall e, In e es -> wt P e) -> forall s, ok r s ->
  match x with
  | Some vs => map sval_ty vs = map (type_of P) es /\ Forall safe_val vs /\
      (exists s' lits, kept s s' /\ Forall2 literal lits vs /\ conv (fun k => mapM (eval_par P k) es) s s' (Val lits)) /\
      (forall zs, vs = map SInt zs -> exists s', kept s s' /\ conv (fun k => mapM (elt k) es) s s' (Val (map ofZ zs)))
  | None => (exists s', kept s s' /\ conv (fun k => mapM (eval_par P k) es) s s' Und) /\
      ((forall e, In e es -> type_of P e = TInt) -> exists s', kept s s' /\ conv (fun k => mapM (elt k) es) s s' Und)
  end.

Lemma elt_val : forall x lit z s s', literal lit (SInt z) -> conv (fun k => eval_par P k x) s s' (Val lit) ->
  conv (fun k => elt k x) s s' (Val (ofZ z)).
Proof.
  intros x lit z s s' L H. unfold elt. eapply conv_bind; [exact H|]. exact (literal_ev P lit (SInt z) s' L).
Qed.

Lemma all_nil : forall r, all_good r [] (Some []).
Proof.
  intros r _ s Hs. split; [reflexivity|]. split; [constructor|]. split.
  - exists s, []. split; [eapply kept_refl; eauto|]. split; [constructor|]. apply conv_ret.
  - intros [|z zs] E; [|discriminate]. exists s. split; [eapply kept_refl; eauto|]. apply conv_ret.
Qed.
Lemma all_cons : forall r e es v vs, good r e (Some v) -> all_good r es (Some vs) -> all_good r (e :: es) (Some (v :: vs)).
Proof.
  intros r e es v vs G A W s Hs.
  destruct (G (W e (or_introl eq_refl)) s Hs) as [(T & Sv & _) (s1 & lit & K1 & L & H1)].
  assert (W' : forall e, In e es -> wt P e) by (intros; apply W; right; assumption).
  destruct (A W' s1 (kept_ok P _ _ _ Hs K1)) as (T2 & S2 & (s2 & lits & K2 & L2 & H2) & Z2).
  split; [cbn; congruence|]. split; [constructor; assumption|]. split.
  - exists s2, (lit :: lits). split; [eapply kept_trans; eassumption|]. split; [constructor; assumption|].
    cbn [mapM]. eapply conv_bind; [exact H1|]. eapply conv_bind; [exact H2|]. apply conv_ret.
  - intros [|z zs] E; [discriminate|]. injection E as -> ->. destruct (Z2 zs eq_refl) as (s3 & K3 & H3).
    exists s3. split; [eapply kept_trans; eassumption|]. cbn [mapM map].
    eapply conv_bind; [eapply elt_val; eassumption|]. eapply conv_bind; [exact H3|]. apply conv_ret.
Qed.
Lemma all_undef : forall r e es, good r e None -> all_good r (e :: es) None.
Proof.
  intros r e es G W s Hs. destruct (G (W e (or_introl eq_refl)) s Hs) as [_ (s1 & K1 & H1)]. split.
  - exists s1. split; [exact K1|]. cbn [mapM]. eapply conv_bind_und. exact H1.
  - intros _. exists s1. split; [exact K1|]. cbn [mapM]. eapply conv_bind_und. unfold elt. eapply conv_bind_und. exact H1.
Qed.
Lemma all_later : forall r e es v, good r e (Some v) -> all_good r es None -> all_good r (e :: es) None.
Proof.
  intros r e es v G A W s Hs. destruct (G (W e (or_introl eq_refl)) s Hs) as [(T & Sv & _) (s1 & lit & K1 & L & H1)].
  assert (W' : forall e, In e es -> wt P e) by (intros; apply W; right; assumption).
  destruct (A W' s1 (kept_ok P _ _ _ Hs K1)) as [(s2 & K2 & H2) Z2]. split.
  - exists s2. split; [eapply kept_trans; eassumption|]. cbn [mapM]. eapply conv_bind; [exact H1|]. eapply conv_bind_und. exact H2.
  - intros Hi. destruct Z2 as (s3 & K3 & H3); [intros; apply Hi; right; assumption|].
    exists s3. split; [eapply kept_trans; eassumption|]. cbn [mapM].
    rewrite (Hi e (or_introl eq_refl)) in T. destruct v; try discriminate T.
    eapply conv_bind; [eapply elt_val; eassumption|]. eapply conv_bind_und. exact H3.
Qed.

Lemma all_safe_ints : forall zs, Forall safe_val (map SInt zs) -> Forall safe zs.
Proof. induction zs; intros H; constructor; inversion H; subst; auto. Qed.

Lemma good_setlit : forall r es vs l zs, all_good r es (Some vs) -> vs = map SInt zs ->
  increasing l -> (forall z, In z l <-> In z zs) -> good r (ESetLit es) (Some (SSet l)).
Proof.
  intros r es vs l zs A -> Il Hl. apply good_nonid; [discriminate|]. intros W s Hs. inversion W; subst.
  destruct (A (fun e He => proj1 (H0 e He)) s Hs) as (_ & Sv & _ & Z). destruct (Z zs eq_refl) as (s' & K & H).
  apply all_safe_ints in Sv. destruct (vector_means zs l Sv Il Hl) as (u & E & N & En).
  split; [reflexivity|]. split.
  - split; [exact Il|]. apply Forall_forall. intros z Hz. apply Hl in Hz. rewrite Forall_forall in Sv. auto.
  - exists s'. split; [exact K|]. exists u. split; [exact N|]. split; [exact En|].
    apply conv_S. cbn [eval_set]. eapply conv_bind; [exact H|]. apply conv_now. intros k. unfold lift. rewrite E. reflexivity.
Qed.
Lemma good_setlit_undef : forall r es, all_good r es None -> good r (ESetLit es) None.
Proof.
  intros r es A. apply good_nonid; [discriminate|]. intros W s Hs. inversion W; subst.
  destruct (A (fun e He => proj1 (H0 e He)) s Hs) as (_ & Z). destruct (Z (fun e He => proj2 (H0 e He))) as (s' & K & H).
  split; [discriminate|]. exists s'. split; [exact K|]. unfold ev_und. cbn [type_of].
  apply conv_S. cbn [eval_set]. eapply conv_bind_und. exact H.
Qed.

(** conditionals *)
Definition ite_good (r : env) (cs : list (expr * expr)) (els : expr) (o : sout) : Prop :=
  wt P els -> (forall c t, In (c, t) cs -> wt P c /\ type_of P c = TBool /\ wt P t /\ type_of P t = type_of P els) ->
  forall s, ok r s ->
  match o with
  | Some v => sval_ty v = type_of P els /\ safe_val v /\ exists s', kept s s' /\
      match v with
      | SInt z => conv (fun k => eval_ite (eval_bool P k) (eval_int P k) cs els) s s' (Val (ofZ z))
      | SBool b => conv (fun k => eval_ite (eval_bool P k) (eval_bool P k) cs els) s s' (Val b)
      | SSet l => exists t, nf t /\ enumerates l t /\ conv (fun k => eval_ite (eval_bool P k) (eval_set P k) cs els) s s' (Val t)
      end
  | None => exists s', kept s s' /\
      match type_of P els with
      | TInt => conv (fun k => eval_ite (eval_bool P k) (eval_int P k) cs els) s s' Und
      | TBool => False
      | TSet => conv (fun k => eval_ite (eval_bool P k) (eval_set P k) cs els) s s' Und
      end
  end.

Lemma ite_else : forall r els o, good r els o -> ite_good r [] els o.
Proof.
  intros r els o G W _ s Hs. destruct (G W s Hs) as [G1 _]. destruct o as [v|]; cbn [eval_ite].
  - destruct G1 as (T & Sv & s' & K & H). split; [exact T|]. split; [exact Sv|]. exists s'. split; [exact K|]. destruct v; exact H.
  - destruct G1 as (T & s' & K & H). exists s'. split; [exact K|]. exact H.
Qed.
Lemma ite_true : forall r c t cs els o, good r c (Some (SBool true)) -> good r t o -> ite_good r ((c, t) :: cs) els o.
Proof.
  intros r c t cs els o Gc Gt W Wc s Hs. destruct (Wc c t (or_introl eq_refl)) as (W1 & T1 & W2 & T2).
  destruct (Gc W1 s Hs) as [(_ & _ & s1 & K1 & H1) _]. cbn in H1.
  destruct (Gt W2 s1 (kept_ok P _ _ _ Hs K1)) as [G _]. destruct o as [v|].
  - destruct G as (T & Sv & s2 & K2 & H2). split; [congruence|]. split; [exact Sv|]. exists s2.
    split; [eapply kept_trans; eassumption|]. cbn [eval_ite]. destruct v.
    + eapply conv_bind; [exact H1|]. exact H2.
    + eapply conv_bind; [exact H1|]. exact H2.
    + destruct H2 as (u & N & E & H2). exists u. split; [exact N|]. split; [exact E|]. eapply conv_bind; [exact H1|]. exact H2.
  - destruct G as (T & s2 & K2 & H2). exists s2. split; [eapply kept_trans; eassumption|]. cbn [eval_ite].
    unfold ev_und in H2. rewrite T2 in H2. destruct (type_of P els); [|exact H2|]; (eapply conv_bind; [exact H1|]; exact H2).
Qed.
Lemma ite_false : forall r c t cs els o, good r c (Some (SBool false)) -> ite_good r cs els o -> ite_good r ((c, t) :: cs) els o.
Proof.
  intros r c t cs els o Gc Gi W Wc s Hs. destruct (Wc c t (or_introl eq_refl)) as (W1 & T1 & _).
  destruct (Gc W1 s Hs) as [(_ & _ & s1 & K1 & H1) _]. cbn in H1.
  specialize (Gi W (fun c t Hi => Wc c t (or_intror Hi)) s1 (kept_ok P _ _ _ Hs K1)). destruct o as [v|].
  - destruct Gi as (T & Sv & s2 & K2 & H2). split; [exact T|]. split; [exact Sv|]. exists s2.
    split; [eapply kept_trans; eassumption|]. cbn [eval_ite]. destruct v.
    + eapply conv_bind; [exact H1|]. exact H2.
    + eapply conv_bind; [exact H1|]. exact H2.
    + destruct H2 as (u & N & E & H2). exists u. split; [exact N|]. split; [exact E|]. eapply conv_bind; [exact H1|]. exact H2.
  - destruct Gi as (s2 & K2 & H2). exists s2. split; [eapply kept_trans; eassumption|]. cbn [eval_ite].
    destruct (type_of P els); [|exact H2|]; (eapply conv_bind; [exact H1|]; exact H2).
Qed.
Lemma good_ite : forall r cs els o, ite_good r cs els o -> good r (EIte cs els) o.
Proof.
  intros r cs els o G. apply good_nonid; [discriminate|]. intros W s Hs. inversion W; subst.
  specialize (G H1 H2 s Hs). destruct o as [v|].
  - destruct G as (T & Sv & s' & K & H). split; [exact T|]. split; [exact Sv|]. exists s'. split; [exact K|].
    destruct v; cbn in T |- *.
    + apply conv_S. eapply conv_ext; [|exact H]. intros k. cbn [eval_int type_of]. rewrite <- T. reflexivity.
    + apply conv_S. cbn [eval_bool]. apply conv_catch. exact H.
    + destruct H as (u & N & E & H). exists u. split; [exact N|]. split; [exact E|]. apply conv_S. exact H.
  - destruct G as (s' & K & H). split.
    + cbn [type_of]. destruct (type_of P els); try discriminate. destruct H.
    + exists s'. split; [exact K|]. unfold ev_und. cbn [type_of]. destruct (type_of P els) eqn:T; [|exact H|].
      * apply conv_S. eapply conv_ext; [|exact H]. intros k. cbn [eval_int type_of]. rewrite T. reflexivity.
      * apply conv_S. exact H.
Qed.

(** operators *)
Lemma good_un : forall r o a v x, good r a (Some v) -> un_means o v x -> safe_val x -> good r (EUn o a) (Some x).
Proof.
  intros r o a v x G U Sx. apply good_nonid; [discriminate|]. intros W s Hs. inversion W; subst.
  destruct (G H1 s Hs) as [(T & Sv & s1 & K & H) _].
  destruct o, v; cbn in U; try tauto; subst x; (split; [reflexivity|]); (split; [exact Sx|]); exists s1; (split; [exact K|]); cbn in H |- *.
  - apply conv_S. cbn [eval_bool]. apply conv_catch. eapply conv_bind; [exact H|]. apply conv_ret.
  - apply conv_S. cbn [eval_int type_of ty_eqb]. eapply conv_bind; [exact H|]. apply conv_ret.
  - apply conv_S. cbn [eval_int type_of ty_eqb]. eapply conv_bind; [exact H|]. apply conv_now. intros k.
    cbn in Sv, Sx. destruct (proj1 (IntValPropProofs.C01_neg_l (ofZ z) z (is_int_ofZ z (safe_fits z Sv))) (safe_fits _ Sx)) as (w & E & Hw).
    cbn [int_un]. rewrite E. apply is_int_iff in Hw as [-> _]. reflexivity.
Qed.
Lemma good_un_undef : forall r o a, good r a None -> good r (EUn o a) None.
Proof.
  intros r o a G. apply good_nonid; [discriminate|]. intros W s Hs. inversion W; subst.
  destruct (G H1 s Hs) as [(T & s1 & K & H) _].
  assert (Ta : type_of P a = TInt /\ o <> UNot).
  { destruct o, (type_of P a); try discriminate; try congruence; split; congruence. }
  destruct Ta as [Ta No]. unfold ev_und in H. rewrite Ta in H.
  split; [destruct o; try discriminate; congruence|]. exists s1. split; [exact K|].
  unfold ev_und. cbn [type_of]. destruct o; [congruence| |]; apply conv_S; cbn [eval_int type_of ty_eqb]; eapply conv_bind_und; exact H.
Qed.
End Cases.
