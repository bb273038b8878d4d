(** Evaluation agrees with the meaning: calls; the main induction. *)
Require Import ZArith List Bool Lia.
From Verif Require Import Base IntValModel IntValSpec IntValProofs SetModel SetSpec SetPropProofs EvalModel EvalSpec EvalProofs EvalProofs2 EvalProofs3 EvalProofs4 EvalProofs5 EvalProofs6.
Import ListNotations.
Open Scope Z_scope.

Section Main.
Variable P : program.
Hypothesis WP : wt_prog P.

Local Notation kept := (store_kept P).
Local Notation kept_but := (kept_but P).
Local Notation ok := (store_ok P).
Local Notation good := (good P).
Local Notation ev_good := (ev_good P).
Local Notation dom_good := (dom_good P).
Local Notation dchk := (dchk P).
Local Notation chk := (chk P).

(** parameters *)
Definition bind_params (k : nat) (l : list (nat * expr)) : M unit :=
  iterM (fun dv : nat * expr => mbind (put_slot (fst dv) (snd dv)) (fun _ => dchk k (fst dv) (snd dv))) l.

Definition params_good (ds : list nat) (vs : list sval) (b : option bool) : Prop :=
  forall vals, Forall2 literal vals vs -> map sval_ty vs = map (p_ty P) ds -> Forall safe_val vs -> NoDup ds ->
  (forall d, In d ds -> p_top P d = None) -> forall s, holds_top P s ->
  exists s', kept_but ds s s' /\
    (b = Some true -> holds_env P (params_env ds vs) s' /\ conv (fun k => bind_params k (combine ds vals)) s s' (Val tt)) /\
    (b <> Some true -> conv (fun k => bind_params k (combine ds vals)) s s' Und).

Lemma params_nil : params_good [] [] (Some true).
Proof.
  intros vals F _ _ _ _ s Hs. inversion F; subst. exists s. split; [split; [reflexivity|exact Hs]|]. split; [|congruence].
  intros _. split; [intros d v E; discriminate|]. apply conv_ret.
Qed.

Lemma empty_ok : forall s, holds_top P s -> ok no_env s.
Proof. intros s H. split; [|exact H]. intros d v E. discriminate. Qed.

Lemma params_cons : forall d ds v vs b, means_dom P no_env (p_dom P d) v (Some true) -> dom_good no_env (p_dom P d) v (Some true) ->
  params_good ds vs b -> params_good (d :: ds) (v :: vs) b.
Proof.
  intros d ds v vs b M D I vals F T Sv Nd Ht s Hs. inversion F as [|lit ? lits ? L F']; subst.
  cbn [map] in T. injection T as Tv T. inversion Sv; subst. inversion Nd; subst.
  pose proof (Ht d (or_introl eq_refl)) as Htd.
  pose proof (set_slot_top P s d (Some lit) Hs Htd) as H0.
  destruct (D (dom_wt P WP d) H1 (set_slot d (Some lit) s) lit (empty_ok _ H0) L) as (s1 & K1 & E1). rewrite Tv in E1.
  destruct (I lits F' T H2 H4 (fun k Hk => Ht k (or_intror Hk)) s1 (proj2 K1)) as (s2 & B2 & E2 & E3).
  exists s2. split; [|split].
  - eapply but_weaken; [|eapply kept_but_trans; [apply (set_slot_kept P s d (Some lit) Hs Htd)|eapply kept_but_trans; [apply (kept_is_but P []); exact K1|exact B2]]].
    intros k. cbn. tauto.
  - intros Hb. destruct (E2 Hb) as [Henv E2']. split.
    + intros k w Hk. cbn [params_env] in Hk. destruct (Nat.eq_dec k d) as [->|N].
      * rewrite upd_same in Hk. injection Hk as <-. repeat split; try assumption.
        -- exists lit. split; [|exact L]. rewrite (proj1 B2) by assumption. rewrite (proj1 K1) by assumption. apply slot_set_same.
        -- intros a. apply (one_value P no_env d v a M Tv).
      * rewrite upd_other in Hk by assumption. apply Henv. exact Hk.
    + unfold bind_params. cbn [combine iterM fst snd]. eapply conv_bind; [eapply conv_bind; [apply put_conv|exact E1]|]. exact E2'.
  - intros Hb. unfold bind_params. cbn [combine iterM fst snd]. eapply conv_bind; [eapply conv_bind; [apply put_conv|exact E1]|]. apply E3, Hb.
Qed.

Lemma params_out : forall d ds v vs b, dom_good no_env (p_dom P d) v b -> b <> Some true -> params_good (d :: ds) (v :: vs) b.
Proof.
  intros d ds v vs b D Hb vals F T Sv Nd Ht s Hs. inversion F as [|lit ? lits ? L F']; subst.
  cbn [map] in T. injection T as Tv T. inversion Sv; subst.
  pose proof (Ht d (or_introl eq_refl)) as Htd.
  pose proof (set_slot_top P s d (Some lit) Hs Htd) as H0.
  destruct (D (dom_wt P WP d) H1 (set_slot d (Some lit) s) lit (empty_ok _ H0) L) as (s1 & K1 & E1). rewrite Tv in E1.
  exists s1. split; [|split; [congruence|]].
  - eapply but_weaken; [|eapply kept_but_trans; [apply (set_slot_kept P s d (Some lit) Hs Htd)|apply (kept_is_but P []); exact K1]].
    intros k. cbn. tauto.
  - intros _. unfold bind_params. cbn [combine iterM fst snd]. eapply conv_bind_und. eapply conv_bind; [apply put_conv|].
    destruct b as [[]|]; [congruence|exact E1|exact E1].
Qed.

(** calls *)
Definition body_int (k : nat) (fn : func) (vals : list expr) : M IntVal :=
  mbind (bind_params k (combine (f_params fn) vals)) (fun _ =>
  mbind (eval_int P k (f_body fn)) (fun r => mbind (chk k TInt (f_dom fn) (EInt r)) (fun _ => ret r))).
Definition body_set (k : nat) (fn : func) (vals : list expr) : M iset :=
  mbind (bind_params k (combine (f_params fn) vals)) (fun _ =>
  mbind (eval_set P k (f_body fn)) (fun r => mbind (chk k TSet (f_dom fn) (ESet r)) (fun _ => ret r))).
Definition body_bool (k : nat) (fn : func) (vals : list expr) : M bool :=
  mbind (bind_params k (combine (f_params fn) vals)) (fun _ =>
  mbind (eval_bool P k (f_body fn)) (fun r => mbind (ret tt) (fun _ => ret r))).
Definition saved (fn : func) (s : store) : list (nat * option expr) := map (fun d => (d, slot s d)) (f_params fn).
Definition scoped {A} (fn : func) (m : M A) : M A := fun s => bracket (saved fn s) m s.

Lemma eval_int_call : forall k f fn args, p_fun P f = Some fn -> f_ty fn = TInt ->
  eval_int P (S k) (ECall f args) = mbind (mapM (eval_par P k) args) (fun vals => scoped fn (body_int k fn vals)).
Proof. intros k f fn args Hf T. cbn [eval_int type_of]. rewrite Hf, T. reflexivity. Qed.
Lemma eval_set_call : forall k f fn args, p_fun P f = Some fn ->
  eval_set P (S k) (ECall f args) = mbind (mapM (eval_par P k) args) (fun vals => scoped fn (body_set k fn vals)).
Proof. intros k f fn args Hf. cbn [eval_set]. rewrite Hf. reflexivity. Qed.
Lemma eval_bool_call : forall k f fn args, p_fun P f = Some fn ->
  eval_bool P (S k) (ECall f args) = catch (mbind (mapM (eval_par P k) args) (fun vals => scoped fn (body_bool k fn vals))) false.
Proof. intros k f fn args Hf. cbn [eval_bool]. rewrite Hf. reflexivity. Qed.

Lemma conv_scoped : forall A fn (m : nat -> M A) s s1 o, conv m (assign (saved fn s) s) s1 o ->
  conv (fun k => scoped fn (m k)) s (restore (map fst (saved fn s)) s s1) o.
Proof. intros A fn m s s1 o H. apply (conv_bracket A (saved fn s) m s s1 o H). Qed.
Lemma saved_fst : forall fn s, map fst (saved fn s) = f_params fn.
Proof. intros. unfold saved. rewrite map_map. cbn. apply map_id. Qed.

Lemma scoped_kept : forall fn s s1, (forall d, In d (f_params fn) -> p_top P d = None) ->
  kept_but (f_params fn) (assign (saved fn s) s) s1 -> kept s (restore (map fst (saved fn s)) s s1).
Proof. intros fn s s1 Ht B. apply bracket_kept; rewrite saved_fst; assumption. Qed.
Lemma scoped_top : forall fn s, (forall d, In d (f_params fn) -> p_top P d = None) -> holds_top P s ->
  holds_top P (assign (saved fn s) s).
Proof. intros fn s Ht H. apply assign_top; [rewrite saved_fst; exact Ht|exact H]. Qed.
Lemma but_kept : forall ds s s1 s2, kept_but ds s s1 -> kept s1 s2 -> kept_but ds s s2.
Proof.
  intros ds s s1 s2 B K. eapply but_weaken; [|eapply kept_but_trans; [exact B|apply (kept_is_but P []); exact K]].
  intros d. rewrite app_nil_r. auto.
Qed.

(** the common beginning of a call: arguments and parameters *)
Lemma call_start : forall r f fn args vs b s, p_fun P f = Some fn -> all_good P r args (Some vs) ->
  params_good (f_params fn) vs b -> wt P (ECall f args) -> ok r s ->
  exists s1 lits s2, kept s s1 /\ conv (fun k => mapM (eval_par P k) args) s s1 (Val lits) /\
    kept_but (f_params fn) (assign (saved fn s1) s1) s2 /\
    (b = Some true -> ok (params_env (f_params fn) vs) s2 /\
       conv (fun k => bind_params k (combine (f_params fn) lits)) (assign (saved fn s1) s1) s2 (Val tt)) /\
    (b <> Some true -> conv (fun k => bind_params k (combine (f_params fn) lits)) (assign (saved fn s1) s1) s2 Und).
Proof.
  intros r f fn args vs b s Hf A Pg W Hs. inversion W; subst.
  assert (fn0 = fn) by congruence. subst fn0.
  destruct WP as (_ & _ & W3). destruct (W3 f fn Hf) as (Nd & Ht & _).
  destruct (A H2 s Hs) as (T & Sv & (s1 & lits & K1 & F & E1) & _).
  destruct (Pg lits F (eq_trans T H3) Sv Nd Ht (assign (saved fn s1) s1) (scoped_top fn s1 Ht (proj2 K1))) as (s2 & B2 & E2 & E3).
  exists s1, lits, s2. split; [exact K1|]. split; [exact E1|]. split; [exact B2|]. split; [|exact E3].
  intros Hb. destruct (E2 Hb) as [Henv E2']. split; [|exact E2']. split; [exact Henv|exact (proj2 B2)].
Qed.

Lemma type_call : forall f fn args, p_fun P f = Some fn -> type_of P (ECall f args) = f_ty fn.
Proof. intros f fn args H. cbn. rewrite H. reflexivity. Qed.

Lemma fun_facts : forall f fn, p_fun P f = Some fn ->
  (forall d, In d (f_params fn) -> p_top P d = None) /\ wt P (f_body fn) /\ type_of P (f_body fn) = f_ty fn /\
  (forall de, f_dom fn = Some de -> wt P de /\ type_of P de = TSet).
Proof. intros f fn Hf. destruct WP as (_ & _ & W3). destruct (W3 f fn Hf) as (_ & A & B & C & D). auto. Qed.

(** a call whose parameters are accepted; the result is tested against the domain of the function *)
Lemma call_result : forall r f fn args vs v b, p_fun P f = Some fn -> all_good P r args (Some vs) ->
  params_good (f_params fn) vs (Some true) -> good (params_env (f_params fn) vs) (f_body fn) (Some v) ->
  dom_good no_env (f_dom fn) v b -> (sval_ty v = TBool -> b = Some true) ->
  good r (ECall f args) (match b with Some true => Some v | _ => None end).
Proof.
  intros r f fn args vs v b Hf A Pg G D Hbool. apply good_nonid; [discriminate|]. intros W s Hs.
  destruct (fun_facts f fn Hf) as (Ht & Wb & Tb & Wd).
  destruct (call_start r f fn args vs _ s Hf A Pg W Hs) as (s1 & lits & s2 & K1 & E1 & B2 & E2 & _).
  destruct (E2 eq_refl) as [Ok2 E2']. destruct (G Wb s2 Ok2) as [(Tv & Sv & s3 & K3 & E3) _]. rewrite Tb in Tv.
  pose proof (empty_ok s3 (proj2 K3)) as Ok3.
  destruct v as [z|c|l]; cbn [sval_ty] in Tv.
  - cbn in E3. destruct (D Wd Sv s3 (EInt (ofZ z)) Ok3 (is_int_ofZ _ (safe_fits _ Sv))) as (s4 & K4 & E4). cbn [sval_ty] in E4.
    assert (B4 : kept_but (f_params fn) (assign (saved fn s1) s1) s4) by (eapply but_kept; [eapply but_kept; [exact B2|exact K3]|exact K4]).
    destruct b as [[]|].
    + split; [rewrite (type_call f fn); [exact Tv|exact Hf]|]. split; [exact Sv|]. eexists.
      split; [eapply kept_trans; [exact K1|exact (scoped_kept fn s1 s4 Ht B4)]|]. cbn [ev_val]. apply conv_S.
      eapply conv_ext with (m' := fun k => mbind (mapM (eval_par P k) args) (fun vals => scoped fn (body_int k fn vals)));
        [intros k; rewrite (eval_int_call k f fn args Hf (eq_sym Tv)); reflexivity|].
      eapply conv_bind; [exact E1|]. apply conv_scoped. eapply conv_bind; [exact E2'|]. eapply conv_bind; [exact E3|].
      eapply conv_bind; [exact E4|]. apply conv_ret.
    + split; [rewrite (type_call f fn); [congruence|exact Hf]|]. eexists.
      split; [eapply kept_trans; [exact K1|exact (scoped_kept fn s1 s4 Ht B4)]|]. unfold ev_und. rewrite (type_call f fn args Hf), <- Tv. apply conv_S.
      eapply conv_ext with (m' := fun k => mbind (mapM (eval_par P k) args) (fun vals => scoped fn (body_int k fn vals)));
        [intros k; rewrite (eval_int_call k f fn args Hf (eq_sym Tv)); reflexivity|].
      eapply conv_bind; [exact E1|]. apply conv_scoped. eapply conv_bind; [exact E2'|]. eapply conv_bind; [exact E3|].
      eapply conv_bind_und. exact E4.
    + split; [rewrite (type_call f fn); [congruence|exact Hf]|]. eexists.
      split; [eapply kept_trans; [exact K1|exact (scoped_kept fn s1 s4 Ht B4)]|]. unfold ev_und. rewrite (type_call f fn args Hf), <- Tv. apply conv_S.
      eapply conv_ext with (m' := fun k => mbind (mapM (eval_par P k) args) (fun vals => scoped fn (body_int k fn vals)));
        [intros k; rewrite (eval_int_call k f fn args Hf (eq_sym Tv)); reflexivity|].
      eapply conv_bind; [exact E1|]. apply conv_scoped. eapply conv_bind; [exact E2'|]. eapply conv_bind; [exact E3|].
      eapply conv_bind_und. exact E4.
  - rewrite (Hbool eq_refl). cbn in E3.
    assert (B3 : kept_but (f_params fn) (assign (saved fn s1) s1) s3) by (eapply but_kept; [exact B2|exact K3]).
    split; [rewrite (type_call f fn); [exact Tv|exact Hf]|]. split; [exact Sv|]. eexists.
    split; [eapply kept_trans; [exact K1|exact (scoped_kept fn s1 s3 Ht B3)]|]. cbn [ev_val]. apply conv_S.
    eapply conv_ext with (m' := fun k => catch (mbind (mapM (eval_par P k) args) (fun vals => scoped fn (body_bool k fn vals))) false);
      [intros k; rewrite (eval_bool_call k f fn args Hf); reflexivity|].
    apply conv_catch. eapply conv_bind; [exact E1|]. apply conv_scoped. eapply conv_bind; [exact E2'|]. eapply conv_bind; [exact E3|].
    eapply conv_bind; [apply conv_ret|]. apply conv_ret.
  - destruct E3 as (u & N & En & E3). destruct (D Wd Sv s3 (ESet u) Ok3 (conj N En)) as (s4 & K4 & E4). cbn [sval_ty] in E4.
    assert (B4 : kept_but (f_params fn) (assign (saved fn s1) s1) s4) by (eapply but_kept; [eapply but_kept; [exact B2|exact K3]|exact K4]).
    destruct b as [[]|].
    + split; [rewrite (type_call f fn); [exact Tv|exact Hf]|]. split; [exact Sv|]. eexists.
      split; [eapply kept_trans; [exact K1|exact (scoped_kept fn s1 s4 Ht B4)]|]. exists u. split; [exact N|]. split; [exact En|]. apply conv_S.
      eapply conv_ext with (m' := fun k => mbind (mapM (eval_par P k) args) (fun vals => scoped fn (body_set k fn vals)));
        [intros k; rewrite (eval_set_call k f fn args Hf); reflexivity|].
      eapply conv_bind; [exact E1|]. apply conv_scoped. eapply conv_bind; [exact E2'|]. eapply conv_bind; [exact E3|].
      eapply conv_bind; [exact E4|]. apply conv_ret.
    + split; [rewrite (type_call f fn); [congruence|exact Hf]|]. eexists.
      split; [eapply kept_trans; [exact K1|exact (scoped_kept fn s1 s4 Ht B4)]|]. unfold ev_und. rewrite (type_call f fn args Hf), <- Tv. apply conv_S.
      eapply conv_ext with (m' := fun k => mbind (mapM (eval_par P k) args) (fun vals => scoped fn (body_set k fn vals)));
        [intros k; rewrite (eval_set_call k f fn args Hf); reflexivity|].
      eapply conv_bind; [exact E1|]. apply conv_scoped. eapply conv_bind; [exact E2'|]. eapply conv_bind; [exact E3|].
      eapply conv_bind_und. exact E4.
    + split; [rewrite (type_call f fn); [congruence|exact Hf]|]. eexists.
      split; [eapply kept_trans; [exact K1|exact (scoped_kept fn s1 s4 Ht B4)]|]. unfold ev_und. rewrite (type_call f fn args Hf), <- Tv. apply conv_S.
      eapply conv_ext with (m' := fun k => mbind (mapM (eval_par P k) args) (fun vals => scoped fn (body_set k fn vals)));
        [intros k; rewrite (eval_set_call k f fn args Hf); reflexivity|].
      eapply conv_bind; [exact E1|]. apply conv_scoped. eapply conv_bind; [exact E2'|]. eapply conv_bind; [exact E3|].
      eapply conv_bind_und. exact E4.
Qed.

Lemma dom_bool_true : forall r dom v b, means_dom P r dom v b -> sval_ty v = TBool -> b = Some true.
Proof. intros r dom v b H T. inversion H; subst; try reflexivity; congruence. Qed.

(** a call that ends as soon as the arguments or the parameters are known to be undefined *)
Lemma call_undef : forall r f fn args, p_fun P f = Some fn ->
  (wt P (ECall f args) -> forall s, ok r s -> exists s', kept s s' /\
     conv (fun k => mbind (mapM (eval_par P k) args) (fun vals => scoped fn (body_int k fn vals))) s s' Und /\
     conv (fun k => mbind (mapM (eval_par P k) args) (fun vals => scoped fn (body_bool k fn vals))) s s' Und /\
     conv (fun k => mbind (mapM (eval_par P k) args) (fun vals => scoped fn (body_set k fn vals))) s s' Und) ->
  good r (ECall f args) (close (f_ty fn) None).
Proof.
  intros r f fn args Hf H. apply good_nonid; [discriminate|]. intros W s Hs.
  destruct (H W s Hs) as (s' & K & C1 & C2 & C3). pose proof (type_call f fn args Hf) as Tc.
  destruct (f_ty fn) eqn:T; cbn [close].
  - split; [congruence|]. exists s'. split; [exact K|]. unfold ev_und. rewrite Tc. apply conv_S.
    eapply conv_ext; [|exact C1]. intros k. rewrite (eval_int_call k f fn args Hf T). reflexivity.
  - split; [symmetry; exact Tc|]. split; [exact Logic.I|]. exists s'. split; [exact K|]. cbn [ev_val]. apply conv_S.
    eapply conv_ext; [|apply conv_catch_und; exact C2]. intros k. rewrite (eval_bool_call k f fn args Hf). reflexivity.
  - split; [congruence|]. exists s'. split; [exact K|]. unfold ev_und. rewrite Tc. apply conv_S.
    eapply conv_ext; [|exact C3]. intros k. rewrite (eval_set_call k f fn args Hf). reflexivity.
Qed.
Lemma call_undef_arg : forall r f fn args, p_fun P f = Some fn -> all_good P r args None ->
  good r (ECall f args) (close (f_ty fn) None).
Proof.
  intros r f fn args Hf A. apply call_undef; [exact Hf|]. intros W s Hs. inversion W; subst.
  destruct (A H2 s Hs) as [(s1 & K1 & E1) _]. exists s1. split; [exact K1|].
  split; [|split]; eapply conv_bind_und; exact E1.
Qed.
Lemma call_bad_arg : forall r f fn args vs b, p_fun P f = Some fn -> all_good P r args (Some vs) ->
  params_good (f_params fn) vs b -> b <> Some true -> good r (ECall f args) (close (f_ty fn) None).
Proof.
  intros r f fn args vs b Hf A Pg Hb. apply call_undef; [exact Hf|]. intros W s Hs.
  destruct (fun_facts f fn Hf) as (Ht & _).
  destruct (call_start r f fn args vs b s Hf A Pg W Hs) as (s1 & lits & s2 & K1 & E1 & B2 & _ & E3). specialize (E3 Hb).
  exists (restore (map fst (saved fn s1)) s1 s2). split; [eapply kept_trans; [exact K1|exact (scoped_kept fn s1 s2 Ht B2)]|].
  split; [|split]; (eapply conv_bind; [exact E1|]); apply conv_scoped; eapply conv_bind_und; exact E3.
Qed.
Lemma call_undef_body : forall r f fn args vs, p_fun P f = Some fn -> all_good P r args (Some vs) ->
  params_good (f_params fn) vs (Some true) -> good (params_env (f_params fn) vs) (f_body fn) None ->
  good r (ECall f args) None.
Proof.
  intros r f fn args vs Hf A Pg G. apply good_nonid; [discriminate|]. intros W s Hs.
  destruct (fun_facts f fn Hf) as (Ht & Wb & Tb & Wd).
  destruct (call_start r f fn args vs _ s Hf A Pg W Hs) as (s1 & lits & s2 & K1 & E1 & B2 & E2 & _).
  destruct (E2 eq_refl) as [Ok2 E2']. destruct (G Wb s2 Ok2) as [(Tv & s3 & K3 & E3) _].
  assert (B3 : kept_but (f_params fn) (assign (saved fn s1) s1) s3) by (eapply but_kept; [exact B2|exact K3]).
  pose proof (type_call f fn args Hf) as Tc. unfold ev_und in E3. rewrite Tb in Tv, E3.
  split; [congruence|]. exists (restore (map fst (saved fn s1)) s1 s3).
  split; [eapply kept_trans; [exact K1|exact (scoped_kept fn s1 s3 Ht B3)]|].
  unfold ev_und. rewrite Tc. destruct (f_ty fn) eqn:T; [|tauto|]; apply conv_S.
  - eapply conv_ext with (m' := fun k => mbind (mapM (eval_par P k) args) (fun vals => scoped fn (body_int k fn vals)));
      [intros k; rewrite (eval_int_call k f fn args Hf T); reflexivity|].
    eapply conv_bind; [exact E1|]. apply conv_scoped. eapply conv_bind; [exact E2'|]. eapply conv_bind_und. exact E3.
  - eapply conv_ext with (m' := fun k => mbind (mapM (eval_par P k) args) (fun vals => scoped fn (body_set k fn vals)));
      [intros k; rewrite (eval_set_call k f fn args Hf); reflexivity|].
    eapply conv_bind; [exact E1|]. apply conv_scoped. eapply conv_bind; [exact E2'|]. eapply conv_bind_und. exact E3.
Qed.

Lemma main :
  (forall r e o, means P r e o -> good r e o) /\
  (forall r es o, means_all P r es o -> all_good P r es o) /\
  (forall r cs els o, means_ite P r cs els o -> ite_good P r cs els o) /\
  (forall r d v o, means_dom P r d v o -> dom_good r d v o) /\
  (forall t r i o, means_items P t r i o -> items_good P t r i o) /\
  (forall ds vs o, means_params P ds vs o -> params_good ds vs o).
Proof.
  apply means_ind6; intros.
  - apply good_int; assumption.
  - apply good_bool.
  - apply good_set; assumption.
  - eapply good_setlit; eassumption.
  - apply good_setlit_undef; assumption.
  - apply good_local; assumption.
  - eapply good_top; eassumption.
  - apply good_ite; assumption.
  - eapply good_bin; eassumption.
  - apply good_bin_undef_l; assumption.
  - eapply good_bin_undef_r; eassumption.
  - apply good_or_true; assumption.
  - apply good_or; assumption.
  - apply good_and_false; assumption.
  - apply good_and; assumption.
  - apply good_impl_false; assumption.
  - apply good_impl; assumption.
  - apply good_rimpl_false; assumption.
  - apply good_rimpl; assumption.
  - eapply good_un; eassumption.
  - apply good_un_undef; assumption.
  - eapply (call_result r f fn args vs v (Some true)); try eassumption. reflexivity.
  - eapply call_undef_body; eassumption.
  - assert (Hb : sval_ty v = TBool -> b = Some true) by (intros T; eapply dom_bool_true; eassumption).
    assert (C : good r (ECall f args) (match b with Some true => Some v | _ => None end)) by (eapply call_result; eassumption).
    destruct b as [[]|]; [congruence|exact C|exact C].
  - apply call_undef_arg; assumption.
  - eapply call_bad_arg; eassumption.
  - eapply good_let; eassumption.
  - apply good_let_undef; assumption.
  - apply all_nil.
  - apply all_cons; assumption.
  - apply all_undef; assumption.
  - eapply all_later; eassumption.
  - apply ite_else; assumption.
  - apply ite_true; assumption.
  - apply ite_false; assumption.
  - apply dom_none.
  - apply dom_bool.
  - eapply dom_some; eassumption.
  - apply dom_undef; assumption.
  - apply items_nil.
  - eapply items_decl; eassumption.
  - apply items_decl_undef; assumption.
  - eapply items_decl_out; eassumption.
  - eapply items_decl_out_bool; eassumption.
  - apply items_con; assumption.
  - apply items_con_false; assumption.
  - apply params_nil.
  - apply params_cons; assumption.
  - eapply params_out; eassumption.
Qed.
End Main.
