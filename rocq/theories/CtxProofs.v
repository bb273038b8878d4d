(** Proofs about Boolean flattening. *)
Require Import ZArith List Bool Lia ZifyBool.
From Verif Require Import Base CtxModel CtxSpec.
Import ListNotations.
Open Scope Z_scope.

Lemma bop_eqb_eq : forall a b, bop_eqb a b = true <-> a = b.
Proof. intros [] []; cbn; split; congruence. Qed.
Lemma bctx_eqb_eq : forall a b, bctx_eqb a b = true <-> a = b.
Proof. intros [] []; cbn; split; congruence. Qed.

Definition rsize (l : list lit) : nat := fold_right (fun p n => (bsize (fst p) + n)%nat) O l.
Lemma bsize_pos : forall e, (1 <= bsize e)%nat. Proof. destruct e; cbn; lia. Qed.

Section T.
Variables (v : nat -> bool) (uo : bop -> bool -> bool -> bool) (un : bool -> bool).
Notation tr := (truth v uo un).
Definition ltruth (p : lit) : bool := if snd p then tr (fst p) else negb (tr (fst p)).
(** the value of the literals output so far and those left *)
Definition value (bot : bop) (pos neg : list bexp) (rest : list lit) : bool :=
  match bot with
  | AND => forallb tr pos && forallb (fun e => negb (tr e)) neg && forallb ltruth rest
  | _ => existsb tr pos || existsb (fun e => negb (tr e)) neg || existsb ltruth rest
  end.


Ltac bb := unfold ltruth; cbn [fst snd forallb existsb];
  repeat rewrite ?forallb_app, ?existsb_app; cbn [forallb existsb negb];
  repeat rewrite ?andb_true_r, ?orb_false_r, ?andb_false_r, ?orb_true_r, ?andb_false_l, ?orb_true_l, ?andb_true_l, ?orb_false_l; try reflexivity.

Lemma agg_ok : forall bot, bot = AND \/ bot = OR -> forall fuel done rest pos neg,
  (rsize rest < fuel)%nat -> Forall (agg_done bot) pos ->
  exists pos' neg', agg_loop fuel bot (done, rest) pos neg = Ok (pos', neg') /\
    value bot pos' neg' [] = value bot pos neg rest /\ Forall (agg_done bot) pos'.
Proof.
  intros bot Hbot. induction fuel as [|fuel IH]; intros done rest pos neg Hf Hp; [lia|].
  cbn [agg_loop snd]. destruct rest as [|[e positive] rest].
  - exists pos, neg. auto.
  - cbn [rsize fold_right fst] in Hf. fold (rsize rest) in Hf. pose proof (bsize_pos e) as Hsz.
    assert (agg_done bot e \/ positive = false ->
      exists pos' neg', (do c <- cur_next (done, (e, positive) :: rest);
         if positive then agg_loop fuel bot c (pos ++ [e]) neg else agg_loop fuel bot c pos (neg ++ [e])) = Ok (pos', neg') /\
      value bot pos' neg' [] = value bot pos neg ((e, positive) :: rest) /\
      Forall (agg_done bot) pos') as Hout.
    { intros Hd1. cbn [cur_next snd fst bind]. destruct positive.
      - destruct (IH ((e, true) :: done) rest (pos ++ [e]) neg) as (pos' & neg' & H1 & H2 & H3).
        + lia.
        + apply Forall_app. split; [exact Hp|]. constructor; [|constructor]. destruct Hd1; [assumption|discriminate].
        + exists pos', neg'. split; [exact H1|]. split; [|exact H3]. rewrite H2. unfold value.
          destruct Hbot as [-> | ->]; bb; destruct (tr e); bb.
      - destruct (IH ((e, false) :: done) rest pos (neg ++ [e])) as (pos' & neg' & H1 & H2 & H3).
        + lia.
        + exact Hp.
        + exists pos', neg'. split; [exact H1|]. split; [|exact H3]. rewrite H2. unfold value.
          destruct Hbot as [-> | ->]; bb; destruct (tr e); bb. }
    destruct e as [n|bi e'|bi op l r].
    + apply Hout; left; exact I.
    + destruct bi; [|apply Hout; left; exact I]. cbn [bsize] in Hf. destruct positive; cbn [negb].
      * destruct (bop_eqb bot OR) eqn:Eb.
        -- apply bop_eqb_eq in Eb. subst bot. cbn [cur_next snd fst bind].
           destruct (IH ((BNot true e', true) :: done) rest pos (neg ++ [e'])) as (pos' & neg' & H1 & H2 & H3); [lia|exact Hp|].
           exists pos', neg'. split; [exact H1|]. split; [|exact H3]. rewrite H2. unfold value. bb. cbn [truth]. destruct (tr e'); bb.
        -- apply Hout. left. cbn. destruct Hbot as [->| ->]; [reflexivity|discriminate].
      * cbn [cur_set snd fst bind]. destruct (IH done ((e', true) :: rest) pos neg) as (pos' & neg' & H1 & H2 & H3); [cbn; fold (rsize rest); lia|exact Hp|].
        exists pos', neg'. split; [exact H1|]. split; [|exact H3]. rewrite H2. unfold value.
        destruct Hbot as [-> | ->]; bb; cbn [truth]; rewrite negb_involutive; reflexivity.
    + destruct bi; [|apply Hout; left; exact I]. cbn [bsize] in Hf. destruct positive; cbn [negb andb].
      * destruct (bop_eqb op bot) eqn:Eb.
        -- apply bop_eqb_eq in Eb. subst op. cbn [cur_set cur_next cur_insert cur_prev snd fst bind].
           destruct (IH done ((l, true) :: (r, true) :: rest) pos neg) as (pos' & neg' & H1 & H2 & H3); [cbn; fold (rsize rest); lia|exact Hp|].
           exists pos', neg'. split; [exact H1|]. split; [|exact H3]. rewrite H2. unfold value.
           destruct Hbot as [-> | ->]; bb; cbn [truth bmeaning]; destruct (tr l), (tr r); bb.
        -- apply Hout. left. cbn. intros H. apply bop_eqb_eq in H. congruence.
      * destruct (bop_eqb op (negop bot)) eqn:Eb.
        -- apply bop_eqb_eq in Eb. subst op. cbn [cur_set cur_next cur_insert cur_prev snd fst bind].
           destruct (IH done ((l, false) :: (r, false) :: rest) pos neg) as (pos' & neg' & H1 & H2 & H3); [cbn; fold (rsize rest); lia|exact Hp|].
           exists pos', neg'. split; [exact H1|]. split; [|exact H3]. rewrite H2. unfold value.
           destruct Hbot as [-> | ->]; bb; cbn [truth bmeaning negop]; destruct (tr l), (tr r); bb.
        -- apply Hout. right. reflexivity.
Qed.

Lemma forallb_map : forall A B (f : B -> bool) (g : A -> B) l, forallb f (map g l) = forallb (fun x => f (g x)) l.
Proof. intros A B f g l. induction l; cbn; congruence. Qed.

Lemma aggregate_ok : forall l r negArgs bot, bot = AND \/ bot = OR ->
  exists c, aggregate l r negArgs bot = Ok c /\ call_done bot c /\
    call_truth v uo un c = bmeaning bot (xorb negArgs (tr l)) (xorb negArgs (tr r)).
Proof.
  intros l r negArgs bot Hbot. unfold aggregate.
  destruct (agg_ok bot Hbot (S (S (bsize l + bsize r))) [] [(l, negb negArgs); (r, negb negArgs)] [] []) as (pos & neg & H1 & H2 & H3).
  - cbn. lia.
  - constructor.
  - match goal with |- context [agg_loop ?a ?b ?c ?d ?e] => replace (agg_loop a b c d e) with (Ok (pos, neg)) by (symmetry; exact H1) end.
    cbn [bind]. unfold value in H2. destruct Hbot as [-> | ->].
    + eexists. split; [reflexivity|]. split.
      * split; [reflexivity|]. apply Forall_app. split; [exact H3|]. apply Forall_forall. intros x Hx. apply in_map_iff in Hx. destruct Hx as (y & <- & _). reflexivity.
      * cbn [call_truth]. rewrite forallb_app, forallb_map. cbn [truth forallb] in *. rewrite andb_true_r in H2. rewrite H2. unfold ltruth. cbn [fst snd bmeaning].
        destruct negArgs, (tr l), (tr r); reflexivity.
    + eexists. split; [reflexivity|]. destruct neg as [|x neg].
      * split; [split; [reflexivity|exact H3]|]. cbn [call_truth existsb] in *. rewrite !orb_false_r in H2. rewrite H2. unfold ltruth. cbn [fst snd bmeaning].
        destruct negArgs, (tr l), (tr r); reflexivity.
      * split; [split; [reflexivity|exact H3]|]. cbn [call_truth]. cbn [existsb] in H2 |- *. rewrite orb_false_r in H2. rewrite H2. unfold ltruth. cbn [fst snd bmeaning orb].
        destruct negArgs, (tr l), (tr r); reflexivity.
Qed.

Definition tsize (l : list bexp) : nat := fold_right (fun e n => (bsize e + n)%nat) O l.
Lemma root_ok : forall negArgs fuel todo, (tsize todo < fuel)%nat ->
  exists l, root_conjuncts fuel negArgs todo = Ok l /\
    forallb (fun p => xorb (fst p) (tr (snd p))) l = forallb (fun e => xorb negArgs (tr e)) todo.
Proof.
  intros negArgs. induction fuel as [|fuel IH]; intros todo Hf; [lia|]. cbn [root_conjuncts]. destruct todo as [|e todo].
  - exists []. auto.
  - cbn [tsize fold_right] in Hf. fold (tsize todo) in Hf. pose proof (bsize_pos e) as Hsz.
    assert (exists l, (do l <- root_conjuncts fuel negArgs todo; Ok ((negArgs, e) :: l)) = Ok l /\
      forallb (fun p => xorb (fst p) (tr (snd p))) l = forallb (fun e => xorb negArgs (tr e)) (e :: todo)) as Hout.
    { destruct (IH todo) as (l & H1 & H2); [lia|]. exists ((negArgs, e) :: l). rewrite H1. split; [reflexivity|]. cbn [forallb fst snd]. rewrite H2. reflexivity. }
    destruct e as [n|bi e'|bi op l r]; try exact Hout. destruct bi; [|exact Hout].
    destruct (bop_eqb op (if negArgs then OR else AND)) eqn:Eb; [|exact Hout]. apply bop_eqb_eq in Eb. cbn [bsize] in Hf.
    destruct (IH (l :: r :: todo)) as (l' & H1 & H2); [cbn; fold (tsize todo); lia|]. exists l'. split; [exact H1|]. rewrite H2. cbn [forallb truth].
    subst op. destruct negArgs; cbn [bmeaning]; destruct (tr l), (tr r); cbn; try reflexivity.
Qed.

Section Tr.
Variables (par flat : bexp -> option bool) (isid : bexp -> bool).
Hypothesis par_ok : forall e b, par e = Some b -> tr e = b.
Hypothesis flat_ok : forall e b, flat e = Some b -> tr e = b.
Lemma istrue_ok : forall f e, (forall e b, f e = Some b -> tr e = b) -> istrue f e = true -> tr e = true.
Proof. intros f e H He. unfold istrue in He. destruct (f e) as [[]|] eqn:E; try discriminate. apply H, E. Qed.
Lemma isfalse_ok : forall f e, (forall e b, f e = Some b -> tr e = b) -> isfalse f e = true -> tr e = false.
Proof. intros f e H He. unfold isfalse in He. destruct (f e) as [[]|] eqn:E; try discriminate. apply H, E. Qed.
Lemma ispar_ok : forall e, ispar par e = true -> tr e = istrue par e.
Proof. intros e He. unfold ispar, istrue in *. destruct (par e) as [b|] eqn:E; [|discriminate]. rewrite (par_ok e b E). destruct b; reflexivity. Qed.

Lemma translate_impl : forall x y b (neg root : bool),
  exists p b',
  (if bctx_eqb b C_ROOT && root && ispar par x then
        Ok (if istrue par x then PExp false y else PTrue, if istrue par x then C_ROOT else b)
      else if bctx_eqb b C_ROOT && root && ispar par y then
        Ok (if istrue par y then PTrue else PExp true x, if istrue par y then b else C_NEG)
      else if neg then Ok (PCall false (CForall [x; BNot true y]), bminus b)
      else Ok (PCall false (CClause [y] [x]), b)) = Ok (p, b') /\
  ((b = C_ROOT -> neg = false) -> posted_truth v uo un p = xorb neg (bmeaning IMPL (tr x) (tr y)) /\
     (has_ctx p = true -> out_ctx (posted_neg p) b' = out_ctx neg b)).
Proof.
  intros x y b neg root.
  destruct (bctx_eqb b C_ROOT && root && ispar par x) eqn:E1.
  { do 2 eexists. split; [reflexivity|]. intros Hn. apply andb_prop in E1. destruct E1 as [E1 E2]. apply andb_prop in E1. destruct E1 as [E1 _].
    apply bctx_eqb_eq in E1. rewrite (Hn E1). rewrite (ispar_ok x E2). destruct (istrue par x); cbn; [|split; [reflexivity|discriminate]].
    rewrite E1. destruct (tr y); auto. }
  destruct (bctx_eqb b C_ROOT && root && ispar par y) eqn:E2.
  { do 2 eexists. split; [reflexivity|]. intros Hn. apply andb_prop in E2. destruct E2 as [E2 E3]. apply andb_prop in E2. destruct E2 as [E2 _].
    apply bctx_eqb_eq in E2. rewrite (Hn E2). rewrite (ispar_ok y E3). destruct (istrue par y); cbn.
    - split; [destruct (tr x); reflexivity|discriminate].
    - rewrite E2. destruct (tr x); auto. }
  destruct neg; do 2 eexists; (split; [reflexivity|]); intros _; cbn.
  - split; [destruct (tr x), (tr y); reflexivity|intros _; destruct b; reflexivity].
  - split; [destruct (tr x), (tr y); reflexivity|auto].
Qed.

Lemma translate_ok : forall op e0 e1 b (neg root : bool), (b = C_ROOT -> neg = false) ->
  exists p b', translate par flat isid true op e0 e1 b neg root = Ok (p, b') /\
    posted_truth v uo un p = xorb neg (bmeaning op (tr e0) (tr e1)) /\
    (has_ctx p = true -> out_ctx (posted_neg p) b' = out_ctx neg b).
Proof.
  intros op e0 e1 b neg root Hn. unfold translate.
  assert (forall bot (negArgs : bool) b1, bot = AND \/ bot = OR -> bmeaning bot (xorb negArgs (tr e0)) (xorb negArgs (tr e1)) = xorb neg (bmeaning op (tr e0) (tr e1)) ->
    out_ctx false b1 = out_ctx neg b ->
    exists p b', (if root && bop_eqb bot AND then
          do l <- root_conjuncts (S (S (bsize e0 + bsize e1))) negArgs [e0; e1]; Ok (PAll l, b1)
        else do c <- aggregate e0 e1 negArgs bot; Ok (PCall false c, b1)) = Ok (p, b') /\
    posted_truth v uo un p = xorb neg (bmeaning op (tr e0) (tr e1)) /\
    (has_ctx p = true -> out_ctx (posted_neg p) b' = out_ctx neg b)) as Hagg.
  { intros bot negArgs b1 Hbot Hm Hb1. destruct (root && bop_eqb bot AND) eqn:E.
    - destruct (root_ok negArgs (S (S (bsize e0 + bsize e1))) [e0; e1]) as (l & H1 & H2); [cbn; lia|]. rewrite H1. cbn [bind].
      do 2 eexists. split; [reflexivity|]. cbn [posted_truth has_ctx]. split; [|discriminate]. rewrite H2, <- Hm. cbn [forallb].
      apply andb_prop in E. destruct E as [_ E]. apply bop_eqb_eq in E. subst bot. cbn [bmeaning]. rewrite andb_true_r. reflexivity.
    - destruct (aggregate_ok e0 e1 negArgs bot Hbot) as (c & H1 & _ & H2). rewrite H1. cbn [bind]. do 2 eexists. split; [reflexivity|].
      cbn [posted_truth]. rewrite H2, xorb_false_l. auto. }
  assert (forall b1 tneg, out_ctx false b1 = out_ctx neg b -> xorb tneg (Bool.eqb (tr e0) (tr e1)) = xorb neg (bmeaning op (tr e0) (tr e1)) -> tneg = false ->
    exists p b', (if istrue par e0 then Ok (PExp false e1, b1)
      else if istrue par e1 then Ok (PExp false e0, b1)
      else if root then
        let '(x, y) := if ispar par e1 || isid e1 then (e1, e0) else (e0, e1) in
        if isfalse par x then Ok (PExp true y, bminus b1)
        else if istrue flat x then Ok (PExp false y, b1)
        else if isfalse flat x then Ok (PExp true y, bminus b1)
        else Ok (PDefine false x y, C_MIX)
      else Ok (POp false EQUIV e0 e1, b1)) = Ok (p, b') /\
    posted_truth v uo un p = xorb neg (bmeaning op (tr e0) (tr e1)) /\
    (has_ctx p = true -> out_ctx (posted_neg p) b' = out_ctx neg b)) as Heq.
  { intros b1 tneg Hb1 Hm ->. rewrite xorb_false_l in Hm. rewrite <- Hm, <- Hb1.
    destruct (istrue par e0) eqn:E1; [apply (istrue_ok _ _ par_ok) in E1; do 2 eexists; split; [reflexivity|]; cbn [posted_truth posted_neg]; rewrite E1; destruct (tr e1); auto|].
    destruct (istrue par e1) eqn:E2; [apply (istrue_ok _ _ par_ok) in E2; do 2 eexists; split; [reflexivity|]; cbn [posted_truth posted_neg]; rewrite E2; destruct (tr e0); auto|].
    destruct root; [|do 2 eexists; split; [reflexivity|]; cbn [posted_truth posted_neg bmeaning]; rewrite xorb_false_l; auto].
    destruct (if ispar par e1 || isid e1 then (e1, e0) else (e0, e1)) as [x y] eqn:Ex.
    assert (Bool.eqb (tr e0) (tr e1) = Bool.eqb (tr x) (tr y)) as ->.
    { destruct (ispar par e1 || isid e1); injection Ex as <- <-; [|reflexivity]. destruct (tr e0), (tr e1); reflexivity. }
    destruct (isfalse par x) eqn:E3; [apply (isfalse_ok _ _ par_ok) in E3; do 2 eexists; split; [reflexivity|]; cbn [posted_truth posted_neg]; rewrite E3; destruct (tr y), b1; auto|].
    destruct (istrue flat x) eqn:E4; [apply (istrue_ok _ _ flat_ok) in E4; do 2 eexists; split; [reflexivity|]; cbn [posted_truth posted_neg]; rewrite E4; destruct (tr y); auto|].
    destruct (isfalse flat x) eqn:E5; [apply (isfalse_ok _ _ flat_ok) in E5; do 2 eexists; split; [reflexivity|]; cbn [posted_truth posted_neg]; rewrite E5; destruct (tr y), b1; auto|].
    do 2 eexists. split; [reflexivity|]. cbn [posted_truth posted_neg has_ctx]. rewrite xorb_false_l. split; [reflexivity|discriminate]. }
  assert (forall b1 tneg, out_ctx false b1 = out_ctx neg b -> xorb tneg (xorb (tr e0) (tr e1)) = xorb neg (bmeaning op (tr e0) (tr e1)) -> tneg = false ->
    exists p b', (if isfalse par e0 then Ok (PExp false e1, b1)
      else if isfalse par e1 then Ok (PExp false e0, b1)
      else if root then
        let '(x, y) := if ispar par e1 || isid e1 then (e1, e0) else (e0, e1) in
        if istrue par x then Ok (PExp true y, bminus b1)
        else if isfalse flat x then Ok (PExp false y, b1)
        else if istrue flat x then Ok (PExp true y, bminus b1)
        else Ok (PDefine true x y, C_MIX)
      else Ok (POp false XOR e0 e1, b1)) = Ok (p, b') /\
    posted_truth v uo un p = xorb neg (bmeaning op (tr e0) (tr e1)) /\
    (has_ctx p = true -> out_ctx (posted_neg p) b' = out_ctx neg b)) as Hxor.
  { intros b1 tneg Hb1 Hm ->. rewrite xorb_false_l in Hm. rewrite <- Hm, <- Hb1.
    destruct (isfalse par e0) eqn:E1; [apply (isfalse_ok _ _ par_ok) in E1; do 2 eexists; split; [reflexivity|]; cbn [posted_truth posted_neg]; rewrite E1; destruct (tr e1); auto|].
    destruct (isfalse par e1) eqn:E2; [apply (isfalse_ok _ _ par_ok) in E2; do 2 eexists; split; [reflexivity|]; cbn [posted_truth posted_neg]; rewrite E2; destruct (tr e0); auto|].
    destruct root; [|do 2 eexists; split; [reflexivity|]; cbn [posted_truth posted_neg bmeaning]; rewrite xorb_false_l; auto].
    destruct (if ispar par e1 || isid e1 then (e1, e0) else (e0, e1)) as [x y] eqn:Ex.
    assert (xorb (tr e0) (tr e1) = xorb (tr x) (tr y)) as ->.
    { destruct (ispar par e1 || isid e1); injection Ex as <- <-; [|reflexivity]. destruct (tr e0), (tr e1); reflexivity. }
    destruct (istrue par x) eqn:E3; [apply (istrue_ok _ _ par_ok) in E3; do 2 eexists; split; [reflexivity|]; cbn [posted_truth posted_neg]; rewrite E3; destruct (tr y), b1; auto|].
    destruct (isfalse flat x) eqn:E4; [apply (isfalse_ok _ _ flat_ok) in E4; do 2 eexists; split; [reflexivity|]; cbn [posted_truth posted_neg]; rewrite E4; destruct (tr y); auto|].
    destruct (istrue flat x) eqn:E5; [apply (istrue_ok _ _ flat_ok) in E5; do 2 eexists; split; [reflexivity|]; cbn [posted_truth posted_neg]; rewrite E5; destruct (tr y), b1; auto|].
    do 2 eexists. split; [reflexivity|]. cbn [posted_truth posted_neg has_ctx]. split; [destruct (tr x), (tr y); reflexivity|discriminate]. }
  destruct neg.
  - destruct op; cbn zeta beta iota.
    + apply Hagg; [tauto|cbn; destruct (tr e0), (tr e1); reflexivity|destruct b; reflexivity].
    + apply Hagg; [tauto|cbn; destruct (tr e0), (tr e1); reflexivity|destruct b; reflexivity].
    + destruct (translate_impl e0 e1 b true root) as (p & b' & H1 & H2). exists p, b'. split; [exact H1|]. apply H2, Hn.
    + destruct (translate_impl e1 e0 b true root) as (p & b' & H1 & H2). exists p, b'. split; [exact H1|].
      replace (bmeaning RIMPL (tr e0) (tr e1)) with (bmeaning IMPL (tr e1) (tr e0)) by (cbn; apply orb_comm). apply H2, Hn.
    + apply (Hxor (bminus b) false); [destruct b; reflexivity|cbn; destruct (tr e0), (tr e1); reflexivity|reflexivity].
    + apply (Heq (bminus b) false); [destruct b; reflexivity|cbn; destruct (tr e0), (tr e1); reflexivity|reflexivity].
  - destruct op; cbn zeta beta iota.
    + apply Hagg; [tauto|cbn; destruct (tr e0), (tr e1); reflexivity|reflexivity].
    + apply Hagg; [tauto|cbn; destruct (tr e0), (tr e1); reflexivity|reflexivity].
    + destruct (translate_impl e0 e1 b false root) as (p & b' & H1 & H2). exists p, b'. split; [exact H1|]. apply H2, Hn.
    + destruct (translate_impl e1 e0 b false root) as (p & b' & H1 & H2). exists p, b'. split; [exact H1|].
      replace (bmeaning RIMPL (tr e0) (tr e1)) with (bmeaning IMPL (tr e1) (tr e0)) by (cbn; apply orb_comm). apply H2, Hn.
    + apply (Heq b false); [reflexivity|cbn; destruct (tr e0), (tr e1); reflexivity|reflexivity].
    + apply (Hxor b false); [reflexivity|cbn; destruct (tr e0), (tr e1); reflexivity|reflexivity].
Qed.
End Tr.
End T.

(** ** Contexts *)
Lemma bminus_mono : forall c f, (f true = true -> f false = true) -> forall r e, bsound (bminus c) r e -> bsound (bplus c) (f r) (f e).
Proof. intros c f H r e. destruct c, r, e; cbn; auto; try congruence; intros H0; try (specialize (H0 eq_refl); discriminate). Qed.
Lemma bplus_mono : forall c f, (f false = true -> f true = true) -> forall r e, bsound (bplus c) r e -> bsound (bplus c) (f r) (f e).
Proof. intros c f H r e. destruct c, r, e; cbn; auto; try congruence; intros H0; try (specialize (H0 eq_refl); discriminate). Qed.

Lemma ctxs_in : forall l c, acontains l (ACtx c) = true <-> In c (ctxs l).
Proof.
  intros l c. unfold acontains, ctxs. rewrite existsb_exists, in_flat_map. split.
  - intros (x & Hx & Hy). exists x. split; [exact Hx|]. destruct x as [d|n]; cbn in Hy; [|discriminate]. apply bctx_eqb_eq in Hy. left. congruence.
  - intros (x & Hx & Hy). exists x. split; [exact Hx|]. destruct x as [d|n]; [|contradiction]. destruct Hy as [->|[]]. cbn. apply bctx_eqb_eq. reflexivity.
Qed.
Lemma annToCtx_none : forall l, ctxs l = [] -> annToCtx l = (C_MIX, false).
Proof.
  intros l H. unfold annToCtx.
  assert (forall c, acontains l (ACtx c) = false) as Hc. { intros c. apply not_true_iff_false. rewrite ctxs_in, H. auto. }
  rewrite !Hc. reflexivity.
Qed.
Lemma annToCtx_one : forall l c, ctxs l = [c] -> annToCtx l = (c, true).
Proof.
  intros l c H. unfold annToCtx.
  assert (forall d, acontains l (ACtx d) = bctx_eqb c d) as Hc.
  { intros d. destruct (bctx_eqb c d) eqn:E.
    - apply ctxs_in. rewrite H. apply bctx_eqb_eq in E. left. exact E.
    - apply not_true_iff_false. rewrite ctxs_in, H. intros [He|[]]. apply bctx_eqb_eq in He. congruence. }
  rewrite !Hc. destruct c; reflexivity.
Qed.
Lemma ctxs_remove : forall l c, ctxs (aremove l (ACtx c)) = filter (fun d => negb (bctx_eqb c d)) (ctxs l).
Proof.
  intros l c. induction l as [|[d|n] l IH]; cbn; [reflexivity| |exact IH].
  destruct (bctx_eqb c d) eqn:E; cbn; [exact IH|]. fold (ctxs l). f_equal. exact IH.
Qed.
Lemma others_remove : forall l c, others (aremove l (ACtx c)) = others l.
Proof. intros l c. induction l as [|[d|n] l IH]; cbn; [reflexivity| |f_equal; exact IH]. destruct (bctx_eqb c d); exact IH. Qed.
Lemma aadd_new : forall l c, ctxs l = [] -> ctxs (aadd l (ACtx c)) = [c] /\ others (aadd l (ACtx c)) = others l.
Proof.
  intros l c H. unfold aadd. destruct (acontains l (ACtx c)) eqn:E.
  - apply ctxs_in in E. rewrite H in E. destruct E.
  - cbn. fold (ctxs l). rewrite H. auto.
Qed.

Lemma covers_refl : forall c, covers c c. Proof. intros c r e H. exact H. Qed.
Lemma covers_root : forall d, covers C_ROOT d.
Proof. intros d r e [-> ->]. destruct d; cbn; auto. Qed.
Lemma covers_mix : forall d, d <> C_ROOT -> covers C_MIX d.
Proof. intros d Hd r e H. cbn in H. subst e. destruct d; cbn; auto; congruence. Qed.
Lemma covers_dec : forall c d, covers c d ->
  bctx_eqb c d || bctx_eqb c C_ROOT || (bctx_eqb c C_MIX && negb (bctx_eqb d C_ROOT)) = true.
Proof.
  intros c d H. destruct c, d; try reflexivity; exfalso.
  all: try (specialize (H false false); cbn in H; intuition congruence).
  all: try (specialize (H false true); cbn in H; intuition congruence).
  all: try (specialize (H true false); cbn in H; intuition congruence).
Qed.

Lemma weakest_one : forall c, weakest_cover c [c].
Proof. intros c. split; [intros u [<-|[]]; apply covers_refl|]. intros d H. apply H. left. reflexivity. Qed.
Lemma add_ok : forall l c us d, ctxs l = [c] -> weakest_cover c us ->
  exists c', ctxs (addCtxAnn l d) = [c'] /\ weakest_cover c' (us ++ [d]) /\ others (addCtxAnn l d) = others l.
Proof.
  intros l c us d Hl [Hw1 Hw2]. unfold addCtxAnn. rewrite (annToCtx_one l c Hl).
  destruct (bctx_eqb c d || bctx_eqb c C_ROOT || (bctx_eqb c C_MIX && negb (bctx_eqb d C_ROOT))) eqn:E.
  - exists c. split; [exact Hl|]. split; [|reflexivity]. split.
    + intros u Hu. apply in_app_iff in Hu. destruct Hu as [Hu|[<-|[]]]; [auto|].
      apply orb_prop in E. destruct E as [E|E]; [apply orb_prop in E; destruct E as [E|E]; apply bctx_eqb_eq in E; subst; [apply covers_refl|apply covers_root]|].
      apply andb_prop in E. destruct E as [E1 E2]. apply bctx_eqb_eq in E1. subst c. apply covers_mix. intros ->. discriminate.
    + intros d' H. apply Hw2. intros u Hu. apply H, in_app_iff. auto.
  - pose proof (ctxs_remove l c) as Hr. rewrite Hl in Hr. cbn [filter] in Hr.
    assert (bctx_eqb c c = true) as Hcc by (apply bctx_eqb_eq; reflexivity). rewrite Hcc in Hr. cbn in Hr.
    destruct (aadd_new (aremove l (ACtx c)) (if bctx_eqb d C_ROOT then C_ROOT else C_MIX) Hr) as [H1 H2].
    eexists. split; [exact H1|]. split; [|rewrite H2; apply others_remove]. split.
    + intros u Hu. apply in_app_iff in Hu. destruct (bctx_eqb d C_ROOT) eqn:Ed; [apply covers_root|].
      destruct Hu as [Hu|[<-|[]]].
      * apply covers_mix. intros ->. apply Hw1 in Hu. apply covers_dec in Hu. clear - Hu E; destruct c, d; cbn in Hu, E; discriminate.
      * apply covers_mix. intros Hx. rewrite Hx in Ed. discriminate.
    + intros d' H. assert (covers d' d) as Hd by (apply H, in_app_iff; right; left; reflexivity).
      assert (covers d' c) as Hc by (apply Hw2; intros u Hu; apply H, in_app_iff; auto).
      apply covers_dec in Hd, Hc. destruct c, d, d'; try discriminate; cbn; try apply covers_refl; try apply covers_root.
Qed.
Lemma addAll_some : forall ds l c us, ctxs l = [c] -> weakest_cover c us ->
  exists c', ctxs (fold_left addCtxAnn ds l) = [c'] /\ weakest_cover c' (us ++ ds) /\ others (fold_left addCtxAnn ds l) = others l.
Proof.
  induction ds as [|d ds IH]; intros l c us Hl Hw; cbn [fold_left].
  - exists c. rewrite app_nil_r. auto.
  - destruct (add_ok l c us d Hl Hw) as (c1 & H1 & H2 & H3). destruct (IH _ c1 (us ++ [d]) H1 H2) as (c' & H4 & H5 & H6).
    exists c'. split; [exact H4|]. rewrite <- app_assoc in H5. split; [exact H5|]. congruence.
Qed.
Lemma addAll_ok : forall l us, (length (ctxs l) <= 1)%nat -> ctxs l ++ us <> [] ->
  exists c, annToCtx (fold_left addCtxAnn us l) = (c, true) /\ ctxs (fold_left addCtxAnn us l) = [c] /\
    weakest_cover c (ctxs l ++ us) /\ others (fold_left addCtxAnn us l) = others l.
Proof.
  intros l us Hl Hne. destruct (ctxs l) as [|c [|]] eqn:E; cbn in Hl; [|clear Hne|lia].
  - destruct us as [|u us]; [cbn in Hne; congruence|]. cbn [fold_left].
    assert (ctxs (addCtxAnn l u) = [u] /\ others (addCtxAnn l u) = others l) as [H1 H2].
    { unfold addCtxAnn. rewrite (annToCtx_none l E). apply aadd_new, E. }
    destruct (addAll_some us _ u [u] H1 (weakest_one u)) as (c & H3 & H4 & H5). exists c. split; [apply annToCtx_one, H3|]. split; [exact H3|].
    split; [exact H4|congruence].
  - destruct (addAll_some us l c [c] E (weakest_one c)) as (c' & H3 & H4 & H5). exists c'. split; [apply annToCtx_one, H3|]. auto.
Qed.
(** two contexts that cover each other are equal: the result does not depend on the order of the uses *)
Lemma covers_antisym : forall c d, covers c d -> covers d c -> c = d.
Proof. intros c d H1 H2. apply covers_dec in H1, H2. destruct c, d; try discriminate; reflexivity. Qed.
Lemma addAll_order : forall l us us', (length (ctxs l) <= 1)%nat -> (forall u, In u us <-> In u us') ->
  annToCtx (fold_left addCtxAnn us l) = annToCtx (fold_left addCtxAnn us' l).
Proof.
  intros l us us' Hl H. destruct us as [|u us].
  - destruct us' as [|u' us']; [reflexivity|]. exfalso. apply (H u'). left. reflexivity.
  - destruct us' as [|u' us']; [exfalso; apply (H u); left; reflexivity|].
    destruct (addAll_ok l (u :: us) Hl) as (c & H1 & _ & [H2 H3] & _); [destruct (ctxs l); discriminate|].
    destruct (addAll_ok l (u' :: us') Hl) as (c' & H1' & _ & [H2' H3'] & _); [destruct (ctxs l); discriminate|].
    rewrite H1, H1'. f_equal. apply covers_antisym.
    + apply H3'. intros w Hw. apply H2. apply in_app_iff in Hw. apply in_app_iff. destruct Hw; [auto|]. right. apply H; assumption.
    + apply H3. intros w Hw. apply H2'. apply in_app_iff in Hw. apply in_app_iff. destruct Hw; [auto|]. right. apply H; assumption.
Qed.

Lemma existsb_pos : forall rs es, Forall2 (bsound C_POS) rs es -> existsb (fun x => x) rs = true -> existsb (fun x => x) es = true.
Proof. intros rs es H. induction H as [|r e rs es H1 H2 IH]; cbn; [auto|]. destruct r; cbn in *; [rewrite H1; auto|]. intros H. rewrite IH; auto. apply orb_true_r. Qed.
Lemma forallb_pos : forall rs es, Forall2 (bsound C_POS) rs es -> forallb (fun x => x) rs = true -> forallb (fun x => x) es = true.
Proof. intros rs es H. induction H as [|r e rs es H1 H2 IH]; cbn; [auto|]. destruct r; cbn in *; [rewrite H1; auto|discriminate]. Qed.
Lemma Forall2_flip : forall A B (P : A -> B -> Prop) l m, Forall2 P l m -> Forall2 (fun b a => P a b) m l.
Proof. intros A B P l m H. induction H; constructor; auto. Qed.
Lemma Forall2_imp : forall A B (P Q : A -> B -> Prop) l m, (forall a b, P a b -> Q a b) -> Forall2 P l m -> Forall2 Q l m.
Proof. intros A B P Q l m H H'. induction H'; constructor; auto. Qed.
Lemma Forall2_eq : forall A (l m : list A), Forall2 eq l m -> l = m.
Proof. intros A l m H. induction H; congruence. Qed.
Lemma junct_mono : forall q c rs es, Forall2 (bsound (bplus c)) rs es -> bsound (bplus c) (junct q rs) (junct q es).
Proof.
  intros q c rs es H. assert (forall r e, bsound C_NEG r e -> bsound C_POS e r) as Hf by (intros r e H0; exact H0).
  destruct c; cbn in *.
  - destruct q; [apply (forallb_pos rs es H)|apply (existsb_pos rs es H)].
  - destruct q; [apply (forallb_pos rs es H)|apply (existsb_pos rs es H)].
  - apply Forall2_flip in H. destruct q; [apply (forallb_pos es rs H)|apply (existsb_pos es rs H)].
  - apply Forall2_eq in H. congruence.
Qed.
Lemma junct_neg : forall q l, junct (negb q) (map negb l) = negb (junct q l).
Proof. intros [] l; induction l as [|x l IH]; cbn in *; auto; rewrite IH; destruct x; reflexivity. Qed.
Lemma junct_ok : forall q b neg q' argneg argb rs es, junct_call q b neg = (q', argneg, argb) ->
  Forall2 (fun r e => bsound (out_ctx argneg argb) r (xorb argneg e)) rs es ->
  bsound (out_ctx neg b) (junct q' rs) (xorb neg (junct q es)).
Proof.
  intros q b neg q' argneg argb rs es H HF. unfold junct_call in H. destruct neg; injection H as <- <- <-; cbn [out_ctx] in *.
  - replace (xorb true (junct q es)) with (junct (negb q) (map negb es)) by (rewrite junct_neg; reflexivity).
    replace (bminus b) with (bplus (bminus b)) by (destruct b; reflexivity). apply junct_mono.
    replace (bplus (bminus b)) with (bminus (bplus b)) by (destruct b; reflexivity).
    clear - HF. induction HF as [|r e rs es H1 H2 IH]; cbn; constructor; [rewrite xorb_true_l in H1; exact H1|exact IH].
  - rewrite xorb_false_l. apply junct_mono. refine (Forall2_imp _ _ _ _ _ _ _ HF). intros r e H. rewrite xorb_false_l in H. destruct b; exact H.
Qed.
Lemma bsound_negb : forall c r e, bsound (bminus c) r e -> bsound (bplus c) (negb r) (negb e).
Proof. intros c r e. apply bminus_mono. auto. Qed.
Lemma bsound_orb : forall c r e r' e', bsound (bplus c) r e -> bsound (bplus c) r' e' -> bsound (bplus c) (r || r') (e || e').
Proof. intros [] [] [] [] []; cbn; auto. Qed.
Lemma clause_ok : forall b rp ep rn en, Forall2 (bsound (fst (clause_ctx b))) rp ep -> Forall2 (bsound (snd (clause_ctx b))) rn en ->
  bsound (bplus b) (existsb (fun x => x) rp || existsb negb rn) (existsb (fun x => x) ep || existsb negb en).
Proof.
  intros b rp ep rn en H1 H2. cbn [clause_ctx fst snd] in *. apply bsound_orb; [exact (junct_mono false b rp ep H1)|].
  assert (forall l, existsb negb l = junct false (map negb l)) as Hm by (intros l; induction l; cbn in *; congruence). rewrite !Hm. apply junct_mono.
  clear H1. induction H2; cbn; constructor; [apply bsound_negb; assumption|assumption].
Qed.

(** ** Integer contexts *)
Lemma compare_ok : forall op b neg rx ex ry ey,
  isound (fst (compare_ctx op b)) rx ex -> isound (snd (compare_ctx op b)) ry ey ->
  bsound (out_ctx neg b) (cmeaning (fst (compare_op op neg)) rx ry) (xorb neg (cmeaning op ex ey)).
Proof.
  intros op b neg rx ex ry ey H1 H2. destruct op, b, neg; cbn in *; subst; repeat match goal with |- context [if ?c then _ else _] => destruct c eqn:? end; cbn; lia.
Qed.
Lemma lin_ok : forall i cs rs es, Forall2 (fun c p => isound (lin_ctx c i) (fst p) (snd p)) cs (combine rs es) ->
  length rs = length cs -> length es = length cs ->
  isound (bplus i) (fold_right Z.add 0 (map (fun p => fst p * snd p) (combine cs rs)))
                   (fold_right Z.add 0 (map (fun p => fst p * snd p) (combine cs es))).
Proof.
  intros i cs. induction cs as [|c cs IH]; intros rs es HF H1 H2; destruct rs as [|r rs], es as [|e es]; try discriminate; cbn [combine map fold_right].
  - destruct i; cbn; lia.
  - cbn in HF. inversion HF as [|? ? ? ? Hh Ht]; subst. specialize (IH rs es Ht ltac:(cbn in *; lia) ltac:(cbn in *; lia)).
    cbn [fst snd] in *. unfold lin_ctx in Hh. destruct (c <? 0) eqn:Ec; destruct i; cbn in *; nia.
Qed.
Lemma bool2int_ok : forall i r e, bsound (bool2int_ctx i) r e -> isound (bplus i) (b2z r) (b2z e).
Proof. intros [] [] []; cbn; intros H; try lia; intuition discriminate. Qed.
Lemma isound_trans : forall c x y z, isound c x y -> isound c y z -> isound c x z.
Proof. intros [] x y z; cbn; lia. Qed.
Lemma mult_side_ok : forall b i r e m, sign_definite b -> in_bnds b m -> isound (mult_side b i) r e -> isound (bplus i) (r * m) (e * m).
Proof.
  intros b i r e m Hs Hm H. unfold mult_side in H. destruct b as [[l u]|]; cbn in Hs, Hm.
  2:{ cbn in H. subst. destruct i; cbn; lia. }
  destruct (u <? 0) eqn:E1; [|destruct (1 <=? u) eqn:E2; [|cbn in H; subst; destruct i; cbn; lia]].
  - pose proof (Z.mul_le_mono_nonpos_r r e m) as Q1. pose proof (Z.mul_le_mono_nonpos_r e r m) as Q2.
    destruct i; cbn in *; try (subst; reflexivity); first [apply Q2; lia|apply Q1; lia].
  - pose proof (Z.mul_le_mono_nonneg_r r e m) as Q1. pose proof (Z.mul_le_mono_nonneg_r e r m) as Q2.
    destruct i; cbn in *; try (subst; reflexivity); first [apply Q2; lia|apply Q1; lia].
Qed.
Lemma mult_ok : forall b0 b1 i r0 e0 r1 e1, sign_definite b0 -> sign_definite b1 ->
  in_bnds b0 r0 -> in_bnds b0 e0 -> in_bnds b1 r1 -> in_bnds b1 e1 ->
  isound (fst (mult_ctx b0 b1 i)) r0 e0 -> isound (snd (mult_ctx b0 b1 i)) r1 e1 ->
  isound (bplus i) (r0 * r1) (e0 * e1).
Proof.
  intros b0 b1 i r0 e0 r1 e1 Hs0 Hs1 Hr0 He0 Hr1 He1 H0 H1.
  cbn [mult_ctx fst snd] in *. apply isound_trans with (e0 * r1).
  - exact (mult_side_ok b1 i r0 e0 r1 Hs1 Hr1 H0).
  - rewrite (Z.mul_comm e0 r1), (Z.mul_comm e0 e1). exact (mult_side_ok b0 i r1 e1 e0 Hs0 He0 H1).
Qed.

Lemma quot_mono_neg : forall a b c, c < 0 -> a <= b -> b ÷ c <= a ÷ c.
Proof.
  intros a b c Hc H. pose proof (Z.quot_le_mono a b (- c) ltac:(lia) H) as H1. rewrite !Z.quot_opp_r in H1 by lia. lia.
Qed.
Lemma quot_anti_r : forall x y z, 0 <= x -> y <= z -> (z < 0 \/ 0 < y) -> x ÷ z <= x ÷ y.
Proof.
  intros x y z Hx Hyz [Hz|Hy].
  - pose proof (Z.quot_le_compat_l x (- z) (- y) Hx ltac:(lia)) as H1. rewrite !Z.quot_opp_r in H1 by lia. lia.
  - apply Z.quot_le_compat_l; lia.
Qed.
Lemma quot_mono_r : forall x y z, x < 0 -> y <= z -> (z < 0 \/ 0 < y) -> x ÷ y <= x ÷ z.
Proof.
  intros x y z Hx Hyz H. pose proof (quot_anti_r (- x) y z ltac:(lia) Hyz H) as H1. rewrite !Z.quot_opp_l in H1 by lia. lia.
Qed.
Lemma idiv_ok : forall b0 b1 i r0 e0 r1 e1, sign_definite b0 -> excludes_0 b1 ->
  in_bnds b0 r0 -> in_bnds b0 e0 -> in_bnds b1 r1 -> in_bnds b1 e1 ->
  isound (fst (idiv_ctx b0 b1 i)) r0 e0 -> isound (snd (idiv_ctx b0 b1 i)) r1 e1 ->
  isound (bplus i) (r0 ÷ r1) (e0 ÷ e1).
Proof.
  intros b0 b1 i r0 e0 r1 e1 Hs0 Hs1 Hr0 He0 Hr1 He1 H0 H1.
  cbn [idiv_ctx fst snd] in *. destruct b1 as [[l1 u1]|]; [|destruct Hs1]. cbn in Hs1, Hr1, He1. apply isound_trans with (r0 ÷ e1).
  - clear H0. destruct b0 as [[l0 u0]|]; [|cbn in H1; subst r1; destruct i; cbn; lia]. cbn in Hs0, Hr0.
    destruct (u0 <? 0) eqn:E; [|destruct (1 <? u0) eqn:E1].
    + pose proof (quot_mono_r r0 r1 e1 ltac:(lia)) as Q1. pose proof (quot_mono_r r0 e1 r1 ltac:(lia)) as Q2.
      destruct i; cbn in *; try (subst; lia); first [apply Q1; lia | apply Q2; lia].
    + pose proof (quot_anti_r r0 r1 e1 ltac:(lia)) as Q1. pose proof (quot_anti_r r0 e1 r1 ltac:(lia)) as Q2.
      destruct i; cbn in *; try (subst; lia); first [apply Q1; lia | apply Q2; lia].
    + cbn in H1. subst r1. destruct i; cbn; lia.
  - clear H1. destruct (u1 <? 0) eqn:E; [|destruct (1 <? u1) eqn:E1].
    + pose proof (quot_mono_neg r0 e0 e1 ltac:(lia)) as Q1. pose proof (quot_mono_neg e0 r0 e1 ltac:(lia)) as Q2.
      destruct i; cbn in *; try (subst; lia); first [apply Q1; lia | apply Q2; lia].
    + pose proof (Z.quot_le_mono r0 e0 e1 ltac:(lia)) as Q1. pose proof (Z.quot_le_mono e0 r0 e1 ltac:(lia)) as Q2.
      destruct i; cbn in *; try (subst; lia); first [apply Q1; lia | apply Q2; lia].
    + cbn in H0. subst r0. destruct i; cbn; lia.
Qed.
