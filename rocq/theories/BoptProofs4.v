(** Proofs for BoptModel, part 4: a fixed variable is propagated, an item is taken from the queue. *)
From Coq Require Import List Bool Arith Lia.
From Verif Require Import BoptModel BoptSpec BoptProofs1 BoptProofs2 BoptProofs3.
Import ListNotations.

Section Step.
Variable other : nat -> list bool -> bool.
Variable output : nat -> bool.
Notation truth := (truth other).
Notation inv := (inv other output).
Notation sat := (sat other).
Notation det := (det other).
Notation good := (good other output).
Notation okay := (okay other output).

Definition noalias (s : state) : Prop := forall v, nonalias s v.
Lemma noalias_grow s s' : noalias s -> grow s s' -> noalias s'.
Proof. intros H R v z E. apply (H v z). now apply (gr_alias _ _ R). Qed.

(** What the treatment of one item does not touch *)
Definition keep (s s' : state) : Prop :=
  (forall w, dm s w <> None -> gone s' w = gone s w /\ rh s' w = rh s w) /\
  (forall w, rh s w = None -> rh s' w = None).
Lemma keep_refl s : keep s s.
Proof. split; auto. Qed.
Lemma keep_trans s1 s2 s3 : grow s1 s2 -> keep s1 s2 -> keep s2 s3 -> keep s1 s3.
Proof.
  intros R [A1 A2] [B1 B2]. split; [|auto]. intros w H. destruct (A1 w H) as [<- <-].
  apply B1. destruct (dm s1 w) eqn:E; [|congruence]. apply (gr_dm _ _ R) in E. congruence.
Qed.

(** An item that says nothing any more *)
Definition redundant (s : state) (i : item) : Prop :=
  match i with
  | IC c => forall e, cons s c = Some e -> det s e true
  | IV w => gone s w = false /\ exists b, dm s w = Some b /\ forall e, rh s w = Some e -> is_call e = true /\ det s e b
  | IS => True
  end.
Lemma redundant_keep s s' i : inv s -> good s s' -> keep s s' -> redundant s i -> redundant s' i.
Proof.
  intros I (_ & _ & R) [K _] H. destruct i as [w|c|]; cbn in *.
  - destruct H as (H1 & b & H2 & H3). assert (H4 : dm s w <> None) by congruence. destruct (K w H4) as [K1 K2].
    split; [congruence|]. exists b. split; [now apply (gr_dm _ _ R)|]. intros e He. rewrite K2 in He.
    destruct (H3 e He) as [H5 H6]. split; [assumption|]. eapply grow_det; eauto. apply I.
  - intros e He. apply (gr_cons _ _ R) in He. eapply grow_det; [apply I|exact R|]. auto.
  - exact H.
Qed.

Definition stepped (s : state) (i : item) (r : sbc_result) : Prop :=
  match r with
  | None => forall sg, ~ sat s sg
  | Some (s1, rem) => good s s1 /\ keep s s1 /\ forall j, In j rem -> j = i /\ redundant s1 j
  end.
Lemma stepped_ret s i : inv s -> stepped s i (ret s).
Proof. intros I. split; [now apply good_refl|]. split; [apply keep_refl|]. intros j []. Qed.

Lemma fix_var s u b :
  inv s -> dm s u = None -> gone s u = false -> (forall sg, sat s sg -> sg u = b) ->
  good s (set_dom s u b) /\ keep s (set_dom s u b) /\ dm (set_dom s u b) u = Some b.
Proof.
  intros I Hd Hg Hs. split; [now apply set_dom_good|]. split.
  - split; intros w H; unfold gone, rh in *; cbn; unfold upd; destruct (Nat.eqb_spec w u); subst; auto.
  - unfold dm. cbn. now rewrite upd_same.
Qed.
Lemma append_fix s u b :
  inv s -> dm s u = None -> gone s u = false -> (forall sg, sat s sg -> sg u = b) ->
  good s (append_var (set_dom s u b) u) /\ keep s (append_var (set_dom s u b) u) /\ dm (append_var (set_dom s u b) u) u = Some b.
Proof.
  intros I Hd Hg Hs. destruct (fix_var s u b I Hd Hg Hs) as (G & K & D). split; [|split; [exact K|exact D]].
  eapply good_trans; [exact G|]. apply append_var_good. apply G.
Qed.
Lemma live_item s i e : item_expr s i = Some e -> raw_expr s i = Some e.
Proof. destruct i as [v|c|]; cbn; try congruence. destruct (gone s v); congruence. Qed.
Lemma unfixed_live s i e x : inv s -> item_expr s i = Some e -> is_call e = true -> In x (ids e) ->
  dm s (rd s x) = None -> gone s (rd s x) = false.
Proof.
  intros (_ & B & _) H1 H2 H3 H4. destruct (g_ref _ B i e x) as [H|[H _]]; [now split|assumption|assumption|congruence].
Qed.

Lemma item_value_ok s i e b also :
  inv s -> item_expr s i = Some e -> is_call e = true -> det s e b -> (forall j, In j also -> j = i) ->
  stepped s i (item_value s i b also).
Proof.
  intros I He Hc D Ha. destruct i as [v|c|]; cbn [item_value].
  - assert (Hg : gone s v = false) by (cbn in He; destruct (gone s v); [discriminate|reflexivity]).
    assert (Hr : rh s v = Some e) by (cbn in He; now rewrite Hg in He).
    destruct (dm s v) as [d|] eqn:Hd.
    + destruct (Bool.eqb_spec d b) as [->|N].
      * split; [now apply good_refl|]. split; [apply keep_refl|]. intros j Hj. rewrite (Ha j Hj). split; [reflexivity|].
        split; [assumption|]. exists b. split; [assumption|]. intros e' He'. rewrite Hr in He'. inversion He'; subst. auto.
      * intros sg (F & S1 & _). apply N. rewrite <- (D sg F), <- (S1 v e Hg Hr). symmetry. now apply F.
    + destruct (append_fix s v b I Hd Hg) as (G & K & Dv).
      { intros sg (F & S1 & _). rewrite (S1 v e Hg Hr). now apply D. }
      split; [exact G|]. split; [exact K|]. intros j Hj. rewrite (Ha j Hj). split; [reflexivity|].
      split; [unfold gone; cbn; rewrite upd_same; exact Hg|]. exists b. split; [exact Dv|].
      intros e' He'. assert (rh (append_var (set_dom s v b) v) v = rh s v) by (unfold rh; cbn; now rewrite upd_same).
      rewrite H, Hr in He'. inversion He'; subst e'. split; [assumption|]. eapply grow_det; [apply I|apply G|exact D].
  - destruct b.
    + split; [now apply good_refl|]. split; [apply keep_refl|]. intros j [<-|[]]. split; [reflexivity|].
      intros e' He'. cbn in He. rewrite He in He'. inversion He'; subst. exact D.
    + intros sg (F & _ & S2). specialize (S2 c e He). rewrite D in S2; [discriminate|assumption].
  - now apply stepped_ret.
Qed.

Lemma bool_state_sound s sg a b : fixed s sg -> bool_state s a = Some b -> value sg a = b.
Proof. apply o_fixed_sound. Qed.
Lemma sbc_eq_ok s i a b :
  inv s -> item_expr s i = Some (EEq a b) -> stepped s i (sbc_eq s i a b).
Proof.
  intros I He. unfold sbc_eq.
  set (pr := match bool_state s a with None => (b, a) | Some _ => (a, b) end).
  assert (Hp : forall sg, Bool.eqb (value sg (fst pr)) (value sg (snd pr)) = truth sg (EEq a b)).
  { intros sg. unfold pr. destruct (bool_state s a); cbn; [reflexivity|].
    destruct (value sg a), (value sg b); reflexivity. }
  assert (Hin : forall y, snd pr = Ident y -> In y (ids (EEq a b))).
  { intros y. unfold pr. destruct (bool_state s a); cbn; intros ->; apply in_or_app; cbn; auto. }
  destruct pr as [b0 b1]. cbn [fst snd] in *.
  destruct (bool_state s b0) as [v0|] eqn:E0; [|now apply stepped_ret].
  destruct (target s i) as [t|] eqn:Ht; [|now apply stepped_ret].
  destruct (bool_state s b1) as [v1|] eqn:E1.
  - destruct (Bool.eqb_spec t (Bool.eqb v0 v1)) as [->|N].
    + split; [now apply good_refl|]. split; [apply keep_refl|]. intros j Hj. destruct i as [w|c|]; try contradiction.
      destruct Hj as [<-|[]]. split; [reflexivity|]. intros e' He'. cbn in He, Ht. rewrite He in He'. inversion He'; subst e'.
      intros sg F. rewrite <- Hp, (bool_state_sound s sg _ _ F E0), (bool_state_sound s sg _ _ F E1). congruence.
    + intros sg Hs. assert (T := target_truth other output s i _ t sg I (live_item _ _ _ He) Ht Hs).
      rewrite <- Hp, (bool_state_sound s sg _ _ (proj1 Hs) E0), (bool_state_sound s sg _ _ (proj1 Hs) E1) in T. congruence.
  - destruct b1 as [c1|y]; [now apply stepped_ret|]. cbn in E1.
    assert (Hy := Hin y eq_refl).
    assert (Hg : gone s (rd s y) = false) by (eapply unfixed_live; eauto).
    destruct (append_fix s (rd s y) (Bool.eqb v0 t) I E1 Hg) as (G & K & D).
    { intros sg Hs. assert (T := target_truth other output s i _ t sg I (live_item _ _ _ He) Ht Hs).
      rewrite <- Hp, (bool_state_sound s sg _ _ (proj1 Hs) E0) in T. cbn in T. destruct Hs as ([_ F] & _).
      rewrite <- F. rewrite <- T. destruct v0, (sg y); reflexivity. }
    split; [exact G|]. split; [exact K|]. intros j Hj. destruct i as [w|c|]; try contradiction.
    destruct Hj as [<-|[]]. split; [reflexivity|]. intros e' He'. cbn in He, Ht. inversion Ht; subst t.
    change (cons s c = Some e') in He'. rewrite He in He'. inversion He'; subst e'.
    intros sg F. assert (F0 : fixed s sg) by (eapply grow_fixed; [apply I|apply G|exact F]).
    rewrite <- Hp, (bool_state_sound s sg _ _ F0 E0). cbn. destruct F as [F1 _]. destruct F0 as [_ F0].
    rewrite (F0 y), (F1 _ _ D). destruct v0; reflexivity.
Qed.

Lemma set_rhs_dm s w r u : dm (set_rhs s w r) u = dm s u.
Proof. unfold dm. cbn. unfold upd. destruct (Nat.eqb_spec u w) as [->|]; reflexivity. Qed.
Lemma set_rhs_gone s w r u : gone (set_rhs s w r) u = gone s u.
Proof. unfold gone. cbn. unfold upd. destruct (Nat.eqb_spec u w) as [->|]; reflexivity. Qed.
Lemma set_rhs_rh s w r u : rh (set_rhs s w r) u = if u =? w then r else rh s u.
Proof. unfold rh. cbn. unfold upd. destruct (Nat.eqb_spec u w) as [->|]; reflexivity. Qed.

Lemma sbc_unit_ok s i e x neg :
  inv s -> noalias s -> item_expr s i = Some e -> is_bool_call e = true ->
  sbc_subsumed s e = false -> sbc_open s e = [(Ident x, neg)] ->
  stepped s i (sbc_unit output s i x neg).
Proof.
  intros I Na He Hb Hs Ho. unfold sbc_unit.
  assert (Hx := open_unfixed s e x neg). rewrite Ho in Hx. destruct (Hx (or_introl eq_refl) Hb) as [Hx1 Hx2]. clear Hx.
  assert (Hg : gone s (rd s x) = false) by (eapply unfixed_live; eauto using bool_call_call).
  destruct (target s i) as [t|] eqn:Ht.
  - destruct (append_fix s (rd s x) (Bool.eqb (negb neg) t) I Hx2 Hg) as (G & K & D).
    { intros sg Hsg. assert (T := target_truth other output s i _ t sg I (live_item _ _ _ He) Ht Hsg).
      rewrite (one_open other output s e x neg sg (proj1 Hsg) Hb Hs Ho) in T. destruct Hsg as ([_ F] & _).
      rewrite <- F. subst t. destruct neg, (sg x); reflexivity. }
    split; [exact G|]. split; [exact K|]. intros j [].
  - destruct i as [w|c|]; [|now apply stepped_ret..]. destruct neg; [now apply stepped_ret|].
    assert (Hgw : gone s w = false) by (cbn in He; destruct (gone s w); [discriminate|reflexivity]).
    assert (Hr : rh s w = Some e) by (cbn in He; now rewrite Hgw in He). cbn in Ht.
    assert (R := replace_okay output other s w e x I Hgw Hr).
    assert (O : okay s (match unify output (set_rhs s w None) w x with Some s' => Some (push_dep s' x) | None => None end)).
    { apply R.
      - intros b ->. discriminate.
      - intros sg F. now rewrite (one_open other output s e x false sg F Hb Hs Ho).
      - right. apply Na.
      - now left. }
    clear R. set (s1 := set_rhs s w None) in *.
    destruct (unify output s1 w x) as [s'|] eqn:EU; cbn [okay] in O; [|exact O].
    split; [exact O|]. split; [|intros j []].
    assert (Hk : keep s s').
    { assert (Rw : rd s1 w = w) by (apply (g_live output s); [apply I|assumption]).
      destruct (Nat.eq_dec (rd s1 w) (rd s1 x)) as [E|N].
      - unfold unify in EU. destruct (Nat.eqb_spec (rd s1 w) (rd s1 x)); [|contradiction]. inversion EU; subst s'.
        split; intros u Hu; unfold s1; rewrite ?set_rhs_gone, set_rhs_rh.
        + destruct (Nat.eqb_spec u w) as [->|N]; [congruence|auto].
        + now destruct (u =? w).
      - assert (Na1 : forall u, nonalias s1 u).
        { intros u z. unfold s1. rewrite set_rhs_rh. destruct (u =? w); [discriminate|apply Na]. }
        apply unify_shape in EU; [|assumption|apply Na1..].
        destruct EU as (_ & _ & _ & _ & Ug & _ & Uh & _). rewrite Rw in Ug, Uh. change (rd s1 x) with (rd s x) in *.
        split.
        + intros u Hu. assert (u <> w) by (intros ->; congruence). assert (u <> rd s x) by (intros ->; congruence).
          rewrite Ug, Uh. unfold s1. rewrite set_rhs_gone, !set_rhs_rh.
          destruct (output w); destruct (Nat.eqb_spec u w); destruct (Nat.eqb_spec u (rd s x)); try contradiction; auto.
        + intros u Hu. assert (u <> w) by (intros ->; congruence). rewrite Uh. unfold s1. rewrite !set_rhs_rh.
          destruct (output w); rewrite ?Nat.eqb_refl; destruct (Nat.eqb_spec u w); destruct (Nat.eqb_spec u (rd s x)); try contradiction; subst; auto.
          now destruct (rd s x =? w). }
    destruct (push_dep_spec s' x) as (q & -> & _). exact Hk.
Qed.

Lemma found_arg s e v : is_bool_call e = true -> found s e v = true ->
  exists x neg, In (Ident x, neg) (call_args e) /\ rd s x = rd s v.
Proof.
  intros Hb H. assert (H' : existsb (fun x => rd s x =? rd s v) (ids e) = true) by (destruct e; try discriminate; exact H).
  apply existsb_exists in H'. destruct H' as (x & Hx & E). apply Nat.eqb_eq in E.
  destruct (ids_call_args e x Hb Hx) as (neg & Hn). eauto.
Qed.

Lemma is_name_in v l : existsb (is_name v) l = true -> In (Ident v) l.
Proof.
  intros H. apply existsb_exists in H. destruct H as ([b|x] & H1 & H2); [discriminate|].
  apply Nat.eqb_eq in H2. now subst.
Qed.
Lemma clause_true_arg sg p n (t : bool) x : In (Ident x) (if t then p else n) -> sg x = t ->
  truth sg (EClause p n) = true.
Proof.
  intros H E. cbn. apply orb_true_iff. destruct t; [left|right]; apply existsb_exists; exists (Ident x);
    (split; [assumption|]); cbn; now rewrite E.
Qed.
Lemma sbc_clause_ok s i p n v t :
  inv s -> item_expr s i = Some (EClause p n) -> dm s (rd s v) = Some t -> found s (EClause p n) v = true ->
  stepped s i (sbc_clause s i p n v t).
Proof.
  intros I He Hv Hf.
  assert (Hn : existsb (is_name v) (if t then p else n) = true -> stepped s i (item_value s i true [])).
  { intros H. apply is_name_in in H. apply (item_value_ok s i _ true [] I He eq_refl); [|intros j []].
    intros sg F. apply (clause_true_arg sg p n t v H). now apply (fixed_value s sg v t F). }
  unfold sbc_clause. set (al := if t then p else n) in *. set (oth := if t then n else p).
  assert (Dflt : stepped s i (if existsb (is_name v) al then item_value s i true [] else ret s)).
  { destruct (existsb (is_name v) al); [auto|now apply stepped_ret]. }
  destruct i as [w|c|]; [exact Dflt| |exact Dflt].
  destruct al as [|a [|a2 al']] eqn:Eal; [exact Dflt| |exact Dflt].
  destruct oth as [|o [|o2 oth']] eqn:Eo; [exact Dflt| |exact Dflt].
  destruct (negb (is_name v a)) eqn:En; [|exact Dflt].
  cbn in He.
  assert (T : forall sg, truth sg (EClause p n) = Bool.eqb (value sg a) t || negb (Bool.eqb (value sg o) t)).
  { intros sg. unfold al, oth in Eal, Eo. destruct t; subst p n; cbn; rewrite ?orb_false_r;
      destruct (value sg a), (value sg o); reflexivity. }
  assert (Or : (exists x, a = Ident x /\ rd s x = rd s v) \/ (exists x, o = Ident x /\ rd s x = rd s v)).
  { cbn in Hf. apply existsb_exists in Hf. destruct Hf as (x & Hx & E). apply Nat.eqb_eq in E.
    apply in_app_or in Hx. unfold al, oth in Eal, Eo.
    assert (Hx' : In x (args_ids [a]) \/ In x (args_ids [o])) by (destruct t; subst p n; tauto).
    rewrite !in_args_ids in Hx'. destruct Hx' as [[->|[]]|[->|[]]]; eauto. }
  assert (Ov : forall sg, fixed s sg -> value sg a = t \/ value sg o = t).
  { intros sg F. destruct Or as [(x & -> & E)|(x & -> & E)]; [left|right]; cbn; apply (fixed_value s sg x t F); now rewrite E. }
  assert (Tr : det s (EClause p n) true -> stepped s (IC c) (Some (s, [IC c]))).
  { intros D. split; [now apply good_refl|]. split; [apply keep_refl|]. intros j [<-|[]]. split; [reflexivity|].
    intros e' He'. rewrite He in He'. inversion He'; now subst. }
  destruct a as [b|x].
  - destruct (Bool.eqb_spec b t) as [->|N].
    + apply Tr. intros sg F. rewrite T. cbn. now rewrite eqb_reflx.
    + intros sg (F & _ & S2). specialize (S2 c _ He). rewrite T in S2. destruct (Ov sg F) as [E|E]; [cbn in E; congruence|].
      rewrite E, eqb_reflx in S2. cbn in S2. rewrite orb_false_r in S2. apply eqb_prop in S2. congruence.
  - destruct (dm s (rd s x)) as [d|] eqn:Hd.
    + destruct (Bool.eqb_spec d t) as [->|N].
      * apply Tr. intros sg F. rewrite T. cbn. rewrite (fixed_value s sg x t F Hd). now rewrite eqb_reflx.
      * intros sg (F & _ & S2). specialize (S2 c _ He). rewrite T in S2. cbn in S2. assert (Ex := fixed_value s sg x d F Hd).
        destruct (Ov sg F) as [E|E]; [cbn in E; congruence|].
        rewrite E, Ex, eqb_reflx in S2. cbn in S2. rewrite orb_false_r in S2. apply eqb_prop in S2. congruence.
    + assert (Hx : In x (ids (EClause p n))).
      { cbn. unfold al, oth in Eal, Eo. apply in_or_app. destruct t; subst p n; cbn; auto. }
      assert (Hg : gone s (rd s x) = false) by (apply (unfixed_live s (IC c) (EClause p n) x I He eq_refl Hx Hd)).
      destruct (append_fix s (rd s x) t I Hd Hg) as (G & K & _).
      { intros sg (F & _ & S2). specialize (S2 c _ He). rewrite T in S2. cbn in S2.
        assert (Eo' : value sg o = t).
        { destruct Or as [(y & E1 & E2)|(y & -> & E2)].
          - inversion E1; subst y. congruence.
          - cbn. apply (fixed_value s sg y t F). now rewrite E2. }
        rewrite Eo', eqb_reflx in S2. cbn in S2. rewrite orb_false_r in S2. apply eqb_prop in S2.
        destruct F as [_ F]. now rewrite <- F. }
      split; [exact G|]. split; [exact K|]. intros j [].
Qed.

Lemma sbc_ok s i v t few :
  inv s -> noalias s -> dm s (rd s v) = Some t -> stepped s i (sbc output s i v t few).
Proof.
  intros I Na Hv. unfold sbc. destruct (item_expr s i) as [e|] eqn:He; [|now apply stepped_ret].
  destruct (found s e v) eqn:Hf; cbn [negb]; [|now apply stepped_ret].
  assert (Bc : is_bool_call e = true -> stepped s i
     (if t && match e with EExists _ => true | _ => false end then item_value s i true []
          else if negb t && conjunctive e then item_value s i false []
          else if few then
            if sbc_subsumed s e then item_value s i (negb (conjunctive e)) []
            else match sbc_open s e with
                 | [] => item_value s i (conjunctive e) [i]
                 | [(Ident x, neg)] => sbc_unit output s i x neg
                 | _ => ret s
                 end
          else match e with
               | EClause p n => sbc_clause s i p n v t
               | _ => ret s
               end)).
  { intros Hb. assert (Hc := bool_call_call e Hb). destruct (found_arg s e v Hb Hf) as (x & neg & Hx & Ex).
    assert (Fx : forall sg, fixed s sg -> sg x = t) by (intros sg F; apply (fixed_value s sg x t F); now rewrite Ex).
    destruct (t && match e with EExists _ => true | _ => false end) eqn:E1.
    { apply andb_true_iff in E1. destruct E1 as [-> E1]. destruct e; try discriminate.
      apply (item_value_ok s i _ true [] I He Hc); [|intros j []].
      intros sg F. cbn. apply existsb_exists. exists (Ident x). cbn in Hx. apply in_map_iff in Hx.
      destruct Hx as (a & Ha & Hx). inversion Ha; subst. cbn. auto. }
    destruct (negb t && conjunctive e) eqn:E2.
    { apply andb_true_iff in E2. destruct E2 as [E2 E3]. destruct t; [discriminate|]. destruct e; try discriminate.
      apply (item_value_ok s i _ false [] I He Hc); [|intros j []].
      intros sg F. cbn. apply Bool.not_true_iff_false. intros Z. rewrite forallb_forall in Z. cbn in Hx.
      apply in_map_iff in Hx. destruct Hx as (a & Ha & Hx). inversion Ha; subst. apply Z in Hx. cbn in Hx.
      rewrite (Fx sg F) in Hx. discriminate. }
    destruct few.
    - destruct (sbc_subsumed s e) eqn:Es.
      { apply (item_value_ok s i e); try assumption; [|intros j []]. now apply subsumed_det. }
      destruct (sbc_open s e) as [|[[b|y] ng] [|]] eqn:Eo; try now apply stepped_ret.
      + apply (item_value_ok s i e); try assumption; [|now intros j [<-|[]]]. now apply none_open_det.
      + eapply sbc_unit_ok; eauto.
    - destruct e; try now apply stepped_ret. now apply sbc_clause_ok. }
  destruct e as [b|x|l|l|p n|a b|f l]; try (apply Bc; reflexivity); try now apply stepped_ret.
  - split; [now apply good_refl|]. split; [apply keep_refl|]. intros j Hj. destruct i as [w|c|]; try contradiction.
    destruct b; [|contradiction]. destruct Hj as [<-|[]]. split; [reflexivity|]. intros e' He'. cbn in He.
    rewrite He in He'. inversion He'; subst. intros sg _. reflexivity.
  - destruct i as [w|c|]; [|now apply stepped_ret..]. cbn in He. destruct (gone s w); [discriminate|].
    now destruct (Na w x).
  - now apply sbc_eq_ok.
Qed.

(** ** The loop over the items of a variable *)
Definition uns_ok (s : state) (p : nat * item) : Prop := dm s (rd s (fst p)) <> None /\ In (snd p) (cq s).
Lemma uns_ok_grow s s' p : inv s -> inv s' -> grow s s' -> uns_ok s p -> uns_ok s' p.
Proof.
  intros I I' R [H1 H2]. split; [|now apply (gr_cq _ _ R)]. destruct (dm s (rd s (fst p))) eqn:E; [|congruence].
  assert (H := grow_dmr output s s' (fst p) b (proj1 I) (proj1 I') R E). congruence.
Qed.
Lemma sbc_items_ok s0 v t k l : forall s rem uns,
  inv s0 -> noalias s0 -> dm s0 (rd s0 v) = Some t ->
  (forall i, In i l -> forall j, stands s0 i j -> In j (cq s0)) ->
  good s0 s -> keep s0 s -> (forall i, In i rem -> redundant s i) -> (forall p, In p uns -> uns_ok s p) ->
  match sbc_items output s l v t k rem uns with
  | None => forall sg, ~ sat s0 sg
  | Some (s', rem', uns') => good s0 s' /\ (forall i, In i rem' -> redundant s' i) /\ (forall p, In p uns' -> uns_ok s' p)
  end.
Proof.
  induction l as [|i l IH]; intros s rem uns I0 Na0 Hv Hst Hg Hk Hrem Huns; cbn [sbc_items].
  - auto.
  - assert (Hst' : forall i, In i l -> forall j, stands s0 i j -> In j (cq s0)) by (intros; eapply Hst; eauto; now right).
    destruct (item_expr s i) as [e|] eqn:He; [|apply IH; assumption].
    assert (I : inv s) by apply Hg. assert (Na : noalias s) by (eapply noalias_grow; [exact Na0|apply Hg]).
    assert (Hvs : dm s (rd s v) = Some t) by (eapply grow_dmr; [apply I0|apply I|apply Hg|assumption]).
    assert (S := sbc_ok s i v t (snd (k i)) I Na Hvs).
    destruct (sbc output s i v t (snd (k i))) as [[s1 r]|]; cbn [stepped] in S.
    + destruct S as (G1 & K1 & R1). apply IH; try assumption.
      * eapply good_trans; eauto.
      * eapply keep_trans; eauto. apply Hg.
      * intros j Hj. apply in_app_or in Hj. destruct Hj as [Hj|Hj]; [|now apply R1].
        eapply redundant_keep; eauto.
      * intros p Hp. apply in_app_or in Hp. destruct Hp as [Hp|Hp].
        -- eapply uns_ok_grow; [exact I|apply G1|apply G1|auto].
        -- eapply (uns_ok_grow s); [exact I|apply G1|apply G1|]. unfold unsubscribed in Hp. rewrite He in Hp.
           destruct (is_bool_call e && found s e v && fst (k i) && _ && _); [|contradiction].
           apply in_map_iff in Hp. destruct Hp as (x & <- & Hx). apply filter_In in Hx. split; cbn.
           ++ destruct Hx as [_ Hx]. now destruct (dm s (rd s x)).
           ++ apply (gr_cq _ _ (proj2 (proj2 Hg))). apply (Hst i (or_introl eq_refl)).
              destruct i as [w|c|]; cbn in He |- *.
              ** destruct (gone s w) eqn:Gw; [discriminate|].
                 assert (Gw0 : gone s0 w = false).
                 { destruct (gone s0 w) eqn:Z; [|reflexivity]. apply (gr_gone _ _ (proj2 (proj2 Hg))) in Z. congruence. }
                 rewrite (g_live output s0 (proj1 I0) w Gw0). split; [reflexivity|]. split; [assumption|].
                 intros Z. apply Hk in Z. congruence.
              ** split; [reflexivity|]. apply (gr_cons _ _ (proj2 (proj2 Hg))) in He. congruence.
              ** discriminate.
    + intros sg Hs. apply (S sg). now apply Hg.
Qed.

Lemma unsubscribe_good s p : inv s -> uns_ok s p -> good s (unsubscribe1 s p).
Proof.
  intros I [H1 H2]. destruct p as [x i]. cbn [fst snd] in *. unfold unsubscribe1. cbn [fst snd].
  destruct I as (G & [B1 B2] & C).
  split; [|split; [intros sg; reflexivity|]].
  - split; [|split; [|destruct C; split; assumption]].
    + apply (G1_same output s); auto.
    + split; intros j e z Hj Hz.
      * destruct (B1 j e z Hj Hz) as [H|H]; [|right; exact H]. cbn. unfold upd.
        destruct (Nat.eqb_spec (rd s z) x) as [E|N]; [|now left].
        destruct (item_eq_dec j i) as [->|Nj].
        -- right. split; [|left; exact H2]. change (dm s (rd s z) <> None). rewrite <- E, (g_idem _ _ G) in H1. exact H1.
        -- left. apply in_remove_iff. rewrite <- E. auto.
      * exact (B2 j e z Hj Hz).
  - split; auto; cbn; apply incl_refl.
Qed.
Lemma fold_unsubscribe l : forall s, inv s -> (forall p, In p l -> uns_ok s p) ->
  good s (fold_left unsubscribe1 l s) /\
  (forall i, redundant s i -> redundant (fold_left unsubscribe1 l s) i).
Proof.
  induction l as [|p l IH]; intros s I H; cbn [fold_left]; [split; [now apply good_refl|auto]|].
  assert (G := unsubscribe_good s p I (H p (or_introl eq_refl))).
  destruct (IH (unsubscribe1 s p)) as [G' R'].
  - apply G.
  - intros q Hq. apply (H q (or_intror Hq)).
  - split; [eapply good_trans; eauto|]. intros i Hi. apply R'. exact Hi.
Qed.
Lemma remove_good s i : inv s -> redundant s i ->
  good s (remove1 s i) /\ (forall j, redundant s j -> redundant (remove1 s i) j).
Proof.
  intros I H. unfold remove1. destruct (raw_expr s i) as [e|] eqn:He.
  - destruct (collect_decls_less s i e) as (o & -> & Ho). destruct i as [w|c|]; cbn in He.
    + destruct H as (Hg & b & Hd & Hr). destruct (Hr e He) as [Hc D].
      assert (G := drop_rhs_good other output s w e b o I He Hc D Hg Hd Ho). split; [exact G|].
      intros j Hj. destruct j as [u|k|]; cbn in *.
      * destruct Hj as (J1 & b' & J2 & J3). change (gone (set_rhs s w None) u = false /\ exists b, dm (set_rhs s w None) u = Some b /\
           forall e, rh (set_rhs s w None) u = Some e -> is_call e = true /\ det (set_rhs (with_occ s o) w None) e b).
        rewrite set_rhs_gone, set_rhs_dm, set_rhs_rh. split; [assumption|]. exists b'. split; [assumption|].
        intros e' He'. destruct (u =? w); [discriminate|]. destruct (J3 e' He') as [J4 J5]. split; [assumption|].
        eapply grow_det; [apply I|apply G|exact J5].
      * intros e' He'. eapply grow_det; [apply I|apply G|]. auto.
      * exact Hj.
    + assert (G := drop_con_good other output s c e o I He (H e He) Ho). split; [exact G|].
      intros j Hj. destruct j as [u|k|]; cbn [redundant] in *.
      * destruct Hj as (J1 & b' & J2 & J3). split; [assumption|]. exists b'. split; [assumption|].
        intros e' He'. destruct (J3 e' He') as [J4 J5]. split; [assumption|]. eapply grow_det; [apply I|apply G|exact J5].
      * intros e' He'. eapply grow_det; [apply I|apply G|]. apply Hj. now apply (gr_cons _ _ (proj2 (proj2 G))).
      * exact Hj.
    + discriminate.
  - split; [now apply good_refl|auto].
Qed.
Lemma fold_remove l : forall s, inv s -> (forall i, In i l -> redundant s i) -> good s (fold_left remove1 l s).
Proof.
  induction l as [|i l IH]; intros s I H; cbn [fold_left]; [now apply good_refl|].
  destruct (remove_good s i I (H i (or_introl eq_refl))) as [G R]. eapply good_trans; [exact G|].
  apply IH; [apply G|]. intros j Hj. apply R. apply H. now right.
Qed.

(** ** Propagation into the right hand side *)
Lemma fix_args_okay b l : forall s,
  inv s -> (forall x, In (Ident x) l -> dm s (rd s x) = None -> gone s (rd s x) = false) ->
  (forall sg x, sat s sg -> In (Ident x) l -> sg x = b) ->
  okay s (fix_args s l b).
Proof.
  induction l as [|[c|x] l IH]; intros s I Hl Hs; cbn [fix_args].
  - now apply good_refl.
  - apply IH; [assumption| |]; intros; [apply Hl|eapply Hs]; eauto; now right.
  - assert (Hs' : forall sg, sat s sg -> sg (rd s x) = b).
    { intros sg H. assert (E := Hs sg x H (or_introl eq_refl)). destruct H as ([_ F] & _). now rewrite <- F. }
    destruct (dm s (rd s x)) as [d|] eqn:Hd.
    + destruct (Bool.eqb_spec d b) as [->|N].
      * apply IH; [assumption| |]; intros; [apply Hl|eapply Hs]; eauto; now right.
      * intros sg H. apply N. rewrite <- (Hs' sg H). destruct H as ([F _] & _). symmetry. now apply F.
    + destruct (fix_var s (rd s x) b I Hd (Hl x (or_introl eq_refl) Hd) Hs') as (G & K & D).
      assert (G2 := push_var_good other output _ (rd s x) (good_inv _ _ _ _ G)).
      assert (G3 := good_trans _ _ _ _ _ G G2).
      eapply good_okay; [exact G3|]. apply IH.
      * apply G3.
      * intros y Hy Hdy. destruct (push_var_spec (set_dom s (rd s x) b) (rd s x)) as (q & Eq & _). rewrite Eq in Hdy |- *.
        change (dm (set_dom s (rd s x) b) (rd s y) = None) in Hdy. change (gone (set_dom s (rd s x) b) (rd s y) = false).
        assert (Hyd : dm s (rd s y) = None).
        { destruct (dm s (rd s y)) eqn:Z; [|reflexivity]. apply (gr_dm _ _ (proj2 (proj2 G))) in Z. congruence. }
        assert (Hgy := Hl y (or_intror Hy) Hyd). unfold gone in *. cbn. unfold upd. destruct (Nat.eqb_spec (rd s y) (rd s x)) as [E|N]; [|exact Hgy].
        cbn. now rewrite <- E.
      * intros sg y H Hy. apply (Hs sg y); [now apply G3|now right].
Qed.

Lemma propagate_okay s v t :
  inv s -> noalias s -> dm s v = Some t -> okay s (propagate_rhs s v t).
Proof.
  intros I Na Hd. unfold propagate_rhs. assert (Hself : okay s (Some s)) by now apply good_refl.
  destruct (rh s v) as [e|] eqn:Hr; [|exact Hself].
  destruct (gone s v) eqn:Hg.
  { destruct I as (_ & _ & C). destruct (g_gone _ _ C v e Hg Hr) as [_ [(b & ->)|(x & b & [->| ->] & _)]]; exact Hself. }
  assert (He : item_expr s (IV v) = Some e) by (cbn; now rewrite Hg).
  assert (Ht : forall sg, sat s sg -> truth sg e = t).
  { intros sg (F & S1 & _). rewrite <- (S1 v e Hg Hr). now apply F. }
  assert (Hl : is_bool_call e = true -> forall x, In x (ids e) -> dm s (rd s x) = None -> gone s (rd s x) = false).
  { intros Hb x Hx. apply (unfixed_live s (IV v) e x I He (bool_call_call e Hb) Hx). }
  destruct e as [b|x|l|l|p n|a b|f l]; try exact Hself.
  - now destruct (Na v x).
  - destruct t; [|exact Hself]. apply fix_args_okay; [assumption| |].
    + intros x Hx. apply Hl; [reflexivity|]. now apply in_args_ids.
    + intros sg x Hs Hx. apply Ht in Hs. cbn in Hs. rewrite forallb_forall in Hs. exact (Hs _ Hx).
  - destruct t; [exact Hself|]. apply fix_args_okay; [assumption| |].
    + intros x Hx. apply Hl; [reflexivity|]. now apply in_args_ids.
    + intros sg x Hs Hx. apply Ht in Hs. cbn in Hs. destruct (sg x) eqn:E; [|reflexivity].
      assert (existsb (value sg) l = true) by (apply existsb_exists; exists (Ident x); auto). congruence.
  - destruct t; [exact Hself|].
    assert (Hpn : forall sg x, sat s sg -> (In (Ident x) p -> sg x = false) /\ (In (Ident x) n -> sg x = true)).
    { intros sg x Hs. apply Ht in Hs. split; intros Hx; destruct (sg x) eqn:E; try reflexivity; exfalso;
        rewrite (clause_true_arg sg p n (sg x) x) in Hs; try discriminate; rewrite ?E; auto. }
    apply okay_bind.
    + apply fix_args_okay; [assumption| |].
      * intros x Hx. apply Hl; [reflexivity|]. cbn. apply in_or_app. left. now apply in_args_ids.
      * intros sg x Hs Hx. now apply (Hpn sg x Hs).
    + intros s' Es' G. apply fix_args_okay; [apply G| |].
      * intros x Hx Hdx. apply (unfixed_live s' (IV v) (EClause p n) x); try reflexivity; try apply G; try assumption.
        -- assert (K : gone s' v = gone s v /\ rh s' v = rh s v).
           { clear - Es'. revert s Es'. induction p as [|[c|y] p IH]; intros s Es'; cbn in Es'.
             - inversion Es'; auto.
             - auto.
             - destruct (dm s (rd s y)) as [d|].
               + destruct (Bool.eqb d false); [auto|discriminate].
               + apply IH in Es'. destruct (push_var_spec (set_dom s (rd s y) false) (rd s y)) as (q & Eq & _). rewrite Eq in Es'.
                 destruct Es' as [-> ->]. unfold gone, rh. cbn. unfold upd. destruct (Nat.eqb_spec v (rd s y)); subst; auto. }
           destruct K as [K1 K2]. cbn [item_expr]. now rewrite K1, Hg, K2.
        -- cbn. apply in_or_app. right. now apply in_args_ids.
      * intros sg x Hs Hx. apply (Hpn sg x); [now apply G|assumption].
Qed.

Definition var_done (s : state) (v : nat) (r : option state) : Prop :=
  match r with
  | None => forall sg, ~ sat s sg
  | Some s' => inv s' /\ (forall sg, sat s sg <-> sat s' sg) /\
      (dm s v = None /\ s' = pop_var s v \/
       exists s1, good (pop_var s v) s1 /\ good (push_dep s1 v) s')
  end.
Lemma process_var_okay s v k again :
  inv s -> noalias s -> var_done s v (process_var output s v k again).
Proof.
  intros I Na. unfold process_var, var_done. assert (Sp : forall sg, sat s sg <-> sat (pop_var s v) sg) by reflexivity.
  change (dm s v) with (dm (pop_var s v) v). set (s0 := pop_var s v) in *.
  assert (I0 : inv s0).
  { destruct I as (G & [B1 B2] & C). split; [|split; [split; [exact B1|exact B2]|destruct C; split; assumption]].
    apply (G1_same output s); auto. }
  assert (Na0 : noalias s0) by exact Na.
  clearbody s0. destruct (dm s0 v) as [t|] eqn:Hd; [|auto].
  assert (P := propagate_okay s0 v t I0 Na0 Hd).
  destruct (propagate_rhs s0 v t) as [s1|]; cbn [okay] in P; [|intros sg H; apply (P sg); now apply Sp].
  rename P into G1.
  assert (I1 : inv s1) by apply G1.
  assert (Na1 : noalias s1) by (eapply noalias_grow; [exact Na0|apply G1]).
  assert (G2 := push_dep_good other output s1 v I1).
  assert (Na2 : noalias (push_dep s1 v)) by (eapply noalias_grow; [exact Na1|apply G2]).
  assert (Hq : forall i, In i (occ (push_dep s1 v) (rd (push_dep s1 v) v)) -> forall j, stands (push_dep s1 v) i j -> In j (cq (push_dep s1 v))).
  { destruct (push_dep_spec s1 v) as (q & -> & Iq & Hq). intros i Hi j Hj. exact (Hq i j Hi Hj). }
  set (s2 := push_dep s1 v) in *.
  assert (I2 : inv s2) by apply G2.
  assert (Hv : dm s2 (rd s2 v) = Some t).
  { apply (g_dom _ _ (proj1 I2)). apply (gr_dm _ _ (proj2 (proj2 G2))). now apply (gr_dm _ _ (proj2 (proj2 G1))). }
  assert (S := sbc_items_ok s2 v t k (occ s2 (rd s2 v)) s2 [] [] I2 Na2 Hv).
  assert (S' := S Hq (good_refl _ _ _ I2) (keep_refl _) (fun i => False_ind _) (fun p => False_ind _)).
  clear S. assert (Fin : okay s2 (match sbc_items output s2 (occ s2 (rd s2 v)) v t k [] [] with
          | None => None
          | Some (s, rem, uns) =>
              let s := fold_left unsubscribe1 uns s in
              let s := fold_left remove1 (rev rem) s in
              if again then simplify_con output s (IV v) else Some s
          end)).
  { destruct (sbc_items output s2 (occ s2 (rd s2 v)) v t k [] []) as [[[s3 rem] uns]|]; [|exact S'].
    destruct S' as (G3 & R3 & U3). eapply good_okay; [exact G3|].
    destruct (fold_unsubscribe uns s3 (good_inv _ _ _ _ G3) U3) as [G4 R4].
    eapply good_okay; [exact G4|].
    assert (G5 : good (fold_left unsubscribe1 uns s3) (fold_left remove1 (rev rem) (fold_left unsubscribe1 uns s3))).
    { apply fold_remove; [apply G4|]. intros i Hi. apply R4, R3. now apply in_rev. }
    eapply good_okay; [exact G5|]. destruct again; [|apply good_refl; apply G5].
    apply simplify_okay; [apply G5|]. change (noalias (fold_left remove1 (rev rem) (fold_left unsubscribe1 uns s3))).
    eapply noalias_grow; [|apply G5]. eapply noalias_grow; [|apply G4]. eapply noalias_grow; [|apply G3]. exact Na2. }
  cbv zeta in Fin |- *. clear S'.
  destruct (match sbc_items output s2 (occ s2 (rd s2 v)) v t k [] [] with Some _ => _ | None => None end) as [s'|]; cbn [okay] in Fin.
  - split; [apply Fin|]. split; [|right; exists s1; auto].
    intros sg. rewrite Sp, (proj1 (proj2 G1)), (proj1 (proj2 G2)). apply Fin.
  - intros sg H. apply (Fin sg). apply G2, G1, Sp, H.
Qed.
End Step.
