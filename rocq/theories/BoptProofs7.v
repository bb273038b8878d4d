(** Proofs for BoptModel, part 7: phases 1 and 2, and the whole optimiser. *)
From Coq Require Import List Bool Arith Lia.
From Verif Require Import BoptModel BoptSpec BoptProofs1 BoptProofs2 BoptProofs3 BoptProofs4 BoptProofs5 BoptProofs6.
Import ListNotations.

Section Whole.
Variable other : nat -> list bool -> bool.
Variable output : nat -> bool.
Notation truth := (truth other).
Notation inv := (inv other output).
Notation sat := (sat other).
Notation det := (det other).
Notation good := (good other output).
Notation okay := (okay other output).

(** ** Phase 1: which names lead where *)
Record K1 (s0 s : state) (rest : list item) : Prop := {
  k_alias : forall v z, rh s v = Some (EId z) ->
    In (IV v) rest /\ rh s0 v = Some (EId z) /\ forall u, rd s u = v -> u = v;
  k_live : forall x, gone s0 x = false -> gone s (rd s x) = false;
  k_eq : forall u, equated s0 u -> equated s0 (rd s u);
  k_neq : forall u, ~ equated s0 u -> rd s u = u /\ gone s u = gone s0 u
}.
Lemma K1_same s0 s s' rest rest' :
  K1 s0 s rest -> (forall u, rd s' u = rd s u) -> (forall u, gone s' u = gone s u) ->
  (forall v z, rh s' v = Some (EId z) -> rh s v = Some (EId z) /\ (In (IV v) rest -> In (IV v) rest')) -> K1 s0 s' rest'.
Proof.
  intros [A B C D] Hr Hg Ha. split.
  - intros v z H. destruct (Ha v z H) as [H1 H2]. destruct (A v z H1) as (H3 & H4 & H5). split; [auto|]. split; [assumption|].
    intros u. rewrite Hr. apply H5.
  - intros x. rewrite Hr, Hg. apply B.
  - intros u. rewrite Hr. apply C.
  - intros u. rewrite Hr, Hg. apply D.
Qed.
Lemma unify_keeps s0 s x y s1 rest :
  K1 s0 s rest -> equated s0 x -> equated s0 y ->
  nonalias s (rd s x) -> nonalias s (rd s y) -> gone s (rd s x) = false -> gone s (rd s y) = false ->
  unify output s x y = Some s1 ->
  K1 s0 s1 rest /\ cons s1 = cons s /\ forall u, ~ equated s0 u -> dm s1 u = dm s u.
Proof.
  intros K Hx Hy Nx Ny Gx Gy U. destruct (Nat.eq_dec (rd s x) (rd s y)) as [E|N].
  - unfold unify in U. rewrite (proj2 (Nat.eqb_eq _ _) E) in U. inversion U; subst. auto.
  - assert (Sh := unify_shape output s x y s1). cbv zeta in Sh.
    set (v0 := if output (rd s x) then rd s y else rd s x) in *. set (v1 := if output (rd s x) then rd s x else rd s y) in *.
    assert (N0 : nonalias s v0) by (unfold v0; destruct (output (rd s x)); assumption).
    assert (N1 : nonalias s v1) by (unfold v1; destruct (output (rd s x)); assumption).
    destruct (Sh N N0 N1 U) as (Co & _ & _ & Rd & Go & Dm & Rh & _). clear Sh.
    assert (E0 : equated s0 v0) by (unfold v0; destruct (output (rd s x)); now apply (k_eq _ _ _ K)).
    assert (E1 : equated s0 v1) by (unfold v1; destruct (output (rd s x)); now apply (k_eq _ _ _ K)).
    assert (L1 : gone s v1 = false) by (unfold v1; destruct (output (rd s x)); assumption).
    assert (D : v0 <> v1) by (unfold v0, v1; destruct (output (rd s x)); congruence).
    clearbody v0 v1. split; [split|split; [assumption|]].
    + intros v z H. rewrite Rh in H. destruct (Nat.eqb_spec v v0) as [->|M0]; [discriminate|].
      destruct (Nat.eqb_spec v v1) as [->|M1].
      * exfalso. destruct (rh s v0) eqn:Z; [inversion H; subst; now apply (N0 z)|now apply (N1 z)].
      * destruct (k_alias _ _ _ K v z H) as (H1 & H2 & H3). split; [assumption|]. split; [assumption|].
        intros u. rewrite Rd. destruct (rd s u =? v0); [congruence|apply H3].
    + intros u H. apply (k_live _ _ _ K) in H. rewrite Rd, Go. destruct (Nat.eqb_spec (rd s u) v0) as [E|M].
      * destruct (Nat.eqb_spec v1 v0); [congruence|assumption].
      * destruct (Nat.eqb_spec (rd s u) v0); [contradiction|assumption].
    + intros u H. rewrite Rd. destruct (rd s u =? v0); [assumption|]. now apply (k_eq _ _ _ K).
    + intros u H. destruct (k_neq _ _ _ K u H) as [H1 H2]. rewrite Rd, Go, H1.
      destruct (Nat.eqb_spec u v0) as [->|M]; [contradiction|]. auto.
    + intros u H. rewrite Dm. destruct (Nat.eqb_spec u v1) as [->|M]; [contradiction|reflexivity].
Qed.

(** *** The invariant of phase 1 *)
Definition conj_arg (s0 s : state) (asg : list nat) (a : arg) : Prop :=
  a = Lit true \/ exists x, a = Ident x /\ ~ equated s0 x /\ gone s0 x = false /\
    (dm s x = Some true \/ dm s x = None /\ In x asg).
Record P1 (s0 : state) (p : p1state) (rest : list item) : Prop := {
  p_inv : inv (st p);
  p_sat : forall sg, sat s0 sg <-> sat (st p) sg;
  p_grow : grow s0 (st p);
  p_k1 : K1 s0 (st p) rest;
  p_rem : forall c, In c (to_remove p) ->
    (exists x, cons s0 c = Some (EId x) /\ dm (st p) (rd (st p) x) = Some true) \/
    exists l, cons s0 c = Some (EForall l) /\ forall a, In a l -> conj_arg s0 (st p) (to_assign p) a;
  p_id : forall c x, cons (st p) c = Some (EId x) -> In (IC c) rest \/ In c (to_remove p);
  p_asg : forall x, In x (to_assign p) -> (forall sg, sat s0 sg -> sg x = true)
}.
(** The state changes, the lists of constraints do not *)
Lemma P1_change s0 p s' bs rest i :
  P1 s0 p (i :: rest) -> good (st p) s' -> K1 s0 s' rest ->
  (forall u, ~ equated s0 u -> dm s' u = dm (st p) u) ->
  (forall c x, i = IC c -> cons s' c <> Some (EId x)) ->
  P1 s0 (mkP1 s' (to_assign p) (to_remove p) bs) rest.
Proof.
  intros [A B C D E F H] (I & S & R) K Dn Nid. split; cbn [st to_assign to_remove]; try assumption.
  - intros sg. rewrite B. apply S.
  - eapply grow_trans; eauto.
  - intros c Hc. destruct (E c Hc) as [(x & E1 & E2)|(l & E1 & E2)]; [left|right].
    + exists x. split; [assumption|]. eapply grow_dmr; eauto; [apply A|apply I].
    + exists l. split; [assumption|]. intros a Ha. destruct (E2 a Ha) as [->|(x & -> & H1 & H2 & H3)]; [now left|right].
      exists x. split; [reflexivity|]. split; [assumption|]. split; [assumption|]. now rewrite Dn.
  - intros c x Hc. destruct (F c x (gr_cons _ _ R c _ Hc)) as [[Hi|Hi]|Hi]; auto.
    exfalso. now apply (Nid c x).
Qed.

Section Input.
Variable s0 : state.
Variable order : list item.
Hypothesis Hin : input output s0 order.
Hypothesis Hreg : regular s0.

Lemma input_inv : inv s0.
Proof.
  destruct Hin as [A B [C1 C2] D E F1 F2 G L M]. split; [split|split; [split|split]].
  - intros x. now rewrite !A.
  - intros v _. apply A.
  - intros v b. now rewrite A.
  - intros v H _. auto.
  - intros v w. rewrite B. discriminate.
  - intros v. now rewrite A.
  - intros v sg H F. apply shown_var; auto.
  - intros j e x [Hj _] Hx. rewrite A. left. now apply (G j e x Hj).
  - intros j e x [Hj _] Hx. rewrite A. left. now apply (G j e x Hj).
  - exact L.
  - intros v _. apply M.
  - intros v e Hg He. destruct (E v Hg). congruence.
  - intros v Hg _ Hd. destruct (E v Hg). congruence.
Qed.
Lemma input_prints om : prints other output s0 om <-> possible other output s0 om.
Proof.
  apply prints_possible; [apply input_inv|]. intros j e x Hj Hx. left. rewrite (in_names _ _ _ Hin).
  now apply (in_occ _ _ _ Hin j e x Hj).
Qed.
Lemma input_P1 : P1 s0 (mkP1 s0 [] [] []) order.
Proof.
  split; cbn [st to_assign to_remove].
  - apply input_inv.
  - reflexivity.
  - apply grow_refl.
  - split.
    + intros v z H. split; [|split; [assumption|]].
      * apply (in_order_v _ _ _ Hin). destruct (gone s0 v) eqn:Z; [|reflexivity]. destruct (in_none _ _ _ Hin v Z). congruence.
      * intros u. now rewrite (in_names _ _ _ Hin).
    + intros x. now rewrite (in_names _ _ _ Hin).
    + intros u. now rewrite (in_names _ _ _ Hin).
    + intros u _. now rewrite (in_names _ _ _ Hin).
  - intros c [].
  - intros c x H. left. apply (in_order_c _ _ _ Hin). congruence.
  - intros x [].
Qed.

Lemma conjuncts_spec s l : forall acc,
  match conjuncts s l acc with
  | None => exists x, In (Ident x) l /\ dm s (rd s x) = Some false
  | Some a => (forall v, In v acc -> In v a) /\
      (forall v, In v a -> In v acc \/ exists x, In (Ident x) l /\ rd s x = v) /\
      (forall x, In (Ident x) l -> dm s (rd s x) = Some true \/ dm s (rd s x) = None /\ In (rd s x) a)
  end.
Proof.
  induction l as [|a l IH]; intros acc; cbn [conjuncts].
  - split; [auto|]. split; [auto|]. intros x [].
  - destruct a as [b|x].
    + specialize (IH acc). destruct (conjuncts s l acc) as [a|].
      * destruct IH as (H1 & H2 & H3). split; [assumption|]. split.
        -- intros v Hv. destruct (H2 v Hv) as [K|(x & K & K')]; [now left|right]. exists x. split; [now right|assumption].
        -- intros x [K|K]; [discriminate|auto].
      * destruct IH as (x & H1 & H2). exists x. split; [now right|assumption].
    + destruct (dm s (rd s x)) as [[|]|] eqn:Hd.
      * specialize (IH acc). destruct (conjuncts s l acc) as [a|].
        -- destruct IH as (H1 & H2 & H3). split; [assumption|]. split.
           ++ intros v Hv. destruct (H2 v Hv) as [K|(z & K & K')]; [now left|right]. exists z. split; [now right|assumption].
           ++ intros z [K|K]; [inversion K; subst; now left|auto].
        -- destruct IH as (z & H1 & H2). exists z. split; [now right|assumption].
      * exists x. split; [now left|assumption].
      * specialize (IH (acc ++ [rd s x])). destruct (conjuncts s l (acc ++ [rd s x])) as [a|].
        -- destruct IH as (H1 & H2 & H3). split; [intros v Hv; apply H1; apply in_or_app; now left|]. split.
           ++ intros v Hv. destruct (H2 v Hv) as [K|(z & K & K')].
              ** apply in_app_or in K. destruct K as [K|[K|[]]]; [now left|right]. exists x. split; [now left|assumption].
              ** right. exists z. split; [now right|assumption].
           ++ intros z [K|K]; [|auto]. inversion K; subst z. right. split; [assumption|]. apply H1. apply in_or_app. right. now left.
        -- destruct IH as (z & H1 & H2). exists z. split; [now right|assumption].
Qed.

Definition p1_done (p : p1state) (rest : list item) (r : option p1state) : Prop :=
  match r with
  | None => forall sg, ~ sat s0 sg
  | Some p' => P1 s0 p' rest
  end.
Lemma names_live p rest c e x : P1 s0 p rest -> cons (st p) c = Some e -> In x (ids e) ->
  cons s0 c = Some e /\ gone s0 x = false /\ gone (st p) (rd (st p) x) = false.
Proof.
  intros P Hc Hx. assert (H := gr_cons _ _ (p_grow _ _ _ P) c e Hc). split; [assumption|].
  assert (L : gone s0 x = false) by now apply (in_occ _ _ _ Hin (IC c) e x H). split; [assumption|].
  now apply (k_live _ _ _ (p_k1 _ _ _ P)).
Qed.
Lemma P1_same p i rest : P1 s0 p (i :: rest) -> (forall c x, i = IC c -> cons (st p) c <> Some (EId x)) ->
  (forall v z, i = IV v -> rh (st p) v <> Some (EId z)) -> forall bs, P1 s0 (mkP1 (st p) (to_assign p) (to_remove p) bs) rest.
Proof.
  intros P N1 N2 bs. apply (P1_change s0 p (st p) bs rest i P); auto.
  - apply good_refl. apply P.
  - apply (K1_same s0 (st p) _ (i :: rest)); auto; [apply P|]. intros v z H. split; [assumption|].
    intros [->|K]; [|assumption]. now destruct (N2 v z eq_refl).
Qed.
Lemma mkP1_eta p : p = mkP1 (st p) (to_assign p) (to_remove p) (bools p).
Proof. now destruct p. Qed.

Lemma phase1_con_ok p c rest : P1 s0 p (IC c :: rest) -> p1_done p rest (phase1_con output p c).
Proof.
  intros P. unfold phase1_con.
  assert (Na : forall v z, IC c = IV v -> rh (st p) v <> Some (EId z)) by discriminate.
  assert (Same : (forall x, cons (st p) c <> Some (EId x)) -> forall bs, p1_done p rest (Some (mkP1 (st p) (to_assign p) (to_remove p) bs))).
  { intros H bs. cbn. apply (P1_same p (IC c)); auto. intros k x E. inversion E; subst. apply H. }
  assert (Same' : (forall x, cons (st p) c <> Some (EId x)) -> p1_done p rest (Some p)).
  { intros H. rewrite (mkP1_eta p) at 2. now apply Same. }
  assert (Push : forall x, (forall z, cons (st p) c <> Some (EId z)) ->
     p1_done p rest (Some (mkP1 (push_dep (push_var (st p) (rd (st p) x)) x) (to_assign p) (to_remove p) (bools p)))).
  { intros x H. destruct (push_both_pushes (st p) (rd (st p) x) x) as (v & q & Es & Hv & Hq & _).
    cbn. apply (P1_change s0 p _ _ rest (IC c) P).
    - rewrite Es. apply queues_good; [apply P|assumption..].
    - rewrite Es. apply (K1_same s0 (st p) _ (IC c :: rest)); auto; [apply P|]. intros w z K. split; [exact K|].
      intros [D|D]; [discriminate|assumption].
    - rewrite Es. reflexivity.
    - intros k z E. inversion E; subst k. rewrite Es. apply H. }
  destruct (cons (st p) c) as [e|] eqn:Hc; [|now apply Same'].
  destruct e as [b|x|l|l|pp nn|a b|f l]; try (apply Same'; congruence); try (apply Same; congruence).
  - (* a name *)
    destruct (names_live p _ c (EId x) x P Hc (or_introl eq_refl)) as (H0 & _).
    assert (Hd := reg_id _ Hreg c x H0). destruct (dm s0 x) as [d|] eqn:Hd0; [clear Hd|congruence].
    assert (Hd' : dm (st p) (rd (st p) x) = Some d).
    { apply (gr_dm _ _ (p_grow _ _ _ P)) in Hd0. now apply (g_dom _ _ (proj1 (p_inv _ _ _ P))). }
    rewrite Hd'. destruct d.
    2:{ intros sg Hs. apply (p_sat _ _ _ P) in Hs. destruct Hs as (F & _ & S2).
        apply S2 in Hc. cbn in Hc.
        rewrite (fixed_value _ _ _ _ F Hd') in Hc. discriminate. }
    cbn. destruct P as [A B C D E F H]. split; cbn [st to_assign to_remove]; try assumption.
    + apply (K1_same s0 (st p) _ (IC c :: rest)); auto. intros v z K. split; [exact K|]. intros [Z|Z]; [discriminate|assumption].
    + intros k Hk. apply in_app_or in Hk. destruct Hk as [Hk|[<-|[]]]; [auto|]. left. eauto.
    + intros k z Hk. destruct (F k z Hk) as [[Z|Z]|Z]; [inversion Z; subst k| |]; rewrite in_app_iff; cbn; auto.
  - (* a conjunction *)
    assert (Sp := conjuncts_spec (st p) (rev l) []). destruct (conjuncts (st p) (rev l) []) as [asg|].
    2:{ destruct Sp as (x & H1 & H2). intros sg Hs. apply (p_sat _ _ _ P) in Hs. destruct Hs as (F & _ & S2).
        apply S2 in Hc. cbn in Hc. rewrite forallb_forall in Hc. apply in_rev in H1. specialize (Hc _ H1). cbn in Hc.
        rewrite (fixed_value _ _ _ _ F H2) in Hc. discriminate. }
    destruct Sp as (_ & Sp1 & Sp2).
    assert (H0 := gr_cons _ _ (p_grow _ _ _ P) c _ Hc).
    assert (Ne : forall x, In (Ident x) l -> ~ equated s0 x /\ gone s0 x = false /\ rd (st p) x = x).
    { intros x Hx. assert (N : ~ equated s0 x) by (apply (reg_conj _ Hreg); exists c, l; auto).
      split; [assumption|]. split.
      - apply (in_occ _ _ _ Hin (IC c) (EForall l) x H0). now apply in_args_ids.
      - now apply (k_neq _ _ _ (p_k1 _ _ _ P)). }
    cbn. destruct P as [A B C D E F H]. split; cbn [st to_assign to_remove]; try assumption.
    + apply (K1_same s0 (st p) _ (IC c :: rest)); auto. intros v z K. split; [exact K|]. intros [Z|Z]; [discriminate|assumption].
    + intros k Hk. apply in_app_or in Hk. destruct Hk as [Hk|[<-|[]]].
      * destruct (E k Hk) as [E1|(l' & E1 & E2)]; [now left|right]. exists l'. split; [assumption|]. intros a Ha.
        destruct (E2 a Ha) as [->|(x & -> & H1 & H2 & H3)]; [now left|right]. exists x. split; [reflexivity|].
        split; [assumption|]. split; [assumption|]. destruct H3 as [H3|[H3 H4]]; [now left|right]. split; [assumption|].
        apply in_or_app. now left.
      * right. exists l. split; [assumption|]. intros a Ha. destruct a as [[|]|x].
        -- now left.
        -- exfalso. now apply (reg_lit _ Hreg c l H0).
        -- right. exists x. destruct (Ne x Ha) as (N1 & N2 & N3). split; [reflexivity|]. split; [assumption|]. split; [assumption|].
           assert (Ha' := Ha). rewrite in_rev in Ha'. destruct (Sp2 x Ha') as [K|[K1 K2]]; rewrite N3 in *; [now left|right].
           split; [assumption|]. apply in_or_app. now right.
    + intros k z Hk. destruct (F k z Hk) as [[Z|Z]|Z]; [inversion Z; subst k; congruence| |]; rewrite in_app_iff; auto.
    + intros v Hv sg Hs. apply in_app_or in Hv. destruct Hv as [Hv|Hv]; [now apply H|].
      destruct (Sp1 v Hv) as [[]|(x & K1 & K2)]. apply in_rev in K1. destruct (Ne x K1) as (_ & _ & N3).
      rewrite N3 in K2. subst v. destruct Hs as (_ & _ & S2). apply S2 in H0. cbn in H0. rewrite forallb_forall in H0.
      apply (H0 _ K1).
  - (* an equality *)
    destruct a as [p1|x]; destruct b as [p2|y].
    + apply Same'. congruence.
    + destruct (is_none (rh (st p) (rd (st p) y))); [apply Push; congruence|apply Same'; congruence].
    + destruct (is_none (rh (st p) (rd (st p) x))); [apply Push; congruence|apply Same'; congruence].
    + destruct (is_none (rh (st p) (rd (st p) x)) || is_none (rh (st p) (rd (st p) y))) eqn:Hn; [|apply Same'; congruence].
      assert (Hx : In x (ids (EEq (Ident x) (Ident y)))) by (cbn; auto).
      assert (Hy : In y (ids (EEq (Ident x) (Ident y)))) by (cbn; auto).
      destruct (names_live p _ c _ x P Hc Hx) as (H0 & Lx0 & Lx). destruct (names_live p _ c _ y P Hc Hy) as (_ & Ly0 & Ly).
      assert (Al : forall u, (u = x \/ u = y) -> nonalias (st p) (rd (st p) u)).
      { intros u Hu z Hz. destruct (k_alias _ _ _ (p_k1 _ _ _ P) _ _ Hz) as (_ & K1 & K2). specialize (K2 u eq_refl).
        rewrite <- K2 in K1. destruct Hu as [->| ->].
        - apply (reg_eq _ Hreg c x y z); auto.
        - apply (reg_eq _ Hreg c y x z); auto. }
      assert (Ex : equated s0 x) by (left; exists c, y; auto).
      assert (Ey : equated s0 y) by (left; exists c, x; auto).
      set (f := fun s' => push_dep (push_var s' (rd s' x)) x).
      assert (O : okay (st p) (match unify output (st p) x y with Some s' => Some (f s') | None => None end)).
      { apply unify_okay; auto.
        - apply P.
        - now left.
        - now left.
        - apply orb_prop in Hn. destruct Hn as [Hn|Hn]; [left|right]; (destruct (rh (st p) _); [discriminate|reflexivity]).
        - intros s'. apply push_both_pushes.
        - intros sg (_ & _ & S2). apply S2 in Hc. cbn in Hc. now apply eqb_prop. }
      destruct (unify output (st p) x y) as [s1|] eqn:U; cbn [okay BoptProofs1.okay] in O.
      2:{ intros sg Hs. apply (O sg). now apply (p_sat _ _ _ P). }
      destruct (unify_keeps s0 (st p) x y s1 _ (p_k1 _ _ _ P) Ex Ey (Al x (or_introl eq_refl)) (Al y (or_intror eq_refl)) Lx Ly U) as (Kk & Kc & Kd).
      assert (Er := unify_rd output (st p) x y s1 (Al x (or_introl eq_refl)) (Al y (or_intror eq_refl)) U).
      fold (f s1). destruct (push_both_pushes s1 (rd s1 x) x) as (v & q & Es & _). fold (f s1) in Es.
      assert (Hc2 : cons (f s1) c = Some (EEq (Ident x) (Ident y))) by (rewrite Es; cbn; now rewrite Kc).
      destruct (collect_decls_less (f s1) (IC c) (EEq (Ident x) (Ident y))) as (o & -> & Ho).
      cbn [p1_done]. apply (P1_change s0 p _ _ rest (IC c) P).
      * eapply good_trans; [exact O|].
        apply (drop_con_good other output (f s1) c (EEq (Ident x) (Ident y))); [apply O|assumption| |assumption].
        intros sg [_ F2]. cbn. rewrite (F2 x), (F2 y), Es. cbn. rewrite Er. apply eqb_reflx.
      * rewrite Es. apply (K1_same s0 s1 _ (IC c :: rest)); auto. intros w z K. split; [exact K|]. intros [Z|Z]; [discriminate|assumption].
      * rewrite Es. exact Kd.
      * intros k z E. inversion E; subst k. cbn. rewrite upd_same. discriminate.
Qed.

Lemma push_fixed_ok s v : inv s -> exists a q, push_dep (push_var s v) v = with_cq (with_vq s a) q /\ good s (push_dep (push_var s v) v).
Proof.
  intros I. destruct (push_both_pushes s v v) as (a & q & Es & Ha & Hq & _). exists a, q. split; [assumption|].
  rewrite Es. now apply queues_good.
Qed.
Lemma phase1_var_ok p v rest : P1 s0 p (IV v :: rest) -> p1_done p rest (phase1_var output p v).
Proof.
  intros P. unfold phase1_var.
  destruct (gone (st p) v) eqn:Hg.
  - cbn. rewrite (mkP1_eta p). apply (P1_same p (IV v)); auto; [discriminate|].
    intros w z E H. inversion E; subst w. destruct (g_gone _ _ (proj2 (proj2 (p_inv _ _ _ P))) v _ Hg H) as [_ [(b & K)|(x & b & K & _)]].
    + discriminate.
    + destruct K; discriminate.
  - assert (A : match phase1_alias output (st p) v with
                | None => forall sg, ~ sat s0 sg
                | Some s1 => good (st p) s1 /\ K1 s0 s1 rest /\ forall u, ~ equated s0 u -> dm s1 u = dm (st p) u
                end).
    { unfold phase1_alias.
      assert (Same : nonalias (st p) v -> good (st p) (st p) /\ K1 s0 (st p) rest /\ forall u, ~ equated s0 u -> dm (st p) u = dm (st p) u).
      { intros N. split; [apply good_refl, P|]. split; [|auto]. apply (K1_same s0 (st p) _ (IV v :: rest)); auto; [apply P|].
        intros w z K. split; [exact K|]. intros [Z|Z]; [|assumption]. inversion Z; subst w. now destruct (N z). }
      destruct (rh (st p) v) as [e|] eqn:He; [|apply Same; intros z; congruence].
      destruct e as [b|x|l|l|pp nn|a b|f l]; try (apply Same; intros z; congruence). clear Same.
      destruct (k_alias _ _ _ (p_k1 _ _ _ P) v x He) as (_ & He0 & Hu).
      assert (Hg0 : gone s0 v = false).
      { destruct (gone s0 v) eqn:Z; [|reflexivity]. apply (gr_gone _ _ (p_grow _ _ _ P)) in Z. congruence. }
      assert (Lx0 : gone s0 x = false).
      { apply (in_occ _ _ _ Hin (IV v) (EId x) x); [cbn; now rewrite Hg0|now left]. }
      assert (Lx := k_live _ _ _ (p_k1 _ _ _ P) x Lx0).
      assert (Nx : rd (st p) x = v \/ nonalias (st p) (rd (st p) x)).
      { right. intros z Hz. destruct (k_alias _ _ _ (p_k1 _ _ _ P) _ z Hz) as (_ & K1 & K2). rewrite <- (K2 x eq_refl) in K1.
        exact (reg_alias _ Hreg v x z He0 K1). }
      assert (Rv := g_live _ _ (proj1 (p_inv _ _ _ P)) v Hg).
      assert (O := replace_okay output other (st p) v (EId x) x (p_inv _ _ _ P) Hg He).
      assert (O' : okay (st p) (match unify output (set_rhs (st p) v None) v x with Some s' => Some (push_dep s' x) | None => None end)).
      { apply O; auto; try discriminate. now left. }
      clear O. set (sa := set_rhs (st p) v None) in *.
      assert (Ka : K1 s0 sa rest).
      { apply (K1_same s0 (st p) _ (IV v :: rest)); auto; [apply P|..].
        - intros u. apply set_rhs_gone.
        - intros w z K. unfold sa in K. rewrite set_rhs_rh in K. destruct (Nat.eqb_spec w v) as [->|N]; [discriminate|].
          split; [assumption|]. intros [Z|Z]; [inversion Z; congruence|assumption]. }
      assert (Nv : nonalias sa (rd sa v)).
      { intros z. change (rd sa v) with (rd (st p) v). rewrite Rv. unfold sa. rewrite set_rhs_rh, Nat.eqb_refl. discriminate. }
      assert (Nx' : nonalias sa (rd sa x)).
      { intros z. change (rd sa x) with (rd (st p) x). unfold sa. rewrite set_rhs_rh. destruct (Nat.eqb_spec (rd (st p) x) v) as [E|N]; [discriminate|].
        destruct Nx as [Nx|Nx]; [contradiction|]. apply Nx. }
      destruct (unify output sa v x) as [s1|] eqn:U; cbn [okay BoptProofs1.okay] in O'.
      - split; [exact O'|].
        destruct (unify_keeps s0 sa v x s1 rest Ka) as (K2 & _ & K3); auto.
        + right. right. eauto.
        + right. left. eauto.
        + change (rd sa v) with (rd (st p) v). rewrite Rv. unfold sa. now rewrite set_rhs_gone.
        + change (rd sa x) with (rd (st p) x). unfold sa. now rewrite set_rhs_gone.
        + destruct (push_dep_spec s1 x) as (q & -> & _). split; [apply (K1_same s0 s1 _ rest); auto|].
          intros u Hu'. cbn. change (dm (with_cq s1 q) u) with (dm s1 u). rewrite K3 by assumption. unfold sa. apply set_rhs_dm.
      - intros sg Hs. apply (O' sg). now apply (p_sat _ _ _ P). }
    destruct (phase1_alias output (st p) v) as [s1|]; [|exact A]. destruct A as (G & K & Dn).
    destruct (push_fixed_ok s1 v (good_inv _ _ _ _ G)) as (a & q & Es & Gq).
    match goal with |- p1_done p rest (Some (mkP1 (if ?b then _ else _) _ _ _)) => destruct b end.
    + cbn [p1_done]. apply (P1_change s0 p _ _ rest (IV v) P).
      * eapply good_trans; eauto.
      * rewrite Es. apply (K1_same s0 s1 _ rest); auto.
      * rewrite Es. exact Dn.
      * discriminate.
    + cbn [p1_done]. apply (P1_change s0 p _ _ rest (IV v) P); auto. discriminate.
Qed.
Lemma phase1_ok l : forall p, P1 s0 p l -> p1_done p [] (phase1 output p l).
Proof.
  induction l as [|i l IH]; intros p P; cbn [phase1]; [exact P|].
  assert (S : p1_done p l (phase1_item output p i)).
  { destruct i as [v|c|]; cbn [phase1_item]; [now apply phase1_var_ok|now apply phase1_con_ok|].
    cbn. rewrite (mkP1_eta p). apply (P1_same p IS); auto; discriminate. }
  destruct (phase1_item output p i) as [p'|]; [|exact S]. now apply IH.
Qed.

(** ** Phase 2 *)
Definition fixes (s s' : state) : Prop :=
  rd s' = rd s /\ (forall v, gone s' v = gone s v) /\ (forall v, dm s v = None -> dm s' v <> None -> In v (vq s')).
Definition p2_done (s : state) (r : option state) : Prop :=
  match r with None => forall sg, ~ sat s sg | Some s' => good s s' /\ fixes s s' end.
Lemma fixes_refl s : fixes s s.
Proof. split; [reflexivity|]. split; [reflexivity|]. intros v H1 H2. contradiction. Qed.
Lemma fixes_trans s1 s2 s3 : grow s2 s3 -> fixes s1 s2 -> fixes s2 s3 -> fixes s1 s3.
Proof.
  intros R (A1 & A2 & A3) (B1 & B2 & B3). split; [congruence|]. split; [intros v; now rewrite B2|].
  intros v H1 H2. destruct (dm s2 v) eqn:Z; [|now apply B3]. apply (gr_vq _ _ R). apply A3; [assumption|congruence].
Qed.
Lemma same_fixes s s' : rd s' = rd s -> (forall v, gone s' v = gone s v) -> (forall v, dm s' v = dm s v) -> fixes s s'.
Proof. intros A B C. split; [assumption|]. split; [assumption|]. intros v H1 H2. rewrite C in H2. contradiction. Qed.
(** A variable is fixed, then queued *)
Lemma fixed_fixes s s' v x : rd s' = rd s -> (forall u, gone s' u = gone s u) -> (forall u, u <> v -> dm s' u = dm s u) ->
  gone s v = false -> fixes s (push_dep (push_var s' v) x).
Proof.
  intros A B C G. destruct (push_dep_spec (push_var s' v) x) as (q & -> & _).
  destruct (push_var_spec s' v) as (a & E & _ & Hv). rewrite E. split; [exact A|]. split; [exact B|].
  intros u H1 H2. change (dm s' u <> None) in H2. cbn. destruct (Nat.eq_dec u v) as [->|N].
  - apply Hv. now rewrite B.
  - rewrite C in H2 by assumption. contradiction.
Qed.
Lemma phase2_item_ok s i : inv s -> noalias s -> p2_done s (phase2_item s i).
Proof.
  intros I Na. unfold phase2_item.
  assert (Same : p2_done s (Some s)) by (split; [now apply good_refl|apply fixes_refl]).
  destruct (item_expr s i) as [e|] eqn:He; [|exact Same].
  destruct (is_bool_call e) eqn:Hb; cbn [negb]; [|exact Same].
  destruct (p2_subsumed s e) eqn:Hs.
  - assert (D := p2_subsumed_det other output s e I Hb Hs). destruct i as [v|c|]; [| |exact Same].
    + cbn in He. destruct (gone s v) eqn:Hg; [discriminate|].
      destruct (dm s v) as [b|] eqn:Hd.
      * destruct (Bool.eqb b (conjunctive e)) eqn:E; [|exact Same]. apply eqb_prop in E. subst b.
        intros sg ((F1 & F2) & S1 & _). assert (K := S1 v e Hg He). rewrite (D sg (conj F1 F2)), (F1 v _ Hd) in K.
        destruct (conjunctive e); discriminate.
      * unfold p2_fix_item. destruct (collect_decls_less s (IV v) e) as (o & -> & Ho).
        set (b := negb (conjunctive e)) in *.
        set (s1 := set_rhs (set_computed (set_dom (with_occ s o) v b) v true) v (Some (ELit b))).
        assert (G : good s s1).
        { apply (lit_item_good other output s s1 v e b true o I He D); auto.
          - intros u N. cbn. now rewrite !upd_other.
          - cbn. rewrite !upd_same. reflexivity. }
        split.
        -- eapply good_trans; [exact G|]. destruct (push_fixed_ok s1 v (good_inv _ _ _ _ G)) as (_ & _ & _ & K). exact K.
        -- apply fixed_fixes; auto.
           ++ intros u. unfold gone. cbn. unfold upd. destruct (Nat.eqb_spec u v) as [->|]; [|reflexivity]. now rewrite Nat.eqb_refl.
           ++ intros u N. unfold dm. cbn. now rewrite !upd_other.
    + cbn in He. destruct (conjunctive e) eqn:Hc.
      * intros sg (F & _ & S2). apply S2 in He. rewrite (D sg F) in He. discriminate.
      * destruct (collect_decls_less s (IC c) e) as (o & -> & Ho). split.
        -- now apply (drop_con_good other output s c e).
        -- now apply same_fixes.
  - destruct i as [v|c|]; [exact Same| |exact Same].
    destruct (p2_open s e) as [|[[b|x] neg] [|]] eqn:Hop; try exact Same.
    destruct (p2_subsumes_sbc other output s e I) as [E1 E2].
    assert (Hs1 : sbc_subsumed s e = false).
    { rewrite <- E1. unfold p2_subsumed in Hs. now apply orb_false_elim in Hs. }
    rewrite Hop in E2. symmetry in E2.
    destruct (open_unfixed s e x neg) as [Hx Hd]; [rewrite E2; now left|assumption|].
    assert (Lx : gone s (rd s x) = false) by (eapply unfixed_live; eauto; now apply bool_call_call).
    cbn in He. set (v := rd s x) in *. set (b := negb neg).
    assert (Tr : forall sg, fixed s sg -> truth sg e = Bool.eqb (sg x) b).
    { intros sg F. rewrite (one_open other output s e x neg sg F Hb Hs1 E2). unfold b. destruct neg, (sg x); reflexivity. }
    set (s1 := match rh (set_dom s v b) v with None => set_rhs (set_dom s v b) v (Some (ELit b)) | Some _ => set_dom s v b end).
    assert (Vs : forall sg, sat s sg -> sg v = b).
    { intros sg (F & _ & S2). assert (K := S2 c e He). rewrite (Tr sg F) in K. apply eqb_prop in K. rewrite <- K. symmetry. apply (proj2 F). }
    assert (G0 := set_dom_good other output s v b I Hd Lx Vs).
    assert (Dv : dm (set_dom s v b) v = Some b) by (unfold dm; cbn; now rewrite upd_same).
    assert (G1 : good s s1 /\ rd s1 = rd s /\ occ s1 = occ s /\ cons s1 = cons s /\ (forall u, gone s1 u = gone s u) /\ (forall u, u <> v -> dm s1 u = dm s u) /\ dm s1 v = Some b).
    { unfold s1. destruct (rh (set_dom s v b) v) as [e'|] eqn:Z.
      - split; [exact G0|]. repeat (split; [reflexivity|]). split; [|split; [|exact Dv]].
        + intros u. unfold gone. cbn. unfold upd. destruct (Nat.eqb_spec u v) as [->|]; reflexivity.
        + intros u N. unfold dm. cbn. now rewrite upd_other.
      - assert (Gv : gone (set_dom s v b) v = false) by (unfold gone; cbn; rewrite upd_same; exact Lx).
        split; [eapply good_trans; [exact G0|]|].
        + apply (decl_good other output (set_dom s v b) _ v (mkD (Some b) (cmp (set_dom s v b) v) (Some (ELit b)) (gone (set_dom s v b) v)));
            try reflexivity; cbn [rhs dom computed vgone].
          * apply G0.
          * intros u N. cbn. rewrite !upd_other by assumption. reflexivity.
          * cbn. rewrite !upd_same. unfold cmp, gone. cbn. rewrite !upd_same. reflexivity.
          * congruence.
          * auto.
          * right. right. exists b. split; [reflexivity|]. split; [reflexivity|]. intros y j H _. exact H.
          * eauto.
          * intros sg b' ([F _] & _) K. apply F. congruence.
          * congruence.
        + repeat (split; [reflexivity|]). split; [|split].
          * intros u. rewrite set_rhs_gone. unfold gone. cbn. unfold upd. destruct (Nat.eqb_spec u v) as [->|]; reflexivity.
          * intros u N. rewrite set_rhs_dm. unfold dm. cbn. now rewrite upd_other.
          * now rewrite set_rhs_dm. }
    clearbody s1. destruct G1 as (G1 & R1 & O1 & C1 & Go1 & Dm1 & Dv1).
    destruct (collect_decls_less s1 (IC c) e) as (o & -> & Ho).
    assert (G2 : good s1 (drop_con (with_occ s1 o) c)).
    { apply (drop_con_good other output s1 c e); [apply G1|congruence| |assumption].
      intros sg F. rewrite Tr by (eapply grow_fixed; [apply I|apply G1|exact F]). rewrite (proj2 F x), R1. fold v.
      rewrite (proj1 F v b Dv1). apply eqb_reflx. }
    assert (G3 := good_trans _ _ _ _ _ G1 G2). split.
    + eapply good_trans; [exact G3|]. eapply good_trans; [apply push_var_good, G3|]. apply push_dep_good.
      apply push_var_good, G3.
    + apply fixed_fixes; auto.
Qed.
Lemma phase2_ok l : forall s, inv s -> noalias s -> p2_done s (phase2 s l).
Proof.
  induction l as [|i l IH]; intros s I Na; cbn [phase2]; [split; [now apply good_refl|apply fixes_refl]|].
  assert (S := phase2_item_ok s i I Na). destruct (phase2_item s i) as [s1|]; [|exact S]. destruct S as [G F].
  assert (Na1 : noalias s1) by (eapply noalias_grow; [exact Na|apply G]).
  specialize (IH s1 (good_inv _ _ _ _ G) Na1). destruct (phase2 s1 l) as [s2|]; cbn [p2_done] in *.
  - destruct IH as [G2 F2]. split; [eapply good_trans; eauto|]. eapply fixes_trans; eauto. apply G2.
  - intros sg Hs. apply (IH sg). now apply G.
Qed.

Lemma assign_ok l : forall s, inv s -> (forall v, In v l -> forall sg, sat s sg -> sg v = true) ->
  good s (assign s l) /\ rd (assign s l) = rd s /\ (forall v, gone (assign s l) v = gone s v) /\
  (forall v, In v l -> gone s v = false -> dm (assign s l) v <> None) /\
  (forall v, dm s v = None -> dm (assign s l) v = None \/ dm (assign s l) v = Some true).
Proof.
  unfold assign. induction l as [|v l IH]; intros s I H; cbn [fold_left].
  - split; [now apply good_refl|]. split; [reflexivity|]. split; [reflexivity|]. split; [intros ? []|auto].
  - assert (A : good s (assign1 s v) /\ rd (assign1 s v) = rd s /\ (forall u, gone (assign1 s v) u = gone s u) /\
               (gone s v = false -> dm (assign1 s v) v <> None) /\
               (forall u, dm s u = None -> dm (assign1 s v) u = None \/ dm (assign1 s v) u = Some true)).
    { unfold assign1. destruct (gone s v) eqn:Hg.
      { split; [now apply good_refl|]. split; [reflexivity|]. split; [reflexivity|]. split; [discriminate|auto]. }
      destruct (dm s v) as [b|] eqn:Hd.
      { split; [now apply good_refl|]. split; [reflexivity|]. split; [reflexivity|]. split; [congruence|auto]. }
      assert (G := set_dom_good other output s v true I Hd Hg (H v (or_introl eq_refl))).
      destruct (push_fixed_ok (set_dom s v true) v (good_inv _ _ _ _ G)) as (a & q & Es & G2).
      split; [eapply good_trans; eauto|]. rewrite Es. split; [reflexivity|].
      assert (Dm : forall u, dm (set_dom s v true) u = if u =? v then Some true else dm s u).
      { intros u. unfold dm. cbn. unfold upd. now destruct (Nat.eqb_spec u v). }
      split; [|split].
      - intros u. unfold gone. cbn. unfold upd. destruct (Nat.eqb_spec u v) as [->|]; reflexivity.
      - intros _. change (dm (set_dom s v true) v <> None). rewrite Dm, Nat.eqb_refl. discriminate.
      - intros u Hu. change (dm (set_dom s v true) u = None \/ dm (set_dom s v true) u = Some true). rewrite Dm.
        destruct (u =? v); auto. }
    destruct A as (A1 & A2 & A3 & A4 & A5).
    destruct (IH (assign1 s v) (good_inv _ _ _ _ A1)) as (B1 & B2 & B3 & B4 & B5).
    { intros u Hu sg Hs. apply (H u (or_intror Hu)). now apply A1. }
    split; [eapply good_trans; eauto|]. split; [congruence|]. split; [intros u; now rewrite B3|]. split.
    + intros u [<-|Hu] Hg.
      * specialize (A4 Hg). destruct (dm (assign1 s v) v) eqn:Z; [|congruence]. apply (gr_dm _ _ (proj2 (proj2 B1))) in Z. congruence.
      * apply B4; [assumption|]. now rewrite A3.
    + intros u Hu. destruct (A5 u Hu) as [K|K]; [auto|]. right. now apply (gr_dm _ _ (proj2 (proj2 B1))).
Qed.

(** ** The whole optimiser *)
Theorem optimise_ok sched dead :
  loop_ended output s0 order sched ->
  match optimise output s0 order sched dead with
  | Some s' => forall om, prints other output s0 om <-> prints other output s' om
  | None => forall om, ~ prints other output s0 om
  end.
Proof.
  intros Hend. unfold optimise.
  assert (Fail : (forall sg, ~ sat s0 sg) -> forall om, ~ prints other output s0 om).
  { intros H om Hp. apply input_prints in Hp. destruct Hp as (sg & S & _). now apply (H sg). }
  assert (A1 := phase1_ok order _ input_P1).
  destruct (phase1 output (mkP1 s0 [] [] []) order) as [p|] eqn:E1; cbn [p1_done] in A1; [|now apply Fail].
  assert (Na : noalias (st p)).
  { intros v z H. destruct (k_alias _ _ _ (p_k1 _ _ _ A1) v z H) as ([] & _). }
  assert (A2 := phase2_ok (rev (bools p)) (st p) (p_inv _ _ _ A1) Na).
  destruct (phase2 (st p) (rev (bools p))) as [s2|] eqn:E2; cbn [p2_done] in A2.
  2:{ apply Fail. intros sg Hs. apply (A2 sg). now apply (p_sat _ _ _ A1). }
  destruct A2 as [G2 (R2 & Go2 & V2)].
  destruct (assign_ok (rev (to_assign p)) s2 (good_inv _ _ _ _ G2)) as (G3 & R3 & Go3 & D3 & T3).
  { intros v Hv sg Hs. apply in_rev in Hv. apply (p_asg _ _ _ A1 v Hv). apply (p_sat _ _ _ A1). now apply G2. }
  assert (G4 := good_trans _ _ _ _ _ G2 G3).
  assert (S4 : forall sg, sat s0 sg <-> sat (assign s2 (rev (to_assign p))) sg).
  { intros sg. rewrite (p_sat _ _ _ A1). apply G4. }
  assert (P : P3 other output (to_remove p) (assign s2 (rev (to_assign p)))).
  { split; [apply G4|]. split; [eapply noalias_grow; [exact Na|apply G4]|]. split.
    - intros c Hc. set (s3 := assign s2 (rev (to_assign p))) in *.
      destruct (cons s3 c) as [e|] eqn:Hcc; [|now left].
      assert (H0 : cons s0 c = Some e).
      { apply (gr_cons _ _ (p_grow _ _ _ A1)). now apply (gr_cons _ _ (proj2 (proj2 G4))). }
      destruct (p_rem _ _ _ A1 c Hc) as [(x & K1 & K2)|(l & K1 & K2)]; [right; left|right; right].
      + exists x. split; [congruence|]. eapply grow_dmr; [apply A1|apply G4|apply G4|exact K2].
      + exists l. split; [congruence|]. intros a Ha. destruct (K2 a Ha) as [->|(x & -> & N & L & K)]; [now left|right].
        exists x. split; [reflexivity|]. destruct (k_neq _ _ _ (p_k1 _ _ _ A1) x N) as [Rx Gx].
        assert (Rx3 : rd s3 x = x) by now rewrite R3, R2. rewrite Rx3. destruct K as [K|[K K']].
        * left. now apply (gr_dm _ _ (proj2 (proj2 G4))).
        * assert (D : dm s3 x <> None).
          { apply D3; [now apply -> in_rev|]. rewrite Go2, Gx. exact L. }
          destruct (dm s3 x) as [[|]|] eqn:Z; [now left| |congruence]. right. split; [reflexivity|]. right. left.
          exists x. split; [|split; congruence]. apply (gr_vq _ _ (proj2 (proj2 G3))). apply V2; [assumption|].
          intros Z2. destruct (T3 x Z2); congruence.
    - intros c x H. destruct (p_id _ _ _ A1 c x (gr_cons _ _ (proj2 (proj2 G4)) c _ H)) as [[]|K]. exact K. }
  assert (A3 := phase3_okay other output (to_remove p) sched _ P).
  destruct (phase3 output (assign s2 (rev (to_assign p))) sched) as [s3|] eqn:E3.
  2:{ apply Fail. intros sg Hs. apply (A3 sg). now apply S4. }
  destruct A3 as [P3' S5]. destruct (Hend p s2 s3 E1 E2 E3) as [Qv Qc].
  destruct (clean_okay other output (to_remove p) (rev (to_remove p)) s3 P3' Qv Qc) as (P3'' & Qv' & Qc' & S6 & _ & Cn).
  { intros c Hc. now apply in_rev. }
  assert (Q : P4 other output (clean s3 (rev (to_remove p)))).
  { destruct P3'' as (I & Na' & _ & Eid). split; [exact I|]. split; [exact Na'|]. split; [|exact Qc'].
    intros c x H. assert (K := Eid c x H). apply in_rev in K. rewrite (Cn c K) in H. discriminate. }
  assert (A4 := phase4_okay other output (rev (bools p)) _ Q).
  destruct (phase4 (clean s3 (rev (to_remove p))) (rev (bools p))) as [s4|].
  2:{ apply Fail. intros sg Hs. apply (A4 sg). apply S6, S5. now apply S4. }
  destruct A4 as [Q4 S7]. destruct (delete_ok other output dead s4 (P4_dead _ _ _ Q4)) as [D5 P5].
  intros om. rewrite input_prints, (dead_prints other output _ om D5), <- P5. apply possible_iff.
  intros sg. rewrite S4, S5, S6. apply S7.
Qed.
End Input.
End Whole.
