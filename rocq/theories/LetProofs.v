(** Proofs about local variables. *)
From Coq Require Import ZArith List Bool Arith.
From Verif Require Import CtxModel CompModel CompSpec CompProofs LetModel LetSpec.
Import ListNotations.

Definition names (h : list (nat * list Z)) : list nat := map fst h.
Definition R (h : list (nat * list Z)) (g : store -> bool) (p : bool) (s : store) : Prop :=
  exists s', extends h s s' /\ g s' = p.
Definition disjoint (a b : list nat) : Prop := forall x, In x a -> ~ In x b.

Lemma mem_dec (x : nat) l : {In x l} + {~ In x l}.
Proof. apply in_dec, Nat.eq_dec. Qed.

Lemma ext_merge ha hb s sa sb : disjoint (names ha) (names hb) -> extends ha s sa -> extends hb s sb ->
  exists s', extends (ha ++ hb) s s' /\ (forall x, ~ In x (names hb) -> s' x = sa x)
             /\ (forall x, ~ In x (names ha) -> s' x = sb x).
Proof.
  intros D [A1 A2] [B1 B2].
  exists (fun x => if mem_dec x (names ha) then sa x else sb x). split; [split|split].
  - intros y dom H. apply in_app_or in H.
    assert (K : In y (names (ha ++ hb))) by (unfold names; rewrite map_app; apply in_or_app;
      destruct H as [H|H]; [left|right]; apply (in_map fst) in H; exact H).
    destruct H as [H|H].
    + destruct (mem_dec y (names ha)) as [|N]; [eapply A1; exact H|].
      exfalso. apply N. apply (in_map fst) in H. exact H.
    + destruct (mem_dec y (names ha)) as [I|]; [|eapply B1; exact H].
      exfalso. apply (D y I). apply (in_map fst) in H. exact H.
  - intros x H. unfold names in *. rewrite map_app in H.
    destruct (mem_dec x (map fst ha)) as [I|N]; [exfalso; apply H, in_or_app; left; exact I|].
    apply B2. intro; apply H, in_or_app; right; assumption.
  - intros x H. destruct (mem_dec x (names ha)) as [I|N]; [reflexivity|].
    rewrite (B2 x H). symmetry. apply A2. exact N.
  - intros x H. destruct (mem_dec x (names ha)) as [I|N]; [contradiction|reflexivity].
Qed.

Lemma ext_left ha hb s s' : extends (ha ++ hb) s s' ->
  exists sa, extends ha s sa /\ forall x, ~ In x (names hb) -> s' x = sa x.
Proof.
  intros [A1 A2]. exists (fun x => if mem_dec x (names ha) then s' x else s x). split; [split|].
  - intros y dom H. destruct (mem_dec y (names ha)) as [|N].
    + eapply A1. apply in_or_app. left. exact H.
    + exfalso. apply N. apply (in_map fst) in H. exact H.
  - intros x H. destruct (mem_dec x (names ha)); [contradiction|reflexivity].
  - intros x H. destruct (mem_dec x (names ha)); [reflexivity|]. apply A2.
    unfold names in *. rewrite map_app. intros I. apply in_app_or in I. tauto.
Qed.
Lemma ext_right ha hb s s' : extends (ha ++ hb) s s' ->
  exists sb, extends hb s sb /\ forall x, ~ In x (names ha) -> s' x = sb x.
Proof.
  intros [A1 A2]. apply (ext_left hb ha). split.
  - intros y dom H. apply A1. apply in_app_or in H. apply in_or_app. tauto.
  - intros x H. apply A2. unfold names in *. rewrite map_app in *. intros I. apply H.
    apply in_app_or in I. apply in_or_app. tauto.
Qed.

(** What the induction provides for a subexpression. *)
Record good (bnd out : list nat) (h : list (nat * list Z)) (g : store -> bool) : Prop := {
  g_ign : ignores out g;
  g_names : incl (names h) bnd;
  g_ext : forall s, exists s', extends h s s'
}.

Section Two.
  Variables (ba bb out : list nat) (ha hb : list (nat * list Z)) (ga gb : store -> bool).
  Hypothesis Ga : good ba (bb ++ out) ha ga.
  Hypothesis Gb : good bb (ba ++ out) hb gb.
  Hypothesis D : disjoint ba bb.

  Lemma two_disjoint : disjoint (names ha) (names hb).
  Proof. intros x H1 H2. apply (D x); [apply (g_names _ _ _ _ Ga), H1|apply (g_names _ _ _ _ Gb), H2]. Qed.
  Lemma ga_same s s' : (forall x, ~ In x (names hb) -> s' x = s x) -> ga s' = ga s.
  Proof.
    intros H. apply (g_ign _ _ _ _ Ga). intros x Hx. apply H. intros I. apply Hx, in_or_app. left.
    apply (g_names _ _ _ _ Gb), I.
  Qed.
  Lemma gb_same s s' : (forall x, ~ In x (names ha) -> s' x = s x) -> gb s' = gb s.
  Proof.
    intros H. apply (g_ign _ _ _ _ Gb). intros x Hx. apply H. intros I. apply Hx, in_or_app. left.
    apply (g_names _ _ _ _ Ga), I.
  Qed.
  Lemma two_both p q s : R ha ga p s -> R hb gb q s ->
    exists s', extends (ha ++ hb) s s' /\ ga s' = p /\ gb s' = q.
  Proof.
    intros (sa & Ea & <-) (sb & Eb & <-).
    destruct (ext_merge ha hb s sa sb two_disjoint Ea Eb) as (s' & E & Ha & Hb).
    exists s'. split; [exact E|]. split; [apply ga_same; exact Ha|apply gb_same; exact Hb].
  Qed.
  Lemma two_left p s : R ha ga p s -> exists s', extends (ha ++ hb) s s' /\ ga s' = p.
  Proof.
    intros H. destruct (g_ext _ _ _ _ Gb s) as (sb & Eb).
    destruct (two_both p (gb sb) s H) as (s' & E & A & _); [exists sb; auto|eauto].
  Qed.
  Lemma two_right q s : R hb gb q s -> exists s', extends (ha ++ hb) s s' /\ gb s' = q.
  Proof.
    intros H. destruct (g_ext _ _ _ _ Ga s) as (sa & Ea).
    destruct (two_both (ga sa) q s) as (s' & E & _ & B); [exists sa; auto|exact H|eauto].
  Qed.
  Lemma from_left s s' : extends (ha ++ hb) s s' -> R ha ga (ga s') s.
  Proof.
    intros E. destruct (ext_left _ _ _ _ E) as (sa & Ea & Ha). exists sa. split; [exact Ea|].
    symmetry. apply ga_same. exact Ha.
  Qed.
  Lemma from_right s s' : extends (ha ++ hb) s s' -> R hb gb (gb s') s.
  Proof.
    intros E. destruct (ext_right _ _ _ _ E) as (sb & Eb & Hb). exists sb. split; [exact Eb|].
    symmetry. apply gb_same. exact Hb.
  Qed.

  Lemma good_two op : (forall x y x' y', x = x' -> y = y' -> op x y = op x' y' :> bool) ->
    good (ba ++ bb) out (ha ++ hb) (fun s => op (ga s) (gb s)).
  Proof.
    intros C. split.
    - intros s s' E. apply C.
      + apply (g_ign _ _ _ _ Ga). intros x Hx. apply E. intro; apply Hx, in_or_app; right; assumption.
      + apply (g_ign _ _ _ _ Gb). intros x Hx. apply E. intro; apply Hx, in_or_app; right; assumption.
    - unfold names. rewrite map_app. intros x H. apply in_app_or in H. apply in_or_app.
      destruct H; [left; apply (g_names _ _ _ _ Ga)|right; apply (g_names _ _ _ _ Gb)]; assumption.
    - intros s. destruct (g_ext _ _ _ _ Ga s) as (sa & Ea). destruct (two_left (ga sa) s) as (s' & E & _); [exists sa; auto|eauto].
  Qed.

  Variables (ta tb : bool) (s : store).
  Lemma and_true : (ta = true <-> R ha ga true s) -> (tb = true <-> R hb gb true s) ->
    (ta && tb = true <-> R (ha ++ hb) (fun s => ga s && gb s) true s).
  Proof.
    intros A B. rewrite andb_true_iff, A, B. split.
    - intros [X Y]. destruct (two_both _ _ _ X Y) as (s' & E & P & Q). exists s'. split; [exact E|].
      now rewrite P, Q.
    - intros (s' & E & P). apply andb_true_iff in P. destruct P as [P Q].
      split; [rewrite <- P; apply from_left; exact E|rewrite <- Q; apply from_right; exact E].
  Qed.
  Lemma and_false : (ta = false <-> R ha ga false s) -> (tb = false <-> R hb gb false s) ->
    (ta && tb = false <-> R (ha ++ hb) (fun s => ga s && gb s) false s).
  Proof.
    intros A B. rewrite andb_false_iff, A, B. split.
    - intros [X|Y].
      + destruct (two_left _ _ X) as (s' & E & P). exists s'. split; [exact E|]. now rewrite P.
      + destruct (two_right _ _ Y) as (s' & E & P). exists s'. split; [exact E|]. rewrite P. apply andb_false_r.
    - intros (s' & E & P). apply andb_false_iff in P. destruct P as [P|P]; [left|right]; rewrite <- P at 1.
      + apply from_left; exact E.
      + apply from_right; exact E.
  Qed.
  Lemma or_true : (ta = true <-> R ha ga true s) -> (tb = true <-> R hb gb true s) ->
    (ta || tb = true <-> R (ha ++ hb) (fun s => ga s || gb s) true s).
  Proof.
    intros A B. rewrite orb_true_iff, A, B. split.
    - intros [X|Y].
      + destruct (two_left _ _ X) as (s' & E & P). exists s'. split; [exact E|]. now rewrite P.
      + destruct (two_right _ _ Y) as (s' & E & P). exists s'. split; [exact E|]. rewrite P. apply orb_true_r.
    - intros (s' & E & P). apply orb_true_iff in P. destruct P as [P|P]; [left|right]; rewrite <- P at 1.
      + apply from_left; exact E.
      + apply from_right; exact E.
  Qed.
  Lemma or_false : (ta = false <-> R ha ga false s) -> (tb = false <-> R hb gb false s) ->
    (ta || tb = false <-> R (ha ++ hb) (fun s => ga s || gb s) false s).
  Proof.
    intros A B. rewrite orb_false_iff, A, B. split.
    - intros [X Y]. destruct (two_both _ _ _ X Y) as (s' & E & P & Q). exists s'. split; [exact E|].
      now rewrite P, Q.
    - intros (s' & E & P). apply orb_false_iff in P. destruct P as [P Q].
      split; [rewrite <- P; apply from_left; exact E|rewrite <- Q; apply from_right; exact E].
  Qed.
  Lemma imp_true : (ta = false <-> R ha ga false s) -> (tb = true <-> R hb gb true s) ->
    (implb ta tb = true <-> R (ha ++ hb) (fun s => implb (ga s) (gb s)) true s).
  Proof.
    intros A B. assert (X : implb ta tb = true <-> ta = false \/ tb = true)
      by (destruct ta, tb; cbn; intuition discriminate).
    rewrite X, A, B. split.
    - intros [Y|Y].
      + destruct (two_left _ _ Y) as (s' & E & P). exists s'. split; [exact E|]. now rewrite P.
      + destruct (two_right _ _ Y) as (s' & E & P). exists s'. split; [exact E|]. rewrite P. now destruct (ga s').
    - intros (s' & E & P). destruct (ga s') eqn:Q.
      + right. cbn in P. rewrite <- P at 1. apply from_right; exact E.
      + left. rewrite <- Q. apply from_left; exact E.
  Qed.
  Lemma imp_false : (ta = true <-> R ha ga true s) -> (tb = false <-> R hb gb false s) ->
    (implb ta tb = false <-> R (ha ++ hb) (fun s => implb (ga s) (gb s)) false s).
  Proof.
    intros A B. assert (X : implb ta tb = false <-> ta = true /\ tb = false)
      by (destruct ta, tb; cbn; intuition discriminate).
    rewrite X, A, B. split.
    - intros [Y Z]. destruct (two_both _ _ _ Y Z) as (s' & E & P & Q). exists s'. split; [exact E|].
      now rewrite P, Q.
    - intros (s' & E & P). destruct (ga s') eqn:Q; [|discriminate P]. cbn in P.
      split; [rewrite <- Q; apply from_left; exact E|rewrite <- P; apply from_right; exact E].
  Qed.
End Two.

(** ** Mixed context: nothing is created *)
Lemma flat2_inv op a b h g : flat2 op a b = Some (h, g) ->
  exists ha ga hb gb, a = Some (ha, ga) /\ b = Some (hb, gb) /\ h = ha ++ hb
    /\ g = fun s => op (ga s) (gb s).
Proof.
  destruct a as [[ha ga]|], b as [[hb gb]|]; try discriminate. cbn. intros E. injection E as <- <-.
  exists ha, ga, hb, gb. auto.
Qed.

Lemma mix_spec e : forall h g, flatten C_MIX e = Some (h, g) -> h = [] /\ forall s, g s = truth e s.
Proof.
  induction e as [f|a IHa|a IHa b IHb|a IHa b IHb|a IHa b IHb|a IHa b IHb|a IHa b IHb|y dom k IHk|y dom rhs k IHk|a IHa b IHb];
    intros h g H; cbn [flatten bplus bminus] in H;
    try (apply flat2_inv in H; destruct H as (ha & ga & hb & gb & Ea & Eb & -> & ->);
         destruct (IHa _ _ Ea) as [-> Ga]; destruct (IHb _ _ Eb) as [-> Gb];
         split; [reflexivity|]; intros s; cbn [truth]; now rewrite Ga, Gb).
  - injection H as <- <-. auto.
  - destruct (flatten C_MIX a) as [[ha ga]|]; [|discriminate]. injection H as <- <-.
    destruct (IHa _ _ eq_refl) as [-> Ga]. split; [reflexivity|]. intros s. cbn. now rewrite Ga.
  - discriminate.
  - destruct (flatten C_MIX k) as [[hk gk]|]; [|discriminate]. injection H as <- <-.
    destruct (IHk _ _ eq_refl) as [-> Gk]. split; [reflexivity|]. intros s. cbn.
    destruct (rhs s); [|reflexivity]. now rewrite Gk.
Qed.

(** ** Positive and negative contexts *)
Definition pol (c : bctx) : bool := match c with C_NEG => false | _ => true end.

Lemma names_nodup {A} (a b : list A) : NoDup (a ++ b) -> NoDup a /\ NoDup b /\ (forall x, In x a -> ~ In x b).
Proof.
  induction a as [|x a IH]; intros H.
  - repeat split; [constructor|exact H|]. intros ? [].
  - inversion_clear H as [|? ? Nx H']. destruct (IH H') as (A1 & A2 & A3). split; [|split; [exact A2|]].
    + constructor; [|exact A1]. intro; apply Nx, in_or_app; left; assumption.
    + intros y [<-|Hy]; [intro; apply Nx, in_or_app; right; assumption|apply A3; exact Hy].
Qed.

Lemma flatten_good e : forall c out h g,
  NoDup (bound e) -> in_scope out e -> inhabited e -> flatten c e = Some (h, g) ->
  good (bound e) out h g.
Proof.
  induction e as [f|a IHa|a IHa b IHb|a IHa b IHb|a IHa b IHb|a IHa b IHb|a IHa b IHb|y dom k IHk|y dom rhs k IHk|a IHa b IHb];
    intros c out h g ND Sc In0 H; cbn [flatten] in H;
    try (apply flat2_inv in H; destruct H as (ha & ga & hb & gb & Ea & Eb & -> & ->);
         cbn [bound in_scope inhabited] in *; destruct (names_nodup _ _ ND) as (NDa & NDb & DJ);
         destruct Sc as [Sa Sb]; destruct In0 as [Na Nb];
         apply good_two; [eapply IHa; eassumption|eapply IHb; eassumption|exact DJ|congruence]).
  - injection H as <- <-. split; [exact Sc|intros ? []|]. intros s. exists s. split; [intros ? ? []|auto].
  - destruct (flatten (bminus c) a) as [[ha ga]|] eqn:E; [|discriminate]. injection H as <- <-.
    destruct (IHa _ _ _ _ ND Sc In0 E) as [G1 G2 G3]. split; [|exact G2|exact G3].
    intros s s' X. now rewrite (G1 s s' X).
  - assert (H' : exists hk gk, flatten c k = Some (hk, gk) /\ h = (y, dom) :: hk /\ g = gk).
    { destruct c; try discriminate; destruct (flatten _ k) as [[hk gk]|]; try discriminate;
        injection H as <- <-; eauto. }
    destruct H' as (hk & gk & E & -> & ->). cbn [bound in_scope inhabited] in *.
    inversion_clear ND as [|? ? Ny NDk]. destruct In0 as [Nd Nk].
    destruct (IHk _ _ _ _ NDk Sc Nk E) as [G1 G2 G3]. split; [exact G1| |].
    + intros x [<-|Hx]; [left; reflexivity|right; apply G2; exact Hx].
    + intros s. destruct dom as [|v dom]; [congruence|]. destruct (G3 (upd s y v)) as (s' & E1 & E2).
      exists s'. split.
      * intros z d [X|X]; [|eapply E1; exact X]. injection X as <- <-. left.
        rewrite (E2 y), upd_same; [reflexivity|]. intro X. apply Ny, G2. exact X.
      * intros x Hx. cbn in Hx. rewrite E2 by tauto. apply upd_other. intro; subst; tauto.
  - destruct (flatten c k) as [[hk gk]|] eqn:E; [|discriminate]. injection H as <- <-.
    cbn [bound in_scope inhabited] in *. inversion_clear ND as [|? ? Ny NDk]. destruct Sc as [Sr Sk].
    destruct (IHk _ _ _ _ NDk Sk In0 E) as [G1 G2 G3]. split; [| |exact G3].
    + intros s s' X. rewrite (Sr s s').
      * destruct (rhs s') as [v|]; [|reflexivity]. f_equal. apply G1. intros x Hx. unfold upd.
        destruct (Nat.eqb x y); [reflexivity|]. apply X. exact Hx.
      * intros x Hx. apply X. intro; apply Hx. right. apply in_or_app. right. assumption.
    + intros x Hx. right. apply G2. exact Hx.
Qed.

Lemma R_nil out g p s : ignores out g -> (R [] g p s <-> g s = p).
Proof.
  intros Ig. split.
  - intros (s' & [_ E] & <-). apply Ig. intros x _. symmetry. apply E. intros [].
  - intros H. exists s. split; [split; [intros ? ? []|auto]|exact H].
Qed.

Lemma pol_spec e : forall c out h g,
  c <> C_MIX -> NoDup (bound e) -> in_scope out e -> inhabited e -> flatten c e = Some (h, g) ->
  forall s, truth e s = pol c <-> R h g (pol c) s.
Proof.
  induction e as [f|a IHa|a IHa b IHb|a IHa b IHb|a IHa b IHb|a IHa b IHb|a IHa b IHb|y dom k IHk|y dom rhs k IHk|a IHa b IHb];
    intros c out h g NM ND Sc In0 H s;
    pose proof (flatten_good _ _ _ _ _ ND Sc In0 H) as G; cbn [flatten] in H.
  - injection H as <- <-. cbn. symmetry. eapply R_nil. exact Sc.
  - destruct (flatten (bminus c) a) as [[ha ga]|] eqn:E; [|discriminate]. injection H as <- <-.
    assert (NM' : bminus c <> C_MIX) by (destruct c; cbn; congruence).
    pose proof (IHa _ _ _ _ NM' ND Sc In0 E s) as X. cbn [truth].
    assert (P : pol (bminus c) = negb (pol c)) by (destruct c; reflexivity || congruence).
    rewrite P in X. split.
    + intros Y. destruct X as [X _]. destruct X as (s' & E' & Q); [rewrite <- Y; apply eq_sym, negb_involutive|].
      exists s'. split; [exact E'|]. rewrite Q. apply negb_involutive.
    + intros (s' & E' & Q). destruct X as [_ X]. rewrite X; [apply negb_involutive|].
      exists s'. split; [exact E'|]. rewrite <- Q. symmetry. apply negb_involutive.
  - apply flat2_inv in H. destruct H as (ha & ga & hb & gb & Ea & Eb & -> & ->).
    cbn [bound in_scope inhabited] in *. destruct (names_nodup _ _ ND) as (NDa & NDb & DJ).
    destruct Sc as [Sa Sb]. destruct In0 as [Na Nb].
    set (c' := match c with C_ROOT => C_ROOT | _ => bplus c end) in *.
    assert (NM' : c' <> C_MIX) by (unfold c'; destruct c; cbn; congruence).
    assert (P : pol c' = pol c) by (unfold c'; destruct c; reflexivity).
    pose proof (IHa _ _ _ _ NM' NDa Sa Na Ea s) as X. pose proof (IHb _ _ _ _ NM' NDb Sb Nb Eb s) as Y.
    pose proof (flatten_good _ _ _ _ _ NDa Sa Na Ea) as Ga. pose proof (flatten_good _ _ _ _ _ NDb Sb Nb Eb) as Gb.
    rewrite P in X, Y. cbn [truth].
    destruct (pol c); [eapply and_true|eapply and_false]; eassumption.
  - apply flat2_inv in H. destruct H as (ha & ga & hb & gb & Ea & Eb & -> & ->).
    cbn [bound in_scope inhabited] in *. destruct (names_nodup _ _ ND) as (NDa & NDb & DJ).
    destruct Sc as [Sa Sb]. destruct In0 as [Na Nb].
    assert (NM' : bplus c <> C_MIX) by (destruct c; cbn; congruence).
    assert (P : pol (bplus c) = pol c) by (destruct c; reflexivity).
    pose proof (IHa _ _ _ _ NM' NDa Sa Na Ea s) as X. pose proof (IHb _ _ _ _ NM' NDb Sb Nb Eb s) as Y.
    pose proof (flatten_good _ _ _ _ _ NDa Sa Na Ea) as Ga. pose proof (flatten_good _ _ _ _ _ NDb Sb Nb Eb) as Gb.
    rewrite P in X, Y. cbn [truth].
    destruct (pol c); [eapply or_true|eapply or_false]; eassumption.
  - apply flat2_inv in H. destruct H as (ha & ga & hb & gb & Ea & Eb & -> & ->).
    cbn [bound in_scope inhabited] in *. destruct (names_nodup _ _ ND) as (NDa & NDb & DJ).
    destruct Sc as [Sa Sb]. destruct In0 as [Na Nb].
    assert (NM' : bplus c <> C_MIX) by (destruct c; cbn; congruence).
    assert (NM'' : bminus c <> C_MIX) by (destruct c; cbn; congruence).
    assert (P : pol (bplus c) = pol c) by (destruct c; reflexivity).
    assert (P' : pol (bminus c) = negb (pol c)) by (destruct c; reflexivity || congruence).
    pose proof (IHa _ _ _ _ NM'' NDa Sa Na Ea s) as X. pose proof (IHb _ _ _ _ NM' NDb Sb Nb Eb s) as Y.
    pose proof (flatten_good _ _ _ _ _ NDa Sa Na Ea) as Ga. pose proof (flatten_good _ _ _ _ _ NDb Sb Nb Eb) as Gb.
    rewrite P in Y. rewrite P' in X. cbn [truth].
    destruct (pol c); cbn in X; [eapply imp_true|eapply imp_false]; eassumption.
  - apply flat2_inv in H. destruct H as (ha & ga & hb & gb & Ea & Eb & -> & ->).
    destruct (mix_spec _ _ _ Ea) as [-> Ga]. destruct (mix_spec _ _ _ Eb) as [-> Gb].
    cbn [app truth]. rewrite (R_nil out) by (apply (g_ign _ _ _ _ G)). now rewrite Ga, Gb.
  - apply flat2_inv in H. destruct H as (ha & ga & hb & gb & Ea & Eb & -> & ->).
    destruct (mix_spec _ _ _ Ea) as [-> Ga]. destruct (mix_spec _ _ _ Eb) as [-> Gb].
    cbn [app truth]. rewrite (R_nil out) by (apply (g_ign _ _ _ _ G)). now rewrite Ga, Gb.
  - assert (H' : pol c = true /\ exists hk gk, flatten c k = Some (hk, gk) /\ h = (y, dom) :: hk /\ g = gk).
    { destruct c; try discriminate; (split; [reflexivity|]);
        destruct (flatten _ k) as [[hk gk]|]; try discriminate; injection H as <- <-; eauto. }
    destruct H' as (P & hk & gk & E & -> & ->). cbn [bound in_scope inhabited] in *.
    inversion_clear ND as [|? ? Ny NDk]. destruct In0 as [Nd Nk].
    pose proof (IHk _ _ _ _ NM NDk Sc Nk E) as X. pose proof (flatten_good _ _ _ _ _ NDk Sc Nk E) as Gk.
    rewrite P in *. cbn [truth]. rewrite existsb_exists. split.
    + intros (v & Hv & T). apply X in T. destruct T as (s' & [E1 E2] & Q). exists s'. split; [|exact Q]. split.
      * intros z d [Y|Y]; [|eapply E1; exact Y]. injection Y as <- <-.
        rewrite (E2 y), upd_same; [exact Hv|]. intro Y. apply Ny, (g_names _ _ _ _ Gk). exact Y.
      * intros x Hx. cbn in Hx. rewrite E2 by tauto. apply upd_other. intro; subst; tauto.
    + intros (s' & [E1 E2] & Q). exists (s' y). split; [apply E1; left; reflexivity|]. apply X.
      exists s'. split; [|exact Q]. split.
      * intros z d Hz. apply E1. right. exact Hz.
      * intros x Hx. unfold upd. destruct (Nat.eqb_spec x y) as [->|N]; [reflexivity|].
        apply E2. cbn. intros [Z|Z]; [congruence|contradiction].
  - destruct (flatten c k) as [[hk gk]|] eqn:E; [|discriminate]. injection H as <- <-.
    cbn [bound in_scope inhabited] in *. inversion_clear ND as [|? ? Ny NDk]. destruct Sc as [Sr Sk].
    pose proof (IHk _ _ _ _ NM NDk Sk In0 E) as X. pose proof (flatten_good _ _ _ _ _ NDk Sk In0 E) as Gk.
    assert (Hr : forall s', extends hk s s' -> rhs s' = rhs s).
    { intros s' [_ E2]. apply Sr. intros x Hx. apply E2. intros Y. apply Hx. right. apply in_or_app. left.
      apply (g_names _ _ _ _ Gk). exact Y. }
    assert (Hn : ~ In y (names hk)) by (intro Y; apply Ny, (g_names _ _ _ _ Gk); exact Y).
    cbn [truth]. destruct (rhs s) as [v|] eqn:Er.
    + change (match dom with None => true | Some l => existsb (Z.eqb v) l end) with (in_dom dom v).
      assert (Rk : R hk (fun s => match rhs s with Some v => in_dom dom v && gk (upd s y v) | None => false end) (pol c) s
                   <-> in_dom dom v = pol c /\ pol c = false \/ in_dom dom v = true /\ R hk gk (pol c) (upd s y v)).
      { split.
        - intros (s' & E' & Q). rewrite (Hr s' E') in Q. destruct (in_dom dom v) eqn:Dv.
          + right. split; [reflexivity|]. exists (upd s' y v). split; [|exact Q]. destruct E' as [E1 E2]. split.
            * intros z d Hz. unfold upd. destruct (Nat.eqb_spec z y) as [->|]; [|apply E1; exact Hz].
              exfalso. apply Hn. apply (in_map fst) in Hz. exact Hz.
            * intros x Hx. unfold upd. destruct (Nat.eqb x y); [reflexivity|apply E2; exact Hx].
          + left. cbn in Q. split; [exact Q|]. symmetry; exact Q.
        - intros [[Dv P]|[Dv (s'' & [E1 E2] & Q)]].
          + destruct (g_ext _ _ _ _ Gk s) as (s' & E'). exists s'. split; [exact E'|].
            rewrite (Hr s' E'), Dv, P. reflexivity.
          + assert (E' : extends hk s (upd s'' y (s y))).
            { split.
              - intros z d Hz. unfold upd. destruct (Nat.eqb_spec z y) as [->|]; [|apply E1; exact Hz].
                exfalso. apply Hn. apply (in_map fst) in Hz. exact Hz.
              - intros x Hx. unfold upd. destruct (Nat.eqb_spec x y) as [->|N]; [reflexivity|].
                rewrite (E2 x Hx). apply upd_other. exact N. }
            exists (upd s'' y (s y)). split; [exact E'|]. rewrite (Hr _ E'), Dv. cbn [andb]. rewrite <- Q.
            apply (g_ign _ _ _ _ Gk). intros x _. unfold upd. destruct (Nat.eqb_spec x y) as [->|N]; [|reflexivity].
            rewrite (E2 y Hn). symmetry. apply upd_same. }
      rewrite Rk. destruct (in_dom dom v) eqn:Dv; cbn [andb].
      * rewrite X. split; [auto|]. intros [[P Q]|[_ Q]]; [congruence|exact Q].
      * split; [intros P; left; auto|]. intros [[P _]|[P _]]; [exact P|discriminate].
    + split.
      * intros P. destruct (g_ext _ _ _ _ Gk s) as (s' & E'). exists s'. split; [exact E'|]. now rewrite (Hr s' E').
      * intros (s' & E' & Q). rewrite (Hr s' E') in Q. exact Q.
  - apply flat2_inv in H. destruct H as (ha & ga & hb & gb & Ea & Eb & -> & ->).
    cbn [bound in_scope inhabited] in *. destruct (names_nodup _ _ ND) as (NDa & NDb & DJ).
    destruct Sc as [Sa Sb]. destruct In0 as [Na Nb].
    pose proof (IHa _ _ _ _ NM NDa Sa Na Ea s) as X. pose proof (IHb _ _ _ _ NM NDb Sb Nb Eb s) as Y.
    pose proof (flatten_good _ _ _ _ _ NDa Sa Na Ea) as Ga. pose proof (flatten_good _ _ _ _ _ NDb Sb Nb Eb) as Gb.
    cbn [truth]. destruct (pol c); [eapply and_true|eapply and_false]; eassumption.
Qed.

(** ** Which expressions are rejected *)
Definition sign (c : bctx) : option bool :=
  match c with C_ROOT | C_POS => Some true | C_NEG => Some false | C_MIX => None end.

Lemma flat2_some op a b : flat2 op a b <> None <-> a <> None /\ b <> None.
Proof.
  destruct a as [[]|], b as [[]|]; cbn; split; try tauto; intros; try split; try discriminate; tauto.
Qed.

Lemma accepts e : forall c, flatten c e <> None <-> only_positive (sign c) e.
Proof.
  induction e as [f|a IHa|a IHa b IHb|a IHa b IHb|a IHa b IHb|a IHa b IHb|a IHa b IHb|y dom k IHk|y dom rhs k IHk|a IHa b IHb];
    intros c; cbn [flatten only_positive]; rewrite ?flat2_some.
  - split; [auto|discriminate].
  - assert (P : sign (bminus c) = option_map negb (sign c)) by (destruct c; reflexivity).
    rewrite <- P, <- IHa. destruct (flatten (bminus c) a) as [[]|]; split; try discriminate; tauto.
  - assert (P : sign (match c with C_ROOT => C_ROOT | _ => bplus c end) = sign c) by (destruct c; reflexivity).
    rewrite IHa, IHb, P. tauto.
  - assert (P : sign (bplus c) = sign c) by (destruct c; reflexivity). rewrite IHa, IHb, P. tauto.
  - assert (P : sign (bplus c) = sign c) by (destruct c; reflexivity).
    assert (P' : sign (bminus c) = option_map negb (sign c)) by (destruct c; reflexivity).
    rewrite IHa, IHb, P, P'. tauto.
  - rewrite IHa, IHb. tauto.
  - rewrite IHa, IHb. tauto.
  - rewrite <- IHk. destruct c; cbn [sign];
      try (split; [intros H; exfalso; apply H; reflexivity|intros [H _]; discriminate H]);
      destruct (flatten _ k) as [[]|]; split; try discriminate; try tauto; intros _; split; congruence.
  - rewrite <- IHk. destruct (flatten c k) as [[]|]; split; try discriminate; tauto.
  - rewrite IHa, IHb. tauto.
Qed.
