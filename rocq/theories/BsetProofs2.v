Require Import ZArith List Bool Lia ZifyBool.
From Verif Require Import Base IntValModel IntValSpec IntValProofs SetModel SetSpec SetProofs SetProofs2 SetProofs3 SetPropProofs
  BsetModel BsetSpec BsetProofs.
Import ListNotations.
Open Scope Z_scope.

Definition all_nf (l : list iset) : Prop := Forall nf l.
Lemma all_nfs B l : BIG <= B -> Forall nf l -> nfs B l.
Proof. intros HB H s Hs. apply nf_nfk; [assumption|]. rewrite Forall_forall in H. auto. Qed.
Lemma in_all_k B l z : BIG <= B -> Forall nf l -> - B < z < B -> (in_all z l <-> allk B z l).
Proof.
  intros HB H Hz. rewrite Forall_forall in H. unfold in_all, allk. split; intros A s Hs.
  - apply (elem_kB B s z HB Hz (H s Hs)). auto.
  - apply (elem_kB B s z HB Hz (H s Hs)). auto.
Qed.
Lemma nf_in_okr B s a b : BIG <= B -> nf s -> In (a, b) s -> okr B (a, b).
Proof. intros HB N H. eapply nfk_in; [apply nf_nfk; eassumption|assumption]. Qed.

Lemma no_overrun_safe B l a0 b0 t rest : BIG <= B -> Forall nf l -> l = ((a0, b0) :: t) :: rest -> ~ overrun l -> safe B l b0.
Proof.
  intros HB N El Ho s a b z Hs Hr Hb Az Nz Ha.
  destruct (Z_le_gt_dec (key B b) (z + 1)) as [|C]; [assumption|]. exfalso. apply Ho.
  assert (Ns : forall t, In t l -> nf t) by now apply Forall_forall.
  destruct (nf_in_okr B s a b HB (Ns s Hs) Hr) as (Wa & Wb & _ & _ & _).
  assert (H0 : okr B (a0, b0)).
  { apply (nf_in_okr B ((a0, b0) :: t)); [assumption| |now left]. apply Ns. subst l. now left. }
  destruct H0 as (Wa0 & Wb0 & L0 & L1 & L2). cbn [fst snd] in *.
  assert (Kb := key_bounds B HB b Wb).
  assert (Hz : z <= LLONG_MAX).
  { destruct (Z_le_gt_dec z LLONG_MAX) as [|G]; [assumption|]. exfalso. apply Nz. intros u Hu. specialize (Az u Hu).
    apply memk_in in Az. destruct Az as (x & y & J1 & J2). apply memk_in. exists x, y. split; [assumption|].
    destruct (nf_in_okr B u x y HB (Ns u Hu) J1) as (_ & Wy & _). cbn in Wy.
    destruct (key_cases B HB y Wy) as [Q|[Q|Q]]; unfold BIG, LLONG_MAX in *; lia. }
  assert (HzB : - B < z /\ z + 2 < B) by (unfold BIG, LLONG_MAX in *; lia).
  exists (a0, b0), t, rest, s, (a, b), z. split; [assumption|]. split; [assumption|]. split; [assumption|]. split.
  { intros y x Hy Hx. cbn [fst snd] in *.
    assert (HB' : BIG <= Z.max B (Z.max (Bz y) (Bz x))) by lia.
    apply (between_k _ HB') in Hy; [|unfold Bz, BIG, LLONG_MAX in *; lia].
    apply (between_k _ HB') in Hx; [|unfold Bz, BIG, LLONG_MAX in *; lia].
    assert (Lt : iv_lt b0 a = true) by (rewrite (lt_k B HB) by assumption; lia).
    rewrite (lt_k _ HB') in Lt by tauto. lia. }
  split; [apply (in_all_k B l z); auto; lia|]. split; [intros A; apply Nz; apply (in_all_k B l (z + 1)); auto; lia|].
  split; apply (between_k B HB); cbn; try lia; repeat split; auto; lia.
Qed.

Lemma nfk_starts B lo s a b : nfk B lo s -> In (a, b) s -> ~ memk B (key B a - 1) s.
Proof.
  revert lo. induction s as [|r s IH]; cbn; intros lo H; [tauto|]. intros [E|H'] M.
  - subst r. destruct H as ((_ & _ & O & _) & _ & N). cbn [fst snd] in *. destruct M as [M|M]; [lia|].
    apply (memk_lo B) with (lo := key B b + 2) in M; [lia|exact N].
  - destruct H as (O & _ & N). destruct M as [M|M].
    + assert (L : key B (snd r) + 2 <= key B a).
      { apply (memk_lo B s _ _ N). apply memk_in. exists a, b. split; [assumption|].
        destruct (nfk_in B _ _ _ _ N H') as (_ & _ & Q & _). cbn in Q. lia. }
      lia.
    + now apply (IH _ N H' M).
Qed.
Lemma start_inv B l a0 b0 t rest : BIG <= B -> Forall nf l -> l = ((a0, b0) :: t) :: rest -> inv B (rev l) b0 a0 b0 [].
Proof.
  intros HB N El.
  assert (Hin : In ((a0, b0) :: t) (rev l)) by (rewrite <- in_rev; subst l; now left).
  assert (Nk : nfs B (rev l)) by (intros s Hs; rewrite <- in_rev in Hs; now apply (all_nfs B l HB N)).
  destruct (b0_ok B (rev l) a0 b0 t Nk Hin) as (W1 & W2 & L1 & L2 & L3 & L4).
  split; auto.
  - exists ((a0, b0) :: t). split; [assumption|]. apply (nfk_ends B (- B) _ a0 b0 (Nk _ Hin)). now left.
  - intros z A Hz. specialize (A _ Hin). apply memk_in in A. destruct A as (x & y & [E|J] & J2).
    + inversion E; subst. lia.
    + apply L4 in J. lia.
  - cbn. auto.
  - intros z [].
  - intros z x [].
  - intros Q. lia.
Qed.

Lemma intersect_ok l : l <> [] -> Forall nf l -> ~ overrun l ->
  exists n, forall m, (n <= m)%nat ->
   (exists r, array_intersect m l = Ok r /\ nf r /\ forall z, elem z r <-> in_all z l) \/
   (array_intersect m l = Err ArithmeticError /\ exists z, LLONG_MAX - 1 <= z /\ in_all z l).
Proof.
  intros Hl N Ho. destruct l as [|s0 rest]; [congruence|]. destruct s0 as [|[a0 b0] t].
  { exists O. intros m _. left. exists []. split; [reflexivity|]. split; [constructor|]. intros z. split.
    - intros (a & b & [] & _).
    - intros A. destruct (A [] (or_introl eq_refl)) as (a & b & [] & _). }
  cbn [array_intersect]. set (l := ((a0, b0) :: t) :: rest) in *.
  assert (Hin : In ((a0, b0) :: t) (rev l)) by (rewrite <- in_rev; now left).
  assert (Main : forall B, BIG <= B -> forall m,
    match meet_loop m (rev l) b0 a0 b0 [] with
    | Ok r => nfk B (- B) r /\ forall z, memk B z r <-> allk B z l
    | Err ArithmeticError => exists z, LLONG_MAX - 1 <= z < B /\ allk B z l
    | Err OutOfFuel => Z.of_nat m <= weight B a0 b0
    | _ => False
    end).
  { intros B HB m.
    assert (Nk : nfs B (rev l)) by (intros s Hs; rewrite <- in_rev in Hs; now apply (all_nfs B l HB N)).
    assert (Sa : safe B (rev l) b0).
    { intros s a b z Hs Hr Hb Az Nz Ha. rewrite <- in_rev in Hs.
      refine (no_overrun_safe B l a0 b0 t rest HB N eq_refl Ho s a b z Hs Hr Hb _ _ Ha).
      - intros u Hu. apply Az. now rewrite <- in_rev.
      - intros A. apply Nz. intros u Hu. apply A. now rewrite in_rev. }
    assert (R := meet_ok B HB (rev l) a0 b0 t Nk Hin Sa m a0 b0 [] (start_inv B l a0 b0 t rest HB N eq_refl)).
    destruct (meet_loop m (rev l) b0 a0 b0 []) as [r|[]|]; auto.
    - destruct R as [R1 R2]. split; [assumption|]. intros z. rewrite R2. unfold allk. split; intros A s Hs; apply A.
      + now rewrite <- in_rev.
      + now rewrite in_rev.
    - destruct R as (z & R1 & R2). exists z. split; [assumption|]. intros s Hs. apply R2. now rewrite <- in_rev. }
  exists (S (Z.to_nat (weight BIG a0 b0))). intros m Hm.
  assert (R := Main BIG BIG_ok m).
  destruct (meet_loop m (rev l) b0 a0 b0 []) as [r|[]|] eqn:E; try contradiction.
  - left. exists r. split; [reflexivity|]. destruct R as [R1 _].
    assert (Nr : nf r) by (eapply nfk_nf; [exact BIG_ok|exact R1]). split; [assumption|].
    intros z. destruct (Bz_ok z) as [HB Hz]. assert (R' := Main (Bz z) HB m). rewrite E in R'. destruct R' as [_ R'].
    rewrite (elem_k r z Nr), (in_all_k (Bz z) l z HB N Hz). apply R'.
  - right. split; [reflexivity|]. destruct R as (z & R1 & R2). exists z. split; [lia|].
    apply (in_all_k BIG l z BIG_ok N); [unfold BIG, LLONG_MAX in *; lia|assumption].
  - lia.
Qed.

Lemma no_overrun_single s : ~ overrun [s].
Proof.
  intros (r0 & t & rest & s' & r & z & E & Hs & Hr & _ & A & Na & B1 & B2). destruct Hs as [<-|[]].
  apply Na. intros u [<-|[]]. exists (fst r), (snd r). split; [now destruct r|].
  destruct B1 as (x & y & D1 & D2 & L1 & L2). destruct B2 as (x' & y' & D1' & D2' & L1' & L2').
  rewrite D1 in D1'. rewrite D2 in D2'. inversion D1'; inversion D2'; subst x' y'.
  exists x, y. split; [assumption|]. split; [assumption|]. destruct x, y; cbn in *; try tauto; lia.
Qed.
Lemma no_overrun_range r0 rest : ~ overrun ([r0] :: rest).
Proof.
  intros (r & t & rest' & s & q & z & E & Hs & Hr & Be & A & _ & B1 & _). inversion E; subst.
  destruct (A _ (or_introl eq_refl)) as (a & b & [Eq|[]] & Bz0). subst r.
  specialize (Be z z Bz0 B1). lia.
Qed.

Lemma scan_through B l : BIG <= B -> forall mn mx a b, nfs B l -> wfv mn -> wfv mx -> scan l mn mx = Through a b ->
  wfv a /\ wfv b /\ key B mn <= key B a /\ key B b <= key B mx /\ forall z, key B a <= z <= key B b -> allk B z l.
Proof.
  intros HB. induction l as [|s l IH]; intros mn mx a b N Wn Wx E; cbn [scan] in E.
  - inversion E; subst. repeat split; auto; try lia. intros z _ s [].
  - destruct (skip_below_ok B HB s mn _ (N s (or_introl eq_refl)) Wn) as (_ & _ & _ & _ & _ & _ & S4).
    destruct (skip_below s mn) as [|[x y] t]; [discriminate|].
    assert (Hi : In (x, y) s) by (apply S4; now left).
    destruct (nfk_in B _ _ _ _ (N s (or_introl eq_refl)) Hi) as (Wa & Wb & _). cbn [fst snd] in *.
    destruct (iv_gt x mx); [discriminate|].
    apply IH in E; [|intros u Hu; apply N; now right|destruct (iv_lt mn x); assumption|destruct (iv_gt mx y); assumption].
    unfold iv_gt in E. rewrite !(lt_k B HB) in E by assumption.
    destruct E as (E1 & E2 & E3 & E4 & E5). split; [assumption|]. split; [assumption|].
    split; [destruct (key B mn <? key B x) eqn:C; lia|]. split; [destruct (key B y <? key B mx) eqn:C; lia|].
    intros z Hz u [<-|Hu]; [|now apply E5]. apply memk_in. exists x, y. split; [assumption|].
    destruct (key B mn <? key B x) eqn:C1; destruct (key B y <? key B mx) eqn:C2; lia.
Qed.
Lemma scan_restart l : forall mn mx a b, Forall nf l -> wfv mn -> scan l mn mx = Again a b -> wfv a /\ wfv b.
Proof.
  induction l as [|s l IH]; intros mn mx a b N Wn E; cbn [scan] in E; [discriminate|].
  inversion N; subst.
  destruct (skip_below_ok BIG BIG_ok s mn _ (nf_nfk BIG BIG_ok s H1) Wn) as (_ & _ & _ & _ & _ & _ & S4).
  destruct (skip_below s mn) as [|[x y] t]; [discriminate|].
  assert (Hi : In (x, y) s) by (apply S4; now left).
  destruct (nf_in_okr BIG s x y BIG_ok H1 Hi) as (Wa & Wb & _).
  destruct (iv_gt x mx); [inversion E; subst; auto|].
  apply (IH _ _ _ _ H2) in E; [assumption|]. destruct (iv_lt mn x); assumption.
Qed.

Lemma intersect_sound fuel l r : Forall nf l -> array_intersect fuel l = Ok r -> forall z, elem z r -> in_all z l.
Proof.
  intros N. destruct l as [|s0 rest]; [discriminate|]. destruct s0 as [|[a0 b0] t].
  { intros E. inversion E. intros z (a & b & [] & _). }
  cbn [array_intersect]. set (l := ((a0, b0) :: t) :: rest) in *.
  assert (Nr : Forall nf (rev l)) by (apply Forall_rev; assumption).
  destruct (nf_in_okr BIG ((a0, b0) :: t) a0 b0 BIG_ok) as (W1 & W2 & _); [now inversion N|now left|]. cbn [fst snd] in *.
  assert (G : forall n mn mx acc, wfv mn -> wfv mx -> (forall z, elem z acc -> in_all z l) ->
     meet_loop n (rev l) b0 mn mx acc = Ok r -> forall z, elem z r -> in_all z l).
  { induction n as [|n IH]; intros mn mx acc Wn Wx Ha E; cbn [meet_loop] in E; [discriminate|].
    destruct (scan (rev l) mn mx) as [|a b|a b] eqn:Sc.
    - inversion E; subst. assumption.
    - destruct (scan_restart _ _ _ _ _ Nr Wn Sc). now apply (IH a b acc).
    - destruct (iv_add b (ofZ 2)) as [nx| |] eqn:Ad; cbn [bind] in E; try discriminate.
      assert (Wnx : wfv nx).
      { destruct (scan_through BIG (rev l) BIG_ok mn mx a b (all_nfs _ _ BIG_ok Nr) Wn Wx Sc) as (_ & Wb & _).
        destruct (Z_lt_ge_dec (- BIG) (key BIG b)) as [L|L].
        - destruct (iv_add2 BIG BIG_ok b Wb L) as [(nx' & E' & W' & _)|[E' _]]; rewrite E' in Ad; [|discriminate].
          inversion Ad; subst. assumption.
        - destruct (key_bounds BIG BIG_ok b Wb) as [L' _].
          assert (Kb : key BIG b = - BIG) by lia. rewrite (key_minf BIG BIG_ok b Wb Kb) in Ad. discriminate. }
      revert E. apply (IH nx b0 _ Wnx W2).
      intros z (x & y & Hi & Hb). apply in_app_or in Hi. destruct Hi as [Hi|[Q|[]]]; [apply Ha; exists x, y; auto|].
      inversion Q; subst x y. destruct (Bz_ok z) as [HB Hz]. apply (between_k _ HB) in Hb; [|assumption].
      destruct (scan_through (Bz z) (rev l) HB mn mx a b (all_nfs _ _ HB Nr) Wn Wx Sc) as (_ & _ & _ & _ & Q5).
      apply (in_all_k (Bz z) l z HB N Hz). intros s Hs. apply Q5; [tauto|]. now rewrite <- in_rev. }
  apply (G fuel a0 b0 [] W1 W2). intros z (x & y & [] & _).
Qed.

(** ** Union *)
Lemma union_loop_ok l : forall acc, nf acc -> Forall nf l -> 
  (exists r, union_loop acc l = Ok r /\ nf r /\ forall z, elem z r <-> elem z acc \/ in_some z l) \/
  (union_loop acc l = Err ArithmeticError /\ (at_edge acc \/ exists s, In s l /\ at_edge s)).
Proof.
  induction l as [|s l IH]; intros acc Na Nl; cbn [union_loop].
  - left. exists acc. split; [reflexivity|]. split; [assumption|]. intros z. split; [auto|]. intros [H|(s & [] & _)]. assumption.
  - inversion Nl; subst. destruct (C06_union_l acc s Na H1) as [(u & E & Nu & Hu)|[E He]]; rewrite E; cbn [bind].
    + destruct (IH u Nu H2) as [(r & E' & Nr & Hr)|[E' He]].
      * left. exists r. split; [assumption|]. split; [assumption|]. intros z. rewrite Hr, Hu. split.
        -- intros [[H|H]|(t & T1 & T2)]; [auto|right; exists s; cbn; auto|right; exists t; cbn; auto].
        -- intros [H|(t & [<-|T1] & T2)]; auto. right. exists t. auto.
      * right. split; [assumption|]. destruct He as [He|(t & T1 & T2)]; [|right; exists t; cbn; auto].
        (* an end of u at the edge is an end of acc or of s *)
        assert (G : at_edge acc \/ at_edge s); [|destruct G; [auto|right; exists s; cbn; auto]].
        destruct He as (a & b & Hi & Hab).
        assert (Hok := nf_in_okr BIG u a b BIG_ok Nu Hi). destruct Hok as (Wa & Wb & Lab & _). cbn [fst snd] in *.
        assert (Up : forall s', nf s' -> elem LLONG_MAX s' -> ~ elem (LLONG_MAX + 1) s' -> at_edge s').
        { intros s' Ns' (x & y & Hx & Bx) Nx. exists x, y. split; [assumption|]. right.
          destruct (nf_in_okr BIG s' x y BIG_ok Ns' Hx) as (Wx & Wy & _). cbn in *.
          apply (between_k BIG BIG_ok) in Bx; [|unfold BIG, LLONG_MAX; lia].
          destruct (key_cases BIG BIG_ok y Wy) as [Q|[Q|Q]]; [|unfold BIG, LLONG_MAX in *; lia|].
          - exfalso. apply Nx. exists x, y. split; [assumption|]. apply (between_k BIG BIG_ok); unfold BIG, LLONG_MAX in *; [lia|]. repeat split; auto; lia.
          - destruct (key_fin BIG y Wy ltac:(unfold BIG, LLONG_MIN, LLONG_MAX in *; lia)) as (Q1 & Q2 & _).
            destruct y as [v i]; cbn in *; subst. unfold ofZ. f_equal. lia. }
        assert (Dn : forall s', nf s' -> elem LLONG_MIN s' -> ~ elem (LLONG_MIN - 1) s' -> at_edge s').
        { intros s' Ns' (x & y & Hx & Bx) Nx. exists x, y. split; [assumption|]. left.
          destruct (nf_in_okr BIG s' x y BIG_ok Ns' Hx) as (Wx & Wy & _). cbn in *.
          apply (between_k BIG BIG_ok) in Bx; [|unfold BIG, LLONG_MIN, LLONG_MAX; lia].
          destruct (key_cases BIG BIG_ok x Wx) as [Q|[Q|Q]]; [unfold BIG, LLONG_MIN, LLONG_MAX in *; lia| |].
          - exfalso. apply Nx. exists x, y. split; [assumption|]. apply (between_k BIG BIG_ok); unfold BIG, LLONG_MIN, LLONG_MAX in *; [lia|]. repeat split; auto; lia.
          - destruct (key_fin BIG x Wx ltac:(unfold BIG, LLONG_MIN, LLONG_MAX in *; lia)) as (Q1 & Q2 & _).
            destruct x as [v i]; cbn in *; subst. unfold ofZ. f_equal. lia. }
        destruct Hab as [->| ->].
        -- assert (In_ : elem LLONG_MIN u).
           { exists (ofZ LLONG_MIN), b. split; [assumption|]. apply (between_k BIG BIG_ok); [unfold BIG, LLONG_MIN, LLONG_MAX; lia|].
             split; [exact Wa|]. split; [exact Wb|]. unfold key in Lab |- *. cbn [iv_inf iv_v ofZ fst snd] in *. unfold LLONG_MIN, LLONG_MAX in *. lia. }
           assert (Out : ~ elem (LLONG_MIN - 1) u).
           { intros El. apply (elem_kB BIG u _ BIG_ok) in El; [|unfold BIG, LLONG_MIN, LLONG_MAX; lia|assumption].
             apply (nfk_starts BIG _ u _ b (nf_nfk BIG BIG_ok u Nu) Hi). exact El. }
           apply Hu in In_. rewrite Hu in Out. destruct In_; [left|right]; apply Dn; auto.
        -- assert (In_ : elem LLONG_MAX u).
           { exists a, (ofZ LLONG_MAX). split; [assumption|]. apply (between_k BIG BIG_ok); [unfold BIG, LLONG_MIN, LLONG_MAX; lia|].
             split; [exact Wa|]. split; [exact Wb|]. unfold key in Lab |- *. cbn [iv_inf iv_v ofZ fst snd] in *. unfold LLONG_MIN, LLONG_MAX in *. lia. }
           assert (Out : ~ elem (LLONG_MAX + 1) u).
           { intros El. apply (elem_kB BIG u _ BIG_ok) in El; [|unfold BIG, LLONG_MAX; lia|assumption].
             apply (nfk_ends BIG _ u a _ (nf_nfk BIG BIG_ok u Nu) Hi). exact El. }
           apply Hu in In_. rewrite Hu in Out. destruct In_; [left|right]; apply Up; auto.
    + right. split; [reflexivity|]. destruct He; [auto|right; exists s; cbn; auto].
Qed.
