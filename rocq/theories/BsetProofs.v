Require Import ZArith List Bool Lia ZifyBool.
From Verif Require Import Base IntValModel IntValSpec IntValProofs SetModel SetSpec SetProofs SetProofs2 SetProofs3 SetPropProofs
  BsetModel BsetSpec.
Import ListNotations.
Open Scope Z_scope.

Section K.
Context (B : Z) (HB : BIG <= B).
Notation K := (key B).
Notation nfk := (nfk B).
Notation memk := (memk B).
Definition allk (z : Z) (l : list iset) : Prop := forall s, In s l -> memk z s.
Definition nfs (l : list iset) : Prop := forall s, In s l -> nfk (- B) s.

Lemma memk_in z s : memk z s <-> exists a b, In (a, b) s /\ K a <= z <= K b.
Proof.
  induction s as [|[a b] s IH]; cbn.
  - split; [tauto|]. intros (a & b & [] & _).
  - rewrite IH. split.
    + intros [H|(a' & b' & H & H')]; [exists a, b|exists a', b']; auto.
    + intros (a' & b' & [E|H] & H'); [inversion E; subst; auto|]. right. exists a', b'. auto.
Qed.
Lemma nfk_in lo s a b : nfk lo s -> In (a, b) s -> okr B (a, b).
Proof.
  revert lo. induction s as [|r s IH]; cbn; intros lo H; [tauto|]. intros [E|H'].
  - subst. apply H.
  - eapply IH; [apply H|assumption].
Qed.
Lemma nfk_ends lo s a b : nfk lo s -> In (a, b) s -> ~ memk (K b + 1) s.
Proof.
  revert lo. induction s as [|r s IH]; cbn; intros lo H; [tauto|]. intros [E|H'] M.
  - subst r. destruct H as (_ & _ & N). destruct M as [M|M]; [cbn in M; lia|].
    apply (memk_lo B) with (lo := K b + 2) in M; [lia|exact N].
  - destruct H as (O & _ & N). destruct M as [M|M].
    + assert (L : K (snd r) + 2 <= K b).
      { apply (memk_lo B s _ _ N). apply memk_in. exists a, b. split; [assumption|].
        destruct (nfk_in _ _ _ _ N H') as (_ & _ & Q & _). cbn in Q. lia. }
      lia.
    + now apply (IH _ N H' M).
Qed.

Lemma scan_ok l : forall mn mx, nfs l -> wfv mn -> wfv mx -> - B < K mx ->
  match scan l mn mx with
  | Done => forall z, K mn <= z -> ~ allk z l
  | Again a b => (exists s, In s l /\ In (a, b) s) /\ (K mn <= K mx -> K mn < K a) /\ (K mx < K mn -> K mx < K a) /\
      K mn <= K b /\ (forall z, K mn <= z -> allk z l -> K a <= z)
  | Through a b => wfv a /\ wfv b /\ K mn <= K a /\ - B < K b <= K mx /\ (K mn <= K mx -> K a <= K b) /\
      (forall z, K a <= z <= K b -> allk z l) /\ (forall z, K mn <= z -> allk z l -> K a <= z) /\
      (b = mx \/ exists s, In s l /\ ~ memk (K b + 1) s) /\
      (forall s, In s l -> exists a' b', In (a', b') s /\ K mn <= K b' /\ K a' <= K mx) /\ (K mn < B -> K a < B)
  end.
Proof.
  induction l as [|s l IH]; intros mn mx N Wn Wx Hx; cbn [scan].
  - split; [assumption|]. split; [assumption|]. split; [lia|]. split; [lia|]. split; [auto|].
    split; [intros z _ s []|]. split; [auto|]. split; [now left|]. split; [intros s []|auto].
  - assert (Ns := N s (or_introl eq_refl)). assert (Nl : nfs l) by (intros t Ht; apply N; now right).
    destruct (skip_below_ok B HB s mn _ Ns Wn) as (S1 & _ & S2 & _ & S3 & _ & S4).
    destruct (skip_below s mn) as [|[a b] t] eqn:Sk.
    + intros z Hz Ha. apply (S2 z Hz). apply Ha. now left.
    + assert (In_ab : In (a, b) s) by (apply S4; now left).
      destruct (nfk_in _ _ _ _ Ns In_ab) as (Wa & Wb & Lab & La & Lb). cbn [fst snd] in *.
      assert (Hb : K mn <= K b) by (apply (S3 (a, b) t); reflexivity).
      assert (First : forall z, K mn <= z -> memk z s -> K a <= z).
      { intros z Hz M. apply (S2 z Hz) in M. apply (memk_lo B) with (lo := K a) in M; [assumption|].
        cbn in S1 |- *. intuition lia. }
      unfold iv_gt. rewrite (lt_k B HB) by assumption. destruct (K mx <? K a) eqn:C.
      * split; [exists s; split; [now left|assumption]|]. split; [lia|]. split; [lia|]. split; [assumption|].
        intros z Hz Ha. apply First; [assumption|]. apply Ha. now left.
      * set (mn' := if iv_lt mn a then a else mn). set (mx' := if iv_lt b mx then b else mx).
        assert (Kn : wfv mn' /\ K mn' = Z.max (K mn) (K a)).
        { unfold mn'. rewrite (lt_k B HB) by assumption. destruct (K mn <? K a) eqn:D; split; try assumption; lia. }
        assert (Kx : wfv mx' /\ K mx' = Z.min (K mx) (K b) /\ (mx' = mx \/ mx' = b)).
        { unfold mx'. rewrite (lt_k B HB) by assumption. destruct (K b <? K mx) eqn:D; split; try assumption; (split; [lia|auto]). }
        destruct Kn as [Wn' Kn]. destruct Kx as (Wx' & Kx & Cx).
        specialize (IH mn' mx' Nl Wn' Wx' ltac:(lia)). destruct (scan l mn' mx') as [|a' b'|a' b'].
        -- intros z Hz Ha. apply (IH z).
           ++ assert (K a <= z) by (apply First; [assumption|apply Ha; now left]). lia.
           ++ intros t0 Ht. apply Ha. now right.
        -- destruct IH as ((s' & I1 & I2) & I3 & I3' & I4 & I5).
           split; [exists s'; split; [now right|assumption]|].
           split; [intros Q; assert (K mn' < K a') by (apply I3; lia); lia|].
           split; [intros Q; assert (K mx' < K a') by (apply I3'; lia); lia|].
           split; [lia|]. intros z Hz Ha. apply I5.
           ++ assert (K a <= z) by (apply First; [assumption|apply Ha; now left]). lia.
           ++ intros t0 Ht. apply Ha. now right.
        -- destruct IH as (W1 & W2 & I1 & I2 & I3 & I4 & I5 & I6 & I7 & I8).
           split; [assumption|]. split; [assumption|]. split; [lia|]. split; [lia|]. split; [intros Q; apply I3; lia|].
           split. { intros z Hz t0 [<-|Ht]; [apply memk_in; exists a, b; split; [assumption|lia]|now apply I4]. }
           split. { intros z Hz Ha. apply I5.
             - assert (K a <= z) by (apply First; [assumption|apply Ha; now left]). lia.
             - intros t0 Ht. apply Ha. now right. }
           split. { destruct I6 as [->|(s' & J1 & J2)]; [|right; exists s'; split; [now right|assumption]].
             destruct Cx as [->| ->]; [now left|]. right. exists s. split; [now left|]. now apply (nfk_ends _ _ a b Ns). }
           split; [|intros Q; apply I8; lia].
           intros t0 [<-|Ht]; [exists a, b; split; [assumption|split; lia]|].
           destruct (I7 t0 Ht) as (x & y & J1 & J2 & J3). exists x, y. split; [assumption|]. split; lia.
Qed.

Lemma nfk_snoc s : forall lo a b, nfk lo s -> okr B (a, b) -> lo <= K a -> (forall z, memk z s -> z + 2 <= K a) ->
  nfk lo (s ++ [(a, b)]).
Proof.
  induction s as [|[x y] s IH]; cbn [app]; intros lo a b N O L H.
  - cbn. auto.
  - cbn in N |- *. destruct N as (N1 & N2 & N3). split; [assumption|]. split; [assumption|].
    destruct N1 as (_ & _ & Q & _). cbn in Q. apply IH; auto.
    + assert (K y + 2 <= K a) by (apply H; cbn; lia). lia.
    + intros z M. apply H. cbn. now right.
Qed.
Lemma memk_snoc z s a b : memk z (s ++ [(a, b)]) <-> memk z s \/ K a <= z <= K b.
Proof.
  rewrite !memk_in. split.
  - intros (x & y & H & H'). apply in_app_or in H. destruct H as [H|[E|[]]]; [left; eauto|]. inversion E; subst. auto.
  - intros [(x & y & H & H')|H]; [exists x, y|exists a, b]; (split; [apply in_or_app; cbn; auto|assumption]).
Qed.

Section Loop.
Variable l : list iset.
Variable a0 b0 : IntVal.
Variable t0 : iset.
Hypothesis Hl : nfs l.
Hypothesis Hin : In ((a0, b0) :: t0) l.
Definition safe : Prop :=
  forall s a b z, In s l -> In (a, b) s -> K b0 < K a -> allk z l -> ~ allk (z + 1) l -> K a <= z -> K b <= z + 1.
Hypothesis Hsafe : safe.

Record inv (mn mx : IntVal) (acc : iset) : Prop := {
  i_mn : wfv mn;
  i_mx : wfv mx;
  i_lo : - B < K mx;
  i_up : K mn < B;
  i_end : exists s, In s l /\ ~ memk (K mx + 1) s;
  i_done : forall z, allk z l -> z < K mn -> memk z acc;
  i_nf : nfk (- B) acc;
  i_sub : forall z, memk z acc -> allk z l;
  i_gap : forall z x, memk z acc -> K mn <= x -> allk x l -> z + 2 <= x;
  i_head : K mx < K mn -> mx = b0 /\ exists p, K mn = p + 2 /\ allk p l /\ ~ allk (p + 1) l
}.
Definition weight (mn mx : IntVal) : Z := 3 * (B - K mn) + (if K mx <? K mn then 4 else 0).

Lemma b0_ok : wfv a0 /\ wfv b0 /\ K a0 <= K b0 /\ - B < K b0 /\ K a0 < B /\ forall a b, In (a, b) t0 -> K b0 + 2 <= K a.
Proof.
  assert (N := Hl _ Hin). assert (N' := N). cbn in N. destruct N as ((W1 & W2 & W3 & W4 & W5) & _ & Nt). cbn in *.
  repeat (split; [assumption|]). intros a b H. apply (memk_lo B t0 _ _ Nt). apply memk_in. exists a, b.
  split; [assumption|]. destruct (nfk_in _ _ _ _ Nt H) as (_ & _ & Q & _). cbn in Q. lia.
Qed.

Lemma iv_add2 b : wfv b -> - B < K b ->
  (exists nx, iv_add b (ofZ 2) = Ok nx /\ wfv nx /\ K nx = K b + 2 /\ K b < B) \/
  (iv_add b (ofZ 2) = Err ArithmeticError /\ LLONG_MAX - 1 <= K b).
Proof.
  intros W L. destruct (key_cases B HB b W) as [H|[H|H]]; [|lia|].
  - right. split; [now rewrite (key_pinf B HB b W H)|]. rewrite H. unfold BIG, LLONG_MAX in *. lia.
  - assert (I := key_fin B b W ltac:(unfold BIG, LLONG_MAX, LLONG_MIN in *; lia)). destruct I as (I1 & I2 & I3).
    assert (Ib : is_int b (iv_v b)) by (apply is_int_iff; split; [destruct b; cbn in *; subst; reflexivity|assumption]).
    assert (I2' : is_int (ofZ 2) 2) by (apply is_int_ofZ; unfold fits64, LLONG_MIN, LLONG_MAX; lia).
    rewrite (iv_add_spec _ _ _ _ Ib I2'). unfold outcome. destruct (fits64b (iv_v b + 2)) eqn:F.
    + left. exists (ofZ (iv_v b + 2)). split; [reflexivity|]. unfold fits64b in F. split; [|split].
      * unfold wfv, fits64. cbn. lia.
      * unfold key at 1. cbn. lia.
      * unfold BIG, LLONG_MAX in *. lia.
    + right. split; [reflexivity|]. unfold fits64b, fits64 in *. unfold LLONG_MIN, LLONG_MAX in *. lia.
Qed.

Lemma meet_ok : forall fuel mn mx acc, inv mn mx acc ->
  match meet_loop fuel l b0 mn mx acc with
  | Ok r => nfk (- B) r /\ forall z, memk z r <-> allk z l
  | Err ArithmeticError => exists z, LLONG_MAX - 1 <= z < B /\ allk z l
  | Err OutOfFuel => Z.of_nat fuel <= weight mn mx
  | _ => False
  end.
Proof.
  induction fuel as [|fuel IH]; intros mn mx acc I; cbn [meet_loop].
  - unfold weight. assert (Q := key_bounds B HB mn (i_mn _ _ _ I)). destruct (K mx <? K mn); lia.
  - destruct b0_ok as (Wa0 & Wb0 & L0 & L0' & L0'' & T0).
    assert (Sc := scan_ok l mn mx Hl (i_mn _ _ _ I) (i_mx _ _ _ I) (i_lo _ _ _ I)).
    destruct (scan l mn mx) as [|a b|a b].
    + split; [apply I|]. intros z. split; [apply I|]. intros Ha. apply (i_done _ _ _ I); [assumption|].
      destruct (Z_lt_ge_dec z (K mn)); [assumption|]. exfalso. apply (Sc z); [lia|assumption].
    + destruct Sc as ((s & S1 & S2) & S3 & S3' & S4 & S5).
      destruct (nfk_in _ _ _ _ (Hl s S1) S2) as (Wa & Wb & Lab & La & Lb). cbn [fst snd] in *.
      assert (I' : inv a b acc).
      { split; auto.
        - exists s. split; [assumption|]. now apply (nfk_ends _ _ a b (Hl s S1)).
        - intros z Ha Hz. destruct (Z_lt_ge_dec z (K mn)); [now apply (i_done _ _ _ I)|].
          assert (K a <= z) by (apply S5; [lia|assumption]). lia.
        - apply I.
        - apply I.
        - intros z x Mz Hx Ax. destruct (Z_lt_ge_dec x (K mn)) as [C|C]; [|apply (i_gap _ _ _ I z x Mz); [lia|assumption]].
          exfalso. assert (Q : K mx < K mn) by (destruct (Z_lt_ge_dec (K mx) (K mn)); [assumption|]; specialize (S3 ltac:(lia)); lia).
          destruct (i_head _ _ _ I Q) as (E & p & P1 & P2 & P3). subst mx.
          assert (x <= p) by (destruct (Z.eq_dec x (p + 1)); [subst; contradiction|lia]).
          assert (K b <= p + 1) by (apply (Hsafe s a b p S1 S2 (S3' Q) P2 P3); lia). lia.
        - intros; lia. }
      specialize (IH a b acc I'). destruct (meet_loop fuel l b0 a b acc) as [r|[]|]; try assumption; try contradiction.
      enough (weight a b < weight mn mx) by lia. unfold weight.
      replace (K b <? K a) with false by lia. destruct (K mx <? K mn) eqn:C.
      * (* the new lower end is at least the old one minus one *)
        destruct (i_head _ _ _ I ltac:(lia)) as (E & p & P1 & P2 & P3). subst mx.
        assert (p < K a); [|lia]. destruct (Z_lt_ge_dec p (K a)); [assumption|].
        assert (K b <= p + 1) by (apply (Hsafe s a b p S1 S2 (S3' ltac:(lia)) P2 P3); lia). lia.
      * specialize (S3 ltac:(lia)). lia.
    + destruct Sc as (Wa & Wb & S1 & S2 & S3 & S4 & S5 & S6 & S7 & S8).
      assert (Hn : K mn <= K mx).
      { destruct (Z_lt_ge_dec (K mx) (K mn)) as [Q|Q]; [|lia]. destruct (i_head _ _ _ I Q) as (-> & _).
        destruct (S7 _ Hin) as (x & y & [E|J] & J2 & J3); [inversion E; subst; lia|]. apply T0 in J. lia. }
      specialize (S3 Hn).
      assert (Nend : ~ allk (K b + 1) l).
      { intros A. destruct S6 as [->|(s & J1 & J2)]; [|apply J2; now apply A].
        destruct (i_end _ _ _ I) as (s & J1 & J2). apply J2. now apply A. }
      destruct (iv_add2 b Wb ltac:(lia)) as [(nx & -> & Wx & Kx & Lx)|[-> Lx]]; cbn [bind].
      * assert (I' : inv nx b0 (acc ++ [(a, b)])).
        { split; auto.
          - destruct (key_cases B HB b Wb) as [Q|[Q|Q]]; unfold BIG, LLONG_MAX, LLONG_MIN in *; lia.
          - exists ((a0, b0) :: t0). split; [assumption|]. apply (nfk_ends (- B) _ a0 b0 (Hl _ Hin)). now left.
          - intros z Az Hz. apply memk_snoc. destruct (Z_lt_ge_dec z (K mn)); [left; now apply (i_done _ _ _ I)|].
            right. split; [apply S5; [lia|assumption]|]. destruct (Z.eq_dec z (K b + 1)); [subst; contradiction|lia].
          - apply nfk_snoc; [apply I| | |].
            + unfold okr. cbn. split; [assumption|]. split; [assumption|]. lia.
            + apply (key_bounds B HB a Wa).
            + intros z Mz. apply (i_gap _ _ _ I z (K a) Mz S1). apply S4. lia.
          - intros z Mz. apply memk_snoc in Mz. destruct Mz as [Mz|Mz]; [now apply (i_sub _ _ _ I)|now apply S4].
          - intros z x Mz Hx Ax. apply memk_snoc in Mz. destruct Mz as [Mz|Mz]; [|lia].
            assert (z + 2 <= K a) by (apply (i_gap _ _ _ I z (K a) Mz S1); apply S4; lia). lia.
          - intros _. split; [reflexivity|]. exists (K b). split; [assumption|]. split; [apply S4; lia|assumption]. }
        specialize (IH nx b0 _ I'). destruct (meet_loop fuel l b0 nx b0 (acc ++ [(a, b)])) as [r|[]|]; try assumption; try contradiction.
        enough (weight nx b0 < weight mn mx) by lia. unfold weight. replace (K mx <? K mn) with false by lia.
        destruct (K b0 <? K nx); lia.
      * destruct (Z_lt_ge_dec (K b) B) as [C|C].
        -- exists (K b). split; [lia|]. apply S4. lia.
        -- assert (Qa := S8 (i_up _ _ _ I)). assert (Qc := key_cases B HB a Wa).
           exists (Z.max (K a) (LLONG_MAX - 1)). split; [unfold BIG, LLONG_MAX, LLONG_MIN in *; lia|]. apply S4.
           unfold BIG, LLONG_MAX, LLONG_MIN in *. lia.
Qed.
End Loop.
End K.
