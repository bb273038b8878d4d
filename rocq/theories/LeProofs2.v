(** Proofs about LeModel, part 2: one step of the compression, whatever the items are. *)
Require Import ZArith List Bool Lia ZifyBool Permutation.
From Verif Require Import Base IntValModel IntValSpec IntValProofs SetModel SetSpec LinModel LinSpec LinProofs LinProofs2 LinProofs3 LeModel LeSpec LeProofs.
Import ListNotations.
Open Scope Z_scope.

Lemma nth_error_upd {A} (l : list A) n m x : nth_error (upd l n x) m = if Nat.eqb n m then (if Nat.ltb n (length l) then Some x else None) else nth_error l m.
Proof.
  revert n m. induction l as [|a l IH]; intros n m.
  - cbn [upd length]. destruct (Nat.eqb n m); destruct m; reflexivity.
  - destruct n, m; cbn [upd nth_error length Nat.eqb]; try reflexivity. rewrite IH. destruct (Nat.eqb n m); [|reflexivity]. change (Nat.ltb (S n) (S (length l))) with (Nat.ltb n (length l)). reflexivity.
Qed.
(** an item of the model *)
Definition present (items : list slot) (m : nat) (i : fitem) : Prop := exists c, nth_error items m = Some (mkSlot (Some i) true c).
Lemma present_fun items m i j : present items m i -> present items m j -> i = j.
Proof. intros (c & E) (c' & E'). congruence. Qed.
Lemma present_rest items i : In i (rest items) <-> exists m, present items m i.
Proof.
  unfold rest. rewrite in_flat_map. split.
  - intros (sl & Hin & H). apply In_nth_error in Hin as (m & E). exists m. destruct sl as [[j|] [|] c]; cbn in H; try contradiction. destruct H as [->|[]]. exists c. exact E.
  - intros (m & c & E). exists (mkSlot (Some i) true c). split; [eapply nth_error_In; exact E|left; reflexivity].
Qed.
Definition holds (I : nat -> list Z -> Prop) (s : valuation) (items : list slot) : Prop := forall m i, present items m i -> sat I s i.
Lemma holds_rest I s items : holds I s items <-> Forall (sat I s) (rest items).
Proof.
  rewrite Forall_forall. split; intros H.
  - intros i Hi. apply present_rest in Hi as (m & Hm). eapply H; exact Hm.
  - intros m i Hm. apply H. apply present_rest. eauto.
Qed.
Lemma upd_present items n sl m i : present (upd items n sl) m i -> (m = n /\ s_item sl = Some i /\ s_live sl = true) \/ (m <> n /\ present items m i).
Proof.
  intros (c & E). rewrite nth_error_upd in E. destruct (Nat.eqb n m) eqn:X.
  - apply Nat.eqb_eq in X. subst m. destruct (Nat.ltb n (length items)); inversion E; subst. left. auto.
  - apply Nat.eqb_neq in X. right. split; [congruence|exists c; exact E].
Qed.
Lemma upd_other items n sl m i : m <> n -> present items m i -> present (upd items n sl) m i.
Proof. intros N (c & E). exists c. rewrite nth_error_upd. destruct (Nat.eqb n m) eqn:X; [apply Nat.eqb_eq in X; congruence|exact E]. Qed.

Section STEP.
Variables (V : venv) (sort : list term -> list nat).
Hypotheses (HV : resolved V) (Hsort : sorts sort).

Lemma replace_all_sound cur old new : old <> new -> forall todo items pre post r,
  replace_all V sort todo old new cur items pre post = Ok r -> NoDup (map snd todo) ->
  (forall e, In e todo -> exists i, present items (snd e) i /\ nonneg old i) -> (forall m i, present items m i -> sound_item i) ->
  match r with
  | PFail => forall I s, respects s (v_def V) -> vid s new <= vid s old -> ~ holds I s items
  | PGo items' _ _ =>
      length items' = length items /\ (forall m i, present items' m i -> sound_item i) /\
      (forall m, ~ In m (map snd todo) -> nth_error items' m = nth_error items m) /\
      (forall m i', In m (map snd todo) -> present items' m i' -> ~ In old (vars i') /\ forall v, In v (vars i') -> v = new \/ exists i, present items m i /\ In v (vars i)) /\
      forall I s, respects s (v_def V) -> (vid s new <= vid s old -> holds I s items -> holds I s items') /\ (vid s new = vid s old -> holds I s items' -> holds I s items)
  end.
Proof.
  intros Hne. induction todo as [|(k & n) todo IH]; intros items pre post r H ND Ht HS.
  - cbn in H. inversion H; subst. split; [reflexivity|]. split; [exact HS|]. split; [reflexivity|]. split; [intros m i' []|]. intros; split; auto.
  - cbn [replace_all] in H. cbn [map snd] in ND. inversion ND as [|? ? Nin ND']; subst. destruct (Ht _ (or_introl eq_refl)) as (i & (c & Ei) & Hnn). cbn [snd] in Ei. rewrite Ei in H.
    assert (Hpi : present items n i) by (exists c; exact Ei). assert (Hlen : (n < length items)%nat) by (apply nth_error_Some; congruence). apply bind_ok in H as (q & Hq & H).
    pose proof (fun I => replace_sound V sort I HV Hsort i old new q (HS _ _ Hpi) Hq) as R.
    (* what a replacement of this slot does *)
    assert (Common : forall sl items2, items2 = upd items n sl -> (forall j, s_item sl = Some j -> s_live sl = true -> sound_item j /\ ~ In old (vars j) /\ (forall v, In v (vars j) -> v = new \/ In v (vars i))) ->
      (forall I s, respects s (v_def V) -> (vid s new <= vid s old -> holds I s items -> holds I s items2) /\ (vid s new = vid s old -> holds I s items2 -> holds I s items)) ->
      forall pre' post', replace_all V sort todo old new cur items2 pre' post' = Ok r ->
      match r with
      | PFail => forall I s, respects s (v_def V) -> vid s new <= vid s old -> ~ holds I s items
      | PGo items' _ _ =>
          length items' = length items /\ (forall m i, present items' m i -> sound_item i) /\
          (forall m, ~ In m (map snd ((k, n) :: todo)) -> nth_error items' m = nth_error items m) /\
          (forall m i', In m (map snd ((k, n) :: todo)) -> present items' m i' -> ~ In old (vars i') /\ forall v, In v (vars i') -> v = new \/ exists i, present items m i /\ In v (vars i)) /\
          forall I s, respects s (v_def V) -> (vid s new <= vid s old -> holds I s items -> holds I s items') /\ (vid s new = vid s old -> holds I s items' -> holds I s items)
      end).
    { intros sl items2 -> Hsl Hh pre' post' H2. specialize (IH _ _ _ _ H2 ND').
      assert (A1 : forall e, In e todo -> exists i, present (upd items n sl) (snd e) i /\ nonneg old i).
      { intros e He. destruct (Ht e (or_intror He)) as (j & Hj & Hn). exists j. split; [|exact Hn]. apply upd_other; [|exact Hj]. intros E. apply Nin. rewrite <- E. apply in_map. exact He. }
      assert (A2 : forall m j, present (upd items n sl) m j -> sound_item j).
      { intros m j Hj. apply upd_present in Hj as [(-> & A & B)|(A & B)]; [apply (Hsl j A B)|eapply HS; exact B]. }
      specialize (IH A1 A2). destruct r as [|items' pre2 post2].
      - intros I s Hr Hle Hh'. apply (IH I s Hr Hle). apply Hh; assumption.
      - destruct IH as (L & S' & K & W & Q). rewrite upd_length in L. split; [exact L|]. split; [exact S'|]. split; [|split].
        + intros m Hm. cbn [map snd] in Hm. rewrite K by (intros X; apply Hm; right; exact X). rewrite nth_error_upd. destruct (Nat.eqb n m) eqn:X; [apply Nat.eqb_eq in X; exfalso; apply Hm; left; exact X|reflexivity].
        + intros m i' [E|Hm] Hp.
          * cbn [snd] in E. subst m. assert (Hp2 : present (upd items n sl) n i') by (destruct Hp as (c' & Ec); exists c'; rewrite <- K; [exact Ec|exact Nin]). apply upd_present in Hp2 as [(_ & A & B)|(A & _)]; [|congruence].
            destruct (Hsl i' A B) as (_ & X & Y). split; [exact X|]. intros v Hv. destruct (Y v Hv) as [-> |Hv']; [left; reflexivity|right; exists i; split; assumption].
          * destruct (W m i' Hm Hp) as [X Y]. split; [exact X|]. intros v Hv. destruct (Y v Hv) as [-> |(j & Hj & Hv')]; [left; reflexivity|]. right. apply upd_present in Hj as [(-> & _)|(_ & Hj)]; [contradiction|]. eauto.
        + intros I s Hr. destruct (Q I s Hr) as [Q1 Q2]. destruct (Hh I s Hr) as [H1 H3]. split; intros; auto. }
    destruct q as [| |i2 kk].
    + inversion H; subst. intros I s Hr Hle Hh. exact (R I s Hr Hle Hnn (Hh n i Hpi)).
    + eapply Common; [reflexivity| | |exact H].
      * cbn. discriminate.
      * intros I s Hr. split.
        -- intros _ Hh m j Hj. apply upd_present in Hj as [(_ & _ & X)|(_ & Hj)]; [discriminate|eapply Hh; exact Hj].
        -- intros Heq Hh m j Hj. destruct (Nat.eq_dec m n) as [->|Nm]; [rewrite (present_fun _ _ _ _ Hj Hpi); exact (R I s Hr Heq)|]. eapply Hh. apply upd_other; eassumption.
    + destruct (emplaces V kk (new, n) pre cur post) as [pre' post']. destruct (R (fun _ _ => True)) as (R1 & R2 & R3 & _). eapply Common; [reflexivity| | |exact H].
      * cbn. intros j E _. inversion E; subst. auto.
      * intros I s Hr. destruct (R I) as (_ & _ & _ & R4). destruct (R4 s Hr) as [R5 R6]. split.
        -- intros Hle Hh m j Hj. apply upd_present in Hj as [(_ & X & _)|(_ & Hj)]; [cbn in X; inversion X; subst; apply R5; [exact Hle|exact Hnn|exact (Hh n i Hpi)]|eapply Hh; exact Hj].
        -- intros Heq Hh m j Hj. destruct (Nat.eq_dec m n) as [->|Nm]; [|eapply Hh; apply upd_other; eassumption]. rewrite (present_fun _ _ _ _ Hj Hpi). apply R6; [exact Heq|]. apply (Hh n).
           exists true. rewrite nth_error_upd, Nat.eqb_refl. destruct (Nat.ltb n (length items)) eqn:X; [reflexivity|apply Nat.ltb_ge in X; lia].
Qed.

(** ** What a compression starts from *)
Lemma set_equal_eq : forall a b, set_equal a b = true -> a = b.
Proof.
  assert (E : forall x y, iv_eq x y = true -> x = y) by (intros [v i] [w j] H; unfold iv_eq in H; cbn in H; apply andb_true_iff in H as [H1 H2]; apply eqb_prop in H1; apply Z.eqb_eq in H2; congruence).
  induction a as [|(x & y) a IH]; intros [|(z & w) b] H; cbn in H; try discriminate; [reflexivity|]. destruct (iv_eq x z && iv_eq y w) eqn:X; [|discriminate]. apply andb_true_iff in X as [X1 X2]. apply E in X1, X2. subst. f_equal. apply IH. exact H.
Qed.
Lemma consider_go items ix i neg pos : sound_item i -> consider V items ix i = Ok (Go neg pos) ->
  v_out V neg = false /\ v_def V neg = RNone /\ v_dom V neg = v_dom V pos /\ (0 < length (with_key neg ix))%nat /\ occurrences items neg = S (length (with_key neg ix)) /\
  exists a b c, (i = Lin [a; b] [TId pos; TId neg] c \/ i = Lin [b; a] [TId neg; TId pos] c) /\ iv_v b = - iv_v a /\ 0 <= iv_v a /\ iv_v c = 0.
Proof.
  intros HS H. destruct i as [cs xs c|]; [|discriminate]. destruct cs as [|a0 [|a1 [|]]]; try discriminate. destruct xs as [|x0 [|x1 [|]]]; try discriminate. cbn [consider] in H.
  destruct HS as (_ & Fc & _ & Fr). inversion Fc as [|? ? F0 Fc']; subst. inversion Fc' as [|? ? F1 _]; subst.
  destruct (iv_eq c (ofZ 0)) eqn:Ec; [|discriminate]. rewrite fin_iv_eq in Ec by (auto using fin_0). apply bind_ok in H as (m & Hm & H). destruct (fin_neg _ _ F1 Hm) as [Fm Em].
  destruct (iv_eq a0 m && eq_bounds V x0 x1) eqn:Eb; [|discriminate]. apply andb_true_iff in Eb as [Ea Eb]. rewrite fin_iv_eq in Ea by assumption.
  assert (Dom : forall u v, (x0 = TId u /\ x1 = TId v \/ x0 = TId v /\ x1 = TId u) -> v_dom V u = v_dom V v).
  { intros u v K. unfold eq_bounds, bounds_of in Eb. destruct K as [(-> & ->)|(-> & ->)]; destruct (v_dom V u), (v_dom V v); try discriminate; try reflexivity; apply set_equal_eq in Eb; congruence. }
  rewrite fin_iv_lt in H by assumption.
  assert (G : forall xn xp, match xn with TId neg0 => match v_def V neg0 with RNone => match xp with TId pos0 => Ok (if negb (v_out V neg0) && Nat.ltb 0 (length (with_key neg0 ix)) && Nat.eqb (occurrences items neg0) (length (with_key neg0 ix) + 1) then Go neg0 pos0 else Skip) | _ => Ok Skip end | _ => Ok Skip end | _ => Ok Stop end = Ok (Go neg pos) ->
    xn = TId neg /\ xp = TId pos /\ v_out V neg = false /\ v_def V neg = RNone /\ (0 < length (with_key neg ix))%nat /\ occurrences items neg = S (length (with_key neg ix))).
  { intros xn xp K. destruct xn as [|n'|]; try discriminate. destruct (v_def V n') eqn:Ed; try discriminate. destruct xp as [|p'|]; try discriminate.
    destruct (negb (v_out V n') && Nat.ltb 0 (length (with_key n' ix)) && Nat.eqb (occurrences items n') (length (with_key n' ix) + 1)) eqn:X; inversion K; subst. apply andb_true_iff in X as [X X3]. apply andb_true_iff in X as [X1 X2]. apply negb_true_iff in X1. apply Nat.ltb_lt in X2. apply Nat.eqb_eq in X3. repeat split; auto. lia. }
  cbn [ofZ iv_v] in Ec. destruct (iv_v a0 <? iv_v a1) eqn:El; apply G in H as (-> & -> & H1 & H2 & H3 & H4).
  - split; [exact H1|]. split; [exact H2|]. split; [apply Dom; auto|]. split; [exact H3|]. split; [exact H4|]. exists a1, a0, c. split; [right; reflexivity|lia].
  - split; [exact H1|]. split; [exact H2|]. split; [apply Dom; auto|]. split; [exact H3|]. split; [exact H4|]. exists a0, a1, c. split; [left; reflexivity|lia].
Qed.
End STEP.
