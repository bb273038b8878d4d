(** Proofs about LeModel, part 3: one step keeps the solutions. *)
Require Import ZArith List Bool Lia ZifyBool Permutation.
From Verif Require Import Base IntValModel IntValSpec IntValProofs SetModel SetSpec LinModel LinSpec LinProofs LinProofs2 LinProofs3 LeModel LeSpec LeProofs LeProofs2.
Import ListNotations.
Open Scope Z_scope.

(** ** Counting *)
Fixpoint indices (f : slot -> bool) (n : nat) (l : list slot) : list nat :=
  match l with [] => [] | x :: l' => (if f x then [n] else []) ++ indices f (S n) l' end.
Lemma indices_length f l : forall n, length (indices f n l) = length (filter f l).
Proof. induction l as [|x l IH]; intros n; [reflexivity|]. cbn [indices filter]. destruct (f x); cbn [app length]; rewrite IH; reflexivity. Qed.
Lemma indices_in f l : forall n m, In m (indices f n l) <-> (n <= m)%nat /\ exists x, nth_error l (m - n) = Some x /\ f x = true.
Proof.
  induction l as [|x l IH]; intros n m; cbn [indices].
  - split; [intros []|]. intros (_ & y & E & _). destruct (m - n)%nat; discriminate.
  - rewrite in_app_iff, IH. split.
    + intros [H|(L & y & E & F)].
      * destruct (f x) eqn:X; [|contradiction]. destruct H as [->|[]]. split; [lia|]. exists x. rewrite Nat.sub_diag. auto.
      * split; [lia|]. exists y. split; [|exact F]. replace (m - n)%nat with (S (m - S n)) by lia. exact E.
    + intros (L & y & E & F). destruct (Nat.eq_dec m n) as [->|N].
      * left. rewrite Nat.sub_diag in E. cbn in E. inversion E; subst. rewrite F. left. reflexivity.
      * right. split; [lia|]. exists y. split; [|exact F]. replace (m - n)%nat with (S (m - S n)) in E by lia. exact E.
Qed.
Definition counts (v : ident) (sl : slot) : bool := s_counted sl && match s_item sl with Some i => mentions v i | None => false end.
(** as many items as occurrences: there are no others *)
Lemma all_occurrences items v L : NoDup L -> occurrences items v = length L -> (forall m, In m L -> exists sl, nth_error items m = Some sl /\ counts v sl = true) ->
  forall m sl, nth_error items m = Some sl -> counts v sl = true -> In m L.
Proof.
  intros ND Ho HL m sl E C. apply (@NoDup_length_incl _ L (indices (counts v) 0 items)); [exact ND| | |].
  - rewrite indices_length. unfold occurrences in Ho. fold (counts v) in Ho. lia.
  - intros k Hk. apply indices_in. split; [lia|]. rewrite Nat.sub_0_r. apply HL. exact Hk.
  - apply indices_in. split; [lia|]. rewrite Nat.sub_0_r. eauto.
Qed.

(** ** Changing a variable that is not mentioned *)
Definition set_var (s : valuation) (v : ident) (z : Z) : valuation := {| vid := fun i => if ident_eqb i v then z else vid s i; vexp := vexp s |}.
Lemma set_other s v z i : i <> v -> vid (set_var s v z) i = vid s i.
Proof. intros N. cbn. apply ident_eqb_neq in N. rewrite N. reflexivity. Qed.
Lemma set_same s v z : vid (set_var s v z) v = z.
Proof. cbn. rewrite ident_eqb_refl. reflexivity. Qed.
Lemma sat_set I s v z i : ~ In v (vars i) -> (sat I (set_var s v z) i <-> sat I s i).
Proof.
  intros N. destruct i as [cs xs c|p vs]; cbn [sat].
  - assert (E : map (tval (set_var s v z)) xs = map (tval s) xs).
    { apply map_ext_in. intros t Ht. destruct t as [|j|]; try reflexivity. cbn [tval]. apply set_other. intros ->. apply N. apply vars_lin. exact Ht. }
    unfold lin_value. rewrite E. reflexivity.
  - assert (E : map (vid (set_var s v z)) vs = map (vid s) vs) by (apply map_ext_in; intros j Hj; apply set_other; intros ->; contradiction). rewrite E. reflexivity.
Qed.

Section STEP.
Variables (V : venv) (sort : list term -> list nat).
Hypotheses (HV : resolved V) (Hsort : sorts sort).
Definition gone : slot := mkSlot None false false.

(** the flags of the items agree, and their numbers are in order *)
Definition good_slots (items : list slot) : Prop :=
  (forall m sl, nth_error items m = Some sl -> s_counted sl = s_live sl) /\ (forall m i, present items m i -> sound_item i).
(** the entries of a variable are items in which it has positive coefficients only *)
Definition good_entries (items : list slot) (v : ident) (l : list entry) : Prop :=
  NoDup (map snd (with_key v l)) /\ forall e, In e (with_key v l) -> exists i, present items (snd e) i /\ nonneg v i /\ In v (vars i).

Theorem step_sound items ix cur i neg pos pre post r :
  good_slots items -> good_entries items neg ix -> present items (snd cur) i -> neg <> pos ->
  (forall cs xs c, i = Lin cs xs c -> Forall (fun a => iv_v a <> 0) cs) ->
  consider V items ix i = Ok (Go neg pos) -> replace_all V sort (with_key neg ix) neg pos cur items pre post = Ok r ->
  match r with
  | PFail => forall I s, ~ solves V I s (rest items)
  | PGo items' _ _ => same_without V [neg] (rest items) (rest (upd items' (snd cur) gone))
  end.
Proof.
  intros [Hflag HS] [ND He] Hp Hne Hnz Hc Hr. destruct (consider_go V items ix i neg pos (HS _ _ Hp) Hc) as (Ho & Hd & Hdom & _ & Hocc & a & b & c & Hi & Hb & Ha & Hzero).
  assert (Ha' : 0 < iv_v a) by (destruct Hi as [-> | ->]; specialize (Hnz _ _ _ eq_refl); inversion Hnz as [|? ? X1 X2]; subst; inversion X2; subst; lia).
  assert (Hle : forall I s, sat I s i <-> vid s pos <= vid s neg).
  { intros I s. destruct Hi as [-> | ->]; cbn [sat]; unfold lin_value; cbn [map dot tval ofZ iv_v]; rewrite Hb, Hzero; split; nia. }
  assert (Hvi : In neg (vars i) /\ In pos (vars i)) by (destruct Hi as [-> | ->]; rewrite !vars_lin; cbn; auto).
  assert (Hcur : ~ In (snd cur) (map snd (with_key neg ix))).
  { intros X. apply in_map_iff in X as (e & E & Hin). destruct (He e Hin) as (j & Hj & Hn & _). rewrite E in Hj. rewrite <- (present_fun _ _ _ _ Hp Hj) in Hn.
    destruct Hi as [-> | ->]; [specialize (Hn 1%nat b eq_refl eq_refl)|specialize (Hn 0%nat b eq_refl eq_refl)]; lia. }
  assert (Hall : forall m j, present items m j -> In neg (vars j) -> m = snd cur \/ In m (map snd (with_key neg ix))).
  { intros m j Hj Hv. assert (X : In m (snd cur :: map snd (with_key neg ix))); [|destruct X; auto]. destruct Hj as (cf & E). pose proof (Hflag _ _ E) as F. cbn in F. subst cf.
    eapply all_occurrences; [constructor; [exact Hcur|exact ND]|cbn [length]; rewrite map_length; exact Hocc| |exact E|unfold counts; cbn; apply mentions_vars; exact Hv].
    intros k [<-|Hk].
    - destruct Hp as (cf & E2). pose proof (Hflag _ _ E2) as F. cbn in F. subst cf. eexists. split; [exact E2|]. unfold counts. cbn. apply mentions_vars. apply Hvi.
    - apply in_map_iff in Hk as (e & <- & Hin). destruct (He e Hin) as (j' & (cf & E2) & _ & Hv'). pose proof (Hflag _ _ E2) as F. cbn in F. subst cf. eexists. split; [exact E2|]. unfold counts. cbn. apply mentions_vars. exact Hv'. }
  pose proof (replace_all_sound V sort HV Hsort cur neg pos Hne _ _ _ _ _ Hr ND) as R. assert (R1 : forall e, In e (with_key neg ix) -> exists i0, present items (snd e) i0 /\ nonneg neg i0) by (intros e Hin; destruct (He e Hin) as (j & A & B & _); eauto).
  specialize (R R1 HS). destruct r as [|items' pre' post'].
  - intros I s (Hres & Hdm & Hf). apply holds_rest in Hf. apply (R I s Hres); [|exact Hf]. apply (Hle I s). eapply Hf. exact Hp.
  - destruct R as (HL & HS' & HK & HW & HQ).
    assert (Hcur' : present items' (snd cur) i) by (destruct Hp as (cf & E); exists cf; rewrite HK by exact Hcur; exact E).
    assert (Fin : forall m j, present (upd items' (snd cur) gone) m j <-> m <> snd cur /\ present items' m j).
    { intros m j. split; [intros X; apply upd_present in X as [(_ & X & _)|X]; [discriminate|exact X]|intros (N & X); apply upd_other; assumption]. }
    assert (Nomention : forall m j, m <> snd cur -> present items' m j -> ~ In neg (vars j)).
    { intros m j N X Y. destruct (in_dec Nat.eq_dec m (map snd (with_key neg ix))) as [D|D]; [apply (HW m j D X); exact Y|]. assert (X' : present items m j) by (destruct X as (cf & E); exists cf; rewrite <- HK by exact D; exact E). destruct (Hall m j X' Y); contradiction. }
    split.
    + intros v [<-|[]]. split; [exact Ho|]. split; [exact Hd|]. intros j Hj. apply present_rest in Hj as (m & Hm). apply Fin in Hm as [N Hm]. eapply Nomention; eassumption.
    + intros I. split.
      * intros s (Hres & Hdm & Hf). split; [exact Hres|]. split; [exact Hdm|]. apply holds_rest. apply holds_rest in Hf. intros m j Hm. apply Fin in Hm as [N Hm]. eapply (proj1 (HQ I s Hres)); [apply (Hle I s); eapply Hf; exact Hp|exact Hf|exact Hm].
      * intros s (Hres & Hdm & Hf). apply holds_rest in Hf. exists (set_var s neg (vid s pos)). split; [|intros v N; apply set_other; intros ->; apply N; left; reflexivity].
        assert (Epos : vid (set_var s neg (vid s pos)) pos = vid s pos) by (apply set_other; congruence).
        assert (Hres' : respects (set_var s neg (vid s pos)) (v_def V)).
        { destruct HV as [_ HA]. intros j. specialize (Hres j). destruct (ident_eqb j neg) eqn:X; [apply ident_eqb_eq in X; subst j; rewrite Hd; exact Logic.I|]. apply ident_eqb_neq in X. destruct (v_def V j) eqn:Y; [exact Logic.I|exfalso; eapply HA; exact Y| |]; rewrite set_other by exact X; exact Hres. }
        split; [exact Hres'|]. split.
        -- intros j d Hj. destruct (ident_eqb j neg) eqn:X; [|apply ident_eqb_neq in X; rewrite set_other by exact X; apply Hdm; exact Hj]. apply ident_eqb_eq in X. subst j. rewrite set_same. apply Hdm. congruence.
        -- apply holds_rest. apply (proj2 (HQ I _ Hres')); [rewrite set_same, Epos; reflexivity|]. intros m j Hm. destruct (Nat.eq_dec m (snd cur)) as [->|N].
           ++ rewrite (present_fun _ _ _ _ Hm Hcur'). apply Hle. rewrite set_same, Epos. lia.
           ++ apply sat_set; [eapply Nomention; eassumption|]. eapply Hf. apply Fin. split; eassumption.
Qed.

(** ** Steps one after the other *)
Lemma same_refl m : same_without V [] m m.
Proof. split; [intros v []|]. intros I. split; [auto|]. intros s H. exists s. auto. Qed.
Lemma same_trans E F m1 m2 m3 : same_without V E m1 m2 -> same_without V F m2 m3 -> (forall v i, In v E -> In i m3 -> ~ In v (vars i)) -> same_without V (E ++ F) m1 m3.
Proof.
  intros [H1 H2] [K1 K2] N. split.
  - intros v Hv. apply in_app_iff in Hv as [Hv|Hv]; [|apply K1; exact Hv]. destruct (H1 v Hv) as (A & B & _). split; [exact A|]. split; [exact B|]. intros i Hi. apply N; assumption.
  - intros I. destruct (H2 I) as [F1 B1]. destruct (K2 I) as [F2 B2]. split; [auto|]. intros s Hs. destruct (B2 s Hs) as (s2 & Hs2 & E2). destruct (B1 s2 Hs2) as (s1 & Hs1 & E1). exists s1. split; [exact Hs1|].
    intros v Hv. rewrite E1, E2; [reflexivity|intros X; apply Hv; apply in_app_iff; right; exact X|intros X; apply Hv; apply in_app_iff; left; exact X].
Qed.
End STEP.
