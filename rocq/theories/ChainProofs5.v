(** One compression keeps the solutions up to the eliminated variable. *)
Require Import List Bool Arith Lia Permutation.
From Verif Require Import Base ChainModel ChainSpec ChainProofs ChainProofs2 ChainProofs3 ChainProofs4.
Import ListNotations.

Section S.
Variable V : nat -> vinfo.
Variable hr : bool.
Variable N : nat -> Prop.

(** no variable of N is an argument of a half-reified predicate, all negative literals and control variables are in N *)
Definition npart (st : cst) : Prop := forall i it, lives st i it ->
  match it with
  | Clause _ n => forall v, In (AVar v) n -> N v
  | Imp _ l c => (forall v, c = AVar v -> N v) /\ forall v, In (AVar v) l -> ~ N v
  | Decl w => forall p l h, v_def (V w) = Some (DCall p l h) -> v_pos (V w) = true -> forall v, In (AVar v) l -> ~ N v
  | _ => True
  end.

Lemma npart1 : forall b a st j st1 it ri new, N a -> npart st -> lives st j it ->
  eff V b a it ri new -> c_items st1 = upd (c_items st) j ri ++ map Some new -> npart st1.
Proof.
  intros b a st j st1 it ri new Ha Hp Hl He Hi k it' Hk. unfold lives in Hk. rewrite Hi in Hk.
  pose proof (Hp _ _ Hl) as Hit.
  destruct (items_after _ _ _ _ _ _ (lives_lt _ _ _ Hl) Hk) as [[_ Hk']|[[-> Hk']|[_ Hk']]].
  - exact (Hp _ _ Hk').
  - destruct He as [y|p n Hv Hn|y|p l c|p l|v l Hd|v l Hd Hpp|v x l Hd Hpp Hx|v l Hd Hpp|v p l h Hd Hpp|v p l h Hd Hpp];
      try discriminate; injection Hk' as <-; try exact Hit; try exact Logic.I.
    split; [intros v E; injection E as <-; exact Ha|apply Hit].
  - destruct He as [y|p n Hv Hn|y|p l c|p l|v l Hd|v l Hd Hpp|v x l Hd Hpp Hx|v l Hd Hpp|v p l h Hd Hpp|v p l h Hd Hpp];
      try (destruct Hk'; fail).
    + destruct Hk' as [<-|[]]. intros v Hin. apply in_map_iff in Hin. destruct Hin as (y & Hy & Hin). unfold subst1 in Hy.
      destruct (arg_is b y); [injection Hy as <-; exact Ha|]. subst y. apply Hit, Hin.
    + apply in_map_iff in Hk'. destruct Hk' as (x & <- & _). intros w [E|[]]. injection E as <-. exact Ha.
    + destruct Hk' as [<-|[]]. intros w [E|[]]. injection E as <-. exact Ha.
    + destruct Hk' as [<-|[]]. split; [intros w E; injection E as <-; exact Ha|]. exact (Hit _ _ _ Hd Hpp).
Qed.

Lemma decl_old : forall b a st j st1 it ri new k v, lives st j it ->
  eff V b a it ri new -> c_items st1 = upd (c_items st) j ri ++ map Some new -> lives st1 k (Decl v) -> lives st k (Decl v).
Proof.
  intros b a st j st1 it ri new k v Hl He Hi Hk. unfold lives in Hk. rewrite Hi in Hk.
  destruct (items_after _ _ _ _ _ _ (lives_lt _ _ _ Hl) Hk) as [[_ Hk']|[[-> Hk']|[_ Hk']]].
  - exact Hk'.
  - destruct He; try discriminate; injection Hk' as <-; exact Hl.
  - destruct He; cbn in Hk'; try tauto; try (destruct Hk' as [Hk'|[]]; discriminate).
    apply in_map_iff in Hk'. destruct Hk' as (x & Hx & _). discriminate.
Qed.
Lemma uniq1 : forall b a st j st1 it ri new, uniq st -> lives st j it ->
  eff V b a it ri new -> c_items st1 = upd (c_items st) j ri ++ map Some new -> uniq st1.
Proof.
  intros b a st j st1 it ri new Hu Hl He Hi k k' v H1 H2. apply (Hu k k' v); eapply decl_old; eassumption.
Qed.

(** b is left only where it does not matter *)
Definition left_over (b a i0 : nat) (is_ : list nat) (st : cst) : Prop :=
  npart st /\
  (forall j, In j is_ -> lives st j (Decl b) -> ~ In (AVar b) (def_args (v_def (V b)))) /\
  forall j it, lives st j it -> In b (mentions V it) ->
    j = i0 \/ In j is_ \/ (exists x, it = RevMap x) \/
    exists p n, it = Clause p n /\ ~ In (AVar b) n /\ In (AVar a) n.

Lemma left_over1 : forall b a i0 j is_ st st1 it ri new, a <> b -> N a -> left_over b a i0 (j :: is_) st ->
  lives st j it -> In b (keys V hr it) -> eff V b a it ri new -> c_items st1 = upd (c_items st) j ri ++ map Some new ->
  ~ In j is_ -> left_over b a i0 is_ st1.
Proof.
  intros b a i0 j is_ st st1 it ri new Hab Ha (Hp & Hdm & Hm) Hl Hk He Hi Hnj.
  split; [eapply npart1; eassumption|]. split.
  { intros k Hin Hlk. apply (Hdm k); [cbn; auto|]. eapply decl_old; eassumption. }
  intros k it' Hlk Hmk. unfold lives in Hlk. rewrite Hi in Hlk. pose proof (Hp _ _ Hl) as Hit.
  destruct (items_after _ _ _ _ _ _ (lives_lt _ _ _ Hl) Hlk) as [[Hne Hk']|[[-> Hk']|[_ Hk']]].
  - destruct (Hm _ _ Hk' Hmk) as [H1|[[H1|H1]|H1]]; auto. congruence.
  - destruct He as [y|p n Hv Hn|y|p l c|p l|v l Hd|v l Hd Hpp|v x l Hd Hpp Hx|v l Hd Hpp|v p l h Hd Hpp|v p l h Hd Hpp];
      try discriminate; injection Hk' as <-; try (destruct Hk; fail).
    + eauto.
    + exfalso. cbn in Hk. destruct c as [w|]; [|destruct Hk]. destruct Hk as [->|[]].
      destruct Hit as [Hc Hl0]. cbn in Hmk. rewrite avars_in, in_app_iff in Hmk. destruct Hmk as [Hmk|[E|[]]].
      * apply (Hl0 _ Hmk). apply Hc. reflexivity.
      * congruence.
    + exfalso. destruct (keys_decl V hr _ _ Hk) as [-> _]. apply (Hdm j); [cbn; auto|exact Hl|]. apply avars_in, Hmk.
    + exfalso. destruct (keys_decl V hr _ _ Hk) as [-> _]. apply (Hdm j); [cbn; auto|exact Hl|]. apply avars_in, Hmk.
    + exfalso. destruct (keys_decl V hr _ _ Hk) as [-> _]. apply (Hdm j); [cbn; auto|exact Hl|]. apply avars_in, Hmk.
    + exfalso. destruct (keys_decl V hr _ _ Hk) as [-> _]. apply (Hdm j); [cbn; auto|exact Hl|]. apply avars_in, Hmk.
  - destruct He as [y|p n Hv Hn|y|p l c|p l|v l Hd|v l Hd Hpp|v x l Hd Hpp Hx|v l Hd Hpp|v p l h Hd Hpp|v p l h Hd Hpp];
      try (destruct Hk'; fail).
    + destruct Hk' as [<-|[]]. right. right. right. eexists _, _. split; [reflexivity|]. split.
      * intros Hin. apply subst1_in in Hin; [|exact Hab]. tauto.
      * cbn in Hk. apply avars_in in Hk. change (AVar a) with (AVar a). apply in_map_iff. exists (AVar b). split; [|exact Hk].
        unfold subst1. cbn. rewrite Nat.eqb_refl. reflexivity.
    + exfalso. destruct (keys_decl V hr _ _ Hk) as [-> _]. apply (Hdm j); [cbn; auto|exact Hl|]. rewrite Hd. cbn [def_args].
      apply in_map_iff in Hk'. destruct Hk' as (x & <- & Hx). apply filter_In in Hx. destruct Hx as [Hx _].
      cbn [mentions] in Hmk. apply avars_in in Hmk. cbn in Hmk. destruct Hmk as [->|[E|[]]]; [exact Hx|congruence].
    + exfalso. destruct (keys_decl V hr _ _ Hk) as [-> _]. apply (Hdm j); [cbn; auto|exact Hl|]. rewrite Hd. cbn [def_args].
      destruct Hk' as [<-|[]]. cbn [mentions] in Hmk. apply avars_in in Hmk. apply in_app_iff in Hmk.
      destruct Hmk as [Hmk|[E|[]]]; [exact Hmk|congruence].
    + exfalso. destruct (keys_decl V hr _ _ Hk) as [-> _]. apply (Hdm j); [cbn; auto|exact Hl|]. rewrite Hd. cbn [def_args].
      destruct Hk' as [<-|[]]. cbn [mentions] in Hmk. apply avars_in in Hmk. apply in_app_iff in Hmk.
      destruct Hmk as [Hmk|[E|[]]]; [exact Hmk|congruence].
Qed.

(** the definition of b has been copied to a *)
Definition copied (b a i0 : nat) (is_ : list nat) (st : cst) : Prop :=
  match v_def (V b) with
  | Some (DForall l) => (exists d, lives st d (Decl b)) /\
      forall x, In x l -> x = AVar a \/ exists j, j <> i0 /\ ~ In j is_ /\ lives st j (Clause [x] [AVar a])
  | Some (DCall p l _) => exists j, j <> i0 /\ ~ In j is_ /\ lives st j (Imp p l (AVar a))
  | Some (DExists l) => forall j, ~ lives st j (Decl b)
  | None => True
  end.
Definition done_or (b a i0 : nat) (is_ : list nat) (st : cst) : Prop :=
  uniq st /\ (forall j, In j is_ -> j < length (c_items st)) /\ i0 < length (c_items st) /\
  ((exists d, In d is_ /\ lives st d (Decl b)) \/ copied b a i0 is_ st).

Lemma done_or1 : forall b a i0 j is_ st st1 it ri new, done_or b a i0 (j :: is_) st ->
  lives st j it -> In b (keys V hr it) -> eff V b a it ri new -> c_items st1 = upd (c_items st) j ri ++ map Some new ->
  ~ In j is_ -> done_or b a i0 is_ st1.
Proof.
  intros b a i0 j is_ st st1 it ri new (Hu & Hlt & Hi0 & Hor) Hl Hk He Hi Hnj.
  assert (length (c_items st) <= length (c_items st1)) as Hlen.
  { rewrite Hi, app_length, upd_length. lia. }
  split; [eapply uniq1; eassumption|]. split; [intros k Hin; specialize (Hlt k (or_intror Hin)); lia|].
  split; [lia|].
  assert (forall k it', k <> j -> lives st k it' -> lives st1 k it') as Hkeep.
  { intros k it' Hne Hlk. unfold lives. rewrite Hi. apply items_keep; assumption. }
  assert (forall it', In it' new -> exists k, k <> i0 /\ ~ In k is_ /\ lives st1 k it') as Hnew.
  { intros it' Hin. destruct (items_new (c_items st) j ri new it' Hin) as (k & Hk0 & Hk1). exists k.
    split; [lia|]. split; [|unfold lives; rewrite Hi; exact Hk1]. intros Hin2. specialize (Hlt k (or_intror Hin2)). lia. }
  destruct Hor as [(d & [<-|Hin] & Hd)|Hcop].
  - right. assert (it = Decl b) as -> by (unfold lives in *; congruence).
    unfold copied. inversion He as [|? ? ? ?|?|? ? ?|? ?|v l Hdef|v l Hdef Hpp|v x l Hdef Hpp Hx|v l Hdef Hpp|v p l h Hdef Hpp|v p l h Hdef Hpp]; subst; rewrite Hdef.
    + split.
      * exists j. unfold lives. rewrite Hi. apply items_self. eapply lives_lt, Hl.
      * intros x Hx. destruct (arg_is a x) eqn:E; [left; apply arg_is_spec, E|right]. apply Hnew.
        apply in_map_iff. exists x. split; [reflexivity|]. apply filter_In. rewrite E. auto.
    + intros k Hlk. pose proof (decl_old _ _ _ _ _ _ _ _ _ _ Hl He Hi Hlk) as Hold.
      assert (k = j) as -> by (eapply Hu; eassumption). unfold lives in Hlk. rewrite Hi, items_self in Hlk; [discriminate|].
      eapply lives_lt, Hl.
    + intros k Hlk. pose proof (decl_old _ _ _ _ _ _ _ _ _ _ Hl He Hi Hlk) as Hold.
      assert (k = j) as -> by (eapply Hu; eassumption). unfold lives in Hlk. rewrite Hi, items_self in Hlk; [discriminate|].
      eapply lives_lt, Hl.
    + exfalso. destruct (keys_decl V hr _ _ Hk) as [_ [(l' & E)|E]]; congruence.
    + apply Hnew. cbn. auto.
    + exfalso. destruct (keys_decl V hr _ _ Hk) as [_ [(l' & E)|E]]; congruence.
  - left. exists d. split; [exact Hin|]. apply Hkeep; [intros ->; auto|exact Hd].
  - right. unfold copied in *. destruct (v_def (V b)) as [[l|l|p l h]|] eqn:Ed; [| | |exact Logic.I].
    + destruct Hcop as [(d & Hd) Hc]. split.
      * destruct (Nat.eq_dec d j) as [->|Hne]; [|exists d; apply Hkeep; assumption].
        assert (it = Decl b) as -> by (unfold lives in *; congruence).
        inversion He; subst; try congruence. exists j. unfold lives. rewrite Hi. apply items_self. eapply lives_lt, Hl.
      * intros x Hx. destruct (Hc x Hx) as [H1|(k & Hk0 & Hk1 & Hk2)]; [auto|]. right. exists k.
        split; [exact Hk0|]. split; [cbn in Hk1; tauto|]. apply Hkeep; [|exact Hk2]. intros ->. cbn in Hk1. tauto.
    + intros k Hlk. apply (Hcop k). eapply decl_old; eassumption.
    + destruct Hcop as (k & Hk0 & Hk1 & Hk2). exists k.
      split; [exact Hk0|]. split; [cbn in Hk1; tauto|]. apply Hkeep; [|exact Hk2]. intros ->. cbn in Hk1. tauto.
Qed.

(** a variable that was eliminated before stays eliminated *)
Definition faded (v : nat) (st : cst) : Prop := forall j it, lives st j it -> occurs V v it ->
  exists p n, it = Clause p n /\ ~ In (AVar v) n.
Lemma faded1 : forall b a v st j st1 it ri new, v <> a -> faded v st -> lives st j it ->
  eff V b a it ri new -> c_items st1 = upd (c_items st) j ri ++ map Some new -> faded v st1.
Proof.
  intros b a v st j st1 it ri new Hva Hf Hl He Hi k it' Hlk Ho. unfold lives in Hlk. rewrite Hi in Hlk.
  pose proof (Hf _ _ Hl) as Hit.
  destruct (items_after _ _ _ _ _ _ (lives_lt _ _ _ Hl) Hlk) as [[Hne Hk']|[[-> Hk']|[_ Hk']]].
  - exact (Hf _ _ Hk' Ho).
  - destruct He as [y|p n Hv Hn|y|p l c|p l|w l Hd|w l Hd Hpp|w x l Hd Hpp Hx|w l Hd Hpp|w p l h Hd Hpp|w p l h Hd Hpp];
      try discriminate; injection Hk' as <-; try exact (Hit Ho).
    cbn in Ho. destruct Ho as [Ho|Ho]; [|congruence]. destruct Hit as (p' & n' & E & _); [cbn; auto|discriminate].
  - destruct He as [y|p n Hv Hn|y|p l c|p l|w l Hd|w l Hd Hpp|w x l Hd Hpp Hx|w l Hd Hpp|w p l h Hd Hpp|w p l h Hd Hpp];
      try (destruct Hk'; fail).
    + destruct Hk' as [<-|[]]. eexists _, _. split; [reflexivity|]. intros Hin. apply in_map_iff in Hin.
      destruct Hin as (y & Hy & Hin). unfold subst1 in Hy. destruct (arg_is b y); [congruence|]. subst y.
      destruct Hit as (p' & n' & E & Hno); [cbn; auto|]. injection E as <- <-. auto.
    + apply in_map_iff in Hk'. destruct Hk' as (x & <- & Hx). eexists _, _. split; [reflexivity|].
      intros [E|[]]. congruence.
    + destruct Hk' as [<-|[]]. eexists _, _. split; [reflexivity|]. intros [E|[]]. congruence.
    + destruct Hk' as [<-|[]]. cbn in Ho. destruct Ho as [Ho|Ho]; [|congruence].
      destruct Hit as (p' & n' & E & _); [cbn; rewrite Hd; exact Ho|discriminate].
Qed.
End S.
