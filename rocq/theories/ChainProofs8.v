(** Safety: no undefined behaviour if every clause has at most one negative literal. *)
Require Import List Bool Arith Lia.
From Verif Require Import Base ChainModel ChainSpec ChainProofs ChainProofs2 ChainProofs3 ChainProofs4 ChainProofs5 ChainProofs6 ChainProofs7.
Import ListNotations.

Section S.
Variable V : nat -> vinfo.
Variable hr : bool.

Definition sized (st : cst) : Prop :=
  (forall i p n, lives st i (Clause p n) -> length n <= 1) /\
  (forall i v, lives st i (Decl v) -> v_def (V v) <> Some (DExists [])).

Lemma sized1 : forall b a st j st1 it ri new, sized st -> lives st j it ->
  eff V b a it ri new -> c_items st1 = upd (c_items st) j ri ++ map Some new -> sized st1.
Proof.
  intros b a st j st1 it ri new [H1 H2] Hl He Hi. split.
  - intros k p n Hlk. unfold lives in Hlk. rewrite Hi in Hlk.
    destruct (items_after _ _ _ _ _ _ (lives_lt _ _ _ Hl) Hlk) as [[Hne Hk']|[[-> Hk']|[_ Hk']]].
    + exact (H1 _ _ _ Hk').
    + inversion He; subst; try discriminate. all: exfalso; injection H; congruence || discriminate.
    + inversion He; subst; cbn in Hk'; try tauto.
      * destruct Hk' as [E|[]]. injection E as -> <-. rewrite map_length. exact (H1 _ _ _ Hl).
      * apply in_map_iff in Hk'. destruct Hk' as (y & E & Hy). injection E as <- <-. cbn. lia.
      * destruct Hk' as [E|[]]. injection E as <- <-. cbn. lia.
      * destruct Hk' as [E|[]]. discriminate.
  - intros k v Hlk. eapply H2. eapply (decl_old V (fun _ => True)); eassumption.
Qed.

Lemma item_safe : forall st j b a it, sized st -> lives st j it -> In b (keys V hr it) ->
  exists st1, compress_item V hr st j b a = Ok st1.
Proof.
  intros st j b a it [H1 H2] Hl Hk. unfold compress_item. pose proof Hl as Hl'. unfold lives in Hl'. rewrite Hl'.
  destruct it as [p n|x|p l c|p l|v]; eauto.
  - destruct (_ && _); eauto. specialize (H1 _ _ _ Hl). destruct n as [|x [|y n]]; cbn in H1, Hk; [destruct Hk| |lia].
    destruct x as [v|]; [|destruct Hk]. destruct Hk as [->|[]]. cbn [rename]. rewrite Nat.eqb_refl. cbn [bind]. eauto.
  - cbn in Hk. specialize (H2 _ _ Hl). destruct (v_def (V v)) as [[l|l|p l h]|]; eauto; [| |destruct Hk].
    + destruct (v_pos (V v)); eauto. destruct l; [congruence|eauto].
    + destruct (v_pos (V v)); eauto.
Qed.

Lemma items_safe : forall b a is_ st, NoDup is_ -> todo_ok V hr b st is_ -> sized st ->
  exists st1, compress_items V hr st is_ b a = Ok st1 /\ sized st1.
Proof.
  intros b a. induction is_ as [|j is_ IH]; intros st Hn Ht Hs; cbn [compress_items]; [eauto|].
  destruct (Ht j (or_introl eq_refl)) as (it & Hl & Hk).
  destruct (item_safe st j b a it Hs Hl Hk) as (s1 & E). rewrite E. cbn [bind].
  destruct (compress_item_eff _ _ _ _ _ _ _ _ Hl E) as (ri & new & He & Hi & _).
  apply IH.
  - inversion Hn; assumption.
  - eapply todo_next; eassumption.
  - eapply sized1; eassumption.
Qed.

Lemma range_nodup' : forall st b, inv V hr st -> sized st -> NoDup (range st b).
Proof.
  intros st b Hi [Hs _]. apply (NoDup_count_occ Nat.eq_dec). intros i. unfold range. rewrite count_occ_map_snd.
  change (cnt (b, i) st <= 1). etransitivity; [apply Hi|]. unfold kcount.
  destruct (nth_error (c_items st) i) as [[it|]|] eqn:E; try lia. etransitivity; [apply count_occ_le_length|].
  destruct it as [p n| | | |]; try (apply keys_le1; intros; discriminate).
  specialize (Hs _ _ _ E). cbn. destruct n as [|[] []]; cbn in *; lia.
Qed.

Lemma drop_sized : forall st i, i < length (c_items st) -> sized st -> sized (drop_cur st i).
Proof.
  intros st i Hlt [H1 H2]. split.
  - intros j p n H. apply (drop_lives V (fun _ => True)) in H; [|exact Hlt]. exact (H1 _ _ _ (proj2 H)).
  - intros j v H. apply (drop_lives V (fun _ => True)) in H; [|exact Hlt]. exact (H2 _ _ (proj2 H)).
Qed.

Lemma step_safe : forall st e rest, c_todo st = e :: rest -> inv V hr st -> uniq st -> sized st ->
  exists st', step V hr st e rest = Ok st' /\ inv V hr st' /\ uniq st' /\ sized st'.
Proof.
  intros st e rest Et Hi Hu Hs.
  destruct (inv_key V hr st (fst e) (snd e) Hi) as (it & Hl & Hk).
  { unfold ents. rewrite Et. apply in_app_iff. right. left. destruct e; reflexivity. }
  assert (exists d, decide V st (snd e) = Ok d) as (d & Hd).
  { unfold decide. unfold lives in Hl. rewrite Hl. destruct it as [p n| | | |]; eauto. destruct p as [|[b|] [|]]; eauto.
    destruct n as [|x [|]]; eauto. match goal with |- context [if ?c then _ else _] => destruct c end; eauto. destruct x; eauto.
    destruct (_ =? _); eauto. }
  destruct d as [| |a b].
  - exists (mkC (c_items st) (c_done st ++ [e]) rest). unfold step. rewrite Hd. cbn [bind]. split; [reflexivity|].
    split; [|split; [exact Hu|exact Hs]].
    intros v i. specialize (Hi v i). unfold cnt, ents, kcount in *. cbn [c_done c_todo c_items]. rewrite Et in Hi.
    rewrite <- app_assoc. exact Hi.
  - exists st. unfold step. rewrite Hd. cbn [bind]. auto.
  - destruct (decide_go V _ _ _ _ Hd) as (Hl0 & Hab & _). unfold lives in Hl, Hl0. rewrite Hl0 in Hl. injection Hl as <-.
    cbn in Hk. destruct Hk as [Hk|[]]. assert (fst e <> b) as Hne by congruence.
    destruct (items_safe b a (range st b)
      (mkC (c_items st) (filter (fun x => negb (fst x =? b)) (c_done st)) (e :: filter (fun x => negb (fst x =? b)) rest)))
      as (s1 & Hc & Hs1).
    { apply range_nodup'; assumption. }
    { exact (range_ok V hr st b Hi). }
    { exact Hs. }
    destruct (go_inv _ _ _ _ _ _ _ _ Et Hi Hu Hd Hne Hc) as (Hi' & Hu' & _ & Hlive & _).
    exists (drop_cur s1 (snd e)). split.
    + unfold step. rewrite Hd. cbn [bind]. apply Nat.eqb_neq in Hne. rewrite Hne. unfold range in Hc. rewrite Hc. reflexivity.
    + split; [exact Hi'|]. split; [exact Hu'|]. apply drop_sized; [eapply lives_lt, Hlive|exact Hs1].
Qed.

Lemma run_safe : forall fuel st, inv V hr st -> uniq st -> sized st ->
  compress V hr fuel st = Err OutOfFuel \/ exists st', compress V hr fuel st = Ok st'.
Proof.
  induction fuel as [|fuel IH]; intros st Hi Hu Hs; cbn [compress]; destruct (c_todo st) as [|e rest] eqn:Et; eauto.
  destruct (step_safe st e rest Et Hi Hu Hs) as (st' & E & Hi' & Hu' & Hs'). rewrite E. cbn [bind]. apply IH; assumption.
Qed.

Lemma start_noself : forall l, no_loop l -> noself (start V hr l).
Proof. intros l H i x Hl. apply start_lives in Hl. apply nth_error_In in Hl. exact (H _ Hl). Qed.

Lemma stops : forall l, declared_once l -> no_loop l ->
  exists n, forall fuel, n <= fuel -> compress V hr fuel (start V hr l) <> Err OutOfFuel.
Proof.
  intros l Hd Hn. apply terminates. split; [apply start_inv|]. split; [apply start_uniq, Hd|apply start_noself, Hn].
Qed.

Lemma safe : forall l, declared_once l -> no_loop l -> short V l ->
  exists n, forall fuel, n <= fuel -> exists st, compress V hr fuel (start V hr l) = Ok st.
Proof.
  intros l Hd Hn [Hs1 Hs2]. destruct (stops l Hd Hn) as (n & Hf). exists n. intros fuel Hle.
  destruct (run_safe fuel (start V hr l)) as [E|E]; auto.
  - apply start_inv.
  - apply start_uniq, Hd.
  - split; intros i; intros; (match goal with H : lives _ _ _ |- _ => apply start_lives in H; apply nth_error_In in H end); eauto.
  - exfalso. exact (Hf fuel Hle E).
Qed.
End S.
