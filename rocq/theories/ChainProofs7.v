(** Soundness of whole runs, termination and safety. *)
Require Import List Bool Arith Lia Permutation.
From Verif Require Import Base ChainModel ChainSpec ChainProofs ChainProofs2 ChainProofs3 ChainProofs4 ChainProofs5 ChainProofs6.
Import ListNotations.

Section S.
Variable V : nat -> vinfo.
Variable hr : bool.

(** the start *)
Lemma ins_count : forall e l f, count_occ pdec (ins e l) f = (if pdec e f then 1 else 0) + count_occ pdec l f.
Proof.
  intros e l f. rewrite (proj1 (Permutation_count_occ pdec _ _) (ins_perm e l) f). cbn. destruct (pdec e f); reflexivity.
Qed.
Lemma ins_all_count : forall ks i m v j, count_occ pdec (fold_left (fun m v => ins (v, i) m) ks m) (v, j) =
  (if j =? i then count_occ Nat.eq_dec ks v else 0) + count_occ pdec m (v, j).
Proof.
  induction ks as [|k ks IH]; intros i m v j; cbn [fold_left count_occ].
  - destruct (j =? i); reflexivity.
  - rewrite IH, ins_count. destruct (j =? i) eqn:E.
    + apply Nat.eqb_eq in E. subst j. destruct (pdec (k, i) (v, i)), (Nat.eq_dec k v); try congruence; lia.
    + apply Nat.eqb_neq in E. destruct (pdec (k, i) (v, j)); [congruence|lia].
Qed.
Lemma track_all_count : forall l k m v j, count_occ pdec (track_all V hr l k m) (v, j) =
  (if k <=? j then match nth_error l (j - k) with Some it => count_occ Nat.eq_dec (keys V hr it) v | None => 0 end else 0) +
  count_occ pdec m (v, j).
Proof.
  induction l as [|it l IH]; intros k m v j; cbn [track_all].
  - destruct (k <=? j); [|reflexivity]. destruct (j - k); reflexivity.
  - rewrite IH, ins_all_count. destruct (Nat.leb_spec k j), (Nat.leb_spec (S k) j), (Nat.eqb_spec j k); try lia.
    + replace (j - k) with (S (j - S k)) by lia. cbn [nth_error]. lia.
    + subst j. rewrite Nat.sub_diag. cbn [nth_error]. lia.
Qed.

Lemma start_lives : forall l i it, lives (start V hr l) i it <-> nth_error l i = Some it.
Proof.
  intros l i it. unfold lives, start. cbn [c_items]. rewrite nth_error_map. destruct (nth_error l i); cbn; split; congruence.
Qed.
Lemma start_inv : forall l, inv V hr (start V hr l).
Proof.
  intros l v i. unfold cnt, ents, start, kcount. cbn [c_done c_todo c_items app]. rewrite track_all_count. cbn [Nat.leb].
  rewrite Nat.sub_0_r, nth_error_map. cbn [count_occ]. destruct (nth_error l i); cbn; lia.
Qed.
Lemma start_uniq : forall l, declared_once l -> uniq (start V hr l).
Proof.
  intros l H i j v Hi Hj. apply start_lives in Hi, Hj. revert i j Hi Hj. unfold declared_once in H.
  induction l as [|it l IH]; intros [|i] [|j] Hi Hj; try discriminate; auto; cbn in *.
  - injection Hi as ->. cbn in H. inversion H; subst. exfalso. apply H2. apply in_flat_map. exists (Decl v).
    split; [eapply nth_error_In, Hj|cbn; auto].
  - injection Hj as ->. cbn in H. inversion H; subst. exfalso. apply H2. apply in_flat_map. exists (Decl v).
    split; [eapply nth_error_In, Hi|cbn; auto].
  - f_equal. apply IH; auto. destruct it; cbn in H; auto. inversion H; auto.
Qed.
Lemma start_npart : forall l, separate V l -> npart V (negative l) (start V hr l).
Proof.
  intros l H i it Hl. apply start_lives in Hl. apply nth_error_In in Hl. destruct it as [p n|x|p ys c|p ys|w]; try exact Logic.I.
  - intros v Hv. left. eauto.
  - split.
    + intros v ->. right. eauto.
    + intros v Hv Hn. destruct (H v Hn) as [H1 _]. exact (H1 _ _ _ Hl Hv).
  - intros p ys h Hd Hp v Hv Hn. destruct (H v Hn) as [_ H1]. exact (H1 _ _ _ _ Hl Hd Hp Hv).
Qed.

Lemma result_in : forall st it, In it (result st) <-> exists i, lives st i it.
Proof.
  intros st it. unfold result, lives. rewrite in_flat_map. split.
  - intros (o & Ho & Hin). destruct o as [it'|]; [|destruct Hin]. destruct Hin as [->|[]]. apply In_nth_error, Ho.
  - intros (i & Hi). exists (Some it). split; [eapply nth_error_In, Hi|cbn; auto].
Qed.
Lemma sol_solution : forall I s st, sol V I s st <-> solution V I s (result st).
Proof.
  intros I s st. split.
  - intros H it Hin. apply result_in in Hin. destruct Hin as (i & Hi). exact (H _ _ Hi).
  - intros H i it Hl. apply H, result_in. eauto.
Qed.
Lemma start_result : forall l, result (start V hr l) = l.
Proof. intros l. unfold result, start. cbn [c_items]. induction l as [|x l IH]; cbn; congruence. Qed.

Lemma step_go : forall st e rest a b st', decide V st (snd e) = Ok (Go a b) -> step V hr st e rest = Ok st' ->
  fst e <> b /\ exists st1,
  compress_items V hr (mkC (c_items st) (filter (fun x => negb (fst x =? b)) (c_done st))
                           (e :: filter (fun x => negb (fst x =? b)) rest)) (range st b) b a = Ok st1 /\
  st' = drop_cur st1 (snd e).
Proof.
  intros st e rest a b st' Hd H. unfold step in H. rewrite Hd in H. cbn [bind] in H.
  destruct (fst e =? b) eqn:E; [discriminate|]. apply Nat.eqb_neq in E. split; [exact E|].
  apply bind_ok in H. destruct H as (st1 & H1 & H2). exists st1. split; [exact H1|]. injection H2 as <-. reflexivity.
Qed.

Definition ghost (v : nat) : Prop := v_out (V v) = false /\ v_dom (V v) = None.

Lemma run_sound : forall N fuel st st', good V hr N st -> compress V hr fuel st = Ok st' ->
  exists E, (forall v, In v E -> ghost v /\ faded V v st') /\
    (forall v, ghost v -> faded V v st -> faded V v st') /\
    forall I, (forall s, sol V I s st -> sol V I s st') /\
      (forall s, sol V I s st' -> exists s', sol V I s' st /\ forall v, ~ In v E -> s' v = s v).
Proof.
  intros N. induction fuel as [|fuel IH]; intros st st' Hg H; cbn [compress] in H.
  - destruct (c_todo st); [|discriminate]. injection H as <-. exists []. split; [intros v []|]. split; [auto|].
    intros I. split; [auto|]. intros s Hs. exists s. auto.
  - destruct (c_todo st) as [|e rest] eqn:Et.
    { injection H as <-. exists []. split; [intros v []|]. split; [auto|]. intros I. split; [auto|]. intros s Hs. exists s. auto. }
    apply bind_ok in H. destruct H as (st1 & H1 & H2).
    assert (exists d, decide V st (snd e) = Ok d) as (d & Hd).
    { unfold step in H1. apply bind_ok in H1. destruct H1 as (d & Hd & _). eauto. }
    destruct d as [| |a b].
    + unfold step in H1. rewrite Hd in H1. cbn [bind] in H1. injection H1 as <-.
      refine (IH _ st' _ H2). destruct Hg as (Hi & Hu & Hn). split; [|split; [exact Hu|exact Hn]].
      intros v i. specialize (Hi v i). unfold cnt, ents, kcount in *. cbn [c_done c_todo c_items]. rewrite Et in Hi.
      rewrite <- app_assoc. exact Hi.
    + unfold step in H1. rewrite Hd in H1. cbn [bind] in H1. injection H1 as <-. apply (IH st st'); assumption.
    + destruct (step_go _ _ _ _ _ _ Hd H1) as (Hne & s1 & Hc & ->).
      destruct (decide_go V _ _ _ _ Hd) as (_ & _ & Hdom & Hout & _).
      destruct (go_facts V hr N st e rest a b s1 Et Hg Hd Hne Hc) as (Hg1 & _ & Hf & Hfb & Hsem).
      destruct (IH _ _ Hg1 H2) as (E & HE & HfE & HsE).
      exists (b :: E). split; [|split].
      * intros v [<-|Hin]; [|auto]. split; [split; assumption|]. apply HfE; [split; assumption|exact Hfb].
      * intros v Hgh Hfa. apply HfE; [exact Hgh|]. apply Hf; assumption.
      * intros I. destruct (Hsem I) as [Hs1 Hs2]. destruct (HsE I) as [Hs3 Hs4]. split; [auto|].
        intros s Hs. destruct (Hs4 s Hs) as (s' & Hs' & Heq). destruct (Hs2 s' Hs') as (s'' & Hs'' & Heq2).
        exists s''. split; [exact Hs''|]. intros v Hv. cbn in Hv. rewrite Heq2, Heq; auto.
Qed.

Lemma sound : forall l fuel st, declared_once l -> separate V l -> compress V hr fuel (start V hr l) = Ok st ->
  exists E, same_without V E l (result st).
Proof.
  intros l fuel st Hd Hs H.
  destruct (run_sound (negative l) fuel (start V hr l) st) as (E & HE & _ & Hsem); [|exact H|].
  { split; [apply start_inv|]. split; [apply start_uniq, Hd|apply start_npart, Hs]. }
  exists E. split.
  - intros v Hv. destruct (HE v Hv) as [[H1 H2] H3]. split; [exact H1|]. split; [exact H2|]. intros it Hin Ho.
    apply result_in in Hin. destruct Hin as (i & Hi). exact (H3 i it Hi Ho).
  - intros I. destruct (Hsem I) as [H1 H2]. split.
    + intros s Hso. apply sol_solution, H1, sol_solution. rewrite start_result. exact Hso.
    + intros s Hso. apply sol_solution in Hso. destruct (H2 s Hso) as (s' & Hs' & He). exists s'. split; [|exact He].
      apply sol_solution in Hs'. rewrite start_result in Hs'. exact Hs'.
Qed.

(** termination *)
Definition noself (st : cst) : Prop := forall i x, ~ lives st i (Clause [AVar x] [AVar x]).
Lemma noself1 : forall b a st j st1 it ri new, a <> b -> noself st -> lives st j it -> In b (keys V hr it) ->
  eff V b a it ri new -> c_items st1 = upd (c_items st) j ri ++ map Some new -> noself st1.
Proof.
  intros b a st j st1 it ri new Hab Hn Hl Hk He Hi k x Hlk. unfold lives in Hlk. rewrite Hi in Hlk.
  destruct (items_after _ _ _ _ _ _ (lives_lt _ _ _ Hl) Hlk) as [[Hne Hk']|[[-> Hk']|[_ Hk']]].
  - exact (Hn _ _ Hk').
  - inversion He; subst; discriminate.
  - inversion He as [y|p n Hv Hnn|y|p l c|p l|v l Hd|v l Hd Hpp|v y l Hd Hpp Hx|v l Hd Hpp|v p l h Hd Hpp|v p l h Hd Hpp]; subst; cbn in Hk'; try tauto.
    + destruct Hk' as [E|[]]. injection E as -> E2. destruct n as [|y [|]]; try discriminate. cbn in Hk, E2.
      destruct y as [w|]; [|destruct Hk]. destruct Hk as [->|[]]. unfold subst1 in E2. cbn in E2. rewrite Nat.eqb_refl in E2.
      injection E2 as <-. apply Hnn. auto.
    + apply in_map_iff in Hk'. destruct Hk' as (y & E & Hy). injection E as -> ->. apply filter_In in Hy. destruct Hy as [_ Hy].
      cbn in Hy. rewrite Nat.eqb_refl in Hy. discriminate.
    + destruct Hk' as [E|[]]. injection E as -> -> ->. congruence.
    + destruct Hk' as [E|[]]. discriminate.
Qed.

Lemma go_inv : forall st e rest a b st1, c_todo st = e :: rest -> inv V hr st -> uniq st ->
  decide V st (snd e) = Ok (Go a b) -> fst e <> b ->
  compress_items V hr (mkC (c_items st) (filter (fun x => negb (fst x =? b)) (c_done st))
                           (e :: filter (fun x => negb (fst x =? b)) rest)) (range st b) b a = Ok st1 ->
  inv V hr (drop_cur st1 (snd e)) /\ uniq (drop_cur st1 (snd e)) /\ NoDup (range st b) /\
  lives st1 (snd e) (Clause [AVar b] [AVar a]) /\ exists r, c_todo st1 = e :: r.
Proof.
  intros st [k i0] rest a b st1 Htodo Hinv Hu Hdec Hkb Hc. cbn [fst snd] in *.
  set (st0 := mkC (c_items st) (filter (fun x => negb (fst x =? b)) (c_done st))
                  ((k, i0) :: filter (fun x => negb (fst x =? b)) rest)) in *.
  assert (forall v j, cnt (v, j) st0 = if v =? b then 0 else cnt (v, j) st) as Hc0.
  { intros v j. unfold cnt, ents. cbn [c_done c_todo st0]. rewrite Htodo, !count_occ_app. cbn [count_occ].
    rewrite !count_filter_ne. cbn [fst]. destruct (v =? b) eqn:E; [|reflexivity].
    destruct (pdec (k, i0) (v, j)) as [E2|]; [|reflexivity]. injection E2 as -> ->. apply Nat.eqb_eq in E. congruence. }
  assert (inv V hr st0) as Hinv0.
  { intros v j. rewrite Hc0. specialize (Hinv v j). unfold kcount in *. cbn [c_items st0]. destruct (v =? b); [apply Nat.le_0_l|exact Hinv]. }
  pose proof (range_nodup V hr st b a st0 st1 Hinv eq_refl Hc) as Hnd.
  destruct (only V hr st i0 a b Hinv Hu Hdec Hnd) as (_ & _ & _ & Hni0).
  destruct (decide_go V st i0 a b Hdec) as (Hlive0 & Hab & _).
  pose proof (range_ok V hr st b Hinv) as Htok. change (todo_ok V hr b st0 (range st b)) in Htok.
  assert (inv V hr st1 /\ forall j, cnt (b, j) st1 = 0) as [Hinv1 _].
  { apply (items_ind V hr (fun _ s => inv V hr s /\ forall j, cnt (b, j) s = 0) b a) with (is_ := range st b) (st := st0); auto.
    - intros j is_ s s1 it ri new [H1 H2] Hl Hk _ _ Hci _ _. eapply inv_compress_item; eassumption.
    - split; [exact Hinv0|]. intros j. rewrite Hc0, Nat.eqb_refl. reflexivity. }
  assert (uniq st1) as Hu1.
  { apply (items_ind V hr (fun _ s => uniq s) b a) with (is_ := range st b) (st := st0); auto.
    intros j is_ s s1 it ri new H1 Hl Hk He Hi _ _ _. eapply (uniq1 V (fun _ => True)); eassumption. }
  assert (lives st1 i0 (Clause [AVar b] [AVar a]) /\ exists r', c_todo st1 = (k, i0) :: r') as [Hlive1 (r1 & Htodo1)].
  { cut (~ In i0 [] /\ lives st1 i0 (Clause [AVar b] [AVar a]) /\ exists r', c_todo st1 = (k, i0) :: r'); [tauto|].
    apply (items_ind V hr (fun is_ s => ~ In i0 is_ /\ lives s i0 (Clause [AVar b] [AVar a]) /\ exists r', c_todo s = (k, i0) :: r') b a)
      with (is_ := range st b) (st := st0); auto.
    - intros j is_ s s1 it ri new (H1 & H2 & (r' & H3)) Hl Hk He Hi _ Hh _. split; [cbn in H1; tauto|]. split.
      + unfold lives. rewrite Hi. apply items_keep; [|exact H2]. intros ->. cbn in H1. tauto.
      + eapply Hh, H3.
    - split; [exact Hni0|]. split; [exact Hlive0|]. cbn. eauto. }
  pose proof (lives_lt _ _ _ Hlive1) as Hlt1.
  split; [|split; [|split; [exact Hnd|split; [exact Hlive1|eauto]]]].
  - intros v j. unfold cnt, ents, drop_cur, kcount. cbn [c_done c_todo c_items]. rewrite Htodo1. cbn [tl].
    assert (count_occ pdec (c_done st1 ++ (k, i0) :: r1) (v, j) =
            (if pdec (k, i0) (v, j) then 1 else 0) + count_occ pdec (c_done st1 ++ r1) (v, j)) as Hcc.
    { rewrite !count_occ_app. cbn [count_occ]. destruct (pdec (k, i0) (v, j)); lia. }
    pose proof (Hinv1 v j) as Hvj. unfold cnt, ents, kcount in Hvj. rewrite Htodo1, Hcc in Hvj.
    destruct (Nat.eq_dec j i0) as [->|Hne].
    + unfold lives in Hlive1. rewrite (upd_same _ _ _ _ _ Hlive1). rewrite Hlive1 in Hvj. cbn [keys avars count_occ] in Hvj.
      pose proof (Hinv1 k i0) as Hki. unfold cnt, ents, kcount in Hki. rewrite Htodo1, Hlive1 in Hki. cbn [keys avars count_occ] in Hki.
      rewrite !count_occ_app in Hki. cbn [count_occ] in Hki. destruct (pdec (k, i0) (k, i0)) as [_|]; [|congruence].
      destruct (Nat.eq_dec a k) as [<-|]; [|lia].
      destruct (pdec (a, i0) (v, i0)) as [Ev|Ev], (Nat.eq_dec a v) as [Ea|Ea]; try congruence; try lia.
    + rewrite upd_other by auto. destruct (pdec (k, i0) (v, j)); lia.
  - intros i j v H1 H2. apply (drop_lives V (fun _ => True)) in H1, H2; try exact Hlt1. apply (Hu1 i j v); tauto.
Qed.

(** measures *)
Definition binary (o : option item) : bool := match o with Some (Clause [_] [_]) => true | _ => false end.
Definition mL (st : cst) : nat := length (filter binary (c_items st)).
Definition mD (st : cst) : nat := length (filter (fun e => is_decl st (snd e)) (ents st)).

Lemma filter_upd : forall (l : list (option item)) i x y, nth_error l i = Some y ->
  length (filter binary (upd l i x)) + (if binary y then 1 else 0) = length (filter binary l) + (if binary x then 1 else 0).
Proof.
  induction l as [|z l IH]; intros [|i] x y H; cbn [nth_error upd filter] in *; try discriminate.
  - injection H as ->. destruct (binary y), (binary x); cbn; lia.
  - specialize (IH _ x _ H). destruct (binary z); cbn [length]; lia.
Qed.

Lemma mL1 : forall b a st j st1 it ri new, lives st j it -> (forall v, it <> Decl v) ->
  eff V b a it ri new -> c_items st1 = upd (c_items st) j ri ++ map Some new -> mL st1 <= mL st.
Proof.
  intros b a st j st1 it ri new Hl Hnd He Hi. unfold mL. rewrite Hi, filter_app, app_length.
  pose proof (filter_upd _ _ ri _ Hl) as Hf.
  inversion He; subst; try (destruct (Hnd _ eq_refl)); cbn [map filter binary length] in *.
  - lia.
  - destruct p as [|x [|]]; cbn in *; try lia. destruct n as [|y [|]]; cbn in *; lia.
  - lia.
  - lia.
  - lia.
Qed.

Lemma mset_length : forall (l1 l2 : list (nat * nat)), (forall e, count_occ pdec l1 e <= count_occ pdec l2 e) ->
  length l1 <= length l2.
Proof.
  induction l1 as [|x l1 IH]; intros l2 H; [cbn; lia|].
  assert (In x l2) as Hin.
  { apply (count_occ_In pdec). specialize (H x). cbn in H. destruct (pdec x x); [lia|congruence]. }
  apply in_split in Hin. destruct Hin as (u & w & ->). rewrite app_length. cbn [length].
  specialize (IH (u ++ w)). rewrite app_length in IH. cut (length l1 <= length u + length w); [lia|]. apply IH.
  intros e. specialize (H e). rewrite !count_occ_app in *. cbn [count_occ] in H. destruct (pdec x e); lia.
Qed.
Lemma count_filter : forall (P : nat * nat -> bool) l e, count_occ pdec (filter P l) e = if P e then count_occ pdec l e else 0.
Proof.
  intros P l e. induction l as [|x l IH]; cbn [filter count_occ].
  - destruct (P e); reflexivity.
  - destruct (P x) eqn:E; cbn [count_occ]; destruct (pdec x e) as [->|]; rewrite ?IH, ?E; destruct (P e); try reflexivity; congruence.
Qed.

Lemma mD1 : forall b a st j st1 it ri new, lives st j it -> In b (keys V hr it) ->
  eff V b a it ri new -> c_items st1 = upd (c_items st) j ri ++ map Some new ->
  compress_item V hr st j b a = Ok st1 -> mD st1 <= mD st.
Proof.
  intros b a st j st1 it ri new Hl Hk He Hi Hc. unfold mD. apply mset_length. intros [v i]. rewrite !count_filter. cbn [snd].
  destruct (is_decl st1 i) eqn:E; [|lia].
  assert (is_decl st i = true) as ->.
  { unfold is_decl in *. destruct (nth_error (c_items st1) i) as [[[| | | |w]|]|] eqn:E1; try discriminate.
    pose proof (decl_old V (fun _ => True) b a st j st1 it ri new i w Hl He Hi E1) as Ho. unfold lives in Ho. rewrite Ho. reflexivity. }
  assert (exists w, lives st1 i (Decl w)) as (w & Hw).
  { unfold is_decl in E. unfold lives. destruct (nth_error (c_items st1) i) as [[[| | | |w]|]|]; try discriminate. eauto. }
  pose proof (decl_old V (fun _ => True) b a st j st1 it ri new i w Hl He Hi Hw) as Ho.
  change (cnt (v, i) st1 <= cnt (v, i) st). pose proof (lives_lt _ _ _ Ho) as Hlt.
  assert (forall s it', length (c_items s) = length (c_items st) -> cnt (v, i) (add_item V hr s it') = cnt (v, i) s) as Hadd.
  { intros s it' Hs. rewrite add_cnt. destruct (i =? length (c_items s)) eqn:Ei; [apply Nat.eqb_eq in Ei; lia|reflexivity]. }
  unfold compress_item in Hc. unfold lives in Hl. rewrite Hl in Hc. destruct it as [p n|x|p l c|p l|u].
  - destruct (_ && _); [injection Hc as <-; reflexivity|].
    apply bind_ok in Hc. destruct Hc as ([s1 c] & H1 & H2). injection H2 as <-.
    destruct (rename_spec _ _ _ _ _ _ _ H1) as (Hi1 & _ & _ & Hn & _).
    match goal with |- cnt ?e (remove_item ?s ?j) <= _ => change (cnt e (remove_item s j)) with (cnt e s) end.
    rewrite Hadd by congruence. rewrite Hn. destruct ((i =? j) && negb (v =? b)); lia.
  - injection Hc as <-. reflexivity.
  - injection Hc as <-. rewrite track_cnt.
    match goal with |- _ + cnt ?e (mkC _ _ _) <= _ => change (cnt e st) with (cnt e st) end.
    destruct (i =? j) eqn:Ei; [|apply Nat.le_refl]. apply Nat.eqb_eq in Ei. subst i. unfold lives in Ho. congruence.
  - injection Hc as <-. reflexivity.
  - destruct (v_def (V u)) as [[l|l|p l h]|]; try discriminate.
    + injection Hc as <-. clear - Hlt.
      assert (forall s, length (c_items st) <= length (c_items s) -> cnt (v, i) (add_conjuncts V hr s a l) = cnt (v, i) s) as H.
      { induction l as [|x l IH]; intros s Hs; cbn [add_conjuncts]; [reflexivity|]. destruct (arg_is a x); [apply IH, Hs|].
        rewrite IH. - rewrite add_cnt. destruct (i =? length (c_items s)) eqn:Ei; [apply Nat.eqb_eq in Ei; lia|reflexivity].
        - rewrite add_items, app_length. lia. }
      rewrite H by lia. lia.
    + destruct (v_pos (V u)); [|injection Hc as <-; reflexivity]. destruct l as [|x l]; [discriminate|]. injection Hc as <-.
      match goal with |- cnt ?e (remove_item ?s ?j) <= _ => change (cnt e (remove_item s j)) with (cnt e s) end.
      destruct (arg_is a x); [reflexivity|]. rewrite Hadd by reflexivity. reflexivity.
    + destruct (v_pos (V u)); injection Hc as <-; [|reflexivity]. rewrite Hadd by reflexivity. reflexivity.
Qed.

Definition tinv (st : cst) : Prop := inv V hr st /\ uniq st /\ noself st.

Lemma mD_range : forall st e rest b, c_todo st = e :: rest -> fst e <> b ->
  mD (mkC (c_items st) (filter (fun x => negb (fst x =? b)) (c_done st)) (e :: filter (fun x => negb (fst x =? b)) rest)) +
  length (filter (is_decl st) (range st b)) = mD st.
Proof.
  intros st e rest b Ht Hne. unfold mD, range, ents. cbn [c_done c_todo]. rewrite Ht.
  change (is_decl (mkC (c_items st) (filter (fun x => negb (fst x =? b)) (c_done st)) (e :: filter (fun x => negb (fst x =? b)) rest))) with (is_decl st).
  assert (forall l : list (nat * nat), length (filter (fun e => is_decl st (snd e)) (filter (fun x => negb (fst x =? b)) l)) +
    length (filter (is_decl st) (map snd (filter (fun x => fst x =? b) l))) = length (filter (fun e => is_decl st (snd e)) l)) as H.
  { induction l as [|x l IH]; [reflexivity|]. cbn [filter]. destruct (fst x =? b); cbn [negb map filter].
    - destruct (is_decl st (snd x)); cbn [length]; lia.
    - destruct (is_decl st (snd x)); cbn [length]; lia. }
  rewrite <- (H (c_done st ++ e :: rest)). f_equal. f_equal. rewrite !filter_app. f_equal.
  cbn [filter]. apply Nat.eqb_neq in Hne. rewrite Hne. reflexivity.
Qed.

Lemma go_tinv : forall st e rest a b st1, c_todo st = e :: rest -> tinv st ->
  decide V st (snd e) = Ok (Go a b) -> fst e <> b ->
  compress_items V hr (mkC (c_items st) (filter (fun x => negb (fst x =? b)) (c_done st))
                           (e :: filter (fun x => negb (fst x =? b)) rest)) (range st b) b a = Ok st1 ->
  tinv (drop_cur st1 (snd e)) /\
  (mD (drop_cur st1 (snd e)) < mD st \/
   (mD (drop_cur st1 (snd e)) <= mD st /\ mL (drop_cur st1 (snd e)) < mL st)).
Proof.
  intros st e rest a b st1 Ht (Hi & Hu & Hs) Hd Hne Hc.
  destruct (go_inv _ _ _ _ _ _ Ht Hi Hu Hd Hne Hc) as (Hi' & Hu' & Hnd & Hlive & (r & Hr)).
  set (st0 := mkC (c_items st) (filter (fun x => negb (fst x =? b)) (c_done st)) (e :: filter (fun x => negb (fst x =? b)) rest)) in *.
  pose proof (range_ok V hr st b Hi) as Htok. change (todo_ok V hr b st0 (range st b)) in Htok.
  destruct (decide_go V _ _ _ _ Hd) as (_ & Hab & _).
  pose proof (lives_lt _ _ _ Hlive) as Hlt.
  assert (noself st1) as Hs1.
  { apply (items_ind V hr (fun _ s => noself s) b a) with (is_ := range st b) (st := st0); auto.
    intros j is_ s s1 it ri new H1 Hl Hk He Hi1 _ _ _. eapply noself1; eassumption. }
  assert (mD st1 <= mD st0) as HD.
  { apply (items_ind V hr (fun _ s => mD s <= mD st0) b a) with (is_ := range st b) (st := st0); auto.
    intros j is_ s s1 it ri new H1 Hl Hk He Hi1 Hc1 _ _. etransitivity; [|exact H1]. eapply mD1; eassumption. }
  pose proof (mD_range st e rest b Ht Hne) as HDr. fold st0 in HDr.
  assert (mD (drop_cur st1 (snd e)) <= mD st1) as HD2.
  { unfold mD, ents, drop_cur. cbn [c_done c_todo]. rewrite Hr. cbn [tl]. apply mset_length. intros f. rewrite !count_filter.
    unfold is_decl at 1. cbn [c_items].
    destruct (Nat.eq_dec (snd f) (snd e)) as [E|E].
    - rewrite E. unfold lives in Hlive. rewrite (upd_same _ _ _ _ _ Hlive). lia.
    - rewrite upd_other by auto. fold (is_decl st1 (snd f)).
      destruct (is_decl st1 (snd f)); [|lia]. rewrite !count_occ_app. cbn [count_occ]. destruct (pdec e f); lia. }
  split.
  - split; [exact Hi'|]. split; [exact Hu'|]. intros i x Hl. apply (drop_lives V (fun _ => True)) in Hl; [|exact Hlt]. exact (Hs1 i x (proj2 Hl)).
  - destruct (filter (is_decl st) (range st b)) as [|d ds] eqn:Ef.
    + right. split; [cbn [length] in HDr; lia|].
      assert (mL st1 <= mL st0) as HL.
      { cut ((forall j v, In j [] -> ~ lives st1 j (Decl v)) /\ mL st1 <= mL st0); [tauto|].
        apply (items_ind V hr (fun is_ s => (forall j v, In j is_ -> ~ lives s j (Decl v)) /\ mL s <= mL st0) b a) with (is_ := range st b) (st := st0); auto.
        - intros j is_ s s1 it ri new [H1 H2] Hl Hk He Hi1 _ _ _. split.
          + intros k v Hin Hlk. apply (H1 k v (or_intror Hin)). eapply (decl_old V (fun _ => True)); eassumption.
          + etransitivity; [|exact H2]. eapply mL1; try eassumption. intros v ->. exact (H1 j v (or_introl eq_refl) Hl).
        - split; [|reflexivity]. intros j v Hj Hl. assert (In j (filter (is_decl st) (range st b))) as Hin.
          { apply filter_In. split; [exact Hj|]. unfold is_decl. unfold lives in Hl. cbn in Hl. rewrite Hl. reflexivity. }
          rewrite Ef in Hin. destruct Hin. }
      change (mL st0) with (mL st) in HL. unfold mL, drop_cur in *. cbn [c_items].
      pose proof (filter_upd _ _ None _ Hlive) as Hf. cbn [binary] in Hf. lia.
    + left. cbn [length] in HDr. lia.
Qed.

Lemma terminates : forall st, tinv st -> exists n, forall fuel, n <= fuel -> compress V hr fuel st <> Err OutOfFuel.
Proof.
  enough (forall d l t st, mD st = d -> mL st = l -> length (c_todo st) = t -> tinv st ->
    exists n, forall fuel, n <= fuel -> compress V hr fuel st <> Err OutOfFuel) by (intros; eapply H; eauto).
  induction d as [d IHd] using lt_wf_ind. induction l as [l IHl] using lt_wf_ind. induction t as [t IHt] using lt_wf_ind.
  intros st Hmd Hml Hmt Hti.
  destruct (c_todo st) as [|e rest] eqn:Et.
  { exists 0. intros fuel _. destruct fuel; cbn [compress]; rewrite Et; discriminate. }
  destruct (step V hr st e rest) as [st'|x|] eqn:Es.
  - assert (exists n, forall fuel, n <= fuel -> compress V hr fuel st' <> Err OutOfFuel) as (n & Hn).
    { assert (exists dd, decide V st (snd e) = Ok dd) as (dd & Hd).
      { unfold step in Es. apply bind_ok in Es. destruct Es as (dd & Hd & _). eauto. }
      destruct dd as [| |a b].
      - unfold step in Es. rewrite Hd in Es. cbn [bind] in Es. injection Es as <-.
        eapply (IHt (length rest)); [cbn in Hmt; lia| | |reflexivity|].
        + rewrite <- Hmd. unfold mD, ents. cbn [c_done c_todo]. rewrite Et, <- app_assoc. reflexivity.
        + exact Hml.
        + destruct Hti as (Hi & Hu & Hs). split; [|split; [exact Hu|exact Hs]].
          intros v i. specialize (Hi v i). unfold cnt, ents, kcount in *. cbn [c_done c_todo c_items]. rewrite Et in Hi.
          rewrite <- app_assoc. exact Hi.
      - exfalso. destruct Hti as (_ & _ & Hs). unfold decide in Hd.
        destruct (nth_error (c_items st) (snd e)) as [[it|]|] eqn:En; try discriminate.
        destruct it as [p q| | | |]; try discriminate. destruct p as [|[b|] [|]]; try discriminate. destruct q as [|x [|]]; try discriminate.
        match type of Hd with (if ?c then _ else _) = _ => destruct c end; [|discriminate].
        destruct x as [a|]; [|discriminate]. destruct (a =? b) eqn:Eab; [|discriminate]. apply Nat.eqb_eq in Eab. subst a.
        exact (Hs _ _ En).
      - destruct (step_go _ _ _ _ _ _ Hd Es) as (Hne & s1 & Hc & ->).
        destruct (go_tinv _ _ _ _ _ _ Et Hti Hd Hne Hc) as (Hti' & [Hlt|[Hle Hlt]]).
        + eapply (IHd (mD (drop_cur s1 (snd e)))); [lia|reflexivity|reflexivity|reflexivity|exact Hti'].
        + destruct (Nat.lt_ge_cases (mD (drop_cur s1 (snd e))) d) as [Hd1|Hd1].
          * eapply (IHd (mD (drop_cur s1 (snd e)))); [lia|reflexivity|reflexivity|reflexivity|exact Hti'].
          * eapply (IHl (mL (drop_cur s1 (snd e)))); [lia|lia|reflexivity|reflexivity|exact Hti']. }
    exists (S n). intros [|fuel] Hf; [lia|]. cbn [compress]. rewrite Et, Es. cbn [bind]. apply Hn. lia.
  - exists 1. intros [|fuel] Hf; [lia|]. cbn [compress]. rewrite Et, Es. cbn [bind]. intros E. injection E as ->.
    unfold step in Es. unfold decide in Es.
    destruct (nth_error (c_items st) (snd e)) as [[it|]|]; try discriminate.
    destruct it as [p q| | | |]; try discriminate. destruct p as [|[b|] [|]]; try discriminate. destruct q as [|x [|]]; try discriminate.
    match type of Es with bind (if ?c then _ else _) _ = _ => destruct c end; [|discriminate].
    destruct x as [a|]; [|discriminate]. destruct (a =? b); [discriminate|]. cbn [bind] in Es. destruct (fst e =? b); [discriminate|].
    match type of Es with bind ?x _ = _ => destruct x as [s1|x1|] eqn:Ec; cbn [bind] in Es; try discriminate; injection Es as -> end.
    revert Ec. generalize (map snd (filter (fun x => fst x =? b) (c_done st ++ c_todo st))).
    generalize (mkC (c_items st) (filter (fun x => negb (fst x =? b)) (c_done st)) (e :: filter (fun x => negb (fst x =? b)) rest)).
    intros s is_. revert s. clear. induction is_ as [|j is_ IH]; intros s H; cbn [compress_items] in H; [discriminate|].
    destruct (compress_item V hr s j b a) as [s1|x|] eqn:E; cbn [bind] in H; [exact (IH _ H)| |discriminate].
    injection H as ->. unfold compress_item in E. destruct (nth_error (c_items s) j) as [[it|]|]; try discriminate.
    destruct it as [p n| | | |v]; try discriminate.
    + destruct (_ && _); [discriminate|]. destruct (rename s j b a n) as [[]| |] eqn:Er; cbn [bind] in E; try discriminate.
      injection E as ->. clear - Er. revert s Er. induction n as [|[v|c] n IH]; intros s Er; cbn [rename] in Er; try discriminate.
      destruct (v =? b).
      * destruct (rename s j b a n) as [[]| |] eqn:E2; cbn [bind] in Er; try discriminate. injection Er as ->. exact (IH _ E2).
      * destruct (erase1 s (v, j)) as [s1| |] eqn:E1; cbn [bind] in Er; try discriminate.
        -- destruct (rename s1 j b a n) as [[]| |] eqn:E2; cbn [bind] in Er; try discriminate. injection Er as ->. exact (IH _ E2).
        -- injection Er as ->. unfold erase1 in E1. destruct (rem1 (v, j) (c_done s)); [discriminate|].
           destruct (c_todo s); [discriminate|]. destruct (entry_eqb _ _); [discriminate|]. destruct (rem1 _ _); discriminate.
    + destruct (v_def (V v)) as [[l|[|x l]|p l h]|]; try discriminate; destruct (v_pos (V v)); discriminate.
  - exists 1. intros [|fuel] Hf; [lia|]. cbn [compress]. rewrite Et, Es. discriminate.
Qed.
End S.
