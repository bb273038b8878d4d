(** The whole compression. *)
Require Import List Bool Arith Lia Permutation.
From Verif Require Import Base ChainModel ChainSpec ChainProofs ChainProofs2 ChainProofs3 ChainProofs4 ChainProofs5.
Import ListNotations.

Lemma count_filter_ne : forall (l : list (nat * nat)) b e,
  count_occ pdec (filter (fun x => negb (fst x =? b)) l) e = if fst e =? b then 0 else count_occ pdec l e.
Proof.
  induction l as [|x l IH]; intros b e; cbn [filter count_occ].
  - destruct (fst e =? b); reflexivity.
  - destruct (fst x =? b) eqn:E; cbn [negb].
    + rewrite IH. destruct (fst e =? b) eqn:E2; [reflexivity|].
      destruct (pdec x e) as [->|]; [congruence|reflexivity].
    + cbn [count_occ]. rewrite IH. destruct (pdec x e) as [->|]; [rewrite E; reflexivity|]. destruct (fst e =? b); reflexivity.
Qed.

Section S.
Variable V : nat -> vinfo.
Variable hr : bool.
Variable N : nat -> Prop.

Definition good (st : cst) : Prop := inv V hr st /\ uniq st /\ npart V N st.

Lemma holds_ext : forall I s s' it, (forall v, In v (mentions V it) -> s v = s' v) ->
  (forall v, it = Decl v -> s v = s' v) -> holds V I s it -> holds V I s' it.
Proof.
  intros I s s' it Hm Hd.
  assert (forall l, (forall v, In (AVar v) l -> s v = s' v) -> forall x, In x l -> value s x = value s' x) as Hv.
  { intros l H [v|c] Hx; cbn; [apply H, Hx|reflexivity]. }
  assert (forall l, (forall v, In (AVar v) l -> s v = s' v) -> map (value s) l = map (value s') l) as Hmap.
  { intros l H. apply map_ext_in. intros x Hx. apply (Hv l); assumption. }
  destruct it as [p n|x|p l c|p l|v]; cbn [holds mentions] in *.
  - intros H Hall. assert (forall v, In (AVar v) (p ++ n) -> s v = s' v) as Hpn by (intros v Hin; apply Hm, avars_in, Hin).
    destruct H as (x & Hx & E).
    + intros x Hx. rewrite (Hv (p ++ n) Hpn) by (apply in_app_iff; auto). apply Hall, Hx.
    + exists x. split; [exact Hx|]. rewrite <- (Hv (p ++ n) Hpn) by (apply in_app_iff; auto). exact E.
  - auto.
  - intros H Hc. rewrite <- (Hmap l). 2: { intros v Hin. apply Hm, avars_in, in_app_iff. auto. }
    apply H. rewrite (Hv (l ++ [c])). { exact Hc. } { intros v Hin. apply Hm, avars_in, Hin. } apply in_app_iff. cbn. auto.
  - intros H. rewrite <- (Hmap l). { exact H. } intros v Hin. apply Hm, avars_in, Hin.
  - intros [H1 H2]. rewrite <- (Hd v eq_refl). split; [exact H1|]. intros d Hdd. specialize (H2 d Hdd).
    assert (def_holds I s d <-> def_holds I s' d) as Heq.
    { rewrite Hdd in Hm.
      assert (forall w, In (AVar w) (def_args (Some d)) -> s w = s' w) as Ha by (intros w Hin; apply Hm, avars_in, Hin).
      destruct d as [l|l|p l h]; cbn [def_holds def_args] in *.
      - split; intros H x Hx; [rewrite <- (Hv l Ha x Hx)|rewrite (Hv l Ha x Hx)]; auto.
      - split; intros (x & Hx & E); exists x; (split; [exact Hx|]); [rewrite <- (Hv l Ha x Hx)|rewrite (Hv l Ha x Hx)]; auto.
      - rewrite (Hmap l Ha). tauto. }
    tauto.
Qed.

Definition drop_cur (st : cst) (i : nat) : cst := mkC (upd (c_items st) i None) (c_done st) (tl (c_todo st)).

Lemma drop_lives : forall st i j it, i < length (c_items st) -> lives (drop_cur st i) j it <-> j <> i /\ lives st j it.
Proof.
  intros st i j it Hi. unfold lives, drop_cur. cbn [c_items]. destruct (Nat.eq_dec j i) as [->|n].
  - destruct (nth_error (c_items st) i) as [y|] eqn:E; [|apply nth_error_None in E; lia].
    rewrite (upd_same _ _ _ _ _ E). split; [discriminate|tauto].
  - rewrite upd_other by auto. tauto.
Qed.

(** everything about one compression *)
Lemma go_facts : forall st e rest a b st1, c_todo st = e :: rest -> good st ->
  decide V st (snd e) = Ok (Go a b) -> fst e <> b ->
  compress_items V hr (mkC (c_items st) (filter (fun x => negb (fst x =? b)) (c_done st))
                           (e :: filter (fun x => negb (fst x =? b)) rest)) (range st b) b a = Ok st1 ->
  good (drop_cur st1 (snd e)) /\
  lives st1 (snd e) (Clause [AVar b] [AVar a]) /\
  (forall v, faded V v st -> v_out (V v) = false /\ v_dom (V v) = None -> faded V v (drop_cur st1 (snd e))) /\
  faded V b (drop_cur st1 (snd e)) /\
  forall I, (forall s, sol V I s st -> sol V I s (drop_cur st1 (snd e))) /\
    (forall s, sol V I s (drop_cur st1 (snd e)) -> exists s', sol V I s' st /\ forall v, v <> b -> s' v = s v).
Proof.
  intros st [k i0] rest a b st1 Htodo (Hinv & Hu & Hnp) Hdec Hkb Hc. cbn [fst snd] in *.
  set (st0 := mkC (c_items st) (filter (fun x => negb (fst x =? b)) (c_done st))
                  ((k, i0) :: filter (fun x => negb (fst x =? b)) rest)) in *.
  assert (forall j it, lives st0 j it <-> lives st j it) as Hl0 by (intros; reflexivity).
  assert (forall v j, cnt (v, j) st0 = if v =? b then 0 else cnt (v, j) st) as Hc0.
  { intros v j. unfold cnt, ents. cbn [c_done c_todo st0]. rewrite Htodo, !count_occ_app. cbn [count_occ].
    rewrite !count_filter_ne. cbn [fst]. destruct (v =? b) eqn:E; [|reflexivity].
    destruct (pdec (k, i0) (v, j)) as [E2|]; [|reflexivity]. injection E2 as -> ->. apply Nat.eqb_eq in E. congruence. }
  assert (inv V hr st0) as Hinv0.
  { intros v j. rewrite Hc0. specialize (Hinv v j). unfold kcount in *. cbn [c_items st0]. destruct (v =? b); [apply Nat.le_0_l|exact Hinv]. }
  pose proof (range_nodup V hr st b a st0 st1 Hinv eq_refl Hc) as Hnd.
  destruct (only V hr st i0 a b Hinv Hu Hdec Hnd) as (Honly & Hdproc & Hfa & Hni0).
  destruct (decide_go V st i0 a b Hdec) as (Hlive0 & Hab & Hdom & Hout & _).
  pose proof (range_ok V hr st b Hinv) as Htok. change (todo_ok V hr b st0 (range st b)) in Htok.
  assert (N a) as HNa by (apply (Hnp _ _ Hlive0); cbn; auto).
  (* invariants through compress_items *)
  assert (inv V hr st1 /\ forall j, cnt (b, j) st1 = 0) as [Hinv1 _].
  { apply (items_ind V hr (fun _ s => inv V hr s /\ forall j, cnt (b, j) s = 0) b a) with (is_ := range st b) (st := st0); auto.
    - intros j is_ s s1 it ri new [H1 H2] Hl Hk _ _ Hci _ _. eapply inv_compress_item; eassumption.
    - split; [exact Hinv0|]. intros j. rewrite Hc0, Nat.eqb_refl. reflexivity. }
  assert (uniq st1) as Hu1.
  { apply (items_ind V hr (fun _ s => uniq s) b a) with (is_ := range st b) (st := st0); auto.
    intros j is_ s s1 it ri new H1 Hl Hk He Hi _ _ _. eapply uniq1; eassumption. }
  assert (lives st1 i0 (Clause [AVar b] [AVar a]) /\ exists r', c_todo st1 = (k, i0) :: r') as [Hlive1 (r1 & Htodo1)].
  { cut (~ In i0 [] /\ lives st1 i0 (Clause [AVar b] [AVar a]) /\ exists r', c_todo st1 = (k, i0) :: r'); [tauto|].
    apply (items_ind V hr (fun is_ s => ~ In i0 is_ /\ lives s i0 (Clause [AVar b] [AVar a]) /\ exists r', c_todo s = (k, i0) :: r') b a)
      with (is_ := range st b) (st := st0); auto.
    - intros j is_ s s1 it ri new (H1 & H2 & (r' & H3)) Hl Hk He Hi _ Hh _. split; [cbn in H1; tauto|]. split.
      + unfold lives. rewrite Hi. apply items_keep; [|exact H2]. intros ->. cbn in H1. tauto.
      + eapply Hh, H3.
    - split; [exact Hni0|]. split; [exact Hlive0|]. cbn. eauto. }
  assert (left_over V N b a i0 [] st1) as Hlo.
  { apply (items_ind V hr (left_over V N b a i0) b a) with (is_ := range st b) (st := st0); auto.
    - intros j is_ s s1 it ri new H1 Hl Hk He Hi _ _ Hnj. eapply left_over1; eassumption.
    - split; [exact Hnp|]. split.
      + intros j Hj Hlj Hin. destruct (Honly j (Decl b) Hlj) as [E|[_ E]].
        * cbn [mentions]. apply avars_in, Hin.
        * subst j. unfold lives in *. cbn in Hlj. congruence.
        * exact (E b eq_refl).
      + intros j it Hl Hm. destruct (Honly j it Hl Hm) as [E|[E _]]; auto. }
  assert (done_or V b a i0 [] st1) as Hdo.
  { apply (items_ind V hr (done_or V b a i0) b a) with (is_ := range st b) (st := st0); auto.
    - intros j is_ s s1 it ri new H1 Hl Hk He Hi _ _ Hnj. eapply done_or1; eassumption.
    - split; [exact Hu|]. split.
      + intros j Hj. destruct (Htok j Hj) as (it & Hl & _). eapply lives_lt, Hl.
      + split; [eapply lives_lt; exact Hlive0|]. destruct (v_def (V b)) eqn:Ed.
        * left. apply Hdproc. discriminate.
        * right. unfold copied. rewrite Ed. exact Logic.I. }
  pose proof (lives_lt _ _ _ Hlive1) as Hlt1.
  destruct Hlo as (Hnp1 & _ & Hlo). destruct Hdo as (_ & _ & _ & [(d & [] & _)|Hcop]).
  split; [|split; [exact Hlive1|split; [|split]]].
  - split; [|split].
    + intros v j. unfold cnt, ents, drop_cur, kcount. cbn [c_done c_todo c_items]. rewrite Htodo1. cbn [tl].
      assert (count_occ pdec (c_done st1 ++ (k, i0) :: r1) (v, j) =
              (if pdec (k, i0) (v, j) then 1 else 0) + count_occ pdec (c_done st1 ++ r1) (v, j)) as Hcc.
      { rewrite !count_occ_app. cbn [count_occ]. destruct (pdec (k, i0) (v, j)); lia. }
      pose proof (Hinv1 v j) as Hvj. unfold cnt, ents, kcount in Hvj. rewrite Htodo1, Hcc in Hvj.
      destruct (Nat.eq_dec j i0) as [->|Hne].
      * unfold lives in Hlive1. rewrite (upd_same _ _ _ _ _ Hlive1). rewrite Hlive1 in Hvj. cbn [keys avars count_occ] in Hvj.
        pose proof (Hinv1 k i0) as Hki. unfold cnt, ents, kcount in Hki. rewrite Htodo1, Hlive1 in Hki. cbn [keys avars count_occ] in Hki.
        rewrite !count_occ_app in Hki. cbn [count_occ] in Hki. destruct (pdec (k, i0) (k, i0)) as [_|]; [|congruence].
        destruct (Nat.eq_dec a k) as [<-|]; [|lia].
        destruct (pdec (a, i0) (v, i0)) as [Ev|Ev], (Nat.eq_dec a v) as [Ea|Ea]; try congruence; try lia.
      * rewrite upd_other by auto. destruct (pdec (k, i0) (v, j)); lia.
    + intros i j v H1 H2. apply drop_lives in H1, H2; try exact Hlt1. apply (Hu1 i j v); tauto.
    + intros j it H1. apply drop_lives in H1; [|exact Hlt1]. apply (Hnp1 j it). tauto.
  - intros v Hf [Ho Hd]. assert (v <> a) as Hva.
    { intros ->. destruct (Hf _ _ Hlive0) as (p & n & E & Hno); [cbn; auto|]. injection E as <- <-. apply Hno. cbn. auto. }
    assert (faded V v st1) as Hf1.
    { apply (items_ind V hr (fun _ s => faded V v s) b a) with (is_ := range st b) (st := st0); auto.
      intros j is_ s s1 it ri new H1 Hl Hk He Hi _ _ _. eapply (faded1 V); eassumption. }
    intros j it Hl Hoc. apply drop_lives in Hl; [|exact Hlt1]. apply (Hf1 j it); tauto.
  - intros j it Hl Hoc. apply drop_lives in Hl; [|exact Hlt1]. destruct Hl as [Hj Hl].
    assert (In b (mentions V it)) as Hm.
    { destruct it; cbn [occurs mentions] in *; apply avars_in; try apply in_app_iff; cbn; intuition congruence. }
    destruct (Hlo j it Hl Hm) as [E|[[]|[(x & ->)|(p & n & -> & Hnb & _)]]]; [congruence|destruct Hoc|].
    exists p, n. auto.
  - intros I. split.
    + intros s Hs j it Hl. apply drop_lives in Hl; [|exact Hlt1]. destruct Hl as [Hj Hl].
      assert (s a = true -> s b = true) as Himp.
      { intros Ha. destruct (Hs _ _ Hlive0) as (x & [<-|[]] & Hx); [|exact Hx]. intros y [<-|[]]. exact Ha. }
      refine (sol_fwd V hr I s b a (range st b) st0 st1 Hnd Htok Himp Hc _ j it Hl).
      intros i it' Hli. apply (Hs i it'). exact Hli.
    + intros s Hs.
      assert (forall j it, j <> i0 -> lives st1 j it -> holds V I s it) as Hs1.
      { intros j it Hj Hl. apply (Hs j). apply drop_lives; auto. }
      destruct (v_def (V b)) as [d|] eqn:Ed.
      * destruct (match d with DForall _ => negb (v_pos (V b)) | _ => false end) eqn:Ecase.
        -- (* b is equivalent to a conjunction *)
           destruct d as [l|l|p l h]; try discriminate. apply negb_true_iff in Ecase.
           destruct (Hfa l eq_refl) as (d & Hrange). exists s. split; [|auto].
           destruct (Hdproc ltac:(congruence)) as (d' & Hd' & Hld). rewrite Hrange in Hd'. destruct Hd' as [<-|[]].
           rewrite Hrange in Hc. cbn [compress_items] in Hc. apply bind_ok in Hc. destruct Hc as (s1 & Hc1 & Hc2).
           injection Hc2 as ->. change (lives st0 d (Decl b)) in Hld.
           destruct (compress_item_eff V hr _ _ _ _ _ _ Hld Hc1) as (ri & new & He & Hi & _).
           assert (ri = Some (Decl b)) as -> by (inversion He; congruence).
           assert (forall j it, lives st j it -> lives st1 j it) as Hkeep.
           { intros j it Hl. unfold lives. rewrite Hi. destruct (Nat.eq_dec j d) as [->|Hn0].
             - assert (it = Decl b) as -> by (unfold lives in *; cbn in Hld; congruence). apply items_self. eapply lives_lt, Hld.
             - apply items_keep; assumption. }
           intros j it Hl. apply Hkeep in Hl. destruct (Nat.eq_dec j i0) as [->|Hj]; [|apply (Hs1 j); assumption].
           assert (it = Clause [AVar b] [AVar a]) as -> by (unfold lives in *; congruence).
           intros Hall. exists (AVar b). split; [cbn; auto|]. cbn [value].
           unfold copied in Hcop. rewrite Ed in Hcop. destruct Hcop as [_ Hcop].
           assert (d <> i0) as Hdi by (intros ->; unfold lives in *; cbn in Hld; congruence).
           pose proof (Hs1 d (Decl b) Hdi (Hkeep _ _ Hld)) as [_ Hdd]. destruct (Hdd _ Ed) as [_ Hdd2]. apply Hdd2; [exact Ecase|].
           assert (s a = true) as Ha by (apply (Hall (AVar a)); cbn; auto).
           intros x Hx. destruct (Hcop x Hx) as [->|(j & Hj & _ & Hlj)]; [exact Ha|].
           destruct (Hs1 j _ Hj Hlj) as (y & [<-|[]] & Hy); [|exact Hy]. intros y [<-|[]]. exact Ha.
        -- set (s' := fun v => if v =? b then s a else s v).
           assert (s' b = s a) as Hsb by (unfold s'; rewrite Nat.eqb_refl; reflexivity).
           assert (forall v, v <> b -> s' v = s v) as Hso.
           { intros v Hv. unfold s'. destruct (v =? b) eqn:E; [apply Nat.eqb_eq in E; congruence|reflexivity]. }
           exists s'. split; [|exact Hso].
           assert (sol V I s' st1) as Hs1'.
           { intros j it Hl. destruct (Nat.eq_dec j i0) as [->|Hj].
             - assert (it = Clause [AVar b] [AVar a]) as -> by (unfold lives in *; congruence).
               intros Hall. exists (AVar b). split; [cbn; auto|]. cbn [value]. rewrite Hsb. rewrite <- (Hso a Hab). apply (Hall (AVar a)). cbn. auto.
             - destruct (in_dec Nat.eq_dec b (mentions V it)) as [Hm|Hm].
               + destruct (Hlo j it Hl Hm) as [E|[[]|[(x & ->)|(p & n & -> & Hnb & Han)]]]; [congruence|exact Logic.I|].
                 intros Hall. exists (AVar b). cbn [mentions] in Hm. apply avars_in, in_app_iff in Hm. split; [tauto|].
                 cbn [value]. rewrite Hsb. rewrite <- (Hso a Hab). apply (Hall (AVar a) Han).
               + destruct (match it with Decl v => v =? b | _ => false end) eqn:Eit.
                 * destruct it as [| | | |v]; try discriminate. apply Nat.eqb_eq in Eit. subst v.
                   cbn [mentions] in Hm. rewrite avars_in in Hm.
                   unfold copied in Hcop. rewrite Ed in Hcop. cbn [holds]. rewrite Hdom, Ed. split; [discriminate|].
                   intros d' E. injection E as <-. rewrite Ed in Hm.
                   assert (forall l, ~ In (AVar b) l -> map (value s') l = map (value s) l) as Hmap.
                   { intros l Hnl. apply map_ext_in. intros [v|c] Hx; cbn; [|reflexivity]. apply Hso. intros ->. auto. }
                   destruct d as [l|l|p l h].
                   -- cbn in Ecase. apply negb_false_iff in Ecase. split; [|congruence]. rewrite Hsb. intros Ha x Hx.
                      destruct Hcop as [_ Hcop]. cbn in Hm.
                      assert (value s' x = value s x) as ->.
                      { destruct x as [v|c]; cbn; [|reflexivity]. apply Hso. intros ->. auto. }
                      destruct (Hcop x Hx) as [->|(i & Hi & _ & Hli)]; [exact Ha|].
                      destruct (Hs1 i _ Hi Hli) as (y & [<-|[]] & Hy); [|exact Hy]. intros y [<-|[]]. exact Ha.
                   -- exfalso. exact (Hcop j Hl).
                   -- destruct Hcop as (i & Hi & _ & Hli). pose proof (Hs1 i _ Hi Hli) as Himp. cbn in Himp, Hm.
                      destruct (Hdproc ltac:(congruence)) as (d & Hd & Hld). destruct (Htok d Hd) as (it' & Hl' & Hk').
                      assert (it' = Decl b) as -> by (unfold lives in *; cbn in Hl'; congruence).
                      destruct (keys_decl V hr _ _ Hk') as [_ [(l' & E)|E]]; [congruence|].
                      split; [|congruence]. rewrite Hsb. cbn [def_holds]. rewrite (Hmap l Hm). exact Himp.
                 * apply (holds_ext I s s' it).
                   -- intros v Hv. symmetry. apply Hso. intros ->. auto.
                   -- intros v ->. cbn in Eit. symmetry. apply Hso. apply Nat.eqb_neq, Eit.
                   -- exact (Hs1 j it Hj Hl). }
           intros j it Hl.
           refine (sol_bwd V hr I s' b a (range st b) st0 st1 Hnd Htok _ Hdom Hc Hs1' j it Hl). rewrite Hsb. apply Hso, Hab.
      * set (s' := fun v => if v =? b then s a else s v).
        assert (s' b = s a) as Hsb by (unfold s'; rewrite Nat.eqb_refl; reflexivity).
        assert (forall v, v <> b -> s' v = s v) as Hso.
        { intros v Hv. unfold s'. destruct (v =? b) eqn:E; [apply Nat.eqb_eq in E; congruence|reflexivity]. }
        exists s'. split; [|exact Hso].
        assert (sol V I s' st1) as Hs1'.
        { intros j it Hl. destruct (Nat.eq_dec j i0) as [->|Hj].
          - assert (it = Clause [AVar b] [AVar a]) as -> by (unfold lives in *; congruence).
            intros Hall. exists (AVar b). split; [cbn; auto|]. cbn [value]. rewrite Hsb. rewrite <- (Hso a Hab). apply (Hall (AVar a)). cbn. auto.
          - destruct (in_dec Nat.eq_dec b (mentions V it)) as [Hm|Hm].
            + destruct (Hlo j it Hl Hm) as [E|[[]|[(x & ->)|(p & n & -> & Hnb & Han)]]]; [congruence|exact Logic.I|].
              intros Hall. exists (AVar b). cbn [mentions] in Hm. apply avars_in, in_app_iff in Hm. split; [tauto|].
              cbn [value]. rewrite Hsb. rewrite <- (Hso a Hab). apply (Hall (AVar a) Han).
            + destruct (match it with Decl v => v =? b | _ => false end) eqn:Eit.
              * destruct it as [| | | |v]; try discriminate. apply Nat.eqb_eq in Eit. subst v.
                cbn [holds]. rewrite Hdom, Ed. split; discriminate.
              * apply (holds_ext I s s' it).
                -- intros v Hv. symmetry. apply Hso. intros ->. auto.
                -- intros v ->. cbn in Eit. symmetry. apply Hso. apply Nat.eqb_neq, Eit.
                -- exact (Hs1 j it Hj Hl). }
        intros j it Hl.
        refine (sol_bwd V hr I s' b a (range st b) st0 st1 Hnd Htok _ Hdom Hc Hs1' j it Hl). rewrite Hsb. apply Hso, Hab.
Qed.
End S.
