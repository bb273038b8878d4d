(** Proofs about LeModel, part 5: the whole run, when the variables of every inequality stay different. *)
Require Import ZArith List Bool Lia ZifyBool Permutation.
From Verif Require Import Base IntValModel IntValSpec IntValProofs SetModel SetSpec LinModel LinSpec LinProofs LinProofs2 LinProofs3 LeModel LeSpec LeProofs LeProofs2 LeProofs3 LeProofs4.
Import ListNotations.
Open Scope Z_scope.

(** ** Lists of entries *)
Lemma emplace_perm V e : forall l, Permutation (emplace V e l) (e :: l).
Proof.
  induction l as [|x l IH]; [reflexivity|]. cbn [emplace]. destruct (_ <? _); [reflexivity|]. etransitivity; [apply perm_skip; exact IH|apply perm_swap].
Qed.
Lemma emplace_at_perm V pre cur post e pre' post' : emplace_at V pre cur post e = (pre', post') -> Permutation (pre' ++ cur :: post') (e :: pre ++ cur :: post).
Proof.
  unfold emplace_at. destruct (_ <? _); intros H; inversion H; subst.
  - etransitivity; [apply Permutation_app_tail, emplace_perm|reflexivity].
  - etransitivity; [apply Permutation_app_head, perm_skip, emplace_perm|]. etransitivity; [apply Permutation_sym, Permutation_middle|]. etransitivity; [apply perm_skip, Permutation_sym, Permutation_middle|]. etransitivity; [apply perm_swap|]. apply perm_skip. apply Permutation_middle.
Qed.
Lemma keys_perm k l : Permutation l (without_key k l ++ with_key k l).
Proof.
  induction l as [|e l IH]; [reflexivity|]. unfold without_key, with_key in *. cbn [filter]. destruct (ident_eqb (fst e) k); cbn [negb].
  - etransitivity; [apply perm_skip; exact IH|apply Permutation_middle].
  - cbn [app]. apply perm_skip. exact IH.
Qed.
Lemma without_app k l1 l2 : without_key k (l1 ++ l2) = without_key k l1 ++ without_key k l2.
Proof. apply filter_app. Qed.
Lemma step_perm k pre cur post : fst cur <> k -> Permutation (pre ++ cur :: post) (without_key k pre ++ cur :: without_key k post ++ with_key k (pre ++ cur :: post)).
Proof.
  intros N. etransitivity; [apply (keys_perm k)|]. rewrite without_app. unfold without_key at 2. cbn [filter]. apply ident_eqb_neq in N. rewrite N. cbn [negb]. rewrite <- app_assoc. reflexivity.
Qed.
Lemma with_key_in k l e : In e (with_key k l) <-> In e l /\ fst e = k.
Proof. unfold with_key. rewrite filter_In. split; intros [A B]; (split; [exact A|]); apply ident_eqb_eq; exact B. Qed.
Lemma same_key_nodup k l : NoDup l -> NoDup (map snd (with_key k l)).
Proof.
  induction 1 as [|e l Ne ND IH]; [constructor|]. unfold with_key in *. cbn [filter]. destruct (ident_eqb (fst e) k) eqn:X; [|exact IH]. cbn [map]. constructor; [|exact IH].
  intros Y. apply in_map_iff in Y as (e' & E & Hin). apply with_key_in in Hin as [Hin F]. apply ident_eqb_eq in X. apply Ne. destruct e, e'. cbn in *. subst. exact Hin.
Qed.

Section RUN.
Variables (V : venv) (sort : list term -> list nat) (group : ident -> Z).
Hypotheses (HV : resolved V) (Hsort : sorts sort).

Definition inv (items : list slot) (ix : list entry) : Prop :=
  (forall m sl, nth_error items m = Some sl -> s_counted sl = s_live sl) /\
  (forall m i, present items m i -> tidy V i /\ apart group i) /\
  NoDup ix /\
  (forall k m, In (k, m) ix <-> exists cs xs c, present items m (Lin cs xs c) /\ positive k cs xs).
Lemma inv_perm items ix ix' : Permutation ix ix' -> inv items ix -> inv items ix'.
Proof.
  intros P (A & B & C & D). split; [exact A|]. split; [exact B|]. split; [eapply Permutation_NoDup; eassumption|]. intros k m. rewrite <- D. split; apply Permutation_in; [apply Permutation_sym|]; exact P.
Qed.
Lemma inv_upd items ix n i0 sl ix' : inv items ix -> present items n i0 -> s_counted sl = s_live sl ->
  (s_live sl = true -> forall i, s_item sl = Some i -> tidy V i /\ apart group i) -> NoDup ix' ->
  (forall k m, m <> n -> In (k, m) ix' <-> In (k, m) ix) ->
  (forall k, In (k, n) ix' <-> s_live sl = true /\ exists cs xs c, s_item sl = Some (Lin cs xs c) /\ positive k cs xs) -> inv (upd items n sl) ix'.
Proof.
  intros (A & B & C & D) (cf & E0) Hf Ht ND Ho Hn. assert (HL : (n < length items)%nat) by (apply nth_error_Some; congruence).
  split; [|split; [|split; [exact ND|]]].
  - intros m s E. rewrite nth_error_upd in E. destruct (Nat.eqb n m); [destruct (Nat.ltb n (length items)); inversion E; subst; exact Hf|eapply A; exact E].
  - intros m i Hp. apply upd_present in Hp as [(-> & E & L)|(N & Hp)]; [apply Ht; assumption|eapply B; exact Hp].
  - intros k m. destruct (Nat.eq_dec m n) as [->|N].
    + rewrite Hn. split.
      * intros (L & cs & xs & c & E & P). exists cs, xs, c. split; [|exact P]. exists (s_counted sl). rewrite nth_error_upd, Nat.eqb_refl. apply Nat.ltb_lt in HL. rewrite HL. destruct sl; cbn in *; congruence.
      * intros (cs & xs & c & Hp & P). apply upd_present in Hp as [(_ & E & L)|(N & _)]; [|congruence]. split; [exact L|]. eauto 6.
    + rewrite Ho by exact N. rewrite D. split; intros (cs & xs & c & Hp & P); exists cs, xs, c; (split; [|exact P]); [apply upd_other; assumption|]. apply upd_present in Hp as [(X & _)|(_ & Hp)]; [congruence|exact Hp].
Qed.
(** an item with only one entry goes *)
Lemma inv_drop items n k0 ix0 cs xs c sl : inv items ((k0, n) :: ix0) -> present items n (Lin cs xs c) -> (forall k, positive k cs xs -> k = k0) -> s_live sl = false -> s_counted sl = false -> inv (upd items n sl) ix0.
Proof.
  intros HI Hp Hk L C. pose proof HI as (_ & _ & ND & D). inversion ND as [|? ? N1 N2]; subst. eapply inv_upd; [exact HI|exact Hp|congruence|congruence|exact N2| |].
  - intros k m N. cbn [In]. split; [auto|intros [E|E]; [congruence|exact E]].
  - intros k. split; [|intros (X & _); congruence]. intros Hin. exfalso. assert (X : In (k, n) ((k0, n) :: ix0)) by (right; exact Hin). apply D in X as (cs' & xs' & c' & Hp' & P). pose proof (present_fun _ _ _ _ Hp Hp') as E. inversion E; subst. apply Hk in P. subst k. contradiction.
Qed.

Lemma vars_subst cs xs c old new : Forall (plain_var V) xs -> vars (Lin cs (map (subst_term old new) xs) c) = map (fun v => if ident_eqb v old then new else v) (vars (Lin cs xs c)).
Proof.
  induction 1 as [|t xs (v & -> & _) _ IH]; [reflexivity|]. cbn [vars flat_map map app subst_term] in *. destruct (ident_eqb v old); cbn [app]; f_equal; exact IH.
Qed.
Lemma link_subst cs xs c old new : link (Lin cs (map (subst_term old new) xs) c) <-> link (Lin cs xs c).
Proof.
  split; intros (a & b & u & v & c' & E & H1 & H2); inversion E; subst.
  - destruct xs as [|x [|y [|]]]; try discriminate. exists a, b, x, y, c'. auto.
  - exists a, b, (subst_term old new u), (subst_term old new v), c'. auto.
Qed.
Lemma apart_subst cs xs c old new : Forall (plain_var V) xs -> group old = group new -> apart group (Lin cs xs c) -> apart group (Lin cs (map (subst_term old new) xs) c).
Proof.
  intros HP Hg H. cbn [apart] in *. rewrite vars_subst by exact HP. assert (G : forall v, group (if ident_eqb v old then new else v) = group v) by (intros v; destruct (ident_eqb v old) eqn:X; [apply ident_eqb_eq in X; subst; symmetry; exact Hg|reflexivity]).
  destruct H as [[HL H]|[HL H]]; [left|right].
  - split; [apply link_subst; exact HL|]. intros v w Hv Hw. apply in_map_iff in Hv as (v' & <- & Hv). apply in_map_iff in Hw as (w' & <- & Hw). rewrite !G. apply H; assumption.
  - split; [intros X; apply HL; exact (proj1 (link_subst _ _ _ _ _) X)|]. rewrite map_map. erewrite map_ext by exact G. exact H.
Qed.
Lemma in_vars_dec v xs : In (TId v) xs \/ ~ In (TId v) xs.
Proof.
  induction xs as [|t xs [IH|IH]]; [right; intros []|left; right; exact IH|]. destruct t as [w|w|w]; try (right; intros [X|X]; [discriminate|contradiction]). destruct (ident_eqb w v) eqn:E; [apply ident_eqb_eq in E; subst; left; left; reflexivity|]. apply ident_eqb_neq in E. right. intros [X|X]; [congruence|contradiction].
Qed.
Lemma nodup_map_inj {A B} (f : A -> B) l x y : NoDup (map f l) -> In x l -> In y l -> f x = f y -> x = y.
Proof.
  induction l as [|a l IH]; intros ND Hx Hy E; [contradiction|]. cbn in ND. inversion ND as [|? ? N1 N2]; subst. destruct Hx as [->|Hx], Hy as [->|Hy]; auto.
  - exfalso. apply N1. rewrite E. apply in_map. exact Hy.
  - exfalso. apply N1. rewrite <- E. apply in_map. exact Hx.
Qed.

Lemma replace_all_run neg pos cur : neg <> pos -> group neg = group pos -> plain_var V (TId pos) -> forall todo items pre post,
  inv items (pre ++ cur :: post ++ todo) -> Forall (fun e => fst e = neg) todo -> ~ In (snd cur) (map snd todo) ->
  exists items' pre' post', replace_all V sort todo neg pos cur items pre post = Ok (PGo items' pre' post') /\
    inv items' (pre' ++ cur :: post') /\ (length pre' + length post' <= length pre + length post + length todo)%nat /\
    nth_error items' (snd cur) = nth_error items (snd cur) /\
    (forall m i v, present items' m i -> In v (vars i) -> v = pos \/ exists m0 i0, present items m0 i0 /\ In v (vars i0)).
Proof.
  intros Hne Hg Hpp. induction todo as [|[k n] todo IH]; intros items pre post HI Hk Hcur.
  - exists items, pre, post. rewrite app_nil_r in HI. split; [reflexivity|]. split; [exact HI|]. split; [lia|]. split; [reflexivity|]. intros m i v Hp Hv. right. eauto.
  - pose proof (Forall_inv Hk) as E. pose proof (Forall_inv_tail Hk) as Hk'. cbn in E. subst k. cbn [map In snd] in Hcur.
    assert (P0 : Permutation (pre ++ cur :: post ++ (neg, n) :: todo) ((neg, n) :: pre ++ cur :: post ++ todo)).
    { etransitivity; [|apply Permutation_sym, Permutation_middle]. apply Permutation_app_head. etransitivity; [|apply perm_swap]. apply perm_skip. apply Permutation_sym, Permutation_middle. }
    pose proof (inv_perm _ _ _ P0 HI) as HI0. pose proof HI0 as (Hfl & Hall & ND & D). inversion ND as [|? ? N1 N2]; subst.
    destruct (proj1 (D neg n) (or_introl eq_refl)) as (cs & xs & c & Hp & Pos). destruct (Hall _ _ Hp) as [Ht Hap]. pose proof (tidy_parts V _ _ _ Ht) as (TL & TF & TN & TR & TD & TP).
    pose proof (positive_in _ _ _ Pos) as Hin. cbn [replace_all]. destruct Hp as (cf & En). rewrite En. assert (Hp : present items n (Lin cs xs c)) by (exists cf; exact En).
    destruct (in_vars_dec pos xs) as [Hpos|Hpos].
    + assert (L : link (Lin cs xs c)).
      { cbn [apart] in Hap. destruct Hap as [[L _]|[_ H]]; [exact L|]. exfalso. apply Hne. eapply nodup_map_inj; [exact H| | |exact Hg]; apply vars_lin; assumption. }
      destruct L as (a & b & u & v & c' & EL & Hab & Hc). inversion EL; subst.
      assert (Huv : (u = TId neg /\ v = TId pos) \/ (u = TId pos /\ v = TId neg)) by (destruct Hin as [->|[->|[]]]; destruct Hpos as [X|[X|[]]]; auto; inversion X; congruence).
      rewrite (replace_drop V sort Hsort _ _ _ _ _ _ _ Ht Hab Hc Hne Huv Hpp). cbn [bind].
      assert (HI1 : inv (upd items n (mkSlot (Some (Lin [a; b] [u; v] c')) false false)) (pre ++ cur :: post ++ todo)).
      { eapply inv_drop; [exact HI0|exact Hp| |reflexivity|reflexivity]. intros k (j & a' & Ea & Ex & Hpa). destruct Pos as (j1 & a1 & Ea1 & Ex1 & Hp1).
        destruct j as [|[|j]]; destruct j1 as [|[|j1]]; cbn in *; try (destruct j; discriminate); try (destruct j1; discriminate); inversion Ea; inversion Ea1; subst; try congruence; exfalso; lia. }
      destruct (IH _ _ _ HI1 Hk' ltac:(tauto)) as (items' & pre' & post' & R1 & R2 & R3 & R4 & R5). exists items', pre', post'. split; [exact R1|]. split; [exact R2|]. split; [cbn [length]; lia|]. split.
      * rewrite R4, nth_error_upd. destruct (Nat.eqb n (snd cur)) eqn:X; [apply Nat.eqb_eq in X; exfalso; apply Hcur; left; congruence|reflexivity].
      * intros m i v0 Hm Hv. destruct (R5 m i v0 Hm Hv) as [->|(m0 & i0 & Hm0 & Hv0)]; [left; reflexivity|]. apply upd_present in Hm0 as [(_ & _ & X)|(_ & Hm0)]; [discriminate|]. right. eauto.
    + rewrite (replace_keep V sort Hsort _ _ _ _ _ Ht Hin Hpos Hpp). cbn [bind emplaces]. destruct (emplace_at V pre cur post (pos, n)) as [pre1 post1] eqn:Em. pose proof (emplace_at_perm _ _ _ _ _ _ _ Em) as P1.
      assert (cf = true) by (specialize (Hfl _ _ En); cbn in Hfl; exact Hfl). subst cf.
      assert (P2 : Permutation ((pos, n) :: pre ++ cur :: post ++ todo) (pre1 ++ cur :: post1 ++ todo)).
      { change (Permutation ((pos, n) :: pre ++ (cur :: post) ++ todo) (pre1 ++ (cur :: post1) ++ todo)). rewrite !app_assoc. change ((pos, n) :: (pre ++ cur :: post) ++ todo) with (((pos, n) :: pre ++ cur :: post) ++ todo). apply Permutation_app_tail. apply Permutation_sym. exact P1. }
      assert (HI1 : inv (upd items n (mkSlot (Some (Lin cs (map (subst_term neg pos) xs) c)) true true)) (pre1 ++ cur :: post1 ++ todo)).
      { eapply inv_perm; [exact P2|]. eapply inv_upd; [exact HI0|exact Hp|reflexivity| | | |].
        - intros _ i E. cbn in E. inversion E; subst. split; [apply tidy_subst; assumption|apply apart_subst; assumption].
        - constructor; [|exact N2]. intros X. assert (Y : In (pos, n) ((neg, n) :: pre ++ cur :: post ++ todo)) by (right; exact X). apply D in Y as (cs' & xs' & c' & Hp' & P'). pose proof (present_fun _ _ _ _ Hp Hp') as E. inversion E; subst. apply Hpos. eapply positive_in. exact P'.
        - intros k m N. cbn [In]. split; (intros [E|E]; [congruence|right; exact E]).
        - intros k. cbn [s_live s_item]. split.
          + intros [E|Hin0].
            * inversion E; subst. split; [reflexivity|]. do 3 eexists. split; [reflexivity|]. apply positive_subst; auto.
            * split; [reflexivity|]. do 3 eexists. split; [reflexivity|]. apply positive_subst; auto. right.
              assert (Y : In (k, n) ((neg, n) :: pre ++ cur :: post ++ todo)) by (right; exact Hin0). apply D in Y as (cs' & xs' & c' & Hp' & P'). pose proof (present_fun _ _ _ _ Hp Hp') as E. inversion E; subst. split; [|exact P']. intros ->. contradiction.
          + intros (_ & cs' & xs' & c' & E & P'). inversion E; subst. apply positive_subst in P'; auto. destruct P' as [->|[N P']]; [left; reflexivity|]. right. assert (Y : In (k, n) ((neg, n) :: pre ++ cur :: post ++ todo)) by (apply D; eauto). destruct Y as [Y|Y]; [inversion Y; congruence|exact Y]. }
      destruct (IH _ _ _ HI1 Hk' ltac:(tauto)) as (items' & pre' & post' & R1 & R2 & R3 & R4 & R5). exists items', pre', post'. split; [exact R1|]. split; [exact R2|]. split; [apply Permutation_length in P1; cbn in P1; rewrite !app_length in P1; cbn in P1; cbn [length]; lia|]. split.
      * rewrite R4, nth_error_upd. destruct (Nat.eqb n (snd cur)) eqn:X; [apply Nat.eqb_eq in X; exfalso; apply Hcur; left; congruence|reflexivity].
      * intros m i v0 Hm Hv. destruct (R5 m i v0 Hm Hv) as [->|(m0 & i0 & Hm0 & Hv0)]; [left; reflexivity|]. apply upd_present in Hm0 as [(_ & E & _)|(_ & Hm0)]; [|right; eauto].
        cbn in E. inversion E; subst. rewrite vars_subst in Hv0 by exact TP. apply in_map_iff in Hv0 as (w & <- & Hw). destruct (ident_eqb w neg); [left; reflexivity|right; eauto].
Qed.

Lemma consider_ok items ix i : tidy V i -> exists v, consider V items ix i = Ok v.
Proof.
  intros Ht. destruct i as [cs xs c|p vs]; [|eexists; reflexivity]. destruct cs as [|a0 [|a1 [|]]]; try (eexists; reflexivity). destruct xs as [|x0 [|x1 [|]]]; try (eexists; reflexivity). cbn [consider].
  destruct (iv_eq c (ofZ 0)); [|eexists; reflexivity]. destruct Ht as (_ & F & N & _). assert (F1 : fin a1) by (inversion F as [|? ? _ X]; inversion X; assumption). assert (N1 : iv_v a1 <> LLONG_MIN) by (inversion N as [|? ? _ X]; inversion X; tauto).
  assert (E : exists m, iv_neg a1 = Ok m).
  { destruct a1 as [v f]. destruct (fin_inf _ F1) as [E1 E2]. cbn in E1, E2, N1. unfold iv_neg, safeMinus. cbn [iv_v iv_inf]. change (0 <? 0) with false. cbv iota. rewrite ll_ok by (unfold fits64, LLONG_MIN, LLONG_MAX in *; lia). cbn [bind].
    destruct (v <? 0 - LLONG_MAX) eqn:X; [unfold fits64, LLONG_MIN, LLONG_MAX in *; lia|]. rewrite ll_ok by (unfold fits64, LLONG_MIN, LLONG_MAX in *; lia). eexists; reflexivity. }
  destruct E as (m & E). rewrite E. cbn [bind]. destruct (_ && _); [|eexists; reflexivity]. destruct (iv_lt a0 a1).
  - destruct x0; try (eexists; reflexivity). destruct (v_def V i); try (eexists; reflexivity). destruct x1; try (eexists; reflexivity).
  - destruct x1; try (eexists; reflexivity). destruct (v_def V i); try (eexists; reflexivity). destruct x0; try (eexists; reflexivity).
Qed.

Lemma run_sound T : forall fuel items pre post, inv items (pre ++ post) -> (length (pre ++ post) <= T)%nat -> (length (pre ++ post) * S T + length post <= fuel)%nat ->
  exists items', compress V sort fuel items pre post = (Ok (Done items')) /\ (exists E, same_without V E (rest items) (rest items')) /\ (forall i v, In i (rest items') -> In v (vars i) -> exists j, In j (rest items) /\ In v (vars j)).
Proof.
  induction fuel as [|fuel IH]; intros items pre post HI HT HF.
  - destruct post as [|cur post]; [|cbn in HF; lia]. exists items. split; [reflexivity|]. split; [exists []; apply same_refl|]. eauto.
  - destruct post as [|cur post]; [exists items; split; [reflexivity|]; split; [exists []; apply same_refl|eauto]|]. cbn [compress].
    pose proof HI as (Hfl & Hall & ND & D). destruct cur as [k n]. destruct (proj1 (D k n)) as (cs & xs & c & Hp & Pos); [apply in_or_app; right; left; reflexivity|]. destruct (Hall _ _ Hp) as [Ht Hap].
    cbn [snd fst]. pose proof Hp as (cf & En). rewrite En. match goal with |- context [consider V items ?ix ?i] => destruct (consider_ok items ix i Ht) as (vd & Ec) end. rewrite Ec. cbn [bind]. destruct vd as [| |neg pos].
    + exists items. split; [reflexivity|]. split; [exists []; apply same_refl|eauto].
    + apply IH; rewrite <- app_assoc; cbn [app]; [exact HI|exact HT|cbn [length] in HF; lia].
    + pose proof (tidy_parts V _ _ _ Ht) as (TL & TF & TN & TR & TD & TP). destruct (consider_go V items _ _ neg pos (tidy_sound V _ Ht) Ec) as (Ho & Hd & Hdom & Hlen & Hocc & a & b & c0 & Hi & Hb & Ha & Hc).
      assert (HS : good_slots items) by (split; [exact Hfl|]; intros m i Hm; apply (tidy_sound V); eapply Hall; exact Hm).
      assert (Hvv : In (TId pos) xs /\ In (TId neg) xs /\ neg <> pos /\ (forall k', positive k' cs xs -> k' = pos) /\ link (Lin cs xs c)).
      { destruct Hi as [E|E]; inversion E; subst.
        - assert (Hne : neg <> pos) by (inversion TD as [|? ? X _]; subst; intros ->; apply X; left; reflexivity). assert (iv_v a <> 0) by (inversion TN; assumption). split; [left; reflexivity|]. split; [right; left; reflexivity|]. split; [exact Hne|]. split.
          + intros k' (j & a' & Ea & Ex & Hpa). destruct j as [|[|j]]; cbn in *; [congruence| |destruct j; discriminate]. inversion Ea; subst. lia.
          + do 5 eexists. split; [reflexivity|]. split; lia.
        - assert (Hne : neg <> pos) by (inversion TD as [|? ? X _]; subst; intros ->; apply X; left; reflexivity). assert (iv_v b <> 0) by (inversion TN; assumption). split; [right; left; reflexivity|]. split; [left; reflexivity|]. split; [exact Hne|]. split.
          + intros k' (j & a' & Ea & Ex & Hpa). destruct j as [|[|j]]; cbn in *; [|congruence|destruct j; discriminate]. inversion Ea; subst. lia.
          + do 5 eexists. split; [reflexivity|]. split; lia. }
      destruct Hvv as (Vp & Vn & Hne & Hk & HL). pose proof (Hk k Pos). subst k.
      assert (Hg : group neg = group pos) by (cbn [apart] in Hap; destruct Hap as [[_ H]|[X _]]; [apply H; apply vars_lin; assumption|contradiction]).
      assert (Hpp : plain_var V (TId pos)) by (rewrite Forall_forall in TP; apply TP; exact Vp).
      set (ix := pre ++ (pos, n) :: post) in *. assert (PP : Permutation ix (without_key neg pre ++ (pos, n) :: without_key neg post ++ with_key neg ix)) by (apply step_perm; cbn; congruence).
      assert (Hcur : ~ In n (map snd (with_key neg ix))).
      { intros X. apply in_map_iff in X as ([k' n'] & E & Hin). cbn in E. subst n'. apply with_key_in in Hin as [Hin E]. cbn in E. subst k'. apply D in Hin as (cs' & xs' & c' & Hp' & P'). pose proof (present_fun _ _ _ _ Hp Hp') as E. inversion E; subst. apply Hk in P'. contradiction. }
      destruct (replace_all_run neg pos (pos, n) Hne Hg Hpp (with_key neg ix) items (without_key neg pre) (without_key neg post) (inv_perm _ _ _ PP HI)) as (items' & pre' & post' & R1 & R2 & R3 & R4 & R5); [apply Forall_forall; intros e He; apply with_key_in in He; tauto|exact Hcur|].
      match goal with |- context [replace_all V sort ?x1 ?x2 ?x3 ?x4 ?x5 ?x6 ?x7] => change (replace_all V sort x1 x2 x3 x4 x5 x6 x7) with (replace_all V sort (with_key neg ix) neg pos (pos, n) items (without_key neg pre) (without_key neg post)) end.
      rewrite R1. cbn [bind]. destruct (ident_eqb pos neg) eqn:X; [apply ident_eqb_eq in X; congruence|]. cbn [snd] in R4. assert (Hp' : present items' n (Lin cs xs c)) by (exists cf; rewrite R4; exact En).
      assert (HI' : inv (upd items' n (mkSlot None false false)) (pre' ++ post')).
      { eapply inv_drop; [eapply inv_perm; [|exact R2]; apply Permutation_sym, Permutation_middle|exact Hp'|exact Hk|reflexivity|reflexivity]. }
      pose proof (Permutation_length PP) as PL. rewrite !app_length in PL. cbn [length] in PL. rewrite app_length in PL. pose proof (app_length pre' post') as AL.
      assert (GE : good_entries items neg ix).
      { split; [apply same_key_nodup; exact ND|]. intros [k' m] He. apply with_key_in in He as [He E]. cbn in E. subst k'. apply D in He as (cs' & xs' & c' & Hm & P'). exists (Lin cs' xs' c'). split; [exact Hm|]. split; [apply positive_nonneg; [|exact P']|apply vars_lin; eapply positive_in; exact P']. destruct (Hall _ _ Hm) as [Ht' _]. apply tidy_parts in Ht'. tauto. }
      assert (Hz : forall cs0 xs0 c1, Lin cs xs c = Lin cs0 xs0 c1 -> Forall (fun a => iv_v a <> 0) cs0) by (intros ? ? ? E; inversion E; subst; exact TN).
      pose proof (step_sound V sort HV Hsort items ix (pos, n) (Lin cs xs c) neg pos _ _ _ HS GE Hp Hne Hz Ec R1) as St. cbn [snd] in St.
      change (length ix <= T)%nat in HT. change (length ix * S T + S (length post) <= S fuel)%nat in HF.
      destruct (IH _ pre' post' HI') as (items2 & Q1 & (E2 & Q2) & Q3); [lia|nia|].
      assert (Sub : forall i v, In i (rest (upd items' n (mkSlot None false false))) -> In v (vars i) -> exists j, In j (rest items) /\ In v (vars j)).
      { intros i v Hi' Hv. apply present_rest in Hi' as (m & Hm). apply upd_present in Hm as [(_ & Z & _)|(_ & Hm)]; [discriminate|]. destruct (R5 m i v Hm Hv) as [->|(m0 & i0 & Hm0 & Hv0)].
        - exists (Lin cs xs c). split; [apply present_rest; exists n; exact Hp|apply vars_lin; exact Vp].
        - exists i0. split; [apply present_rest; exists m0; exact Hm0|exact Hv0]. }
      exists items2. split; [exact Q1|]. split.
      * exists ([neg] ++ E2). eapply same_trans; [exact St|exact Q2|]. intros v i HvE Hi2 Hv. destruct (Q3 i v Hi2 Hv) as (j & Hj & Hvj). destruct St as [St1 _]. destruct (St1 v HvE) as (_ & _ & St2). exact (St2 j Hj Hvj).
      * intros i v Hi2 Hv. destruct (Q3 i v Hi2 Hv) as (j & Hj & Hvj). eapply Sub; eassumption.
Qed.

(** ** The entries at the start *)
Fixpoint ents (n : nat) (cs : list IntVal) (xs : list term) : list entry :=
  match cs, xs with
  | c :: cs', TId i :: xs' => (if iv_gt c (ofZ 0) then [(i, n)] else []) ++ ents n cs' xs'
  | _ :: cs', _ :: xs' => ents n cs' xs'
  | _, _ => []
  end.
Lemma track_terms_perm n : forall cs xs l, Permutation (track_terms V n cs xs l) (ents n cs xs ++ l).
Proof.
  induction cs as [|c cs IH]; intros [|t xs] l; try reflexivity. destruct t as [w|i|w]; cbn [track_terms ents]; try apply IH. etransitivity; [apply IH|]. destruct (iv_gt c (ofZ 0)); [|reflexivity]. cbn [app]. etransitivity; [apply Permutation_app_head, emplace_perm|]. apply Permutation_sym, Permutation_middle.
Qed.
Lemma ents_in n : forall cs xs k m, Forall fin cs -> (In (k, m) (ents n cs xs) <-> m = n /\ positive k cs xs).
Proof.
  assert (P0 : forall k c cs t xs, positive k (c :: cs) (t :: xs) <-> (t = TId k /\ 0 < iv_v c) \/ positive k cs xs).
  { intros k c cs t xs. split.
    - intros (j & a & Ea & Ex & Hp). destruct j as [|j]; cbn in *; [inversion Ea; inversion Ex; subst; auto|right; exists j, a; auto].
    - intros [(-> & Hp)|(j & a & Ea & Ex & Hp)]; [exists 0%nat, c; auto|exists (S j), a; auto]. }
  assert (P1 : forall k xs, ~ positive k [] xs) by (intros k xs ([|j] & a & E & _); discriminate). assert (P2 : forall k cs, ~ positive k cs []) by (intros k cs ([|j] & a & _ & E & _); discriminate).
  induction cs as [|c cs IH]; intros [|t xs] k m HF; cbn [ents].
  - split; [intros []|intros (_ & X); apply P1 in X; contradiction].
  - split; [intros []|intros (_ & X); apply P1 in X; contradiction].
  - split; [intros []|intros (_ & X); apply P2 in X; contradiction].
  - inversion HF; subst. rewrite P0. assert (G : iv_gt c (ofZ 0) = (0 <? iv_v c)) by (unfold iv_gt; rewrite fin_iv_lt by (auto using fin_0); reflexivity). destruct t as [w|i|w]; try (rewrite IH by assumption; intuition discriminate).
    rewrite in_app_iff, IH by assumption. rewrite G. destruct (0 <? iv_v c) eqn:X; cbn [In]; split.
    + intros [[E|[]]|(-> & P)]; [inversion E; subst; split; [reflexivity|]; left; split; [reflexivity|lia]|auto].
    + intros (-> & [(E & _)|P]); [inversion E; subst; auto|auto].
    + intros [[]|(-> & P)]. auto.
    + intros (-> & [(_ & E)|P]); [lia|auto].
Qed.
Lemma ents_nodup n : forall cs xs, Forall fin cs -> NoDup xs -> NoDup (ents n cs xs).
Proof.
  induction cs as [|c cs IH]; intros [|t xs] HF ND; try constructor. inversion HF; inversion ND; subst. destruct t as [w|i|w]; cbn [ents]; try (apply IH; assumption). destruct (iv_gt c (ofZ 0)); cbn [app]; [|apply IH; assumption]. constructor; [|apply IH; assumption].
  intros X. apply ents_in in X as [_ X]; [|assumption]. apply positive_in in X. contradiction.
Qed.
Fixpoint all_ents (n : nat) (m : list fitem) : list entry :=
  match m with [] => [] | i :: m' => match i with Lin cs xs _ => ents n cs xs | Oth _ _ => [] end ++ all_ents (S n) m' end.
Lemma track_all_perm : forall m n l, Permutation (track_all V n (map fresh m) l) (all_ents n m ++ l).
Proof.
  induction m as [|i m IH]; intros n l; [reflexivity|]. cbn [map track_all fresh s_live s_item all_ents]. etransitivity; [apply IH|]. destruct i as [cs xs c|p vs]; [|reflexivity]. etransitivity; [apply Permutation_app_head, track_terms_perm|]. rewrite !app_assoc. apply Permutation_app_tail. apply Permutation_app_comm.
Qed.
Lemma all_ents_in : forall m n k j, Forall (tidy V) m -> (In (k, j) (all_ents n m) <-> (n <= j)%nat /\ exists cs xs c, nth_error m (j - n) = Some (Lin cs xs c) /\ positive k cs xs).
Proof.
  induction m as [|i m IH]; intros n k j HT; cbn [all_ents].
  - split; [intros []|intros (_ & cs & xs & c & E & _); destruct (j - n)%nat; discriminate].
  - inversion HT as [|? ? Ht HT']; subst. rewrite in_app_iff, IH by assumption. split.
    + intros [X|(L & cs & xs & c & E & P)].
      * destruct i as [cs xs c|p vs]; [|contradiction]. apply ents_in in X as [-> P]; [|apply tidy_parts in Ht; tauto]. split; [lia|]. exists cs, xs, c. rewrite Nat.sub_diag. auto.
      * split; [lia|]. exists cs, xs, c. replace (j - n)%nat with (S (j - S n)) by lia. auto.
    + intros (L & cs & xs & c & E & P). destruct (Nat.eq_dec j n) as [->|N].
      * rewrite Nat.sub_diag in E. cbn in E. inversion E; subst. left. apply ents_in; [apply tidy_parts in Ht; tauto|auto].
      * right. split; [lia|]. exists cs, xs, c. replace (j - n)%nat with (S (j - S n)) in E by lia. auto.
Qed.
Lemma nodup_app {A} (l1 l2 : list A) : NoDup l1 -> NoDup l2 -> (forall x, In x l1 -> ~ In x l2) -> NoDup (l1 ++ l2).
Proof.
  induction 1 as [|x l1 Nx ND IH]; intros H2 HD; [exact H2|]. cbn [app]. constructor; [rewrite in_app_iff; intros [X|X]; [contradiction|apply (HD x); [left; reflexivity|exact X]]|]. apply IH; [exact H2|]. intros y Hy. apply HD. right. exact Hy.
Qed.
Lemma all_ents_nodup : forall m n, Forall (tidy V) m -> NoDup (all_ents n m).
Proof.
  induction m as [|i m IH]; intros n HT; cbn [all_ents]; [constructor|]. inversion HT as [|? ? Ht HT']; subst. apply nodup_app; [|apply IH; assumption|].
  - destruct i as [cs xs c|p vs]; [|constructor]. apply tidy_parts in Ht. apply ents_nodup; tauto.
  - intros [k j] X Y. destruct i as [cs xs c|p vs]; [|contradiction]. apply ents_in in X as [-> _]; [|apply tidy_parts in Ht; tauto]. apply all_ents_in in Y as [L _]; [lia|assumption].
Qed.
Lemma present_fresh m n i : present (map fresh m) n i <-> nth_error m n = Some i.
Proof.
  unfold present. rewrite nth_error_map. destruct (nth_error m n) as [x|]; cbn; split.
  - intros (c & E). unfold fresh in E. inversion E. reflexivity.
  - intros E. inversion E. exists true. reflexivity.
  - intros (c & E). discriminate.
  - discriminate.
Qed.
Lemma rest_fresh m : rest (map fresh m) = m.
Proof. induction m as [|i m IH]; [reflexivity|]. cbn. f_equal. exact IH. Qed.

Theorem le_run m : Forall (tidy V) m -> Forall (apart group) m ->
  exists items, le_compress V sort m = Ok (Done items) /\ exists E, same_without V E m (rest items).
Proof.
  intros HT HA. unfold le_compress. set (ix := track_all V 0 (map fresh m) []).
  assert (P : Permutation (all_ents 0 m) ix) by (unfold ix; apply Permutation_sym; etransitivity; [apply track_all_perm|]; rewrite app_nil_r; reflexivity).
  assert (HI : inv (map fresh m) ix).
  { eapply inv_perm; [exact P|]. split; [|split; [|split]].
    - intros k sl E. rewrite nth_error_map in E. destruct (nth_error m k); inversion E; reflexivity.
    - intros k i Hp. apply present_fresh, nth_error_In in Hp. rewrite Forall_forall in HT, HA. split; [apply HT|apply HA]; exact Hp.
    - apply all_ents_nodup. exact HT.
    - intros k j. rewrite all_ents_in by exact HT. rewrite Nat.sub_0_r. split.
      + intros (_ & cs & xs & c & E & Q). exists cs, xs, c. split; [apply present_fresh; exact E|exact Q].
      + intros (cs & xs & c & E & Q). split; [lia|]. exists cs, xs, c. split; [apply present_fresh; exact E|exact Q]. }
  destruct (run_sound (length ix) (S (length ix) * S (length ix)) (map fresh m) [] ix HI) as (items & R1 & R2 & _); cbn [app]; [lia|nia|].
  exists items. split; [exact R1|]. rewrite rest_fresh in R2. exact R2.
Qed.
End RUN.
