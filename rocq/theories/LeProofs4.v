(** Proofs about LeModel, part 4: replacements in inequalities whose variables stay different. *)
Require Import ZArith List Bool Lia ZifyBool Permutation.
From Verif Require Import Base IntValModel IntValSpec IntValProofs SetModel SetSpec LinModel LinSpec LinProofs LinProofs2 LinProofs3 LeModel LeSpec LeProofs LeProofs2 LeProofs3.
Import ListNotations.
Open Scope Z_scope.

(** ** simplify_lin when there is nothing to do *)
Definition plain_var (V : venv) (t : term) : Prop := exists v, t = TId v /\ (v_def V v = RNone \/ exists r, v_def V v = RExp r).
Lemma resolve_all_id V xs : Forall (plain_var V) xs -> resolve_all 1 (v_def V) xs = Ok xs.
Proof.
  induction 1 as [|t xs (v & -> & Hv) _ IH]; [reflexivity|]. cbn [resolve_all resolve follow]. assert (E : (do j <- match v_def V v with RId j => Err OutOfFuel | _ => Ok v end; Ok match v_def V j with RLit w => TLit w | _ => TId j end) = Ok (TId v)).
  { destruct Hv as [E|(r & E)]; rewrite E; cbn [bind]; rewrite E; reflexivity. }
  rewrite E. cbn [bind]. rewrite IH. reflexivity.
Qed.
Lemma getx_in xs j : (j < length xs)%nat -> In (getx xs j) xs.
Proof. intros H. apply nth_In. exact H. Qed.
Lemma merge_id V xs : NoDup xs -> Forall (plain_var V) xs -> forall idx cur c d, NoDup (cur :: idx) -> Forall (fun j => (j < length xs)%nat) (cur :: idx) -> merge_terms idx cur c xs d = Ok (c, d).
Proof.
  intros ND HP. induction idx as [|j idx IH]; intros cur c d NDi HI; [reflexivity|]. inversion NDi as [|? ? N1 N2]; subst. inversion HI as [|? ? I1 I2]; subst. inversion I2 as [|? ? I3 _]; subst. cbn [merge_terms].
  rewrite Forall_forall in HP. destruct (HP _ (getx_in _ _ I3)) as (v & Ev & _). destruct (HP _ (getx_in _ _ I1)) as (w & Ew & _).
  assert (T : term_eqb (getx xs j) (getx xs cur) = false).
  { rewrite Ev, Ew. cbn. apply ident_eqb_neq. intros ->. apply N1. left. rewrite (NoDup_nth xs (TExp 0)) in ND. apply (ND j cur I3 I1). unfold getx in *. congruence. }
  rewrite T, Ev. apply IH; assumption.
Qed.
Lemma compact_id c : forall x, length c = length x -> Forall fin c -> Forall (fun a => iv_v a <> 0) c -> compact c x = (c, x).
Proof.
  induction c as [|a c IH]; intros [|t x] HL HF HN; try discriminate; [reflexivity|]. injection HL as HL. inversion HF; inversion HN; subst. cbn [compact]. rewrite IH by assumption. unfold iv_ne. rewrite fin_iv_eq by (auto using fin_0). cbn [ofZ iv_v]. destruct (iv_v a =? 0) eqn:E; [lia|reflexivity].
Qed.
Lemma simplify_id V sort cs xs : sorts sort -> length cs = length xs -> Forall fin cs -> Forall (fun a => iv_v a <> 0) cs -> NoDup xs -> Forall (plain_var V) xs ->
  simplify_lin 1 (v_def V) sort cs xs (ofZ 0) = Ok (cs, xs, ofZ 0).
Proof.
  intros Hsort HL HF HN ND HP. unfold simplify_lin. rewrite resolve_all_id by exact HP. cbn [bind]. assert (Hft : Forall fin_term xs) by (eapply Forall_impl; [|exact HP]; intros t (v & -> & _); exact Logic.I). destruct (Hsort xs Hft) as [Hperm _].
  assert (NDs : NoDup (sort xs)) by (eapply Permutation_NoDup; [apply Permutation_sym; exact Hperm|apply seq_NoDup]).
  assert (Hin : Forall (fun j => (j < length xs)%nat) (sort xs)) by (apply Forall_forall; intros j Hj; apply (Permutation_in _ Hperm), in_seq in Hj; lia).
  assert (HLd : lead_lits (sort xs) cs xs (ofZ 0) = Ok (cs, ofZ 0, sort xs)).
  { destruct (sort xs) as [|j idx]; [reflexivity|]. inversion Hin; subst. cbn [lead_lits]. rewrite Forall_forall in HP. destruct (HP _ (getx_in xs j ltac:(assumption))) as (v & Ev & _). rewrite Ev. reflexivity. }
  rewrite HLd. cbn [bind]. assert (M : match sort xs with [] => Ok (cs, ofZ 0) | cur :: idx' => merge_terms idx' cur cs xs (ofZ 0) end = Ok (cs, ofZ 0)).
  { destruct (sort xs) as [|j idx]; [reflexivity|]. eapply merge_id; eassumption. }
  rewrite M. cbn [bind]. rewrite compact_id by assumption. reflexivity.
Qed.
Lemma sub_zero c : fin c -> sub_assign c (ofZ 0) = Ok c.
Proof.
  intros H. destruct c as [v i]. destruct (fin_inf _ H) as [E F]. cbn in E, F. subst i. unfold sub_assign, finite2, isFinite. cbn [iv_inf ofZ negb andb iv_v]. unfold safeMinus. change (0 <? 0) with false. cbv iota.
  destruct (v <? 0) eqn:X; cbn; rewrite ?ll_ok by (unfold fits64, LLONG_MIN, LLONG_MAX in *; lia); cbn [bind];
  repeat match goal with |- context [if ?b then _ else _] => destruct b eqn:?; try (unfold fits64, LLONG_MIN, LLONG_MAX in *; lia) end; rewrite ?ll_ok by (unfold fits64, LLONG_MIN, LLONG_MAX in *; lia); cbn [bind]; rewrite ?Z.sub_0_r; reflexivity.
Qed.

(** ** Entries *)
Definition positive (k : ident) (cs : list IntVal) (xs : list term) : Prop := exists j a, nth_error cs j = Some a /\ nth_error xs j = Some (TId k) /\ 0 < iv_v a.
Lemma positive_in k cs xs : positive k cs xs -> In (TId k) xs.
Proof. intros (j & a & _ & E & _). eapply nth_error_In. exact E. Qed.
Lemma positive_nonneg k cs xs c : NoDup xs -> positive k cs xs -> nonneg k (Lin cs xs c).
Proof.
  intros ND (j & a & Ea & Ex & Hp) j' a' Ea' Ex'. assert (j' = j) as -> by (eapply NoDup_nth_error; [exact ND|apply nth_error_Some; congruence|congruence]). rewrite Ea in Ea'. inversion Ea'; subst. lia.
Qed.

Lemma nth_error_subst old new xs j v : nth_error (map (subst_term old new) xs) j = Some (TId v) ->
  (v = new /\ nth_error xs j = Some (TId old)) \/ (v <> old /\ nth_error xs j = Some (TId v)) \/ (v = new /\ nth_error xs j = Some (TId new)).
Proof.
  intros H. rewrite nth_error_map in H. destruct (nth_error xs j) as [t|]; [|discriminate]. cbn in H. inversion H as [E]. destruct t as [|i|]; cbn in E; try discriminate. destruct (ident_eqb i old) eqn:X.
  - apply ident_eqb_eq in X. inversion E; subst. left. auto.
  - apply ident_eqb_neq in X. inversion E; subst. right. left. auto.
Qed.
Lemma positive_subst old new cs xs k : old <> new -> ~ In (TId new) xs -> positive old cs xs -> NoDup xs ->
  (positive k cs (map (subst_term old new) xs) <-> k = new \/ (k <> old /\ positive k cs xs)).
Proof.
  intros Hne Hn Hpos ND. split.
  - intros (j & a & Ea & Ex & Hp). destruct (nth_error_subst _ _ _ _ _ Ex) as [(-> & E)|[(N & E)|(-> & E)]]; [left; reflexivity| |exfalso; apply Hn; eapply nth_error_In; exact E]. right. split; [exact N|]. exists j, a. auto.
  - intros [-> |(N & j & a & Ea & Ex & Hp)].
    + destruct Hpos as (j & a & Ea & Ex & Hp). exists j, a. split; [exact Ea|]. split; [|exact Hp]. rewrite nth_error_map, Ex. cbn. rewrite ident_eqb_refl. reflexivity.
    + exists j, a. split; [exact Ea|]. split; [|exact Hp]. rewrite nth_error_map, Ex. cbn. apply ident_eqb_neq in N. rewrite N. reflexivity.
Qed.
Lemma subst_nodup old new xs : ~ In (TId new) xs -> NoDup xs -> NoDup (map (subst_term old new) xs).
Proof.
  intros Hn. induction 1 as [|t xs Nt ND IH]; [constructor|]. cbn [map]. constructor; [|apply IH; intros X; apply Hn; right; exact X].
  intros X. apply in_map_iff in X as (u & E & Hu). assert (Nt' : t <> TId new) by (intros ->; apply Hn; left; reflexivity). assert (Nu : u <> TId new) by (intros ->; apply Hn; right; exact Hu).
  assert (K : forall w, w <> TId new -> subst_term old new w = TId new -> w = TId old).
  { intros w Nw Ew. destruct w as [|i|]; cbn in Ew; try discriminate. destruct (ident_eqb i old) eqn:Y; [apply ident_eqb_eq in Y; congruence|congruence]. }
  assert (K2 : forall w, subst_term old new w = TId new \/ subst_term old new w = w) by (intros [|i|]; cbn; auto; destruct (ident_eqb i old); auto).
  destruct (K2 t) as [A|A]; destruct (K2 u) as [B|B].
  - apply Nt. rewrite (K t Nt' A), <- (K u Nu B). exact Hu.
  - rewrite A, B in E. contradiction.
  - rewrite A, B in E. congruence.
  - rewrite A, B in E. subst u. contradiction.
Qed.
Lemma count_one new xs : NoDup xs -> In (TId new) xs -> length (filter (fun t => match t with TId w => ident_eqb w new | _ => false end) xs) = 1%nat.
Proof.
  intros ND Hin. induction ND as [|t xs Nt ND IH]; [contradiction|]. cbn [filter]. destruct Hin as [->|Hin].
  - rewrite ident_eqb_refl. cbn [length]. f_equal. assert (E : filter (fun t => match t with TId w => ident_eqb w new | _ => false end) xs = []); [|rewrite E; reflexivity].
    destruct (filter _ xs) as [|u l] eqn:E; [reflexivity|]. exfalso. assert (Hu : In u (u :: l)) by (left; reflexivity). rewrite <- E in Hu. apply filter_In in Hu as [Hu X]. destruct u; try discriminate. apply ident_eqb_eq in X. subst. contradiction.
  - assert (X : (match t with TId w => ident_eqb w new | _ => false end) = false) by (destruct t; try reflexivity; apply ident_eqb_neq; intros ->; contradiction). rewrite X. apply IH. exact Hin.
Qed.
Lemma subst_plain V old new xs : plain_var V (TId new) -> Forall (plain_var V) xs -> Forall (plain_var V) (map (subst_term old new) xs).
Proof. intros Hn. induction 1 as [|t xs Ht _ IH]; [constructor|]. cbn [map]. constructor; [|exact IH]. destruct t as [|i|]; cbn; try exact Ht. destruct (ident_eqb i old); assumption. Qed.

Section REPLACE.
Variables (V : venv) (sort : list term -> list nat).
Hypothesis Hsort : sorts sort.

Lemma tidy_parts cs xs c : tidy V (Lin cs xs c) -> length cs = length xs /\ Forall fin cs /\ Forall (fun a => iv_v a <> 0) cs /\ fin c /\ NoDup xs /\ Forall (plain_var V) xs.
Proof. intros (A & B & C & D & E & F). repeat split; try assumption. eapply Forall_impl; [|exact C]. cbv beta. tauto. Qed.
Lemma tidy_subst cs xs c old new : tidy V (Lin cs xs c) -> ~ In (TId new) xs -> plain_var V (TId new) -> tidy V (Lin cs (map (subst_term old new) xs) c).
Proof. intros (A & B & C & D & E & F) Hn Hp. cbn [tidy]. rewrite map_length. repeat split; try assumption; [apply subst_nodup; assumption|apply (subst_plain V); assumption]. Qed.
Lemma replace_keep cs xs c old new : tidy V (Lin cs xs c) -> In (TId old) xs -> ~ In (TId new) xs -> plain_var V (TId new) ->
  replace_item V sort (Lin cs xs c) old new = Ok (RNew (Lin cs (map (subst_term old new) xs) c) 1).
Proof.
  intros Ht Hin Hn Hp. pose proof (tidy_subst _ _ _ old new Ht Hn Hp) as Ht'. apply tidy_parts in Ht. destruct Ht as (A & B & C & D & E & F). apply tidy_parts in Ht'. destruct Ht' as (A' & _ & _ & _ & E' & F').
  cbn [replace_item]. rewrite simplify_id by assumption. cbn [bind]. destruct cs as [|a cs]; [destruct xs; [contradiction|discriminate]|]. rewrite sub_zero by exact D. cbn [bind]. rewrite count_one; [reflexivity|exact E'|].
  apply in_map_iff. exists (TId old). cbn. rewrite ident_eqb_refl. auto.
Qed.
Lemma add_opp a b : fin a -> fin b -> iv_v a = - iv_v b -> add_assign a b = Ok (ofZ 0).
Proof.
  intros Ha Hb E. destruct a as [v i], b as [w j]. destruct (fin_inf _ Ha) as [E1 F1]. destruct (fin_inf _ Hb) as [E2 F2]. cbn in *. subst i j v. unfold add_assign, finite2, isFinite. cbn [iv_inf iv_v negb andb]. unfold safePlus.
  destruct (- w <? 0) eqn:X; rewrite ll_ok by (unfold fits64, LLONG_MIN, LLONG_MAX in *; lia); cbn [bind];
  match goal with |- context [if ?b then _ else _] => destruct b eqn:?; try (unfold fits64, LLONG_MIN, LLONG_MAX in *; lia) end; rewrite ll_ok by (unfold fits64, LLONG_MIN, LLONG_MAX in *; lia); cbn [bind]; rewrite Z.add_opp_diag_l; reflexivity.
Qed.
Lemma perm2 (l : list nat) : Permutation l [0%nat; 1%nat] -> l = [0; 1]%nat \/ l = [1; 0]%nat.
Proof.
  intros H. pose proof (Permutation_length H) as L. destruct l as [|x [|y [|]]]; try discriminate. assert (Hx : In x [0; 1]%nat) by (eapply Permutation_in; [exact H|left; reflexivity]). assert (Hy : In y [0; 1]%nat) by (eapply Permutation_in; [exact H|right; left; reflexivity]).
  assert (ND : NoDup [x; y]) by (eapply Permutation_NoDup; [apply Permutation_sym; exact H|repeat constructor; cbn; intuition lia]). inversion ND as [|? ? N _]; subst. cbn in Hx, Hy, N. destruct Hx as [<-|[<-|[]]]; destruct Hy as [<-|[<-|[]]]; auto; exfalso; apply N; left; reflexivity.
Qed.
Lemma replace_drop a b u v c old new : tidy V (Lin [a; b] [u; v] c) -> iv_v a = - iv_v b -> iv_v c = 0 -> old <> new ->
  (u = TId old /\ v = TId new) \/ (u = TId new /\ v = TId old) -> plain_var V (TId new) -> replace_item V sort (Lin [a; b] [u; v] c) old new = Ok RDrop.
Proof.
  intros Ht Hab Hc Hne Huv Hp. destruct (tidy_parts _ _ _ Ht) as (_ & Fc & _ & Fr & _ & _). inversion Fc as [|? ? Fa Fc']; subst. inversion Fc' as [|? ? Fb _]; subst.
  assert (Em : map (subst_term old new) [u; v] = [TId new; TId new]) by (apply not_eq_sym in Hne; apply ident_eqb_neq in Hne; destruct Huv as [(-> & ->)|(-> & ->)]; cbn; rewrite ident_eqb_refl, Hne; reflexivity).
  cbn [replace_item]. rewrite Em. assert (S : simplify_lin 1 (v_def V) sort [a; b] [TId new; TId new] (ofZ 0) = Ok ([], [], ofZ 0)).
  { unfold simplify_lin. rewrite resolve_all_id by (repeat constructor; exact Hp). cbn [bind]. destruct (Hsort [TId new; TId new]) as [Hperm _]; [repeat constructor|]. cbn [length seq] in Hperm.
    destruct (perm2 _ Hperm) as [E|E]; rewrite E; cbn [lead_lits getx nth bind merge_terms]; cbn [term_eqb]; rewrite ident_eqb_refl; cbn [getc nth].
    - rewrite add_opp by assumption. reflexivity.
    - rewrite add_opp by (try assumption; lia). reflexivity. }
  rewrite S. cbn [bind]. unfold iv_gt. rewrite fin_iv_lt by (auto using fin_0). cbn [ofZ iv_v]. rewrite Hc. reflexivity.
Qed.
End REPLACE.
