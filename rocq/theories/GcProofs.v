(** Proofs for C22, part 1: marking. *)
Require Import ZArith List Bool Lia.
From Verif Require Import Base RootModel GcModel GcSpec.
Import ListNotations.
Open Scope Z_scope.

(** ** Memories that differ only in marks *)
Definition ext (m m' : mem) : Prop :=
  forall a, match m a, m' a with
            | Some n, Some n' => n_kind n = n_kind n' /\ (n_mark n = true -> n_mark n' = true) /\
                                 n_vd n' = n_vd n || (negb (n_mark n) && n_mark n' && is_vardecl (n_kind n))
            | None, None => True
            | _, _ => False
            end.
Definition marked (m : mem) (a : ptr) : Prop := exists n, m a = Some n /\ n_mark n = true.

Lemma ext_refl : forall m, ext m m.
Proof. intros m a. destruct (m a) as [n|]; auto. split; [reflexivity|]. split; [auto|]. destruct (n_mark n), (n_vd n); reflexivity. Qed.
Lemma ext_trans : forall m1 m2 m3, ext m1 m2 -> ext m2 m3 -> ext m1 m3.
Proof.
  intros m1 m2 m3 H1 H2 a. specialize (H1 a). specialize (H2 a).
  destruct (m1 a) as [n1|], (m2 a) as [n2|], (m3 a) as [n3|]; try contradiction; auto.
  destruct H1 as (K1 & M1 & V1). destruct H2 as (K2 & M2 & V2). split; [congruence|]. split; [auto|].
  rewrite V2, V1, <- K1. destruct (n_mark n1), (n_mark n2), (n_mark n3); cbn; try (specialize (M1 eq_refl); discriminate); try (specialize (M2 eq_refl); discriminate);
    destruct (n_vd n1), (is_vardecl (n_kind n1)); reflexivity.
Qed.
Lemma ext_some : forall m m' a n, ext m m' -> m a = Some n -> exists n', m' a = Some n' /\ n_kind n = n_kind n' /\ (n_mark n = true -> n_mark n' = true).
Proof. intros m m' a n H E. specialize (H a). rewrite E in H. destruct (m' a) as [n'|]; [|contradiction]. destruct H as (K & M & _). eauto. Qed.
Lemma ext_back : forall m m' a n', ext m m' -> m' a = Some n' -> exists n, m a = Some n /\ n_kind n = n_kind n'.
Proof. intros m m' a n H E. specialize (H a). rewrite E in H. destruct (m a) as [n'|]; [|contradiction]. destruct H as (K & _). eauto. Qed.
Lemma ext_marked : forall m m' a, ext m m' -> marked m a -> marked m' a.
Proof. intros m m' a H (n & E & M). destruct (ext_some _ _ _ _ H E) as (n' & E' & _ & M'). exists n'; auto. Qed.
Lemma ext_points : forall P m m' a, ext m m' -> points P m a -> points P m' a.
Proof. intros P m m' a H (n & E & M). destruct (ext_some _ _ _ _ H E) as (n' & E' & K & _). exists n'. rewrite <- K; auto. Qed.
Lemma ext_isp : forall P m m' a, ext m m' -> isp P m a -> isp P m' a.
Proof. intros P m m' a H [E|E]; [left; auto|right; eapply ext_points; eauto]. Qed.
Lemma ext_isv : forall m m' v, ext m m' -> isv m v -> isv m' v.
Proof. intros m m' [|z|a] H; cbn; auto. apply ext_points; auto. Qed.
Lemma ext_isvs : forall m m' l, ext m m' -> Forall (isv m) l -> Forall (isv m') l.
Proof. intros m m' l H F. eapply Forall_impl; [|exact F]. intros v. apply ext_isv; auto. Qed.

#[local] Hint Resolve ext_isp ext_isv ext_isvs ext_points : gc.
Lemma ext_typed_expr : forall m m' e, ext m m' -> typed_expr m e -> typed_expr m' e.
Proof.
  intros m m' e H T. destruct e; cbn in *; intuition (eauto with gc).
  - destruct slice; eauto with gc.
  - destruct hasDecl; eauto with gc.
  - destruct (5 <=? ck); intuition (eauto with gc).
Qed.
Lemma ext_typed_kind : forall m m' k, ext m m' -> typed_kind m k -> typed_kind m' k.
Proof.
  intros m m' k H T. destruct k; cbn in *; intuition (eauto with gc).
  - eapply ext_typed_expr; eauto.
  - destruct i; cbn in *; intuition (eauto with gc).
Qed.
Lemma ext_typed : forall m m', ext m m' -> typed m -> typed m'.
Proof.
  intros m m' H [T0 T]. split.
  - specialize (H 0). rewrite T0 in H. destruct (m' 0); [contradiction|reflexivity].
  - intros a n' E. destruct (ext_back _ _ _ _ H E) as (n & E0 & K). rewrite <- K. eapply ext_typed_kind; eauto.
Qed.
Lemma ext_reach : forall m m' x y, ext m m' -> reach m x y -> reach m' x y.
Proof.
  intros m m' x y H R. induction R as [|x n y z E Hin R IH]; [constructor|]. destruct (ext_some _ _ _ _ H E) as (n' & E' & K & _).
  eapply reach_step; [exact E'| |exact IH]. rewrite <- K. exact Hin.
Qed.
Lemma ext_reach_back : forall m m' x y, ext m m' -> reach m' x y -> reach m x y.
Proof.
  intros m m' x y H R. induction R as [|x n' y z E Hin R IH]; [constructor|]. destruct (ext_back _ _ _ _ H E) as (n & E' & K).
  eapply reach_step; [exact E'| |exact IH]. rewrite K. exact Hin.
Qed.
Lemma reach_trans : forall m x y z, reach m x y -> reach m y z -> reach m x z.
Proof. intros m x y z R. induction R; auto. intros. eapply reach_step; eauto. Qed.

(** ** The calculus of pending nodes *)
Definition closed (m : mem) (P : list ptr) : Prop :=
  forall a n r, m a = Some n -> n_mark n = true -> In r (refs (n_kind n)) -> marked m r \/ In r P.
Definition from (m : mem) (S : list ptr) (x : ptr) : Prop := exists r, In r S /\ reach m r x.

Record step (m m' : mem) (S T : list ptr) : Prop := {
  st_ext : ext m m';
  st_closed : forall P, closed m (S ++ P) -> closed m' (T ++ P);
  st_done : forall r, In r S -> marked m' r \/ In r T;
  st_sound : forall x, marked m' x -> marked m x \/ from m S x;
  st_pend : forall t, In t T -> from m S t }.

Lemma from_in : forall m S x, In x S -> from m S x.
Proof. intros m S x H. exists x. split; [exact H|constructor]. Qed.
Lemma from_incl : forall m S S' x, incl S S' -> from m S x -> from m S' x.
Proof. intros m S S' x Hi (r & Hr & R). exists r. auto. Qed.
Lemma closed_weak : forall m P Q, closed m P -> (forall r, In r P -> In r Q \/ marked m r) -> closed m Q.
Proof. intros m P Q H Hi a n r E M Hin. destruct (H a n r E M Hin) as [X|X]; [left; exact X|]. apply Hi in X. tauto. Qed.

Lemma step_refl : forall m S, step m m S S.
Proof. intros m S. constructor; auto using ext_refl, from_in. Qed.
Lemma step_trans : forall m m1 m2 S T U, step m m1 S T -> step m1 m2 T U -> step m m2 S U.
Proof.
  intros m m1 m2 S T U H1 H2. destruct H1 as [E1 C1 D1 O1 P1]. destruct H2 as [E2 C2 D2 O2 P2].
  assert (forall x, from m1 T x -> from m S x) as Hf.
  { intros x (r & Hr & R). destruct (P1 r Hr) as (q & Hq & Rq). exists q. split; [exact Hq|]. eapply reach_trans; [exact Rq|]. eapply ext_reach_back; eauto. }
  constructor.
  - eapply ext_trans; eauto.
  - intros P H. apply C2, C1, H.
  - intros r Hr. destruct (D1 r Hr) as [X|X]; [left; eapply ext_marked; eauto|auto].
  - intros x Hx. destruct (O2 x Hx) as [X|X]; auto.
  - intros t Ht. auto.
Qed.
(** the pending set may be extended, reordered, and relieved of marked nodes *)
Lemma step_adjust : forall m m' S T S' T', step m m' S T -> incl S S' ->
  (forall r, In r S' -> In r S \/ In r T' \/ marked m' r) -> (forall t, In t T -> In t T' \/ marked m' t) ->
  (forall t, In t T' -> from m S' t) -> step m m' S' T'.
Proof.
  intros m m' S T S' T' H Hi HS HT HT'. destruct H as [E C D O Pd]. constructor; auto.
  - intros P Hc. assert (closed m (S ++ (S' ++ P))) as Hc'.
    { eapply closed_weak; [exact Hc|]. intros r Hr. left. apply in_or_app. right. exact Hr. }
    apply C in Hc'. eapply closed_weak; [exact Hc'|]. intros r Hr. apply in_app_or in Hr. destruct Hr as [Hr|Hr].
    + destruct (HT r Hr); [left; apply in_or_app|]; auto.
    + apply in_app_or in Hr. destruct Hr as [Hr|Hr]; [|left; apply in_or_app; auto].
      destruct (HS r Hr) as [X|[X|X]]; [|left; apply in_or_app; auto|right; exact X].
      destruct (D r X) as [Y|Y]; [right; exact Y|]. destruct (HT r Y); [left; apply in_or_app|]; auto.
  - intros r Hr. destruct (HS r Hr) as [X|[X|X]]; auto. destruct (D r X) as [Y|Y]; auto. destruct (HT r Y); auto.
  - intros x Hx. destruct (O x Hx) as [X|X]; auto. right. eapply from_incl; eauto.
Qed.
Lemma step_frame : forall m m' S T F, step m m' S T -> step m m' (S ++ F) (T ++ F).
Proof.
  intros m m' S T F H. apply (step_adjust m m' S T (S ++ F) (T ++ F) H).
  - apply incl_appl, incl_refl.
  - intros r Hr. apply in_app_or in Hr. destruct Hr; auto. right. left. apply in_or_app. auto.
  - intros t Ht. left. apply in_or_app. auto.
  - intros t Ht. apply in_app_or in Ht. destruct Ht as [Ht|Ht].
    + eapply from_incl; [|apply (st_pend _ _ _ _ H t Ht)]. apply incl_appl, incl_refl.
    + apply from_in. apply in_or_app. auto.
Qed.

(** setting the mark of one node *)
Lemma step_mark : forall m a n vd, m a = Some n -> vd = n_vd n || (negb (n_mark n) && is_vardecl (n_kind n)) ->
  step m (mput m a (mkN (n_kind n) true vd)) [a] (refs (n_kind n)).
Proof.
  intros m a n vd E Ev. set (m' := mput m a (mkN (n_kind n) true vd)).
  assert (ext m m') as X.
  { intros x. unfold m', mput. destruct (x =? a) eqn:Ex; [apply Z.eqb_eq in Ex; subst x; rewrite E; cbn|apply (ext_refl m x)].
    split; [reflexivity|]. split; [reflexivity|]. rewrite andb_true_r. exact Ev. }
  assert (forall x, marked m' x -> marked m x \/ x = a) as Hm.
  { intros x (k & Ek & Mk). unfold m', mput in Ek. destruct (x =? a) eqn:Ex; [apply Z.eqb_eq in Ex; auto|]. left. exists k. auto. }
  assert (marked m' a) as Ha. { exists (mkN (n_kind n) true vd). unfold m', mput. rewrite Z.eqb_refl. auto. }
  constructor; auto.
  - intros P Hc b k r Eb Mb Hin. unfold m', mput in Eb. destruct (b =? a) eqn:Ex.
    + injection Eb as <-. cbn in Hin. right. apply in_or_app. auto.
    + destruct (Hc b k r Eb Mb Hin) as [Y|Y]; [left; eapply ext_marked; eauto|]. destruct Y as [<-|Y]; [left; exact Ha|]. right. apply in_or_app. auto.
  - intros r [<-|[]]. auto.
  - intros x Hx. destruct (Hm x Hx) as [Y|Y]; auto. subst x. right. apply from_in. left; auto.
  - intros t Ht. exists a. split; [left; auto|]. eapply reach_step; [exact E|exact Ht|constructor].
Qed.

Lemma opt_in : forall p r, In r (opt p) <-> r = p /\ p <> 0.
Proof. intros p r. unfold opt. destruct (p =? 0) eqn:E; [apply Z.eqb_eq in E|apply Z.eqb_neq in E]; cbn; split; intuition congruence. Qed.
Lemma vnode_in : forall v r, In r (vnode v) <-> v = VNode r.
Proof. intros [|z|a] r; cbn; split; intuition congruence. Qed.
Lemma vnodes_in : forall l r, In r (vnodes l) <-> In (VNode r) l.
Proof.
  intros l r. unfold vnodes. rewrite in_flat_map. split.
  - intros (v & Hv & Hr). apply vnode_in in Hr. subst v. exact Hv.
  - intros H. exists (VNode r). split; [exact H|]. apply vnode_in. reflexivity.
Qed.
Lemma nonnull_in : forall l r, In (VNode r) (nonnull l) <-> In (VNode r) l.
Proof. intros l r. unfold nonnull. rewrite filter_In. intuition. Qed.
Lemma nonnull_forall : forall (P : val -> Prop) l, Forall P l -> Forall P (nonnull l).
Proof. intros P l H. rewrite Forall_forall in *. intros v Hv. apply filter_In in Hv. apply H. tauto. Qed.
Lemma nonnull_len : forall l, (length (nonnull l) <= length l)%nat.
Proof. induction l as [|v l IH]; cbn -[nonnull]; [cbn; lia|]. destruct v; cbn in *; unfold nonnull in IH; lia. Qed.

Lemma set_mark_step : forall m a n, m a = Some n -> is_vardecl (n_kind n) = false ->
  exists m', set_mark a m = Ok m' /\ step m m' [a] (refs (n_kind n)).
Proof.
  intros m a n E V. unfold set_mark, mget. rewrite E. cbn [bind]. eexists. split; [reflexivity|]. apply step_mark; [exact E|].
  rewrite V, andb_false_r, orb_false_r. reflexivity.
Qed.
Lemma points_novd : forall P m a, points P m a -> (forall k, P k = true -> is_vardecl k = false) ->
  exists n, m a = Some n /\ P (n_kind n) = true /\ is_vardecl (n_kind n) = false.
Proof. intros P m a (n & E & K) H. exists n. auto. Qed.

Lemma mark_leaf_step : forall P m a, isp P m a -> (forall k, P k = true -> is_vardecl k = false /\ refs k = []) ->
  exists m', mark_ptr a m = Ok m' /\ step m m' (opt a) [].
Proof.
  intros P m a H HP. unfold mark_ptr, opt. destruct H as [->|(n & E & K)]; [cbn; exists m; split; [reflexivity|apply step_refl]|].
  destruct (a =? 0); [exists m; split; [reflexivity|apply step_refl]|].
  destruct (HP _ K) as [V R]. destruct (set_mark_step m a n E V) as (m' & E' & S). rewrite R in S. eauto.
Qed.
Lemma kstr_leaf : forall k, kstr k = true -> is_vardecl k = false /\ refs k = [].
Proof. intros []; cbn; auto; discriminate. Qed.

Lemma mark_loc_step : forall m a, typed m -> isp kloc m a -> exists m', mark_loc a m = Ok m' /\ step m m' (opt a) [].
Proof.
  intros m a T H. unfold mark_loc, opt. destruct (a =? 0) eqn:Ea; [exists m; split; [reflexivity|apply step_refl]|].
  destruct H as [->|(n & E & K)]; [discriminate|].
  destruct (n_kind n) as [| | | |f sz| |] eqn:Ek; try discriminate.
  destruct (set_mark_step m a n E) as (m1 & E1 & S1); [rewrite Ek; reflexivity|]. rewrite E1. cbn [bind].
  destruct (ext_some _ _ _ _ (st_ext _ _ _ _ S1) E) as (n1 & En1 & K1 & _). unfold mget. rewrite En1. cbn [bind]. rewrite <- K1, Ek.
  destruct T as [T0 T]. pose proof (T a n E) as Ta. rewrite Ek in Ta. cbn in Ta.
  destruct (mark_leaf_step kstr m1 f) as (m2 & E2 & S2); [eapply ext_isp; [exact (st_ext _ _ _ _ S1)|apply Ta]|apply kstr_leaf|].
  exists m2. split; [exact E2|]. eapply step_trans; [exact S1|]. rewrite Ek. exact S2.
Qed.

(** ** What one expression contributes *)
Definition leaf (k : kind) : bool := match k with KStr _ | KChunk _ | KVec _ => true | _ => false end.
Record parts_ok (m : mem) (e : expr) (ps : list ptr) (l : list val) (fi : ptr) : Prop := {
  po_leaf : forall p, In p ps -> isp leaf m p;
  po_refs : forall r, In r (expr_refs e) -> In r ps \/ (r = fi /\ fi <> 0) \/ In (VNode r) l;
  po_vec : forall p n v, In p ps -> m p = Some n -> n_kind n = KVec v -> incl v l;
  po_near : forall p, In p ps -> p <> 0 -> In p (expr_refs e) \/ exists q n, In q (expr_refs e) /\ m q = Some n /\ In p (refs (n_kind n));
  po_push : forall r, In (VNode r) l -> In r (expr_refs e) \/ exists q n, In q (expr_refs e) /\ m q = Some n /\ In r (refs (n_kind n));
  po_fi : fi <> 0 -> In fi (expr_refs e) /\ points kfun m fi;
  po_isv : Forall (isv m) l }.

Definition vec_at (m : mem) (v : ptr) (l : list val) : Prop :=
  v = 0 /\ l = [] \/ v <> 0 /\ exists n, m v = Some n /\ n_kind n = KVec l.
Lemma elements_ok : forall m v, typed m -> isp kvec m v -> exists l, elements m v = Ok l /\ Forall (isv m) l /\
  vec_at m v l.
Proof.
  intros m v [T0 T] H. unfold elements. destruct (v =? 0) eqn:Ev.
  - apply Z.eqb_eq in Ev. exists []. split; [reflexivity|]. split; [constructor|]. left. auto.
  - apply Z.eqb_neq in Ev. destruct H as [->|(n & E & K)]; [contradiction|]. unfold mget. rewrite E. cbn [bind].
    pose proof (T v n E) as Tv. destruct (n_kind n) eqn:Ek; try discriminate. exists l. cbn in Tv. split; [reflexivity|]. split; [exact Tv|]. right. split; [exact Ev|]. eauto.
Qed.

Lemma isp_leaf : forall P m p, isp P m p -> (forall k, P k = true -> leaf k = true) -> isp leaf m p.
Proof. intros P m p [->|(n & E & K)] H; [left; auto|right; exists n; auto]. Qed.
Lemma kstr_l : forall k, kstr k = true -> leaf k = true. Proof. intros []; cbn; auto. Qed.
Lemma kchunk_l : forall k, kchunk k = true -> leaf k = true. Proof. intros []; cbn; auto. Qed.
Lemma kvec_l : forall k, kvec k = true -> leaf k = true. Proof. intros []; cbn; auto. Qed.
Lemma no_vec : forall P m p n v, isp P m p -> m 0 = None -> (forall k, P k = true -> kvec k = false) -> m p = Some n -> n_kind n = KVec v -> False.
Proof. intros P m p n v [->|(k & E & K)] T0 H En Ek; [congruence|]. rewrite E in En. injection En as ->. apply H in K. rewrite Ek in K. discriminate. Qed.

Ltac po_elim := match goal with
  | H : In _ [] |- _ => destruct H
  | H : In _ (_ :: _) |- _ => destruct H as [H|H]
  | H : In _ (_ ++ _) |- _ => apply in_app_or in H
  | H : _ \/ _ |- _ => destruct H
  | H : In _ (opt _) |- _ => apply opt_in in H
  | H : In _ (vnode _) |- _ => apply vnode_in in H
  | H : In _ (vnodes _) |- _ => apply vnodes_in in H
  | H : _ /\ _ |- _ => destruct H
  | H : exists _, _ |- _ => destruct H
  end.

Lemma parts_spec : forall m e, typed m -> typed_expr m e -> exists ps l fi, parts m e = Ok (ps, l, fi) /\ parts_ok m e ps l fi.
Proof.
  intros m e T Te. destruct T as [T0 T]. assert (typed m) as TT by (split; assumption).
  assert (forall v l, vec_at m v l ->
    forall n w, m v = Some n -> n_kind n = KVec w -> w = l) as Hvec.
  { intros v l [[-> ->]|(Hv & n & E & K)] n' w E' K'; [congruence|]. rewrite E in E'. injection E' as <-. congruence. }
  assert (forall v l, vec_at m v l ->
    forall r, In (VNode r) l -> v <> 0 /\ exists n, m v = Some n /\ In r (refs (n_kind n))) as Hpush.
  { intros v l [[-> ->]|(Hv & n & E & K)] r Hr; [destruct Hr|]. split; [exact Hv|]. exists n. split; [exact E|]. rewrite K. cbn. apply vnodes_in. exact Hr. }
  Ltac po_fin T0 Hvec Hpush :=
    constructor; cbn [expr_refs]; intros; repeat po_elim; subst;
    try solve [ tauto | cbn; tauto | discriminate | congruence
      | eapply isp_leaf; [eassumption|first [apply kstr_l|apply kchunk_l|apply kvec_l]]
      | match goal with E : ?m ?p = Some ?n, K : n_kind ?n = KVec _, I : isp _ ?m ?p |- _ => exfalso; eapply (no_vec _ m p n _ I T0); [|exact E|exact K]; intros []; cbn; congruence end
      | left; repeat rewrite in_app_iff; rewrite ?opt_in, ?vnode_in, ?vnodes_in; tauto
      | repeat (apply Forall_cons); try assumption; try apply Forall_nil; auto ].
  destruct e; cbn [parts typed_expr] in *.
  - do 3 eexists. split; [reflexivity|]. po_fin T0 Hvec Hpush.
  - do 3 eexists. split; [reflexivity|]. po_fin T0 Hvec Hpush.
  - do 3 eexists. split; [reflexivity|]. po_fin T0 Hvec Hpush.
  - do 3 eexists. split; [reflexivity|]. po_fin T0 Hvec Hpush.
  - destruct Te as (U & V & Huv). destruct (negb (u =? 0)) eqn:Eu.
    + apply negb_true_iff, Z.eqb_neq in Eu. destruct Huv as [|Hv]; [contradiction|]. subst v.
      do 3 eexists. split; [reflexivity|]. po_fin T0 Hvec Hpush. all: cbn in *; repeat po_elim; subst; auto.
    + apply negb_false_iff, Z.eqb_eq in Eu. subst u. clear Huv. destruct (elements_ok m v TT V) as (l & El & Fl & Hl). rewrite El. cbn [bind].
      do 3 eexists. split; [reflexivity|]. po_fin T0 Hvec Hpush. all: cbn in *; repeat po_elim; subst; auto.
      * rewrite (Hvec _ _ Hl _ _ H0 H1). apply incl_refl.
      * destruct (Hpush _ _ Hl _ H) as (Hv & n & En & Hr). right. exists v, n. rewrite opt_in. auto.
  - do 3 eexists. split; [reflexivity|]. po_fin T0 Hvec Hpush.
  - do 3 eexists. split; [reflexivity|]. destruct Te as [Ts Td]. destruct named; [specialize (Ts eq_refl)|]; po_fin T0 Hvec Hpush.
  - destruct Te as (U & D). destruct slice.
    + do 3 eexists. split; [reflexivity|].
      assert (u <> 0) by (intros ->; destruct U as (n & En & _); congruence).
      po_fin T0 Hvec Hpush. injection H0 as <-. left. apply in_or_app. left. apply opt_in. auto.
    + destruct (elements_ok m u TT U) as (l & El & Fl & Hl). rewrite El. cbn [bind].
      do 3 eexists. split; [reflexivity|]. po_fin T0 Hvec Hpush.
      * rewrite (Hvec _ _ Hl _ _ H0 H1). apply incl_refl.
      * destruct (Hpush _ _ Hl _ H) as (Hv & n & En & Hr). right. exists u, n. rewrite in_app_iff, opt_in. auto.
  - destruct Te as (U & V). destruct (elements_ok m idx TT V) as (l & El & Fl & Hl). rewrite El. cbn [bind].
    do 3 eexists. split; [reflexivity|]. po_fin T0 Hvec Hpush.
    + rewrite (Hvec _ _ Hl _ _ H0 H1). apply incl_tl, incl_refl.
    + destruct (Hpush _ _ Hl _ H) as (Hv & n & En & Hr). right. exists idx, n. rewrite in_app_iff, opt_in. auto.
  - do 3 eexists. split; [reflexivity|]. po_fin T0 Hvec Hpush. all: cbn; auto.
  - destruct Te as (U & V & W). destruct (elements_ok m g TT V) as (l & El & Fl & Hl). rewrite El. cbn [bind].
    do 3 eexists. split; [reflexivity|]. po_fin T0 Hvec Hpush.
    + rewrite (Hvec _ _ Hl _ _ H0 H1). apply incl_tl, incl_refl.
    + destruct (Hpush _ _ Hl _ H) as (Hv & n & En & Hr). right. exists g, n. rewrite !in_app_iff, opt_in. auto.
  - destruct Te as (U & V). destruct (elements_ok m ifthen TT V) as (l & El & Fl & Hl). rewrite El. cbn [bind].
    do 3 eexists. split; [reflexivity|]. po_fin T0 Hvec Hpush.
    + rewrite (Hvec _ _ Hl _ _ H0 H1). apply incl_tl, incl_refl.
    + destruct (Hpush _ _ Hl _ H) as (Hv & n & En & Hr). right. exists ifthen, n. rewrite !in_app_iff, opt_in. auto.
  - do 3 eexists. split; [reflexivity|]. destruct Te. po_fin T0 Hvec Hpush. all: cbn; auto.
  - do 3 eexists. split; [reflexivity|]. po_fin T0 Hvec Hpush. all: cbn; auto.
  - destruct Te as (U & C & A).
    assert (exists id, (if hasDecl then do n <- mget m u; match n_kind n with KItem _ (IFun id _ _ _ _) => Ok id | _ => UB end else Ok u) = Ok id /\
              isp kstr m id /\ (id <> 0 -> if hasDecl then exists n, m u = Some n /\ In id (refs (n_kind n)) else id = u)) as (id & Eid & Iid & Hid).
    { destruct hasDecl; [|exists u; auto]. destruct U as (n & En & Kn). unfold mget. rewrite En. cbn [bind].
      pose proof (T u n En) as Tu. destruct (n_kind n) as [| | | | | |loc i] eqn:Ek; try discriminate. destruct i; try discriminate. exists id.
      split; [reflexivity|]. cbn in Tu. split; [tauto|]. intros Hi. exists n. split; [reflexivity|]. rewrite Ek. cbn. apply in_or_app. right. apply in_or_app. left. apply opt_in. auto. }
    rewrite Eid. cbn [bind]. destruct (5 <=? ck) eqn:E5.
    + destruct A as (na & Ena & Ka). assert (args <> 0) by (intros ->; congruence).
      destruct (args =? 0) eqn:Ea; [apply Z.eqb_eq in Ea; contradiction|].
      destruct (elements_ok m args TT (or_intror (ex_intro _ na (conj Ena Ka)))) as (l & El & Fl & Hl). rewrite El. cbn [bind].
      do 3 eexists. split; [reflexivity|].
      assert (hasDecl = true -> u <> 0) as Hu by (intros ->; intros ->; destruct U as (n & En & _); congruence).
      constructor; cbn [expr_refs]; rewrite ?E5; intros; repeat po_elim; subst.
      * eapply isp_leaf; [exact Iid|apply kstr_l].
      * eapply isp_leaf; [right; exists na; eauto|apply kvec_l].
      * destruct hasDecl; [right; left; split; [reflexivity|]; auto|left; left]. cbn in Eid. congruence.
      * left. right. left. reflexivity.
      * exfalso. eapply no_vec; [exact Iid|exact T0| |exact H1|exact H2]. intros []; cbn; congruence.
      * rewrite (Hvec _ _ Hl _ _ H1 H2). apply incl_refl.
      * destruct hasDecl; [|left; apply in_or_app; left; apply opt_in; split; [apply Hid; exact H1|]; cbn in Eid; congruence].
        destruct (Hid H1) as (n & En & Hn). right. exists u, n. rewrite in_app_iff, opt_in. auto.
      * left. apply in_or_app. right. apply opt_in. auto.
      * destruct (Hpush _ _ Hl _ H0) as (Hv & n & En & Hr). right. exists args, n. rewrite !in_app_iff, !opt_in. auto.
      * destruct hasDecl; [|contradiction]. split; [apply in_or_app; left; apply opt_in; auto|exact U].
      * exact Fl.
    + destruct A as (Al & Af). destruct (length data <? Z.to_nat ck)%nat eqn:E6; [apply Nat.ltb_lt in E6; lia|]. cbn [bind].
      do 3 eexists. split; [reflexivity|].
      assert (hasDecl = true -> u <> 0) as Hu by (intros ->; intros ->; destruct U as (n & En & _); congruence).
      constructor; cbn [expr_refs]; rewrite ?E5; intros; repeat po_elim; subst.
      * eapply isp_leaf; [exact Iid|apply kstr_l].
      * destruct hasDecl; [right; left; split; [reflexivity|]; auto|left; left]. cbn in Eid. congruence.
      * right. right. exact H.
      * exfalso. eapply no_vec; [exact Iid|exact T0| |exact H0|exact H1]. intros []; cbn; congruence.
      * destruct hasDecl; [|left; apply in_or_app; left; apply opt_in; split; [apply Hid; exact H0|]; cbn in Eid; congruence].
        destruct (Hid H0) as (n & En & Hn). right. exists u, n. rewrite in_app_iff, opt_in. auto.
      * left. apply in_or_app. right. apply vnodes_in. exact H.
      * destruct hasDecl; [|contradiction]. split; [apply in_or_app; left; apply opt_in; auto|exact U].
      * exact Af.
  - do 3 eexists. split; [reflexivity|]. po_fin T0 Hvec Hpush. all: cbn; auto.
  - destruct Te as (U & V & W). destruct (elements_ok m lt TT U) as (l & El & Fl & Hl). rewrite El. cbn [bind].
    destruct (elements_ok m orig TT V) as (l' & El' & Fl' & Hl'). rewrite El'. cbn [bind].
    do 3 eexists. split; [reflexivity|]. po_fin T0 Hvec Hpush.
    + right. right. apply in_or_app. right. apply in_or_app. right. left. reflexivity.
    + rewrite (Hvec _ _ Hl _ _ H0 H1). apply incl_appl, incl_refl.
    + rewrite (Hvec _ _ Hl' _ _ H0 H1). apply incl_appr, incl_appl, incl_refl.
    + destruct (Hpush _ _ Hl _ H) as (Hv & n & En & Hr). right. exists lt, n. rewrite !in_app_iff, opt_in. auto.
    + destruct (Hpush _ _ Hl' _ H) as (Hv & n & En & Hr). right. exists orig, n. rewrite !in_app_iff, !opt_in. auto.
    + apply Forall_app. split; [exact Fl|]. apply Forall_app. split; [exact Fl'|]. constructor; [exact W|constructor].
  - destruct Te as (U & V). destruct (elements_ok m ranges TT V) as (l & El & Fl & Hl). rewrite El. cbn [bind].
    do 3 eexists. split; [reflexivity|]. po_fin T0 Hvec Hpush.
    + rewrite (Hvec _ _ Hl _ _ H0 H1). apply incl_tl, incl_refl.
    + destruct (Hpush _ _ Hl _ H) as (Hv & n & En & Hr). right. exists ranges, n. rewrite !in_app_iff, opt_in. auto.
  - do 3 eexists. split; [reflexivity|]. po_fin T0 Hvec Hpush.
Qed.
