(** Proofs about array access with absent indices, and about the enumeration of generators. *)
Require Import ZArith List Bool Lia ZifyBool.
From Verif Require Import Base IntValModel IntValSpec IntValProofs ArrModel ArrSpec ArrProofs LinProofs AccessModel AccessSpec AccessProofs.
Import ListNotations.
Open Scope Z_scope.

Lemma usable_filled : forall r o, range_ok r -> usable o r <-> inside (filled r o) r.
Proof.
  intros r o (H1 & H2 & H3). destruct o as [x|]; cbn [usable filled]; [tauto|]. unfold inside. unfold wid in H3. split.
  - intros H. exists (fst r). split; [apply int_of_Z, int_fits; lia|lia].
  - intros (i & _ & H). lia.
Qed.
Lemma usable_fill : forall sh idx, Forall range_ok sh -> length idx = length sh -> Forall2 usable idx sh <-> Forall2 inside (fill sh idx) sh.
Proof.
  induction sh as [|r sh IH]; intros [|o idx] Hr Hlen; try discriminate; cbn [fill].
  - split; constructor.
  - assert (range_ok r /\ Forall range_ok sh) as [Hr1 Hr2] by (inversion Hr; auto).
    cbn in Hlen. specialize (IH idx Hr2 ltac:(lia)). pose proof (usable_filled r o Hr1) as Hu.
    split; intros H; inversion H; subst; constructor; tauto.
Qed.
Lemma fill_length : forall sh idx, length idx = length sh -> length (fill sh idx) = length sh.
Proof. induction sh; intros [|o idx] H; try discriminate; cbn in *; auto. Qed.
Definition present_wf (o : option IntVal) : Prop := forall x, o = Some x -> wf x.
Lemma fill_wf : forall sh idx, Forall range_ok sh -> Forall (fun o => forall x, o = Some x -> wf x) idx -> Forall wf (fill sh idx).
Proof.
  induction sh as [|r sh IH]; intros [|o idx] Hr Hw; cbn [fill]; try constructor.
  - inversion Hr as [|? ? (H1 & H2 & H3) _]; subst. inversion Hw; subst. destruct o as [x|]; cbn [filled]; [auto|].
    exists (Fin (fst r)). apply int_of_Z. unfold fits64, LLONG_MIN, LLONG_MAX, wid, INT_MIN, INT_MAX in *. lia.
  - inversion Hr; inversion Hw; subst. auto.
Qed.
Lemma fill_some : forall sh idx, length idx = length sh -> fill sh (map Some idx) = idx.
Proof. induction sh; intros [|o idx] H; try discriminate; cbn in *; [reflexivity|]. f_equal; auto. Qed.
Lemma no_absent : forall idx, existsb absent (map Some idx) = false.
Proof. induction idx; cbn; auto. Qed.
Lemma inside_ints : forall idx sh, Forall2 inside idx sh -> exists zs, Forall2 is_int idx zs /\ in_shape zs sh.
Proof.
  induction 1 as [|x r idx sh (i & H1 & H2) _ (zs & H3 & H4)]; [exists []; split; constructor|].
  exists (i :: zs). split; constructor; auto.
Qed.

Section B.
Variable E : Type.
Variable eqb : E -> E -> bool.
Variable same : E -> E -> Prop.
Hypothesis same_refl : forall e, same e e.
Hypothesis same_sym : forall a b, same a b -> same b a.
Hypothesis same_trans : forall a b c, same a b -> same b c -> same a c.
Hypothesis eqb_same : forall a b, eqb a b = true -> same a b.

Lemma C31_eval_in : forall a sh el idx zs, built eqb a sh el -> prefixes_fit sh -> Forall2 is_int idx zs -> in_shape zs sh ->
  exists e e', eval_access a (map Some idx) = Ok (Some e) /\ elem_at el (position sh zs) = Some e' /\ same e e'.
Proof.
  intros a sh el idx zs Hb Hf Hz Hs.
  destruct (C31_in E eqb same same_refl same_sym same_trans eqb_same a sh el idx zs Hb Hf Hz Hs) as (e & e' & H1 & H2 & H3).
  assert (length idx = length sh) as Hlen.
  { rewrite (Forall2_length Hz). apply (Forall2_length Hs). }
  exists e, e'. split; [|auto].
  rewrite (eval_access_eq E eqb same same_refl same_sym same_trans eqb_same a sh el) by (auto; rewrite map_length; exact Hlen).
  rewrite fill_some, H1, no_absent by exact Hlen. cbn [bind].
  destruct (built_shape E eqb same same_refl same_sym same_trans eqb_same a sh el Hb) as [Hne _].
  destruct idx; [destruct sh; [congruence|discriminate]|]. reflexivity.
Qed.
Lemma C31_eval_absent : forall a sh el idx, built eqb a sh el -> prefixes_fit sh -> length idx = length sh ->
  Forall (fun o => forall x, o = Some x -> wf x) idx -> In None idx ->
  (Forall (eq None) idx -> eval_access a idx = Ok None) /\
  (Forall2 usable idx sh -> eval_access a idx = Ok None).
Proof.
  intros a sh el idx Hb Hf Hlen Hw Hin. pose proof (built_shape E eqb same same_refl same_sym same_trans eqb_same a sh el Hb) as (Hne & Hr & Hc).
  rewrite (eval_access_eq E eqb same same_refl same_sym same_trans eqb_same a sh el) by auto. split.
  - intros Ha. replace (forallb absent idx) with true; [reflexivity|]. symmetry. apply forallb_forall. intros o Ho.
    eapply Forall_forall in Ha; [|exact Ho]. subst o. reflexivity.
  - intros Hu. destruct (forallb absent idx); [reflexivity|].
    apply usable_fill in Hu; auto. destruct (inside_ints _ _ Hu) as (zs & Hz1 & Hz2).
    destruct (C31_in E eqb same same_refl same_sym same_trans eqb_same a sh el _ zs Hb Hf Hz1 Hz2) as (e & e' & -> & _). cbn [bind].
    replace (existsb absent idx) with true; [reflexivity|]. symmetry. apply existsb_exists. exists None. auto.
Qed.
Lemma C31_eval_out : forall a sh el idx, built eqb a sh el -> prefixes_fit sh -> length idx = length sh ->
  Forall (fun o => forall x, o = Some x -> wf x) idx -> ~ Forall (eq None) idx -> ~ Forall2 usable idx sh ->
  eval_access a idx = Err EvalError.
Proof.
  intros a sh el idx Hb Hf Hlen Hw Hna Hu. pose proof (built_shape E eqb same same_refl same_sym same_trans eqb_same a sh el Hb) as (Hne & Hr & Hc).
  rewrite (eval_access_eq E eqb same same_refl same_sym same_trans eqb_same a sh el) by auto.
  destruct (forallb absent idx) eqn:Ea.
  - exfalso. apply Hna. apply Forall_forall. intros o Ho. eapply forallb_forall in Ea; [|exact Ho]. destruct o; [discriminate|reflexivity].
  - destruct (C31_out E eqb same same_refl same_sym same_trans eqb_same a sh el (fill sh idx) Hb Hf) as (k & r & x & _ & ->).
    + apply fill_length, Hlen.
    + apply fill_wf; assumption.
    + rewrite <- usable_fill; assumption.
    + reflexivity.
Qed.
End B.

(** ** generators *)
Section G.
Variables (val T : Type) (body : store val -> option T).
Notation st := (cstate val).

Lemma restored_refl : forall s : st, restored s s. Proof. split; auto. Qed.
Lemma restored_trans : forall s s' s'' : st, restored s s' -> restored s' s'' -> restored s s''.
Proof. intros s s' s'' [A B] [C D]. split; [intros d; rewrite C; apply A|congruence]. Qed.
(** what a run does, relative to its meaning m *)
Definition runs (o : run_out val T) (s : st) (a : list T) (m : option (list T)) : Prop :=
  match m with
  | Some l => exists s', o = Done s' (a ++ l) /\ restored s s'
  | None => exists s', o = Thrown s'
  end.

Lemma each_ok : forall l f (mm : val -> store val -> option (list T)), (forall v, extensional (mm v)) ->
  (forall v s a, runs (f v s a) s a (mm v (cs_store s))) ->
  forall s a, runs (each l f s a) s a (option_map (@concat T) (all_some (fun v => mm v (cs_store s)) l)).
Proof.
  intros l f mm He Hf. induction l as [|v l IH]; intros s a; cbn [each all_some].
  - cbn. exists s. rewrite app_nil_r. split; [reflexivity|apply restored_refl].
  - pose proof (Hf v s a) as H. unfold runs in H. destruct (mm v (cs_store s)) as [y|].
    + destruct H as (s' & -> & Hr). specialize (IH s' (a ++ y)).
      assert (forall l, all_some (fun v => mm v (cs_store s')) l = all_some (fun v => mm v (cs_store s)) l) as Heq.
      { induction l0 as [|x l0 IHl]; cbn; [reflexivity|]. rewrite IHl, (He x (cs_store s') (cs_store s)); [reflexivity|]. apply Hr. }
      rewrite Heq in IH. destruct (all_some _ l) as [ys|]; cbn [option_map runs concat] in *.
      * destruct IH as (s'' & -> & Hr'). exists s''. rewrite app_assoc. split; [reflexivity|]. eapply restored_trans; eassumption.
      * exact IH.
    + destruct H as (s' & ->). exists s'. reflexivity.
Qed.
Lemma finish_ok : forall o d v (s : st) a m, runs o (assign d v (trail d (mark s))) a m -> runs (finish o) s a m.
Proof.
  intros o d v s a m H. unfold runs in *. destruct m as [l|].
  - destruct H as (s' & -> & Hr1 & Hr2). cbn [finish]. rewrite Hr2. cbn [trail mark assign cs_trail cs_store untrail_loop].
    eexists. split; [reflexivity|]. split; [|reflexivity]. intros x. cbn [cs_store]. unfold supd.
    destruct (Nat.eqb_spec x d) as [->|Hn]; [reflexivity|]. rewrite Hr1. cbn. unfold supd.
    destruct (Nat.eqb_spec x d); [contradiction|reflexivity].
  - destruct H as (s' & ->). exists s'. reflexivity.
Qed.

Definition guarded (w : option (store val -> option bool)) (m : store val -> option (list T)) (env : store val) : option (list T) :=
  match w with
  | None => m env
  | Some w => match w env with None => None | Some true => m env | Some false => Some [] end
  end.
Lemma guarded_ext : forall w m, (forall f, w = Some f -> extensional f) -> extensional m -> extensional (guarded w m).
Proof.
  intros w m Hw Hm s s' H. unfold guarded. destruct w as [f|]; [|apply Hm, H]. rewrite (Hw f eq_refl s s' H), (Hm s s' H). reflexivity.
Qed.
Lemma all_some_ext : forall A B (R : A -> A -> Prop) (f g : A -> option B) l l', Forall2 R l l' -> (forall x y, R x y -> f x = g y) ->
  all_some f l = all_some g l'.
Proof. intros A B R f g l l' H Hf. induction H; cbn; [reflexivity|]. rewrite (Hf x y), IHForall2; auto. Qed.
Lemma same_list : forall A (l : list A), Forall2 eq l l. Proof. induction l; constructor; auto. Qed.
Lemma all_some_app : forall A B (f : A -> option B) l1 l2,
  all_some f (l1 ++ l2) = match all_some f l1, all_some f l2 with Some x, Some y => Some (x ++ y) | _, _ => None end.
Proof.
  intros A B f l1 l2. induction l1 as [|x l1 IH]; cbn; [destruct (all_some f l2); reflexivity|].
  rewrite IH. destruct (f x); [|reflexivity]. destruct (all_some f l1); [|reflexivity]. destruct (all_some f l2); reflexivity.
Qed.
Lemma all_some_flat : forall A B C (g : B -> option (list C)) (h : A -> list B) l,
  option_map (@concat C) (all_some g (flat_map h l)) =
  option_map (@concat C) (all_some (fun v => option_map (@concat C) (all_some g (h v))) l).
Proof.
  intros A B C g h l. induction l as [|x l IH]; cbn; [reflexivity|]. rewrite all_some_app.
  destruct (all_some g (h x)) as [y|]; cbn [option_map]; [|reflexivity].
  destruct (all_some g (flat_map h l)) as [z|], (all_some _ l) as [z'|]; cbn [option_map] in *; try congruence.
  cbn [concat]. rewrite concat_app. congruence.
Qed.
Lemma all_some_bind : forall A B C (f : A -> option (list B)) (g : B -> option C) l,
  match option_map (@concat B) (all_some f l) with Some x => all_some g x | None => None end =
  option_map (@concat C) (all_some (fun x => match f x with Some y => all_some g y | None => None end) l).
Proof.
  intros A B C f g l. induction l as [|x l IH]; cbn; [reflexivity|]. destruct (f x) as [y|]; [|reflexivity].
  destruct (all_some f l) as [z|]; cbn [option_map concat] in *.
  - rewrite all_some_app. destruct (all_some g y); [|reflexivity]. rewrite IH. destruct (all_some _ l); reflexivity.
  - destruct (all_some g y); [|reflexivity]. destruct (all_some _ l); [discriminate|reflexivity].
Qed.
Definition peq (s s' : nat -> option val) : Prop := forall d, s d = s' d.
Lemma supd_peq : forall s s' d v, peq s s' -> peq (supd s d v) (supd s' d v).
Proof. intros s s' d v H x. unfold supd. destruct (Nat.eqb x d); auto. Qed.
Lemma tuples_peq : forall ds l s s', peq s s' -> Forall2 peq (tuples ds l s) (tuples ds l s').
Proof.
  intros ds l. induction ds as [|d ds IH]; intros s s' H; cbn [tuples]; [constructor; [exact H|constructor]|].
  assert (forall l', Forall2 peq (flat_map (fun v => tuples ds l (supd s d (Some v))) l') (flat_map (fun v => tuples ds l (supd s' d (Some v))) l')) as G.
  { induction l' as [|v l' IHl]; cbn; [constructor|]. apply Forall2_app; [apply IH, supd_peq, H|exact IHl]. }
  apply G.
Qed.

Lemma gen_ids_ok : forall w m k, (forall f, w = Some f -> extensional f) -> extensional m ->
  (forall s a, runs (k s a) s a (m (cs_store s))) ->
  forall l ds, ds <> [] -> forall s a,
  runs (gen_ids ds l w k s a) s a (option_map (@concat T) (all_some (guarded w m) (tuples ds l (cs_store s)))).
Proof.
  intros w m k Hw Hm Hk l. induction ds as [|d ds IH]; [congruence|]. intros _ s a. cbn [gen_ids tuples].
  rewrite all_some_flat.
  refine (each_ok l _ (fun v env => option_map (@concat T) (all_some (guarded w m) (tuples ds l (supd env d (Some v))))) _ _ s a).
  - intros v s1 s2 H. f_equal. eapply all_some_ext; [apply tuples_peq, supd_peq; exact H|]. apply guarded_ext; assumption.
  - clear s a. intros v s a. apply finish_ok with (d := d) (v := v). destruct ds as [|d' ds].
    + cbn [tuples all_some]. change (supd (cs_store s) d (Some v)) with (cs_store (assign d v (trail d (mark s)))).
      set (s1 := assign d v (trail d (mark s))). unfold guarded.
      assert (forall m1, option_map (@concat T) match m1 with Some y => Some [y] | None => None end = m1) as Hc.
      { intros [y|]; cbn; [rewrite app_nil_r|]; reflexivity. }
      rewrite Hc. destruct w as [f|]; [|apply Hk]. destruct (f (cs_store s1)) as [[]|].
      * apply Hk.
      * exists s1. rewrite app_nil_r. split; [reflexivity|apply restored_refl].
      * exists s1. reflexivity.
    + apply (IH ltac:(discriminate) (assign d v (trail d (mark s))) a).
Qed.

Hypothesis body_ext : extensional body.
Notation comp := (comprehension body).
Lemma comp_nil : forall env, comp [] env = option_map (fun t => [t]) (body env).
Proof. intros env. cbn. destruct (body env); reflexivity. Qed.
Lemma comp_in : forall ds e w gs env, comp (GIn ds e w :: gs) env =
  match e env with None => None | Some l => option_map (@concat T) (all_some (guarded w (comp gs)) (tuples ds l env)) end.
Proof.
  intros ds e w gs env. unfold comprehension. cbn [assignments]. destruct (e env) as [l|]; [|reflexivity].
  rewrite all_some_bind. f_equal. eapply all_some_ext; [apply same_list|]. intros x y <-. unfold guarded.
  destruct w as [f|]; [|reflexivity]. destruct (f x) as [[]|]; reflexivity.
Qed.
Lemma comp_asn : forall d e gs env, comp (GAsn d e :: gs) env =
  match e env with Some v => comp gs (supd env d (Some v)) | None => None end.
Proof. intros d e gs env. unfold comprehension. cbn [assignments]. destruct (e env); reflexivity. Qed.
Lemma comp_ext : forall gs, Forall gen_extensional gs -> extensional (comp gs).
Proof.
  induction gs as [|g gs IH]; intros Hg s s' H.
  - rewrite !comp_nil, (body_ext s s' H). reflexivity.
  - inversion Hg as [|? ? H1 H2]; subst. specialize (IH H2). destruct g as [ds e w|d e]; cbn in H1.
    + destruct H1 as [He Hw]. rewrite !comp_in, (He s s' H). destruct (e s'); [|reflexivity]. f_equal.
      eapply all_some_ext; [apply tuples_peq; exact H|]. apply guarded_ext; assumption.
    + rewrite !comp_asn, (H1 s s' H). destruct (e s'); [|reflexivity]. apply IH. exact (supd_peq _ _ _ _ H).
Qed.
Lemma gens_ok : forall gs, proper gs -> Forall gen_extensional gs -> forall s a,
  runs (gens body gs s a) s a (comp gs (cs_store s)).
Proof.
  induction gs as [|g gs IH]; intros Hp Hg s a.
  - rewrite comp_nil. cbn [gens]. destruct (body (cs_store s)) as [t|]; cbn.
    + exists s. split; [reflexivity|apply restored_refl].
    + exists s. reflexivity.
  - inversion Hg as [|? ? H1 H2]; subst. assert (proper gs) as Hp' by (intros ds e w Hin; eapply Hp; right; exact Hin).
    specialize (IH Hp' H2). destruct g as [ds e w|d e]; cbn [gens].
    + rewrite comp_in. destruct (e (cs_store s)) as [l|]; [|exists s; reflexivity].
      destruct H1 as [He Hw]. apply gen_ids_ok; [exact Hw|apply comp_ext, H2|exact IH|]. eapply Hp. left. reflexivity.
    + rewrite comp_asn. cbn in H1. change (cs_store (trail d (mark s))) with (cs_store s).
      destruct (e (cs_store s)) as [v|]; [|eexists; reflexivity]. apply finish_ok with (d := d) (v := v).
      apply (IH (assign d v (trail d (mark s))) a).
Qed.
End G.
