(** Evaluation with enough fuel: tools. *)
Require Import ZArith List Bool Lia.
From Verif Require Import Base IntValModel IntValSpec IntValProofs SetModel SetSpec SetPropProofs EvalModel EvalSpec EvalProofs EvalProofs2.
Import ListNotations.
Open Scope Z_scope.

(** with enough fuel the computation ends like this *)
Definition conv {A} (m : nat -> M A) (s s' : store) (o : out A) : Prop :=
  exists n, forall k, (n <= k)%nat -> m k s = (s', o).

Lemma conv_S : forall A (m : nat -> M A) s s' o, conv (fun k => m (S k)) s s' o -> conv m s s' o.
Proof.
  intros A m s s' o [n H]. exists (S n). intros [|k] Hk; [lia|]. apply H. lia.
Qed.
Lemma conv_ext : forall A (m m' : nat -> M A) s s' o, (forall k, m k s = m' k s) -> conv m' s s' o -> conv m s s' o.
Proof. intros A m m' s s' o E [n H]. exists n. intros k Hk. rewrite E. auto. Qed.
Lemma conv_now : forall A (m : nat -> M A) s s' o, (forall k, m k s = (s', o)) -> conv m s s' o.
Proof. intros A m s s' o E. exists O. intros k _. apply E. Qed.
Lemma conv_bind : forall A B (m : nat -> M A) (f : nat -> A -> M B) s s1 s2 a o,
  conv m s s1 (Val a) -> conv (fun k => f k a) s1 s2 o -> conv (fun k => mbind (m k) (f k)) s s2 o.
Proof.
  intros A B m f s s1 s2 a o [n1 H1] [n2 H2]. exists (Nat.max n1 n2). intros k Hk.
  unfold mbind. rewrite H1 by lia. apply H2. lia.
Qed.
Lemma conv_bind_und : forall A B (m : nat -> M A) (f : nat -> A -> M B) s s1,
  conv m s s1 Und -> conv (fun k => mbind (m k) (f k)) s s1 Und.
Proof. intros A B m f s s1 [n1 H1]. exists n1. intros k Hk. unfold mbind. rewrite H1 by lia. reflexivity. Qed.
Lemma conv_catch : forall A (m : nat -> M A) x s s1 a, conv m s s1 (Val a) -> conv (fun k => catch (m k) x) s s1 (Val a).
Proof. intros A m x s s1 a [n H]. exists n. intros k Hk. unfold catch. rewrite H by lia. reflexivity. Qed.
Lemma conv_catch_und : forall A (m : nat -> M A) x s s1, conv m s s1 Und -> conv (fun k => catch (m k) x) s s1 (Val x).
Proof. intros A m x s s1 [n H]. exists n. intros k Hk. unfold catch. rewrite H by lia. reflexivity. Qed.
Lemma conv_bracket : forall A l (m : nat -> M A) s s1 o, conv m (assign l s) s1 o ->
  conv (fun k => bracket l (m k)) s (restore (map fst l) s s1) o.
Proof. intros A l m s s1 o [n H]. exists n. intros k Hk. unfold bracket. rewrite H by lia. reflexivity. Qed.
Lemma conv_ret : forall A (a : A) s, conv (fun _ => ret a) s s (Val a).
Proof. intros. apply conv_now. reflexivity. Qed.

(** slots *)
Lemma slot_set_same : forall d x s, slot (set_slot d x s) d = x.
Proof. intros. cbn. unfold upd. rewrite Nat.eqb_refl. reflexivity. Qed.
Lemma slot_set_other : forall d x s k, k <> d -> slot (set_slot d x s) k = slot s k.
Proof. intros. cbn. unfold upd. apply Nat.eqb_neq in H. rewrite H. reflexivity. Qed.
Lemma evald_set : forall d x s, evald (set_slot d x s) = evald s.
Proof. reflexivity. Qed.
Lemma upd_same : forall A (f : nat -> A) d x, upd f d x d = x.
Proof. intros. unfold upd. rewrite Nat.eqb_refl. reflexivity. Qed.
Lemma upd_other : forall A (f : nat -> A) d x k, k <> d -> upd f d x k = f k.
Proof. intros. unfold upd. apply Nat.eqb_neq in H. rewrite H. reflexivity. Qed.

Lemma assign_other : forall l s k, ~ In k (map fst l) -> slot (assign l s) k = slot s k.
Proof.
  induction l as [|[d x] l IH]; intros s k H; cbn in *; [reflexivity|].
  rewrite IH by tauto. apply slot_set_other. intuition congruence.
Qed.
Lemma assign_in : forall l s d x, NoDup (map fst l) -> In (d, x) l -> slot (assign l s) d = x.
Proof.
  induction l as [|[d' x'] l IH]; intros s d x N H; cbn in *; [tauto|]. inversion N; subst.
  destruct H as [E|H]; [|auto]. injection E as -> ->. rewrite assign_other by assumption. apply slot_set_same.
Qed.
Lemma assign_evald : forall l s, evald (assign l s) = evald s.
Proof. induction l as [|[d x] l IH]; intros s; cbn; [reflexivity|]. rewrite IH. reflexivity. Qed.
Lemma restore_in : forall ds old new d, In d ds -> slot (restore ds old new) d = slot old d.
Proof.
  induction ds as [|k ds IH]; intros old new d H; cbn [restore In] in *; [tauto|].
  destruct (Nat.eq_dec d k) as [->|E]; [apply slot_set_same|]. rewrite slot_set_other by assumption.
  apply IH. destruct H; [congruence|assumption].
Qed.
Lemma restore_other : forall ds old new d, ~ In d ds -> slot (restore ds old new) d = slot new d.
Proof.
  induction ds as [|k ds IH]; intros old new d H; cbn [restore In] in *; [reflexivity|].
  rewrite slot_set_other by intuition congruence. apply IH. tauto.
Qed.
Lemma restore_evald : forall ds old new, evald (restore ds old new) = evald new.
Proof. induction ds; intros; cbn; auto. Qed.

Section Tools.
Variable P : program.

Definition ev_val (e : expr) (s s' : store) (v : sval) : Prop :=
  match v with
  | SInt z => conv (fun k => eval_int P k e) s s' (Val (ofZ z))
  | SBool b => conv (fun k => eval_bool P k e) s s' (Val b)
  | SSet l => exists t, nf t /\ enumerates l t /\ conv (fun k => eval_set P k e) s s' (Val t)
  end.
Definition ev_und (e : expr) (s s' : store) : Prop :=
  match type_of P e with
  | TInt => conv (fun k => eval_int P k e) s s' Und
  | TSet => conv (fun k => eval_set P k e) s s' Und
  | TBool => False
  end.

(** like store_kept, but some slots may have changed *)
Definition kept_but (ds : list nat) (s s' : store) : Prop :=
  (forall d, p_top P d = None -> ~ In d ds -> slot s' d = slot s d) /\ holds_top P s'.

Lemma kept_refl : forall r s, store_ok P r s -> store_kept P s s.
Proof. intros r s [_ H]. split; [reflexivity|exact H]. Qed.
Lemma kept_trans : forall s1 s2 s3, store_kept P s1 s2 -> store_kept P s2 s3 -> store_kept P s1 s3.
Proof. intros s1 s2 s3 [A1 B1] [A2 B2]. split; [|exact B2]. intros d H. rewrite A2 by assumption. auto. Qed.
Lemma kept_ok : forall r s s', store_ok P r s -> store_kept P s s' -> store_ok P r s'.
Proof.
  intros r s s' [H _] [K1 K2]. split; [|exact K2]. intros d v Hd. destruct (H d v Hd) as (A & B & C & D & E).
  repeat split; try assumption. rewrite K1 by assumption. exact D.
Qed.
Lemma kept_but_trans : forall ds es s1 s2 s3, kept_but ds s1 s2 -> kept_but es s2 s3 -> kept_but (ds ++ es) s1 s3.
Proof.
  intros ds es s1 s2 s3 [A1 B1] [A2 B2]. split; [|exact B2]. intros d H Hn. rewrite in_app_iff in Hn.
  rewrite A2 by tauto. apply A1; tauto.
Qed.
Lemma kept_is_but : forall ds s s', store_kept P s s' -> kept_but ds s s'.
Proof. intros ds s s' [A B]. split; [|exact B]. intros d H _. auto. Qed.

Lemma holds_top_slots : forall s s', holds_top P s -> (forall d e, p_top P d = Some e -> slot s' d = slot s d) ->
  evald s' = evald s -> holds_top P s'.
Proof. intros s s' H E1 E2 d e Hd. rewrite (E1 d e Hd), E2. apply H. exact Hd. Qed.

Lemma set_slot_top : forall s d x, holds_top P s -> p_top P d = None -> holds_top P (set_slot d x s).
Proof.
  intros s d x H Hd. apply (holds_top_slots s); [assumption| |reflexivity].
  intros k e Hk. apply slot_set_other. congruence.
Qed.
Lemma set_slot_kept : forall s d x, holds_top P s -> p_top P d = None -> kept_but [d] s (set_slot d x s).
Proof.
  intros s d x H Hd. split; [|apply set_slot_top; assumption].
  intros k _ Hk. apply slot_set_other. intros ->. apply Hk. left. reflexivity.
Qed.

Lemma assign_top : forall l s, (forall d, In d (map fst l) -> p_top P d = None) -> holds_top P s -> holds_top P (assign l s).
Proof.
  intros l s Hl H. apply (holds_top_slots s); [assumption| |apply assign_evald].
  intros d e Hd. apply assign_other. intros Hi. apply Hl in Hi. congruence.
Qed.
Lemma bracket_kept : forall l s s1, (forall d, In d (map fst l) -> p_top P d = None) ->
  kept_but (map fst l) (assign l s) s1 -> store_kept P s (restore (map fst l) s s1).
Proof.
  intros l s s1 Hl [K1 K2]. split.
  - intros d Hd. destruct (in_dec Nat.eq_dec d (map fst l)) as [Hi|Hi].
    + apply restore_in. assumption.
    + rewrite restore_other by assumption. rewrite K1 by assumption. apply assign_other. assumption.
  - apply (holds_top_slots s1); [assumption| |apply restore_evald].
    intros d e Hd. apply restore_other. intros Hi. apply Hl in Hi. congruence.
Qed.

(** literals *)
Lemma literal_ty : forall lit v, literal lit v -> type_of P lit = sval_ty v.
Proof. intros [] [] H; cbn in *; tauto. Qed.
Lemma literal_ev : forall lit v s, literal lit v -> ev_val lit s s v.
Proof.
  intros lit v s H. destruct lit, v; cbn in H; try tauto; cbn.
  - apply is_int_iff in H as [-> _]. apply conv_S, conv_now. reflexivity.
  - subst. apply conv_S, conv_now. reflexivity.
  - destruct H as [H1 H2]. exists s0. repeat split; try apply H1; try apply H2. apply conv_S, conv_now. reflexivity.
Qed.
Lemma par_of_ev : forall e s s' v, (forall d, e <> EId d) -> sval_ty v = type_of P e -> safe_val v -> ev_val e s s' v ->
  exists lit, literal lit v /\ conv (fun k => eval_par P k e) s s' (Val lit).
Proof.
  intros e s s' v Hn Ht Hs H. destruct v as [z|b|l]; cbn in *.
  - exists (EInt (ofZ z)). split; [apply is_int_ofZ, safe_fits, Hs|]. apply conv_S.
    eapply conv_ext with (m' := fun k => mbind (eval_int P k e) (fun v => ret (EInt v))).
    { intros k. destruct e; try (exfalso; eapply Hn; reflexivity); cbn [eval_par]; rewrite <- Ht; reflexivity. }
    eapply conv_bind; [exact H|]. apply conv_ret.
  - exists (EBool b). split; [reflexivity|]. apply conv_S.
    eapply conv_ext with (m' := fun k => mbind (eval_bool P k e) (fun v => ret (EBool v))).
    { intros k. destruct e; try (exfalso; eapply Hn; reflexivity); cbn [eval_par]; rewrite <- Ht; reflexivity. }
    eapply conv_bind; [exact H|]. apply conv_ret.
  - destruct H as (t & N & E & H). exists (ESet t). split; [split; assumption|]. apply conv_S.
    eapply conv_ext with (m' := fun k => mbind (eval_set P k e) (fun v => ret (ESet v))).
    { intros k. destruct e; try (exfalso; eapply Hn; reflexivity); cbn [eval_par]; rewrite <- Ht; reflexivity. }
    eapply conv_bind; [exact H|]. apply conv_ret.
Qed.
Lemma par_of_und : forall e s s', (forall d, e <> EId d) -> ev_und e s s' -> conv (fun k => eval_par P k e) s s' Und.
Proof.
  intros e s s' Hn H. unfold ev_und in H. apply conv_S. destruct (type_of P e) eqn:Ht; [|tauto|].
  - eapply conv_ext with (m' := fun k => mbind (eval_int P k e) (fun v => ret (EInt v))).
    { intros k. destruct e; try (exfalso; eapply Hn; reflexivity); cbn [eval_par]; rewrite Ht; reflexivity. }
    eapply conv_bind_und. exact H.
  - eapply conv_ext with (m' := fun k => mbind (eval_set P k e) (fun v => ret (ESet v))).
    { intros k. destruct e; try (exfalso; eapply Hn; reflexivity); cbn [eval_par]; rewrite Ht; reflexivity. }
    eapply conv_bind_und. exact H.
Qed.
Lemma literal_par : forall lit v s, literal lit v -> safe_val v -> exists lit', literal lit' v /\ conv (fun k => eval_par P k lit) s s (Val lit').
Proof.
  intros lit v s H Hs. apply par_of_ev; [|symmetry; apply literal_ty; assumption|assumption|apply literal_ev; assumption].
  intros d ->. destruct v; cbn in H; tauto.
Qed.

(** what the induction shows *)
Definition ev_good (e : expr) (o : sout) (s : store) : Prop :=
  match o with
  | Some v => sval_ty v = type_of P e /\ safe_val v /\ exists s', store_kept P s s' /\ ev_val e s s' v
  | None => type_of P e <> TBool /\ exists s', store_kept P s s' /\ ev_und e s s'
  end.
Definition par_good (e : expr) (o : sout) (s : store) : Prop :=
  match o with
  | Some v => exists s' lit, store_kept P s s' /\ literal lit v /\ conv (fun k => eval_par P k e) s s' (Val lit)
  | None => exists s', store_kept P s s' /\ conv (fun k => eval_par P k e) s s' Und
  end.
Definition good (r : env) (e : expr) (o : sout) : Prop :=
  wt P e -> forall s, store_ok P r s -> ev_good e o s /\ par_good e o s.

Lemma good_nonid : forall r e o, (forall d, e <> EId d) ->
  (wt P e -> forall s, store_ok P r s -> ev_good e o s) -> good r e o.
Proof.
  intros r e o Hn H W s Hs. specialize (H W s Hs). split; [exact H|].
  destruct o as [v|]; cbn in *.
  - destruct H as (H1 & H2 & s' & K & H3). destruct (par_of_ev e s s' v Hn H1 H2 H3) as (lit & L1 & L2).
    exists s', lit. auto.
  - destruct H as (H1 & s' & K & H3). exists s'. split; [exact K|]. apply par_of_und; assumption.
Qed.
End Tools.
