(** The meaning of an expression is unique. *)
Require Import ZArith List Bool Lia.
From Verif Require Import Base IntValModel IntValSpec SetModel SetSpec EvalModel EvalSpec.
Import ListNotations.
Open Scope Z_scope.

Scheme means_mut := Minimality for means Sort Prop
with means_all_mut := Minimality for means_all Sort Prop
with means_ite_mut := Minimality for means_ite Sort Prop
with means_dom_mut := Minimality for means_dom Sort Prop
with means_items_mut := Minimality for means_items Sort Prop
with means_params_mut := Minimality for means_params Sort Prop.
Combined Scheme means_ind6 from means_mut, means_all_mut, means_ite_mut, means_dom_mut, means_items_mut, means_params_mut.

Lemma increasing_tl : forall x l, increasing (x :: l) -> increasing l.
Proof. intros x [|y l]; cbn; tauto. Qed.
Lemma increasing_lt : forall l x y, increasing (x :: l) -> In y l -> x < y.
Proof.
  induction l as [|z l IH]; intros x y H Hi; [destruct Hi|].
  destruct H as [H1 H2]. destruct Hi as [->|Hi]; [assumption|].
  specialize (IH z y H2 Hi). lia.
Qed.
Lemma increasing_unique : forall l m, increasing l -> increasing m -> (forall z, In z l <-> In z m) -> l = m.
Proof.
  induction l as [|x l IH]; intros m Hl Hm H.
  - destruct m as [|y m]; [reflexivity|]. destruct (proj2 (H y) (or_introl eq_refl)).
  - destruct m as [|y m]; [destruct (proj1 (H x) (or_introl eq_refl))|].
    assert (x = y).
    { destruct (proj1 (H x) (or_introl eq_refl)) as [E|E]; [auto|].
      destruct (proj2 (H y) (or_introl eq_refl)) as [E'|E']; [auto|].
      pose proof (increasing_lt _ _ _ Hm E). pose proof (increasing_lt _ _ _ Hl E'). lia. }
    subst y. f_equal. apply IH; [eapply increasing_tl; eauto|eapply increasing_tl; eauto|].
    intros z. split; intros Hz.
    + pose proof (increasing_lt _ _ _ Hl Hz). destruct (proj1 (H z) (or_intror Hz)); [lia|assumption].
    + pose proof (increasing_lt _ _ _ Hm Hz). destruct (proj2 (H z) (or_intror Hz)); [lia|assumption].
Qed.

Lemma decides_unique : forall b c Q, decides b Q -> decides c Q -> b = c.
Proof. unfold decides. intros [] [] Q H1 H2; intuition congruence. Qed.
Lemma compares_unique : forall o a b c x y, compares o a b c x -> compares o a b c y -> x = y.
Proof. intros [] a b c x y; cbn; try tauto; apply decides_unique. Qed.

Ltac du := match goal with
  | H : exists _, _ |- _ => destruct H
  | H : _ /\ _ |- _ => destruct H
  | H : _ \/ _ |- _ => destruct H
  end.
Lemma op_means_unique : forall o v w x y, op_means o v w x -> op_means o v w y -> x = y.
Proof.
  intros o v w x y. destruct v as [a|a|a], w as [b|b|b]; cbn; try tauto; intros H1 H2;
    destruct o; repeat du; subst; try lia; try reflexivity; try discriminate;
    try (match goal with H : False |- _ => destruct H end);
    do 2 f_equal;
    try (eapply decides_unique; eassumption); try (eapply compares_unique; eassumption);
    try (eapply (compares_unique BLe); eassumption);
    apply increasing_unique; try assumption;
    intros z; repeat match goal with H : forall z, In z _ <-> _ |- _ => rewrite (H z); clear H end; reflexivity.
Qed.

Lemma un_means_unique : forall o v x y, un_means o v x -> un_means o v y -> x = y.
Proof. intros [] [] x y; cbn; try tauto; congruence. Qed.

Lemma map_SInt_inj : forall l m, map SInt l = map SInt m -> l = m.
Proof. induction l as [|a l IH]; intros [|b m] H; inversion H; subst; [reflexivity|]. f_equal. auto. Qed.

Section Det.
Variable P : program.

Definition D (Q : sout -> Prop) (o : sout) : Prop := forall o', Q o' -> o' = o.

Lemma means_det_all :
  (forall r e o, means P r e o -> forall o', means P r e o' -> o' = o) /\
  (forall r es o, means_all P r es o -> forall o', means_all P r es o' -> o' = o) /\
  (forall r cs els o, means_ite P r cs els o -> forall o', means_ite P r cs els o' -> o' = o) /\
  (forall r d v o, means_dom P r d v o -> forall o', means_dom P r d v o' -> o' = o) /\
  (forall t r i o, means_items P t r i o -> forall o', means_items P t r i o' -> o' = o) /\
  (forall ds vs o, means_params P ds vs o -> forall o', means_params P ds vs o' -> o' = o).
Proof.
  apply means_ind6; intros;
  match goal with
  | H : means _ _ _ ?x |- ?x = _ => inversion H; clear H; subst
  | H : means_all _ _ _ ?x |- ?x = _ => inversion H; clear H; subst
  | H : means_ite _ _ _ _ ?x |- ?x = _ => inversion H; clear H; subst
  | H : means_dom _ _ _ _ ?x |- ?x = _ => inversion H; clear H; subst
  | H : means_items _ _ _ _ ?x |- ?x = _ => inversion H; clear H; subst
  | H : means_params _ _ _ ?x |- ?x = _ => inversion H; clear H; subst
  end; try reflexivity; try discriminate; try congruence;
  repeat match goal with
  | IH : forall o', means _ ?r ?e o' -> o' = _, H : means _ ?r ?e _ |- _ => apply IH in H
  | IH : forall o', means_all _ ?r ?e o' -> o' = _, H : means_all _ ?r ?e _ |- _ => apply IH in H
  | IH : forall o', means_ite _ ?r ?e ?f o' -> o' = _, H : means_ite _ ?r ?e ?f _ |- _ => apply IH in H
  | IH : forall o', means_items _ ?t ?r ?e o' -> o' = _, H : means_items _ ?t ?r ?e _ |- _ => apply IH in H
  | IH : forall o', means_params _ ?r ?e o' -> o' = _, H : means_params _ ?r ?e _ |- _ => apply IH in H
  | H : Some _ = Some _ |- _ => injection H; clear H; intros; subst
  | H1 : p_fun P ?f = Some ?x, H2 : p_fun P ?f = Some ?y |- _ =>
      match goal with | H : x = y |- _ => fail 1 | _ => assert (x = y) by congruence; subst end
  | H1 : p_top P ?f = Some ?x, H2 : p_top P ?f = Some ?y |- _ =>
      match goal with | H : x = y |- _ => fail 1 | _ => assert (x = y) by congruence; subst end
  | IH : forall o', means_dom _ ?r ?e ?v o' -> o' = _, H : means_dom _ ?r ?e ?v _ |- _ => apply IH in H
  end; subst; try reflexivity; try discriminate; try congruence; try tauto.
  all: try (exfalso; congruence).
  - destruct H0 as [A B], H5 as [A' B']. do 2 f_equal. apply increasing_unique; try assumption.
    intros z. rewrite B, B'. reflexivity.
  - match goal with H : map SInt _ = map SInt _ |- _ => apply map_SInt_inj in H; subst end.
    do 2 f_equal. apply increasing_unique; try assumption.
    intros z. repeat match goal with H : forall z, In z _ <-> _ |- _ => rewrite (H z); clear H end. reflexivity.
  - f_equal. eapply op_means_unique; eassumption.
  - f_equal. eapply un_means_unique; eassumption.
  - f_equal. eapply decides_unique; eassumption.
Qed.

Lemma means_unique : forall r e o o', means P r e o -> means P r e o' -> o = o'.
Proof. intros. symmetry. eapply (proj1 means_det_all); eassumption. Qed.
End Det.
