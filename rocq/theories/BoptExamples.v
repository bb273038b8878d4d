(** Concrete flat models for C72. *)
From Coq Require Import List Bool Arith.
From Verif Require Import BoptModel BoptSpec.
Import ListNotations.

Definition no_var : decl := mkD None false None true.
Definition free_var : decl := mkD None false None false.
Definition defined (e : expr) : decl := mkD None false (Some e) false.
Definition table {A : Type} (d : A) (l : list A) (n : nat) : A := nth n l d.
(** A flat model given by its declarations, its constraints and its table of occurrences *)
Definition flat (ds : list decl) (cs : list expr) (os : list (list item)) : state :=
  mkS (table no_var ds) (table None (map Some cs)) (fun x => x) (table [] os) (fun _ => OVar) [] [].

(** var bool: x; var bool: y; var bool: z; var bool: b = forall([x,y]); constraint exists([b]); constraint x = z;
    the output variables are x and z *)
Definition m1 : state :=
  flat [free_var; free_var; free_var; defined (EForall [Ident 0; Ident 1])]
       [EExists [Ident 3]; EEq (Ident 0) (Ident 2)]
       [[IV 3; IC 1]; [IV 3]; [IC 1]; [IC 0]].
Definition order1 : list item := [IV 0; IV 1; IV 2; IV 3; IC 0; IC 1].
Definition out1 (v : nat) : bool := (v =? 0) || (v =? 2).
Definition often : counters := fun _ => (true, true).
Definition sched1 : list choice := [PVar 0 often true; PVar 3 often true; PVar 1 often true; PVar 0 often true;
  PCon (IV 3); PCon (IC 0); PCon (IC 1); PCon (IV 0); PCon (IV 1); PVar 0 often true; PVar 1 often true; PVar 3 often true;
  PCon (IV 3); PCon (IC 0); PCon (IC 1)].

(** var bool: p; var bool: q; var bool: x; var bool: y; constraint forall([p,q]); constraint p = x; constraint q = y;
    the output variables are x and y *)
Definition m2 : state :=
  flat [free_var; free_var; free_var; free_var]
       [EForall [Ident 0; Ident 1]; EEq (Ident 0) (Ident 2); EEq (Ident 1) (Ident 3)]
       [[IC 0; IC 1]; [IC 0; IC 2]; [IC 1]; [IC 2]].
Definition order2 : list item := [IV 0; IV 1; IV 2; IV 3; IC 0; IC 1; IC 2].
Definition out2 (v : nat) : bool := (v =? 2) || (v =? 3).
Definition sched2 : list choice := [PVar 2 often true; PVar 3 often true; PCon (IC 0); PCon (IC 1); PCon (IC 2)].

(** var bool: x; constraint x; constraint clause([],[x]); x is the output variable *)
Definition m3 : state :=
  flat [free_var] [EId 0; EClause [] [Ident 0]] [[IC 0; IC 1]].
Definition order3 : list item := [IV 0; IC 0; IC 1].
Definition out3 (v : nat) : bool := v =? 0.
Definition sched3 : list choice := [PVar 0 often true; PCon (IC 0); PCon (IC 1)].



Ltac cases v := destruct v as [|[|[|[|[|v]]]]]; cbn in *.

Lemma nth_nil A (d : A) n : nth n [] d = d.
Proof. now destruct n. Qed.

(** *** The first model meets the hypotheses *)
Lemma m1_input : input out1 m1 order1.
Proof.
  split; try reflexivity.
  - split; reflexivity.
  - intros v. unfold out1. now cases v.
  - intros v. unfold gone, dm, rh, m1, flat, table, decls. cases v; try discriminate; auto.
  - intros v. unfold gone, m1, flat, table, decls. cases v; try discriminate; tauto.
  - intros c. unfold m1, flat, table, cons. destruct c as [|[|[|c]]]; cbn; try tauto.
  - intros i e x H Hx. destruct i as [v|c|]; cbn in H; unfold gone, rh, m1, flat, table, decls, cons in *.
    + cases v; try discriminate. inversion H; subst e. cbn in Hx. destruct Hx as [<-|[<-|[]]]; cbn; auto.
    + destruct c as [|[|[|c]]]; cbn in H; try discriminate; inversion H; subst e; cbn in Hx.
      * destruct Hx as [<-|[]]; cbn; auto.
      * destruct Hx as [<-|[<-|[]]]; cbn; auto.
    + discriminate.
  - intros v b. unfold rh, m1, flat, table, decls. cases v; discriminate.
  - intros v. unfold cmp, m1, flat, table, decls. cases v; discriminate.
Qed.
Lemma m1_regular : regular m1.
Proof.
  assert (C : forall c e, cons m1 c = Some e -> c = 0 /\ e = EExists [Ident 3] \/ c = 1 /\ e = EEq (Ident 0) (Ident 2)).
  { intros c e. destruct c as [|[|[|c]]]; cbn; intros H; try discriminate; inversion H; auto. }
  assert (D : forall v e, rh m1 v = Some e -> e = EForall [Ident 0; Ident 1]).
  { intros v e. unfold rh. cases v; intros H; try discriminate; inversion H; auto. }
  split.
  - intros c l H. apply C in H. destruct H as [[_ H]|[_ H]]; discriminate.
  - intros x (c & l & H & _). apply C in H. destruct H as [[_ H]|[_ H]]; discriminate.
  - intros c x H. apply C in H. destruct H as [[_ H]|[_ H]]; discriminate.
  - intros v x y H. apply D in H. discriminate.
  - intros c v y x _ H. apply D in H. discriminate.
Qed.
Lemma m1_ends : loop_ended out1 m1 order1 sched1.
Proof.
  intros p s2 s3 E1 E2 E3. vm_compute in E1. injection E1 as <-. vm_compute in E2. injection E2 as <-.
  vm_compute in E3. injection E3 as <-. auto.
Qed.
(** The only output of the first model: both variables are true; after the optimisation there is nothing left *)
Lemma m1_prints other om : prints other out1 m1 om <-> om 0 = true /\ om 2 = true.
Proof.
  split.
  - intros (sg & [S1 S2] & H).
    assert (E3 : sg 3 = true).
    { assert (K := S2 0 _ eq_refl). cbn in K. now rewrite orb_false_r in K. }
    assert (E0 : sg 0 = true).
    { destruct (S1 3 eq_refl) as [_ K]. specialize (K _ eq_refl). cbn in K. rewrite E3 in K. symmetry in K.
      apply andb_prop in K. apply K. }
    assert (E2 : sg 2 = true).
    { assert (K := S2 1 _ eq_refl). cbn in K. apply eqb_prop in K. congruence. }
    split.
    + specialize (H 0 eq_refl). inversion H; subst; cbn in *; congruence.
    + specialize (H 2 eq_refl). inversion H; subst; cbn in *; congruence.
  - intros [H0 H2]. exists (fun _ => true). split; [split|].
    + intros v Hv. split.
      * intros b. unfold dm, m1, flat, table, decls. cases v; discriminate.
      * intros e. unfold rh, m1, flat, table, decls. cases v; intros H; try discriminate. now inversion H.
    + intros c e. destruct c as [|[|[|c]]]; cbn; intros H; try discriminate; now inversion H.
    + intros v Hv. assert (V : v = 0 \/ v = 2) by (unfold out1 in Hv; cases v; try discriminate; auto).
      destruct V as [-> | ->]; [rewrite H0|rewrite H2]; now apply (shown_var m1 (fun _ => true)).
Qed.

(** *** The second model meets the hypotheses about inputs *)
Lemma m2_input : input out2 m2 order2.
Proof.
  split; try reflexivity.
  - split; reflexivity.
  - intros v. unfold out2. now cases v.
  - intros v. unfold gone, dm, rh, m2, flat, table, decls. cases v; try discriminate; auto.
  - intros v. unfold gone, m2, flat, table, decls. cases v; try discriminate; tauto.
  - intros c. unfold m2, flat, table, cons. destruct c as [|[|[|[|c]]]]; cbn; try tauto.
  - intros i e x H Hx. destruct i as [v|c|]; cbn in H; unfold gone, rh, m2, flat, table, decls, cons in *.
    + cases v; discriminate.
    + destruct c as [|[|[|[|c]]]]; cbn in H; try discriminate; inversion H; subst e; cbn in Hx;
        destruct Hx as [<-|[<-|[]]]; cbn; auto.
    + discriminate.
  - intros v b. unfold rh, m2, flat, table, decls. cases v; discriminate.
  - intros v. unfold cmp, m2, flat, table, decls. cases v; discriminate.
Qed.
Lemma m2_ends : loop_ended out2 m2 order2 sched2.
Proof.
  intros p s2 s3 E1 E2 E3. vm_compute in E1. injection E1 as <-. vm_compute in E2. injection E2 as <-.
  vm_compute in E3. injection E3 as <-. auto.
Qed.
Lemma m2_not other om : prints other out2 m2 om -> om 2 = true.
Proof.
  intros (sg & [S1 S2] & H). assert (K := S2 0 _ eq_refl). cbn in K. apply andb_prop in K. destruct K as [K _].
  assert (E := S2 1 _ eq_refl). cbn in E. apply eqb_prop in E. specialize (H 2 eq_refl). inversion H; subst; cbn in *; congruence.
Qed.
Lemma m2_lost other : exists s', optimise out2 m2 order2 sched2 [] = Some s' /\ prints other out2 s' (fun _ => false).
Proof.
  destruct (optimise out2 m2 order2 sched2 []) as [s'|] eqn:E; [|vm_compute in E; discriminate].
  exists s'. split; [reflexivity|]. vm_compute in E. injection E as <-. exists (fun _ => false). split; [split|].
  - intros v. cbn. split.
    + intros b. unfold dm. cbn. cases v; intros K; try discriminate.
    + intros e. unfold rh. cbn. cases v; intros K; try discriminate.
  - intros c e. cbn. destruct c as [|[|[|[|c]]]]; cbn; discriminate.
  - intros v Hv. assert (V : v = 2 \/ v = 3) by (unfold out2 in Hv; cases v; try discriminate; auto).
    destruct V as [-> | ->].
    + match goal with |- shown ?s ?sg _ _ => exact (shown_var s sg 2 eq_refl eq_refl) end.
    + match goal with |- shown ?s ?sg _ _ => exact (shown_var s sg 3 eq_refl eq_refl) end.
Qed.

(** *** The third model *)
Lemma m3_input : input out3 m3 order3.
Proof.
  split; try reflexivity.
  - split; reflexivity.
  - intros v. unfold out3. now cases v.
  - intros v. unfold gone, dm, rh, m3, flat, table, decls. cases v; try discriminate; auto.
  - intros v. unfold gone, m3, flat, table, decls. cases v; try discriminate; tauto.
  - intros c. unfold m3, flat, table, cons. destruct c as [|[|[|c]]]; cbn; try tauto.
  - intros i e x H Hx. destruct i as [v|c|]; cbn in H; unfold gone, rh, m3, flat, table, decls, cons in *.
    + cases v; discriminate.
    + destruct c as [|[|[|c]]]; cbn in H; try discriminate; inversion H; subst e; cbn in Hx;
        destruct Hx as [<-|[]]; cbn; auto.
    + discriminate.
  - intros v b. unfold rh, m3, flat, table, decls. cases v; discriminate.
  - intros v. unfold cmp, m3, flat, table, decls. cases v; discriminate.
Qed.
Lemma m3_ends : loop_ended out3 m3 order3 sched3.
Proof.
  intros p s2 s3 E1 E2 E3. vm_compute in E1. injection E1 as <-. vm_compute in E2. injection E2 as <-.
  vm_compute in E3. injection E3 as <-. auto.
Qed.
Lemma m3_not other om : ~ prints other out3 m3 om.
Proof.
  intros (sg & [S1 S2] & _). assert (K := S2 0 _ eq_refl). assert (L := S2 1 _ eq_refl). cbn in K, L. rewrite K in L. discriminate.
Qed.
Lemma m3_lost other : exists s', optimise out3 m3 order3 sched3 [] = Some s' /\ prints other out3 s' (fun _ => false).
Proof.
  destruct (optimise out3 m3 order3 sched3 []) as [s'|] eqn:E; [|vm_compute in E; discriminate].
  exists s'. split; [reflexivity|]. vm_compute in E. injection E as <-. exists (fun _ => false). split; [split|].
  - intros v. cbn. split.
    + intros b. unfold dm. cbn. cases v; intros K; try discriminate. now inversion K.
    + intros e. unfold rh. cbn. cases v; intros K; try discriminate. now inversion K.
  - intros c e. cbn. destruct c as [|[|[|c]]]; cbn; discriminate.
  - intros v Hv. assert (V : v = 0) by (unfold out3 in Hv; cases v; try discriminate; auto). subst v.
    match goal with |- shown ?s ?sg _ _ => exact (shown_var s sg 0 eq_refl eq_refl) end.
Qed.
