(** Counterexamples and examples for C18. *)
Require Import List Bool Arith Lia.
From Verif Require Import Base ChainModel ChainSpec ChainProofs7 ChainProofs8.
Import ListNotations.

(** all variables plain *)
Definition plain (_ : nat) : vinfo := mkV None false false None.

(** 1 -> 1 and 2 -> 1 *)
Definition loop_model : list item := [Clause [AVar 1] [AVar 1]; Clause [AVar 1] [AVar 2]].
Lemma hangs : forall hr fuel, compress plain hr fuel (start plain hr loop_model) = Err OutOfFuel.
Proof.
  intros hr fuel. change (compress plain hr fuel (mkC (map Some loop_model) [] [(1, 0); (2, 1)]) = Err OutOfFuel).
  induction fuel as [|fuel IH]; [reflexivity|]. exact IH.
Qed.

(** 1 -> 2, 1 /\ 2 -> 4, 3 -> 1, 5 -> 1 \/ 6 *)
Definition twice_model : list item :=
  [Clause [AVar 2] [AVar 1]; Clause [AVar 4] [AVar 1; AVar 2]; Clause [AVar 1] [AVar 3]; Clause [AVar 1; AVar 6] [AVar 5]].
Lemma twice : forall hr, compress plain hr 10 (start plain hr twice_model) = UB.
Proof. intros [|]; vm_compute; reflexivity. Qed.

(** 1 -> 2, and 2 -> (2 = 3); all but 2 are output *)
Definition outer (v : nat) : vinfo := mkV None (negb (v =? 2)) false None.
Definition self_model : list item := [Clause [AVar 2] [AVar 1]; Imp 0 [AVar 2; AVar 3] (AVar 2)].
Definition equality (_ : nat) (l : list bool) : bool := match l with [x; y] => eqb x y | _ => true end.
Lemma imp_wrong : exists st, compress outer true 10 (start outer true self_model) = Ok st /\
  exists s, solution outer equality s (result st) /\
    forall s', solution outer equality s' self_model -> ~ (forall v, v_out (outer v) = true -> s' v = s v).
Proof.
  eexists. split; [reflexivity|]. exists (fun v => v =? 1). split.
  - intros it [<-|[]]. intros _. reflexivity.
  - intros s' Hs Heq. pose proof (Hs _ (or_introl eq_refl)) as H1. pose proof (Hs _ (or_intror (or_introl eq_refl))) as H2.
    cbn in H1, H2. assert (s' 1 = true) as E1 by (rewrite Heq; reflexivity). assert (s' 3 = false) as E3 by (rewrite Heq; reflexivity).
    assert (s' 2 = true) as E2.
    { destruct H1 as (x & [<-|[]] & Hx); [|exact Hx]. intros x [<-|[]]. exact E1. }
    specialize (H2 E2). rewrite E2, E3 in H2. discriminate.
Qed.

(** 1 -> 2, 2 is the conjunction of 3 and 4, 5 -> 6, 6 -> 7, 8 is a disjunction in positive context and 7 -> 8; 1, 3, 4, 5, 9 are
    output *)
Definition ex_V (v : nat) : vinfo :=
  match v with
  | 2 => mkV None false false (Some (DForall [AVar 3; AVar 4]))
  | 8 => mkV None false true (Some (DExists [AVar 9; AVar 3]))
  | 6 | 7 => mkV None false false None
  | _ => mkV None true false None
  end.
Definition ex_model : list item :=
  [Clause [AVar 2] [AVar 1]; Decl 2; Clause [AVar 6] [AVar 5]; Clause [AVar 7] [AVar 6]; Clause [AVar 8] [AVar 7]; Decl 8].
Lemma ex_once : declared_once ex_model.
Proof. repeat constructor; cbn; intuition congruence. Qed.
Lemma ex_separate : separate ex_V ex_model.
Proof.
  intros v Hv. split.
  - intros p ys c H. cbn in H. intuition discriminate.
  - intros w p ys h H Hd. cbn in H. destruct H as [H|[H|[H|[H|[H|[H|[]]]]]]]; try discriminate; injection H as <-; discriminate.
Qed.
Lemma ex_no_loop : no_loop ex_model.
Proof. intros x H. cbn in H. destruct H as [H|[H|[H|[H|[H|[H|[]]]]]]]; try discriminate; injection H; intros; subst; discriminate. Qed.
Lemma ex_short : short ex_V ex_model.
Proof.
  split.
  - intros p n H. cbn in H. destruct H as [H|[H|[H|[H|[H|[H|[]]]]]]]; try discriminate; injection H as <- <-; cbn; lia.
  - intros v H. cbn in H. destruct H as [H|[H|[H|[H|[H|[H|[]]]]]]]; try discriminate; injection H as <-; discriminate.
Qed.
Lemma ex_run : exists st, compress ex_V true 30 (start ex_V true ex_model) = Ok st /\
  result st = [Decl 2; Clause [AVar 3] [AVar 1]; Clause [AVar 4] [AVar 1]; Clause [AVar 9; AVar 3] [AVar 5]].
Proof.
  assert (match compress ex_V true 30 (start ex_V true ex_model) with
          | Ok st => result st = [Decl 2; Clause [AVar 3] [AVar 1]; Clause [AVar 4] [AVar 1]; Clause [AVar 9; AVar 3] [AVar 5]]
          | _ => False end) as H by (vm_compute; reflexivity).
  destruct (compress ex_V true 30 (start ex_V true ex_model)) as [st| |]; [|contradiction|contradiction].
  exists st. split; [reflexivity|exact H].
Qed.
