(** Proofs about LeModel, part 6: models whose solutions are not kept, and one that is compressed well. *)
Require Import ZArith List Bool Lia.
From Verif Require Import Base IntValModel IntValSpec SetModel SetSpec LinModel LinSpec LinProofs LinProofs2 LeModel LeSpec LeProofs LeProofs2 LeProofs3.
Import ListNotations.
Open Scope Z_scope.

(** variables 0, 1, 2, ... from 0 to 10; those from 3 on are output *)
Definition wV : venv := mkVenv (fun i => match i with Num n => Z.of_nat n | Name r => r end) (fun _ => RNone) (fun _ => Some [(ofZ 0, ofZ 10)])
  (fun i => match i with Num n => Nat.leb 3 n | _ => true end).
Definition wle (l : list Z) (r : list nat) (c : Z) : fitem := Lin (map ofZ l) (map (fun n => TId (Num n)) r) (ofZ c).
(** x1 <= x2, x2 - 2 x1 <= -5, x3 <= x1 *)
Definition w_sign : list fitem := [wle [1; -1] [1; 2]%nat 0; wle [1; -2] [2; 1]%nat (-5); wle [1; -1] [3; 1]%nat 0].
(** x1 <= x2, x2 + x1 <= 10, x3 <= x1, x4 <= x1 - 5 *)
Definition w_twice : list fitem := [wle [1; -1] [1; 2]%nat 0; wle [1; 1] [2; 1]%nat 10; wle [1; -1] [3; 1]%nat 0; wle [1; -1] [4; 1]%nat (-5)].
(** x1 <= x2, x3 + x2 - 2 x1 <= 0, x4 <= x1 - 5 *)
Definition w_iter : list fitem := [wle [1; -1] [1; 2]%nat 0; wle [1; 1; -2] [3; 2; 1]%nat 0; wle [1; -1] [4; 1]%nat (-5)].
(** x3 <= x1 <= x2, x4 + 2 x2 <= 7 *)
Definition w_chain : list fitem := [wle [1; -1] [3; 1]%nat 0; wle [1; -1] [1; 2]%nat 0; wle [1; 2] [4; 2]%nat 7].

Lemma w_resolved : resolved wV.
Proof. split; [intros i v; discriminate|intros i j; discriminate]. Qed.
Ltac tidy_tac := repeat constructor; cbn; unfold fits64, LLONG_MIN, LLONG_MAX; try lia; try (intros [X|X]; [discriminate|destruct X as [X|X]; [discriminate|contradiction]]); try (intros [X|[]]; discriminate); try (intros []); try (eexists; split; [reflexivity|left; reflexivity]).
Lemma w_sign_tidy : Forall (tidy wV) w_sign. Proof. tidy_tac. Qed.
Lemma w_twice_tidy : Forall (tidy wV) w_twice. Proof. tidy_tac. Qed.
Lemma w_iter_tidy : Forall (tidy wV) w_iter. Proof. tidy_tac. Qed.
Lemma w_chain_tidy : Forall (tidy wV) w_chain. Proof. tidy_tac. Qed.

Definition val (f : nat -> Z) : valuation := {| vid := fun i => match i with Num n => f n | Name _ => 0 end; vexp := fun _ => 0 |}.
Lemma val_dom f : (forall n, 0 <= f n <= 10) -> forall i d, v_dom wV i = Some d -> elem (vid (val f) i) d.
Proof. intros H i d E. cbn in E. inversion E; subst. do 2 eexists. split; [left; reflexivity|]. exists (Fin 0), (Fin 10). split; [reflexivity|]. split; [reflexivity|]. cbn. destruct i as [n|r]; [specialize (H n); lia|lia]. Qed.

Lemma sign_bad : exists items, le_compress wV insertion w_sign = Ok (Done items) /\ ~ exists E, same_without wV E w_sign (rest items).
Proof.
  eexists. split; [vm_compute; reflexivity|]. intros (E & _ & H). destruct (H (fun _ _ => True)) as [H1 _]. specialize (H1 (val (fun n => match n with 1%nat | 2%nat => 5 | _ => 0 end))).
  destruct H1 as (_ & _ & F).
  - split; [intros i; exact Logic.I|]. split; [apply val_dom; intros [|[|[|n]]]; lia|]. repeat constructor; cbn; lia.
  - inversion F as [|? ? X _]; subst. cbn in X. lia.
Qed.
Lemma twice_bad : exists items, le_compress wV insertion w_twice = Ok (Done items) /\ ~ exists E, same_without wV E w_twice (rest items).
Proof.
  eexists. split; [vm_compute; reflexivity|]. intros (E & HE & H). destruct (H (fun _ _ => True)) as [_ H2]. specialize (H2 (val (fun n => match n with 1%nat => 8 | 4%nat => 3 | _ => 0 end))).
  destruct H2 as (s' & (_ & _ & F) & Hs).
  - split; [intros i; exact Logic.I|]. split; [apply val_dom; intros [|[|[|[|[|n]]]]]; lia|]. repeat constructor; cbn; lia.
  - assert (E4 : vid s' (Num 4) = 3) by (rewrite Hs; [reflexivity|]; intros X; destruct (HE _ X) as (Y & _); discriminate).
    unfold w_twice in F. inversion F as [|? ? X1 F1]; subst. inversion F1 as [|? ? X2 F2]; subst. inversion F2 as [|? ? X3 F3]; subst. inversion F3 as [|? ? X4 _]; subst. unfold sat, wle, lin_value in X1, X2, X4. cbn [map dot tval ofZ iv_v] in X1, X2, X4. rewrite E4 in X4. lia.
Qed.
Lemma iter_bad : le_compress wV insertion w_iter = UB.
Proof. vm_compute. reflexivity. Qed.

Definition w_group (i : ident) : Z := match i with Num 4 => 4 | _ => 0 end.
Lemma w_chain_apart : Forall (apart w_group) w_chain.
Proof.
  assert (L : forall a b, apart w_group (wle [1; -1] [a; b] 0) \/ w_group (Num a) <> w_group (Num b)).
  { intros a b. destruct (Z.eq_dec (w_group (Num a)) (w_group (Num b))) as [E|N]; [left|right; exact N]. left. split; [do 5 eexists; split; [reflexivity|]; split; reflexivity|]. intros v w [<-|[<-|[]]] [<-|[<-|[]]]; congruence. }
  constructor; [|constructor; [|constructor; [|constructor]]].
  - destruct (L 3%nat 1%nat) as [X|X]; [exact X|exfalso; apply X; reflexivity].
  - destruct (L 1%nat 2%nat) as [X|X]; [exact X|exfalso; apply X; reflexivity].
  - right. split; [intros (a & b & u & v & c & E & H1 & H2); inversion E; subst; cbn in H2; discriminate|]. cbn. repeat constructor; cbn; [intros [X|[]]; discriminate|intros []].
Qed.
Lemma w_chain_run : exists items, le_compress wV insertion w_chain = Ok (Done items) /\ rest items = [wle [1; 2] [4; 3]%nat 7].
Proof. eexists. split; [vm_compute; reflexivity|]. vm_compute. reflexivity. Qed.

(** the first replacement in w_chain: x2 by x1 *)
Lemma w_chain_step : let items := map fresh w_chain in let ix := track_all wV 0 items [] in
  good_slots items /\ good_entries items (Num 2) ix /\ present items 1 (wle [1; -1] [1; 2]%nat 0) /\ consider wV items ix (wle [1; -1] [1; 2]%nat 0) = Ok (Go (Num 2) (Num 1)) /\
  exists items' pre post, replace_all wV insertion (with_key (Num 2) ix) (Num 2) (Num 1) (Num 1, 1%nat) items [] (without_key (Num 2) (tl ix)) = Ok (PGo items' pre post).
Proof.
  cbv zeta. split; [|split; [|split; [|split]]].
  - split; [intros m sl E; rewrite nth_error_map in E; destruct (nth_error w_chain m); inversion E; reflexivity|]. intros m i (c & E). rewrite nth_error_map in E. destruct (nth_error w_chain m) as [j|] eqn:X; [|discriminate]. inversion E; subst. apply (tidy_sound wV). pose proof w_chain_tidy as T. rewrite Forall_forall in T. apply T. eapply nth_error_In. exact X.
  - assert (E : with_key (Num 2) (track_all wV 0 (map fresh w_chain) []) = [(Num 2, 2%nat)]) by (vm_compute; reflexivity). split; rewrite E; [repeat constructor; intros []|]. intros e [<-|[]]. exists (wle [1; 2] [4; 2]%nat 7). split; [exists true; reflexivity|]. split; [|right; left; reflexivity].
    intros [|[|j]] a E1 E2; cbn in E1, E2; [discriminate| |destruct j; discriminate]. inversion E1; subst. cbn. lia.
  - exists true. reflexivity.
  - vm_compute. reflexivity.
  - do 3 eexists. vm_compute. reflexivity.
Qed.
