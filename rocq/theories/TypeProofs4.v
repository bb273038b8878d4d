(** * Proofs about array types: element type of a constructed array type *)
From Coq Require Import ZArith List Lia Bool.
From Verif Require Import Base ArrModel TypeModel TypeSpec TypeProofs TypeProofs2.
Import ListNotations.
Local Open Scope Z_scope.
Set Default Goal Selector "!".

Lemma last_snoc : forall (l : list Z) x, last_ (l ++ [x]) = Ok x.
Proof. intros l x. unfold last_. destruct (l ++ [x]) eqn:E; [destruct l; discriminate|]. rewrite <- E. now rewrite last_last. Qed.
Lemma C58_l : forall e el d e' t, reach e -> type_ok el -> t_dim el = 0 -> type_ok d -> t_dim d <> 0 ->
  arrType e d el = Ok (e', t) -> Z.of_nat (length (e_arrays e)) < 65535 ->
  elemType e' t = Ok el /\ t_dim t = t_dim d /\ reach e' /\ keeps e e' /\
  (t_id d <> 0 -> t_id t <> 0 -> exists ids, get_array e (t_id d) = Ok ids /\ get_array e' (t_id t) = Ok (removelast ids ++ [t_id el])).
Proof.
  intros e el d e' t He Hel D0 Hd Dd H HL. destruct Hel as [I1 I2]. destruct Hd as [J1 J2].
  unfold arrType in H. destruct ((t_id d =? 0) && (t_id el =? 0)) eqn:E0.
  - injection H as <- <-. apply andb_true_iff in E0. destruct E0 as [E1 E2]. apply Z.eqb_eq in E1, E2. unfold elemType. cbn.
    destruct (Z.eqb_spec (t_dim d) 0); [lia|]. split; [|repeat split; auto; try lia]; destruct el; cbn in *; subst; reflexivity.
  - rewrite D0 in H. destruct (Z.eqb_spec (t_dim d) 0); [lia|]. rewrite andb_false_r in H. cbn [Z.eqb negb andb] in H.
    apply bind_ok in H. destruct H as (ids & Hids & H1). cbn [bind] in H1.
    apply bind_ok in H1. destruct H1 as (ids' & Hl & H2).
    unfold set_last in Hl. destruct ids as [|i0 ids0]; [discriminate|]. set (ids := i0 :: ids0) in *. injection Hl as <-.
    assert (NN : Forall (fun i => 0 <= i) (removelast ids ++ [t_id el])).
    { apply Forall_app. split; [|repeat constructor; lia]. assert (A : Forall (fun i => 0 <= i) ids).
      { destruct (t_id d =? 0); cbn in Hids.
        - injection Hids as <-. apply Forall_forall. intros x Hx. apply repeat_spec in Hx. lia.
        - pose proof (reach_ok _ He) as (_ & _ & _ & _ & _ & O1 & _). unfold get_array in Hids. apply at_inv in Hids. destruct Hids as [_ Hids].
          apply nth_error_In in Hids. rewrite Forall_forall in O1. apply O1 in Hids. exact Hids. }
      rewrite Forall_forall in *. intros x Hx. apply A. rewrite (app_removelast_last 0 (l := ids)); [|discriminate]. apply in_or_app. now left. }
    pose proof (C53_array_l e _ He NN) as C. destruct (register_array e _) as [e2 i] eqn:ER. injection H2 as <- <-.
    destruct C as (R & K & Z0 & G & _).
    assert (IB : 0 <= i < 65536).
    { unfold register_array in ER. destruct (forallb _ _); [injection ER as _ <-; lia|]. destruct (find_idx _ _ _) eqn:F; injection ER as _ <-; [|unfold len; lia].
      apply find_idx_some in F. destruct F as (n0 & x & -> & F & _). assert (n0 < length (e_arrays e))%nat by (apply nth_error_Some; congruence). lia. }
    cbn [t_dim t_id set_id set_dim]. rewrite Z.mod_small by lia.
    split; [|split; [reflexivity|split; [exact R|split; [exact K|]]]].
    + unfold elemType. cbn [t_dim t_id set_id set_dim]. rewrite Z.mod_small by lia. destruct (Z.eqb_spec (t_dim d) 0); [lia|].
      destruct (Z.eqb_spec i 0) as [->|Ni].
      * assert (F0 : t_id el = 0). { destruct Z0 as [Z0 _]. specialize (Z0 eq_refl). apply Forall_app in Z0. destruct Z0 as [_ Z0]. now inversion Z0. }
        destruct el; cbn in *; subst; reflexivity.
      * rewrite (G Ni). cbn [bind]. rewrite last_snoc. cbn [bind]. f_equal. unfold set_id, set_dim. cbn [t_bt t_ti t_st t_ot t_cv t_any t_id t_dim]. rewrite (Z.mod_small (t_id el)) by lia. clear - D0. destruct el; cbn in *; subst; reflexivity.
    + intros N1 N2. exists ids. destruct (Z.eqb_spec (t_id d) 0); [lia|]. cbn in Hids. auto.
Qed.
