(** Proofs about if-then-else for tuples and records. *)
Require Import ZArith List Bool Lia.
From Verif Require Import IteModel IteSpec.
Import ListNotations.
Open Scope Z_scope.

Definition split_fields (thens : list sexp) (els : sexp) : nat -> list sty -> option (list (list sexp * sexp)) :=
  fix go (i : nat) (fs : list sty) : option (list (list sexp * sexp)) :=
         match fs with
         | [] => Some []
         | SLeaf :: r => match go (S i) r with Some l => Some ((map (fun e => SFld e i) thens, SFld els i) :: l) | None => None end
         | f :: r =>
             match nth_error thens i with
             | None => None
             | Some d =>
                 match struct_split f (map (fun _ => SFld d i) thens) (SFld els i), go (S i) r with
                 | Some a, Some l => Some (a ++ l)
                 | _, _ => None
                 end
             end
         end.

Lemma split_tup : forall fs thens els, struct_split (STup fs) thens els = split_fields thens els 0 fs.
Proof. reflexivity. Qed.

Fixpoint sty_all (P : sty -> Prop) (HL : P SLeaf) (HT : forall l, Forall P l -> P (STup l)) (t : sty) : P t :=
  match t with
  | SLeaf => HL
  | STup l => HT l ((fix go (l : list sty) : Forall P l :=
                       match l with [] => Forall_nil P | x :: r => Forall_cons x (sty_all P HL HT x) (go r) end) l)
  end.

Definition oleaves (v : sval) : list (option sval) := map (fun z => Some (VLeaf z)) (leaves v).
Lemma oleaves_tup : forall l, oleaves (VTup l) = flat_map oleaves l.
Proof. intros l. unfold oleaves. cbn [leaves]. induction l as [|v l IH]; [reflexivity|]. cbn [flat_map]. rewrite map_app, IH. reflexivity. Qed.

(** the else branch *)
Lemma split_else : forall vs ev t thens els rs v,
  struct_split t thens els = Some rs -> sval_of vs ev els = Some v -> has_type v t ->
  result_leaves vs ev rs None = oleaves v.
Proof.
  intros vs ev t. induction t as [|fs IH] using sty_all; intros thens els rs v E V T.
  - injection E as <-. inversion T; subst. cbn. rewrite V. reflexivity.
  - rewrite split_tup in E. inversion T as [|ws ts F]; subst. clear T. rewrite oleaves_tup.
    assert (G : forall fs i ws' rs, Forall (fun t => forall thens els rs v,
       struct_split t thens els = Some rs -> sval_of vs ev els = Some v -> has_type v t -> result_leaves vs ev rs None = oleaves v) fs ->
       Forall2 has_type ws' fs -> (forall k w, nth_error ws' k = Some w -> nth_error ws (i + k) = Some w) ->
       split_fields thens els i fs = Some rs -> result_leaves vs ev rs None = flat_map oleaves ws').
    { clear E rs F IH fs. induction fs as [|f fs IHf]; intros i ws' rs HF F N E.
      - inversion F; subst. cbn in E. injection E as <-. reflexivity.
      - inversion F as [|w f' ws'' fs' Hw F']; subst. inversion_clear HF as [|? ? HF1 HF2].
        assert (Nw : nth_error ws i = Some w) by (rewrite <- (Nat.add_0_r i); apply N; reflexivity).
        assert (N' : forall k w0, nth_error ws'' k = Some w0 -> nth_error ws (S i + k) = Some w0).
        { intros k w0 Hk. replace (S i + k)%nat with (i + S k)%nat by lia. apply N. exact Hk. }
        cbn [flat_map]. destruct f as [|gs]; cbn [split_fields] in E; fold (split_fields thens els) in E.
        + destruct (split_fields thens els (S i) fs) as [l|] eqn:El; [|discriminate]. injection E as <-.
          pose proof (IHf _ _ _ HF2 F' N' El) as R. unfold result_leaves in *. cbn [map snd]. rewrite R.
          cbn [sval_of]. rewrite V, Nw. inversion Hw; subst. reflexivity.
        + destruct (nth_error thens i) as [d|]; [|discriminate].
          destruct (struct_split (STup gs) _ (SFld els i)) as [a|] eqn:Ea; [|discriminate].
          destruct (split_fields thens els (S i) fs) as [l|] eqn:El; [|discriminate]. injection E as <-.
          pose proof (IHf _ _ _ HF2 F' N' El) as R.
          assert (V' : sval_of vs ev (SFld els i) = Some w) by (cbn [sval_of]; rewrite V; exact Nw).
          pose proof (HF1 _ _ _ _ Ea V' Hw) as R'. unfold result_leaves in *. rewrite map_app, R, R'. reflexivity. }
    apply (G fs 0%nat ws rs IH F); [intros k w Hk; exact Hk|exact E].
Qed.

(** types whose fields are not structs: the fields of the branch taken *)
Lemma split_flat_fields : forall thens els fs i, (forall f, In f fs -> f = SLeaf) ->
  split_fields thens els i fs = Some (map (fun k => (map (fun e => SFld e k) thens, SFld els k)) (seq i (length fs))).
Proof.
  induction fs as [|f fs IH]; intros i H; [reflexivity|].
  rewrite (H f (or_introl eq_refl)). cbn [split_fields]. fold (split_fields thens els).
  rewrite IH by (intros g Hg; apply H; right; exact Hg). reflexivity.
Qed.

Lemma flat_values : forall ws fs, (forall f, In f fs -> f = SLeaf) -> Forall2 has_type ws fs ->
  forall i pre, length pre = i -> map (fun k => nth_error (pre ++ ws) k) (seq i (length fs)) = flat_map oleaves ws.
Proof.
  intros ws fs H F. induction F as [|w f ws fs Hw F IH]; intros i pre L; [reflexivity|].
  cbn [length seq map flat_map]. rewrite nth_error_app2 by lia. rewrite L, Nat.sub_diag. cbn [nth_error].
  rewrite (H f (or_introl eq_refl)) in Hw. inversion Hw; subst. change (oleaves (VLeaf z) ++ flat_map oleaves ws) with (Some (VLeaf z) :: flat_map oleaves ws). f_equal.
  rewrite <- (IH (fun g Hg => H g (or_intror Hg)) (S (length pre)) (pre ++ [VLeaf z])) by (rewrite app_length; cbn; lia).
  apply map_ext. intros k. rewrite <- app_assoc. reflexivity.
Qed.

Theorem struct_flat : forall t vs ev, flat_type t -> Forall (fun v => has_type v t) vs -> has_type ev t ->
  exists rs, struct_split t (map SThen (seq 0 (length vs))) SElse = Some rs /\
    (forall j v, nth_error vs j = Some v -> result_leaves vs ev rs (Some j) = map (fun z => Some (VLeaf z)) (leaves v)) /\
    result_leaves vs ev rs None = map (fun z => Some (VLeaf z)) (leaves ev).
Proof.
  intros t vs ev (fs & -> & H) T Te. rewrite split_tup, (split_flat_fields _ _ _ _ H). eexists. split; [reflexivity|].
  split.
  - intros j v Hj. pose proof (proj1 (Forall_forall _ _) T v (nth_error_In _ _ Hj)) as Tv. inversion Tv as [|ws ts F]; subst.
    change (map (fun z => Some (VLeaf z)) (leaves (VTup ws))) with (oleaves (VTup ws)). rewrite oleaves_tup.
    rewrite <- (flat_values ws fs H F 0%nat [] eq_refl). unfold result_leaves. rewrite map_map. apply map_ext. intros k.
    cbn [fst app]. rewrite map_map, nth_error_map.
    assert (L : (j < length vs)%nat) by (apply nth_error_Some; congruence).
    rewrite (nth_error_nth' (seq 0 (length vs)) 0%nat) by (rewrite seq_length; exact L). rewrite seq_nth by exact L.
    cbn [option_map sval_of Nat.add]. rewrite Hj. reflexivity.
  - inversion Te as [|ws ts F]; subst.
    change (map (fun z => Some (VLeaf z)) (leaves (VTup ws))) with (oleaves (VTup ws)). rewrite oleaves_tup.
    rewrite <- (flat_values ws fs H F 0%nat [] eq_refl). unfold result_leaves. rewrite map_map. apply map_ext. intros k. reflexivity.
Qed.
