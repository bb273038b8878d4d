(** Proofs about BoundsModel, part 2: ComputeIntBounds. *)
Require Import ZArith List Bool Lia ZifyBool.
From Verif Require Import Base IntValModel IntValSpec IntValProofs IntValPropProofs ArrModel SetModel SetSpec
  LinModel LinSpec LinProofs BoundsModel BoundsSpec BoundsProofs.
Import ListNotations.
Open Scope Z_scope.

Section ex_induction.
  Variable P : ex -> Prop.
  Hypothesis HPar : forall t v, P (EPar t v).
  Hypothesis HId : forall x isb dom rhs, (forall e, rhs = Some e -> P e) -> P (EId x isb dom rhs).
  Hypothesis HIte : forall bs els, Forall (fun p => P (snd p)) bs -> P els -> P (EIte bs els).
  Hypothesis HAcc : forall idx x elems dom, Forall P idx -> (forall t, elems = Some t -> Forall (fun p => P (snd p)) t) -> P (EAcc idx x elems dom).
  Hypothesis HBin : forall op a b, P a -> P b -> P (EBin op a b).
  Hypothesis HUn : forall op a, P a -> P (EUn op a).
  Hypothesis HLin : forall cs al d, (forall l, al = Some l -> Forall P l) -> P (ELin cs al d).
  Hypothesis HSum : forall al, (forall l, al = Some l -> Forall P l) -> P (ESum al).
  Hypothesis HTimes : forall a b, P a -> P b -> P (ETimes a b).
  Hypothesis HB2I : forall a, P a -> P (EBool2Int a).
  Hypothesis HAbs : forall a, P a -> P (EAbs a).
  Hypothesis HUni : forall a b, P a -> P b -> P (EUniform a b).
  Hypothesis HSol : forall a, P a -> P (ESol a).
  Hypothesis HCall : forall args dom, Forall P args -> P (ECallDom args dom).
  Hypothesis HBoolX : P EBoolX.
  Hypothesis HInv : forall l, Forall P l -> P (EInvalid l).
  Hypothesis HOther : forall t, P (EOther t).
  Fixpoint ex_ind' (e : ex) : P e :=
    let list_ind := fix go (l : list ex) : Forall P l :=
      match l with [] => Forall_nil _ | x :: l => Forall_cons _ (ex_ind' x) (go l) end in
    match e with
    | EPar t v => HPar t v
    | EId x isb dom rhs => HId x isb dom rhs
        (match rhs return (forall e, rhs = Some e -> P e) with
         | None => fun e H => match H in _ = o return match o with None => True | Some e => P e end with eq_refl => I end
         | Some e0 => fun e H => match H in _ = o return match o with None => True | Some e => P e end with eq_refl => ex_ind' e0 end
         end)
    | EIte bs els => HIte bs els
        ((fix go (l : list (cnd * ex)) : Forall (fun p => P (snd p)) l :=
            match l with [] => Forall_nil _ | p :: l => @Forall_cons _ (fun p => P (snd p)) p l (ex_ind' (snd p)) (go l) end) bs) (ex_ind' els)
    | EAcc idx x elems dom => HAcc idx x elems dom (list_ind idx)
        (match elems return (forall t, elems = Some t -> Forall (fun p => P (snd p)) t) with
         | None => fun t H => match H in _ = o return match o with None => True | Some t => Forall (fun p => P (snd p)) t end with eq_refl => I end
         | Some t0 => fun t H => match H in _ = o return match o with None => True | Some t => Forall (fun p => P (snd p)) t end with eq_refl =>
             (fix go (l : list (list Z * ex)) : Forall (fun p => P (snd p)) l :=
                match l with [] => Forall_nil _ | p :: l => @Forall_cons _ (fun p => P (snd p)) p l (ex_ind' (snd p)) (go l) end) t0 end
         end)
    | EBin op a b => HBin op a b (ex_ind' a) (ex_ind' b)
    | EUn op a => HUn op a (ex_ind' a)
    | ELin cs al d => HLin cs al d
        (match al return (forall l, al = Some l -> Forall P l) with
         | None => fun t H => match H in _ = o return match o with None => True | Some t => Forall P t end with eq_refl => I end
         | Some l0 => fun t H => match H in _ = o return match o with None => True | Some t => Forall P t end with eq_refl => list_ind l0 end
         end)
    | ESum al => HSum al
        (match al return (forall l, al = Some l -> Forall P l) with
         | None => fun t H => match H in _ = o return match o with None => True | Some t => Forall P t end with eq_refl => I end
         | Some l0 => fun t H => match H in _ = o return match o with None => True | Some t => Forall P t end with eq_refl => list_ind l0 end
         end)
    | ETimes a b => HTimes a b (ex_ind' a) (ex_ind' b)
    | EBool2Int a => HB2I a (ex_ind' a)
    | EAbs a => HAbs a (ex_ind' a)
    | EUniform a b => HUni a b (ex_ind' a) (ex_ind' b)
    | ESol a => HSol a (ex_ind' a)
    | ECallDom args dom => HCall args dom (list_ind args)
    | EBoolX => HBoolX
    | EInvalid l => HInv l (list_ind l)
    | EOther t => HOther t
    end.
End ex_induction.

Ltac bok H x E := apply bind_ok in H; destruct H as (x & E & H).
Ltac bokp H x y E := apply bind_ok in H; destruct H as ([x y] & E & H).

(** ** a deeper stack changes nothing *)
Definition ext (k : list bnd) (st : bst) : bst := (fst st, snd st ++ k).
Lemma pop_ext : forall k st b st', pop st = Ok (b, st') -> pop (ext k st) = Ok (b, ext k st').
Proof. intros k [v [|c l]] b st' H; cbn in *; [discriminate|]. injection H as <- <-. reflexivity. Qed.
Lemma popn_ext : forall k n st st', popn n st = Ok st' -> popn n (ext k st) = Ok (ext k st').
Proof.
  intros k. induction n as [|n IH]; intros st st' H; cbn [popn] in *; [injection H as <-; reflexivity|].
  bokp H b st1 E. apply (pop_ext k) in E. rewrite E. cbn [bind]. auto.
Qed.
Lemma lin_acc_ext : forall k n cs lb ub st st', lin_acc n cs lb ub st = Ok st' -> lin_acc n cs lb ub (ext k st) = Ok (ext k st').
Proof.
  intros k. induction n as [|n IH]; intros cs lb ub st st' H; cbn [lin_acc] in *; [injection H as <-; reflexivity|].
  bokp H b st1 E. apply (pop_ext k) in E. rewrite E. cbn [bind]. bok H c Ec. rewrite Ec. cbn [bind]. bokp H l u El. rewrite El. cbn [bind]. auto.
Qed.
Definition frame (f : bst -> res bst) : Prop := forall k st st', f st = Ok st' -> f (ext k st) = Ok (ext k st').
Lemma run_rev_ext : forall l, Forall (fun e => frame (run e)) l -> frame (run_rev run l).
Proof.
  induction 1 as [|e l He _ IH]; intros k st st' H; cbn [run_rev] in *; [injection H as <-; reflexivity|].
  bok H st1 E. rewrite (IH _ _ _ E). cbn [bind]. auto.
Qed.
Lemma run_elems_ext : forall l, Forall (fun e => frame (run e)) l -> forall k st st' b, run_elems run l st = Ok (st', b) -> run_elems run l (ext k st) = Ok (ext k st', b).
Proof.
  induction 1 as [|e l He _ IH]; intros k st st' b H; cbn [run_elems] in *; [injection H as <- <-; reflexivity|].
  bokp H st1 stop E. rewrite (IH _ _ _ _ E). cbn [bind]. destruct stop; [injection H as <- <-; reflexivity|].
  bok H st2 E2. rewrite (He _ _ _ E2). cbn [bind]. change (fst (ext k st2)) with (fst st2). destruct (fst st2); [injection H as <- <-; reflexivity|].
  bok H st3 E3. rewrite (popn_ext _ _ _ _ E3). cbn [bind]. injection H as <- <-. reflexivity.
Qed.
Lemma join_ext : forall acc, frame (join_top acc).
Proof. intros acc k st st' H. unfold join_top in *. bokp H b st1 E. apply (pop_ext k) in E. rewrite E. cbn [bind]. injection H as <-. reflexivity. Qed.
Lemma run_ite_ext : forall els, frame els -> forall bs, Forall (fun p => frame (run (snd p))) bs -> forall acc, frame (run_ite run bs els acc).
Proof.
  intros els He. induction 1 as [|[c e] bs H1 _ IH]; intros acc k st st' H; cbn [run_ite] in *.
  - bok H st1 E. rewrite (He _ _ _ E). cbn [bind]. apply join_ext. exact H.
  - cbn [snd] in H1. destruct c as [[[|]|]|].
    + bok H st1 E. rewrite (H1 _ _ _ E). cbn [bind]. apply join_ext. exact H.
    + apply IH. exact H.
    + discriminate.
    + bok H st1 E. rewrite (H1 _ _ _ E). cbn [bind]. bokp H b st2 E2. apply (pop_ext k) in E2. rewrite E2. cbn [bind]. apply IH. exact H.
Qed.
Lemma run_elem_ext : forall t is, Forall (fun p => frame (run (snd p))) t -> forall k st,
  match run_elem run t is st with
  | None => run_elem run t is (ext k st) = None
  | Some (Ok st') => run_elem run t is (ext k st) = Some (Ok (ext k st'))
  | Some _ => True
  end.
Proof.
  intros t is. induction 1 as [|[js e] t H1 _ IH]; intros k st; cbn [run_elem]; auto.
  destruct (same_idx js is); [|apply IH]. cbn [snd] in H1. destruct (run e st) eqn:E; auto. now rewrite (H1 _ _ _ E).
Qed.
Lemma run_ext : forall e, frame (run e).
Proof.
  induction e using ex_ind'; intros k st st' R; cbn [run] in *.
  - unfold enter_par in *. destruct t; [destruct v|destruct v| |destruct v]; try discriminate; injection R as <-; reflexivity.
  - destruct dom as [[b|s]|].
    + injection R as <-. reflexivity.
    + destruct s; injection R as <-; reflexivity.
    + destruct rhs as [e|]; [eapply H; eauto|]. injection R as <-. reflexivity.
  - apply run_ite_ext; auto.
  - bok R st1 E1. rewrite (run_rev_ext _ H _ _ _ E1). cbn [bind]. bok R st2 E2. rewrite (popn_ext _ _ _ _ E2). cbn [bind].
    destruct x as [x|]; [|injection R as <-; reflexivity]. bok R r E3.
    assert (HD : match dom with Some ((_ :: _) as s) => Ok (push (set_min s, set_max s) st2) | _ => Ok (bad st2) end = Ok st' ->
                 match dom with Some ((_ :: _) as s) => Ok (push (set_min s, set_max s) (ext k st2)) | _ => Ok (bad (ext k st2)) end = Ok (ext k st')).
    { destruct dom as [[|p q]|]; intros X; injection X as <-; reflexivity. }
    destruct elems as [t|].
    + destruct (forallb is_par idx).
      * bok E3 is Ei. injection E3 as <-. rewrite Ei. cbn [bind]. pose proof (run_elem_ext t is (H0 t eq_refl) k st2) as RE.
        destruct (run_elem run t is st2) as [[st3|x0|]|]; try discriminate.
        -- injection R as <-. rewrite RE. reflexivity.
        -- rewrite RE. auto.
      * injection E3 as <-. cbn [bind]. auto.
    + injection E3 as <-. cbn [bind]. auto.
  - bok R st1 E1. rewrite (IHe1 _ _ _ E1). cbn [bind]. bok R st2 E2. rewrite (IHe2 _ _ _ E2). cbn [bind].
    bokp R b1 st3 E3. apply (pop_ext k) in E3. rewrite E3. cbn [bind]. bokp R b0 st4 E4. apply (pop_ext k) in E4. rewrite E4. cbn [bind].
    bok R ob E5. rewrite E5. cbn [bind]. destruct ob; injection R as <-; reflexivity.
  - bok R st1 E1. rewrite (IHe _ _ _ E1). cbn [bind]. destruct op; [injection R as <-; reflexivity|].
    bokp R b1 st3 E3. apply (pop_ext k) in E3. rewrite E3. cbn [bind]. bok R l E4. rewrite E4. cbn [bind]. bok R u E5. rewrite E5. cbn [bind]. injection R as <-. reflexivity.
  - destruct al as [l|]; [|injection R as <-; reflexivity]. cbn [bind] in *. bokp R b0 st0 E0. apply (pop_ext k) in E0.
    change (push (ofZ d, ofZ d) (ext k st)) with (ext k (push (ofZ d, ofZ d) st)). rewrite E0. cbn [bind].
    bokp R st1 stop E1. rewrite (run_elems_ext _ (H l eq_refl) _ _ _ _ E1). cbn [bind].
    destruct stop; [injection R as <-; reflexivity|]. apply lin_acc_ext. exact R.
  - destruct al as [l|]; [|injection R as <-; reflexivity]. bokp R st1 stop E1. rewrite (run_elems_ext _ (H l eq_refl) _ _ _ _ E1). cbn [bind].
    destruct stop; [injection R as <-; reflexivity|]. apply lin_acc_ext. exact R.
  - bok R st1 E1. rewrite (IHe2 _ _ _ E1). cbn [bind]. bok R st2 E2. rewrite (IHe1 _ _ _ E2). cbn [bind].
    bokp R b1 st3 E3. apply (pop_ext k) in E3. rewrite E3. cbn [bind]. bokp R b0 st4 E4. apply (pop_ext k) in E4. rewrite E4. cbn [bind].
    destruct (negb (finite4 b0 b1)); [injection R as <-; reflexivity|]. bok R c E5. rewrite E5. cbn [bind]. injection R as <-; reflexivity.
  - bok R st1 E1. rewrite (IHe _ _ _ E1). cbn [bind]. bokp R b1 st3 E3. apply (pop_ext k) in E3. rewrite E3. cbn [bind]. injection R as <-. reflexivity.
  - bok R st1 E1. rewrite (IHe _ _ _ E1). cbn [bind]. bokp R b1 st3 E3. apply (pop_ext k) in E3. rewrite E3. cbn [bind]. bok R c E5. rewrite E5. cbn [bind]. injection R as <-. reflexivity.
  - bok R st1 E1. rewrite (IHe2 _ _ _ E1). cbn [bind]. bok R st2 E2. rewrite (IHe1 _ _ _ E2). cbn [bind].
    bokp R b1 st3 E3. apply (pop_ext k) in E3. rewrite E3. cbn [bind]. bokp R b0 st4 E4. apply (pop_ext k) in E4. rewrite E4. cbn [bind]. injection R as <-. reflexivity.
  - apply IHe. exact R.
  - bok R st1 E1. rewrite (run_rev_ext _ H _ _ _ E1). cbn [bind]. bok R st2 E2. rewrite (popn_ext _ _ _ _ E2). cbn [bind].
    destruct dom; injection R as <-; reflexivity.
  - injection R as <-. reflexivity.
  - bok R st1 E1. rewrite (run_rev_ext _ H _ _ _ E1). cbn [bind]. injection R as <-. reflexivity.
  - destruct t; injection R as <-; reflexivity.
Qed.
