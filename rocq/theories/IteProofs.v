(** Proofs about if-then-else. *)
Require Import ZArith List Bool Lia.
From Verif Require Import IteModel IteSpec.
Import ListNotations.
Open Scope Z_scope.

(** * the predicates *)
Lemma d_first : forall (c : list bool) (d : nat -> bool) m,
  (forall i, (i < length c)%nat -> d i = match i with O => true | S j => negb (nth j c false) && d j end) ->
  (m < length c)%nat -> (d m = true <-> forall i, (i < m)%nat -> nth i c false = false).
Proof.
  intros c d m D. induction m as [|m IH]; intros L.
  - rewrite D by lia. split; [intros _ i Hi; lia|reflexivity].
  - rewrite D by lia. rewrite andb_true_iff, negb_true_iff, IH by lia. split.
    + intros [A B] i Hi. destruct (Nat.eq_dec i m) as [->|]; [exact A|apply B; lia].
    + intros A. split; [apply A; lia|intros i Hi; apply A; lia].
Qed.

Definition first_of (c : list bool) (m : nat) : Prop :=
  (m < length c)%nat /\ nth m c false = true /\ forall i, (i < m)%nat -> nth i c false = false.

Lemma first_unique : forall c m n, first_of c m -> first_of c n -> m = n.
Proof.
  intros c m n (Lm & Tm & Fm) (Ln & Tn & Fn).
  destruct (Nat.lt_trichotomy m n) as [H|[H|H]]; [|exact H|].
  - rewrite (Fn _ H) in Tm. discriminate.
  - rewrite (Fm _ H) in Tn. discriminate.
Qed.

Fixpoint dfun (c : list bool) (i : nat) : bool := match i with O => true | S j => negb (nth j c false) && dfun c j end.
Lemma dfun_ok : forall c i, (i < length c)%nat -> dfun c i = match i with O => true | S j => negb (nth j c false) && dfun c j end.
Proof. intros c [|i] _; reflexivity. Qed.

Theorem ite_pred_first : forall c p m, first_of c m -> (ite_pred c p <-> p m).
Proof.
  intros c p m F. split.
  - intros (d & D & H). apply H; [apply F|]. split; [apply F|]. apply (d_first c d m D); apply F.
  - intros P. exists (dfun c). split; [apply dfun_ok|]. intros i L [Ci Di].
    assert (i = m) as ->; [|exact P]. apply (first_unique c); [|exact F]. split; [exact L|]. split; [exact Ci|].
    apply (d_first c (dfun c) i (dfun_ok c)); assumption.
Qed.

Theorem part_pred_first : forall c df b m, first_of c m -> (part_pred c df b <-> b = df m).
Proof.
  intros c df b m F. split.
  - intros (d & D & H1 & H2).
    assert (Dm : d m = true) by (apply (d_first c d m D); apply F).
    pose proof (H1 m (proj1 F)) as A. pose proof (H2 m (proj1 F)) as B. destruct F as (L & T & _).
    destruct b, (df m); try reflexivity.
    + symmetry. apply A. auto.
    + apply B. auto.
  - intros ->. exists (dfun c). split; [apply dfun_ok|].
    assert (U : forall i, (i < length c)%nat -> nth i c false = true -> dfun c i = true -> i = m).
    { intros i L Ci Di. apply (first_unique c); [|exact F]. split; [exact L|]. split; [exact Ci|].
      apply (d_first c (dfun c) i (dfun_ok c)); assumption. }
    split; intros i L (A & B & C).
    + rewrite (U i L B C). exact A.
    + rewrite <- (U i L B A). exact C.
Qed.

(** * the conditions *)
Definition clause_ok (M : meaning) (a : assignment) (cl : list (cond * option nat)) (m : nat) : Prop :=
  exists p, first_of (cond_vals M a cl) p /\ exists c, nth_error cl p = Some (c, Some m).

Lemma taken_cons : forall M a c cs m, taken M a (c :: cs) m <->
  (m = 0%nat /\ cond_val M c a = true) \/ (exists k, m = S k /\ cond_val M c a = false /\ taken M a cs k).
Proof.
  intros M a c cs m. split.
  - intros (L & B & T). destruct m as [|k].
    + left. split; [reflexivity|]. apply (T c). reflexivity.
    + right. exists k. split; [reflexivity|]. split; [apply (B 0%nat); [lia|reflexivity]|].
      split; [cbn [length] in L; lia|]. split; [|exact T].
      intros i d Hi Hn. apply (B (S i)); [lia|exact Hn].
  - intros [[-> T]|(k & -> & F & (L & B & T))].
    + split; [lia|]. split; [intros i d Hi; lia|]. intros d E. injection E as <-. exact T.
    + split; [cbn [length]; lia|]. split; [|exact T]. intros [|i] d Hi Hn.
      * injection Hn as <-. exact F.
      * apply (B i); [lia|exact Hn].
Qed.

Lemma taken_nil : forall M a m, taken M a [] m <-> m = 0%nat.
Proof.
  intros M a m. split.
  - intros (L & _). cbn [length] in L. lia.
  - intros ->. split; [cbn; lia|]. split; [intros i c Hi; lia|intros c E; discriminate].
Qed.

Lemma taken_exists : forall M a cs, exists m, taken M a cs m.
Proof.
  intros M a cs. induction cs as [|c cs [m IH]].
  - exists 0%nat. apply taken_nil. reflexivity.
  - destruct (cond_val M c a) eqn:E.
    + exists 0%nat. apply taken_cons. left. auto.
    + exists (S m). apply taken_cons. right. exists m. auto.
Qed.

Lemma taken_unique : forall M a cs m n, taken M a cs m -> taken M a cs n -> m = n.
Proof.
  intros M a cs. induction cs as [|c cs IH]; intros m n Hm Hn.
  - apply taken_nil in Hm, Hn. congruence.
  - apply taken_cons in Hm, Hn.
    destruct Hm as [[-> Hm]|(k & -> & Fk & Hm)]; destruct Hn as [[-> Hn]|(j & -> & Fj & Hn)]; try congruence.
    f_equal. apply IH; assumption.
Qed.

(** no condition of the list holds *)
Definition none_true (M : meaning) (a : assignment) (cl : list (cond * option nat)) : Prop :=
  forall c, In c cl -> cond_val M (fst c) a = false.

Lemma clause_here : forall M a acc c k rest,
  none_true M a acc -> cond_val M c a = true -> clause_ok M a (acc ++ (c, Some k) :: rest) k.
Proof.
  intros M a acc c k rest N T. exists (length acc). unfold cond_vals. split.
  - split; [rewrite map_length, app_length; cbn; lia|]. split.
    + rewrite map_app, app_nth2 by (rewrite map_length; lia). rewrite map_length, Nat.sub_diag. exact T.
    + intros i Hi. rewrite map_app, app_nth1 by (rewrite map_length; lia).
      assert (D : forall l j, none_true M a l -> (j < length l)%nat -> nth j (map (fun c0 => cond_val M (fst c0) a) l) false = false).
      { induction l as [|q l IHl]; intros j Nl Hj; [cbn in Hj; lia|]. destruct j; cbn.
        - apply Nl. left. reflexivity.
        - apply IHl; [intros r Hr; apply Nl; right; exact Hr|cbn in Hj; lia]. }
      apply D; assumption.
  - exists c. rewrite nth_error_app2 by lia. rewrite Nat.sub_diag. reflexivity.
Qed.

Lemma clauses_extends : forall cs i ap acc cl, clauses i ap cs acc = inr cl -> exists t, cl = acc ++ t.
Proof.
  induction cs as [|c cs IH]; intros i ap acc cl E; cbn [clauses] in E.
  - destruct ap; [discriminate|]. injection E as <-. destruct (last acc (CVar 0, None)) as [[[|]|k] o].
    + exists []. symmetry. apply app_nil_r.
    + eexists. reflexivity.
    + eexists. reflexivity.
  - destruct c as [[|]|k].
    + destruct ap; [discriminate|]. injection E as <-. eexists. reflexivity.
    + apply IH in E as [t ->]. rewrite <- app_assoc. eexists. reflexivity.
    + apply IH in E as [t ->]. rewrite <- app_assoc. eexists. reflexivity.
Qed.

Lemma last_none : forall M a acc o, none_true M a acc -> last acc (CVar 0, None) <> (CPar true, o).
Proof.
  intros M a acc o N E. induction acc as [|x acc IH]; [discriminate|].
  destruct acc as [|y acc].
  - cbn in E. subst x. specialize (N (CPar true, o) (or_introl eq_refl)). discriminate.
  - apply IH; [|exact E]. intros c Hc. apply N. right. exact Hc.
Qed.

(** once a condition holds, or one of them is a variable, the first clause that holds is the one of the branch taken *)
Lemma clauses_taken : forall M a cs i ap acc m,
  none_true M a acc -> taken M a cs m ->
  match clauses i ap cs acc with
  | inl k => k = (i + m)%nat /\ ap = true
  | inr cl => clause_ok M a cl (i + m)
  end.
Proof.
  induction cs as [|c cs IH]; intros i ap acc m N T; cbn [clauses].
  - apply taken_nil in T as ->. rewrite Nat.add_0_r. destruct ap; [auto|].
    destruct (last acc (CVar 0, None)) as [[[|]|k] o] eqn:L.
    + exfalso. exact (last_none M a acc o N L).
    + apply clause_here; [exact N|reflexivity].
    + apply clause_here; [exact N|reflexivity].
  - apply taken_cons in T. destruct c as [[|]|k].
    + destruct T as [[-> _]|(k & _ & F & _)]; [|discriminate]. rewrite Nat.add_0_r. destruct ap; [auto|].
      apply clause_here; [exact N|reflexivity].
    + destruct T as [[_ F]|(k & -> & _ & T)]; [discriminate|].
      replace (i + S k)%nat with (S i + k)%nat by lia. apply IH; [|exact T].
      intros c Hc. apply in_app_iff in Hc as [Hc|[<-|[]]]; [apply N; exact Hc|reflexivity].
    + destruct T as [[-> T]|(j & -> & F & T)].
      * rewrite Nat.add_0_r. destruct (clauses (S i) false cs (acc ++ [(CVar k, Some i)])) as [q|cl] eqn:E.
        -- exfalso.
           assert (G : forall cs i acc q, clauses i false cs acc <> inl q).
           { clear. induction cs as [|[[|]|k] cs IH]; intros i acc q; cbn [clauses]; try discriminate; apply IH. }
           exact (G _ _ _ _ E).
        -- destruct (clauses_extends _ _ _ _ _ E) as [t ->]. rewrite <- app_assoc. apply clause_here; assumption.
      * replace (i + S j)%nat with (S i + j)%nat by lia.
        assert (N' : none_true M a (acc ++ [(CVar k, Some i)])).
        { intros c Hc. apply in_app_iff in Hc as [Hc|[<-|[]]]; [apply N; exact Hc|exact F]. }
        pose proof (IH (S i) false (acc ++ [(CVar k, Some i)]) j N' T) as R.
        destruct (clauses (S i) false cs _) as [q|cl]; [destruct R; discriminate|exact R].
Qed.

(** * the branches *)
Lemma conjuncts_holds : forall M a b, holds M b a <-> Forall (fun c => holds M c a) (conjuncts b).
Proof.
  intros M a b. induction b as [x IHx y IHy|s l r|k]; cbn [conjuncts holds].
  - rewrite Forall_app, IHx, IHy. reflexivity.
  - split; [intros H; repeat constructor; apply H|]. intros H. inversion_clear H. assumption.
  - split; [intros H; repeat constructor; exact H|]. intros H. inversion_clear H. assumption.
Qed.

Definition eq_entry (p : nat * (exp * bexp)) : Prop :=
  exists l r, snd (snd p) = BEq true l r /\ eq_parts l r = Some (fst p, fst (snd p)).

Lemma eq_entry_holds : forall M a p, eq_entry p ->
  (holds M (snd (snd p)) a <-> defined M (fst (snd p)) a = true /\ a (fst p) = value M (fst (snd p)) a).
Proof.
  intros M a [x [o b]] (l & r & E & P). cbn [fst snd] in *. subst b. cbn [holds].
  unfold eq_parts in P. destruct l as [y| |k]; [injection P as <- <-|destruct r; try discriminate; injection P as <- <-|
    destruct r; try discriminate; injection P as <- <-]; cbn [value defined]; intuition congruence.
Qed.

Lemma find_eq_none : forall m x, find_eq m x = None -> ~ In x (map fst m).
Proof.
  unfold find_eq. intros m x E. destruct (find _ m) eqn:F; [discriminate|].
  intros H. apply in_map_iff in H as (p & <- & Hp). pose proof (find_none _ _ F p Hp) as G. cbn in G.
  rewrite Nat.eqb_refl in G. discriminate.
Qed.

Lemma find_eq_some : forall m x e, find_eq m x = Some e -> In (x, e) m.
Proof.
  unfold find_eq. intros m x e E. destruct (find _ m) as [[y f]|] eqn:F; [|discriminate]. cbn in E. injection E as <-.
  apply find_some in F as [F G]. apply Nat.eqb_eq in G. cbn in G. subst y. exact F.
Qed.

Lemma find_eq_in : forall m x e, NoDup (map fst m) -> In (x, e) m -> find_eq m x = Some e.
Proof.
  intros m x e N H. destruct (find_eq m x) as [f|] eqn:E.
  - f_equal. pose proof (find_eq_some _ _ _ E) as G. clear E.
    induction m as [|[y g] m IH]; [destruct H|]. inversion_clear N as [|? ? N1 N2].
    destruct H as [H|H]; destruct G as [G|G].
    + congruence.
    + injection H as -> ->. exfalso. apply N1. apply (in_map fst) in G. exact G.
    + injection G as -> ->. exfalso. apply N1. apply (in_map fst) in H. exact H.
    + apply IH; assumption.
  - exfalso. apply (find_eq_none _ _ E). apply (in_map fst) in H. exact H.
Qed.

Definition split_ok (M : meaning) (a : assignment) (st : eqmap * list bexp) : Prop :=
  Forall eq_entry (fst st) /\ NoDup (map fst (fst st)).
Definition split_holds (M : meaning) (a : assignment) (st : eqmap * list bexp) : Prop :=
  (forall p, In p (fst st) -> holds M (snd (snd p)) a) /\ (forall b, In b (snd st) -> holds M b a).

Lemma classify_ok : forall M a st e, split_ok M a st ->
  split_ok M a (classify st e) /\ (split_holds M a (classify st e) <-> split_holds M a st /\ holds M e a).
Proof.
  intros M a [m o] e [E N].
  assert (Def : split_ok M a (m, o ++ [e]) /\ (split_holds M a (m, o ++ [e]) <-> split_holds M a (m, o) /\ holds M e a)).
  { split; [split; assumption|]. unfold split_holds. cbn [fst snd]. split.
    - intros [A B]. split; [split; [exact A|intros b Hb; apply B, in_or_app; left; exact Hb]|].
      apply B, in_or_app. right. left. reflexivity.
    - intros [[A B] C]. split; [exact A|]. intros b Hb. apply in_app_iff in Hb as [Hb|[<-|[]]]; auto. }
  unfold classify. cbn [fst snd].
  destruct e as [x y|[|] l r|k]; try exact Def.
  destruct (eq_parts l r) as [[x q]|] eqn:P; [|exact Def].
  destruct (find_eq m x) eqn:F; [exact Def|]. clear Def.
  split.
  - split; cbn [fst snd] in *.
    + apply Forall_app. split; [exact E|]. repeat constructor. exists l, r. auto.
    + rewrite map_app. cbn [map fst]. apply find_eq_none in F. clear E.
      induction m as [|[y g] m IH]; cbn [map fst app] in *.
      * repeat constructor. intros [].
      * inversion_clear N as [|? ? N1 N2]. constructor.
        -- rewrite in_app_iff. intros [H|[H|[]]]; [exact (N1 H)|]. apply F. left. symmetry. exact H.
        -- apply IH; [exact N2|]. intros H. apply F. right. exact H.
  - unfold split_holds. cbn [fst snd]. split.
    + intros [A B]. split; [split; [intros p Hp; apply A, in_or_app; left; exact Hp|exact B]|].
      apply (A (x, (q, BEq true l r))), in_or_app. right. left. reflexivity.
    + intros [[A B] C]. split; [|exact B]. intros p Hp. apply in_app_iff in Hp as [Hp|[<-|[]]]; auto.
Qed.

Lemma split_fold : forall M a cs st, split_ok M a st ->
  split_ok M a (fold_left classify cs st) /\
  (split_holds M a (fold_left classify cs st) <-> split_holds M a st /\ Forall (fun c => holds M c a) cs).
Proof.
  induction cs as [|c cs IH]; intros st O; cbn [fold_left].
  - split; [exact O|]. split; [intros H; split; [exact H|constructor]|tauto].
  - destruct (classify_ok M a st c O) as [O' H']. destruct (IH _ O') as [O2 H2]. split; [exact O2|].
    rewrite H2, H'. rewrite Forall_cons_iff. tauto.
Qed.

Lemma split_branch_ok : forall M a b, split_ok M a (split_branch b) /\ (holds M b a <-> split_holds M a (split_branch b)).
Proof.
  intros M a b. destruct (split_fold M a (conjuncts b) ([], [])) as [O H].
  - split; constructor.
  - split; [exact O|]. unfold split_branch. rewrite H, <- conjuncts_holds. split; [|tauto].
    intros B. split; [|exact B]. split; intros p [].
Qed.

(** * the conditionals at the branch taken *)
Lemma nth_combine : forall (A B : Type) (l : list A) (f : A -> B) k b,
  nth_error l k = Some b -> nth_error (combine l (map f l)) k = Some (b, f b).
Proof.
  induction l as [|x l IH]; intros f k b H; destruct k; cbn in *; try discriminate.
  - injection H as <-. reflexivity.
  - apply IH. exact H.
Qed.

Definition row_ok (M : meaning) (a : assignment) (k : nat) (r : row) : Prop :=
  br_true M a (fst r) (snd r) k /\ match nth_error (snd r) k with Some (BrE e) => defined M e a = true | _ => True end.

Lemma rows_at : forall M a bs k b, nth_error bs k = Some b ->
  ((forall r, In r (rows bs) -> row_ok M a k r) <-> holds M b a).
Proof.
  intros M a bs k b Hb. unfold rows. set (sp := map split_branch bs).
  destruct (split_branch_ok M a b) as [O HB]. rewrite HB. clear HB.
  assert (Hk : nth_error sp k = Some (split_branch b)) by (unfold sp; rewrite nth_error_map, Hb; reflexivity).
  assert (Hin : In (split_branch b) sp) by (apply nth_error_In in Hk; exact Hk).
  assert (HC : nth_error (combine bs sp) k = Some (b, split_branch b)) by (apply nth_combine; exact Hb).
  set (p := split_branch b) in *.
  assert (Ids : forall x, In x (map fst (fst p)) -> In x (idents sp)).
  { intros x Hx. unfold idents. apply nodup_In. apply in_flat_map. exists p. auto. }
  assert (Rest : split_holds M a p -> forall c, In c (rest_of sp p) -> holds M c a).
  { intros [A B] c Hc. unfold rest_of in Hc. apply in_app_iff in Hc as [Hc|Hc]; [apply B; exact Hc|].
    apply in_flat_map in Hc as (x & _ & Hc). destruct (kept sp x); [destruct Hc|].
    destruct (find_eq (fst p) x) as [[e c']|] eqn:F; [|destruct Hc]. destruct Hc as [<-|[]].
    apply find_eq_some in F. apply (A _ F). }
  destruct O as [OE ON]. rewrite Forall_forall in OE.
  split.
  - intros R. 
    assert (Other : forall c, In c (rest_of sp p) -> split_holds M a p \/ holds M c a).
    { intros c Hc.
      destruct (forallb _ sp) eqn:FB in R.
      - rewrite forallb_forall in FB. specialize (FB p Hin). destruct (rest_of sp p); [destruct Hc|discriminate].
      - match type of R with context [(@None nat, ?l)] => destruct (R (None, l)) as [T _]; [apply in_or_app; right; left; reflexivity|] end. unfold br_true in T. cbn [fst snd] in T.
        rewrite nth_error_map in T. rewrite HC in T. cbn [option_map fst snd] in T.
        destruct (eq_left sp p) eqn:EL.
        + left. apply split_branch_ok. apply T. left. reflexivity.
        + right. apply T. exact Hc. }
    assert (Cases : split_holds M a p \/ forall c, In c (rest_of sp p) -> holds M c a).
    { clear -Other. induction (rest_of sp p) as [|c l IH]; [right; intros c []|].
      destruct (Other c (or_introl eq_refl)) as [H|H]; [left; exact H|].
      destruct IH as [G|G]; [intros d Hd; apply Other; right; exact Hd|left; exact G|].
      right. intros d [<-|Hd]; [exact H|apply G; exact Hd]. }
    destruct Cases as [H|RH]; [exact H|]. split.
    + intros q Hq. destruct (kept sp (fst q)) eqn:K.
      * assert (Rx : In (eq_row sp (fst q)) (map (eq_row sp) (filter (kept sp) (idents sp)))).
        { apply in_map. apply filter_In. split; [|exact K]. apply Ids. apply in_map. exact Hq. }
        destruct (R _ (in_or_app _ _ _ (or_introl Rx))) as [T D]. unfold br_true, eq_row in T, D. cbn [fst snd] in T, D.
        rewrite nth_error_map, Hk in T, D. cbn [option_map] in T, D.
        assert (FQ : find_eq (fst p) (fst q) = Some (snd q)) by (apply find_eq_in; [exact ON|destruct q; exact Hq]).
        rewrite FQ in T, D.
        destruct q as [x [o c]]. cbn [fst snd] in *. apply (eq_entry_holds M a (x, (o, c))); [apply OE; exact Hq|]. split; assumption.
      * apply RH. unfold rest_of. apply in_or_app. right. apply in_flat_map. exists (fst q).
        split; [apply Ids, in_map; exact Hq|]. rewrite K.
        rewrite (find_eq_in (fst p) (fst q) (snd q)); [|exact ON|destruct q; exact Hq].
        destruct q as [x [o c]]. left. reflexivity.
    + intros c Hc. apply RH. unfold rest_of. apply in_or_app. left. exact Hc.
  - intros H r Hr. apply in_app_iff in Hr as [Hr|Hr].
    + apply in_map_iff in Hr as (x & <- & Hx). unfold row_ok, br_true, eq_row. cbn [fst snd].
      rewrite nth_error_map, Hk. cbn [option_map].
      destruct (find_eq (fst p) x) as [[o c]|] eqn:F; [|split; reflexivity].
      apply find_eq_some in F. pose proof (proj1 H _ F) as G.
      apply (eq_entry_holds M a (x, (o, c))) in G; [|apply OE; exact F]. cbn [fst snd] in G. tauto.
    + destruct (forallb _ sp); [destruct Hr|]. destruct Hr as [<-|[]]. unfold row_ok, br_true. cbn [fst snd].
      rewrite nth_error_map. rewrite HC. cbn [option_map fst snd].
      destruct (eq_left sp p).
      * split; [|exact I]. intros c [<-|[]]. apply split_branch_ok. exact H.
      * split; [|exact I]. apply Rest. exact H.
Qed.

(** * bounds *)
Lemma hull_in : forall l h d v, hull l = Some h -> In d l -> in_ends d v -> in_ends h v.
Proof.
  induction l as [|b l IH]; intros h d v H I E; [destruct I|]. cbn [hull] in H. destruct l as [|b' l].
  - injection H as <-. destruct I as [<-|[]]. exact E.
  - destruct (hull (b' :: l)) as [g|] eqn:G; [|discriminate]. injection H as <-.
    destruct I as [<-|I].
    + destruct E as [E1 E2]. destruct (fst b) eqn:B1, (snd b) eqn:B2, (fst g) eqn:G1, (snd g) eqn:G2; unfold in_ends; cbn; split; try exact Logic.I; lia.
    + pose proof (IH g d v eq_refl I E) as [E1 E2].
      destruct (fst b) eqn:B1, (snd b) eqn:B2, (fst g) eqn:G1, (snd g) eqn:G2; unfold in_ends; cbn; split; try exact Logic.I; lia.
Qed.

Lemma all_bounds_in : forall bnd l bs e, all_bounds bnd l = Some bs -> In e l -> exists d, bnd e = Some d /\ In d bs.
Proof.
  induction l as [|x l IH]; intros bs e H I; [destruct I|]. cbn [all_bounds] in H.
  destruct (bnd x) as [b|] eqn:B; [|discriminate]. destruct (all_bounds bnd l) as [bs'|]; [|discriminate]. injection H as <-.
  destruct I as [<-|I]; [exists b; split; [exact B|left; reflexivity]|].
  destruct (IH bs' e eq_refl I) as (d & D1 & D2). exists d. split; [exact D1|right; exact D2].
Qed.

Lemma dom_of_in : forall M dom bnd l d e a, sound_bounds M dom bnd -> dom a -> dom_of bnd l = Some d -> In e l -> in_ends d (value M e a).
Proof.
  intros M dom bnd l d e a S D H I. unfold dom_of in H. destruct (all_bounds bnd l) as [bs|] eqn:A; [|discriminate].
  destruct (all_bounds_in _ _ _ _ A I) as (d' & B & I'). pose proof (S e d' a B D) as E.
  destruct (hull bs) as [h|] eqn:G; [|discriminate]. pose proof (hull_in _ _ _ _ G I' E) as R.
  destruct h as [[u|] [w|]]; try discriminate; injection H as <-; exact R.
Qed.

Lemma row_exps_in : forall cl bs p c k e, nth_error cl p = Some (c, Some k) -> nth_error bs k = Some (BrE e) -> In e (row_exps cl bs).
Proof.
  intros cl bs p c k e H B. unfold row_exps. apply in_flat_map. exists (c, Some k). split; [apply nth_error_In in H; exact H|].
  cbn. rewrite B. left. reflexivity.
Qed.

(** definedness at the branch taken *)
Lemma def_at : forall M dom lit a cl rs b m, sound_lit M dom lit -> dom a -> clause_ok M a cl m ->
  (def_true M lit a cl rs b <-> b = forallb (fun bs => match nth_error bs m with Some (BrE e) => defined M e a | _ => true end) rs).
Proof.
  intros M dom lit a cl rs b m S D (p & F & c & Hp). unfold def_true.
  assert (Same : forallb (fun bs => br_def M lit a bs m) rs = forallb (fun bs => match nth_error bs m with Some (BrE e) => defined M e a | _ => true end) rs).
  { induction rs as [|bs rs IH]; [reflexivity|]. cbn [forallb]. rewrite IH. f_equal. unfold br_def.
    destruct (nth_error bs m) as [[e|l]|]; try reflexivity. destruct (lit e) eqn:L; [|reflexivity].
    rewrite (S e a L D). reflexivity. }
  destruct (all_lit lit cl rs) eqn:A.
  - rewrite <- Same. clear Same.
    assert (forallb (fun bs => br_def M lit a bs m) rs = true) as ->; [|reflexivity].
    unfold all_lit in A. rewrite forallb_forall in A |- *. intros bs Hbs. specialize (A bs Hbs). rewrite forallb_forall in A.
    unfold br_def. destruct (nth_error bs m) as [[e|l]|] eqn:B; try reflexivity.
    rewrite (A e); [reflexivity|]. eapply row_exps_in; eassumption.
  - rewrite (part_pred_first _ _ _ _ F). unfold clause_def. rewrite Hp, Same. reflexivity.
Qed.

Theorem flatten_root_ok : forall M dom lit bnd isint cs bs a,
  sound_bounds M dom bnd -> sound_lit M dom lit -> length bs = S (length cs) -> dom a ->
  (flat_true M lit a (flatten_root bnd isint cs bs) <->
   exists m b, taken M a cs m /\ nth_error bs m = Some b /\ holds M b a).
Proof.
  intros M dom lit bnd isint cs bs a SB SL L D.
  destruct (taken_exists M a cs) as [m T].
  assert (Hm : (m < length bs)%nat) by (destruct T as (T & _); lia).
  destruct (nth_error bs m) as [b|] eqn:Hb; [|apply nth_error_None in Hb; lia].
  transitivity (holds M b a).
  2:{ split; [intros H; exists m, b; auto|]. intros (m' & b' & T' & Hb' & H).
      rewrite (taken_unique _ _ _ _ _ T' T), Hb in Hb'. injection Hb' as <-. exact H. }
  unfold flatten_root.
  assert (N0 : none_true M a []) by (intros c []).
  pose proof (clauses_taken M a cs 0 true [] m N0 T) as C. cbn [Nat.add] in C.
  destruct (clauses 0 true cs []) as [k|cl].
  - destruct C as [-> _]. cbn [flat_true]. rewrite (nth_error_nth bs m (BOp 0) Hb). reflexivity.
  - cbn [flat_true]. pose proof C as (p & F & c & Hp).
    rewrite <- (rows_at M a bs m b Hb).
    assert (RT : forall r, row_true M a cl r <-> br_true M a (fst r) (snd r) m).
    { intros r. unfold row_true. rewrite (ite_pred_first _ _ _ F). rewrite Hp. reflexivity. }
    rewrite (def_at M dom lit a cl (map snd (rows bs)) true m SL D C).
    split.
    + intros (R & Df & _) r Hr. split; [apply RT, R; exact Hr|].
      symmetry in Df. rewrite forallb_forall in Df. specialize (Df (snd r) (in_map snd _ _ Hr)). cbv beta in Df.
      destruct (nth_error (snd r) m) as [[e|l]|]; auto.
    + intros R. split; [intros r Hr; apply RT; apply R; exact Hr|]. split.
      * symmetry. apply forallb_forall. intros l Hl. apply in_map_iff in Hl as (r & <- & Hr). destruct (R r Hr) as [_ G].
        destruct (nth_error (snd r) m) as [[e|l]|]; auto.
      * intros x d Hx. apply in_flat_map in Hx as (r & Hr & Hx). destruct (R r Hr) as [G _]. destruct r as [[y|] l]; cbn [fst snd] in *; [|destruct Hx].
        destruct (isint y); [|destruct Hx]. destruct (dom_of bnd (row_exps cl l)) as [d'|] eqn:E; [|destruct Hx].
        destruct Hx as [Hx|[]]. injection Hx as -> ->. unfold br_true in G. destruct (nth_error l m) as [[e|q]|] eqn:Q; try contradiction.
        rewrite G. eapply dom_of_in; try eassumption. eapply row_exps_in; eassumption.
Qed.

Theorem flatten_value_ok : forall M dom lit bnd cs es a y b,
  sound_bounds M dom bnd -> sound_lit M dom lit -> length es = S (length cs) -> dom a ->
  (flatv_true M lit a (flatten_value bnd cs es) y b <->
   exists m e, taken M a cs m /\ nth_error es m = Some e /\ y = value M e a /\ b = defined M e a).
Proof.
  intros M dom lit bnd cs es a y b SB SL L D.
  destruct (taken_exists M a cs) as [m T].
  assert (Hm : (m < length es)%nat) by (destruct T as (T & _); lia).
  destruct (nth_error es m) as [e|] eqn:Hb; [|apply nth_error_None in Hb; lia].
  transitivity (y = value M e a /\ b = defined M e a).
  2:{ split; [intros H; exists m, e; tauto|]. intros (m' & e' & T' & Hb' & H).
      rewrite (taken_unique _ _ _ _ _ T' T), Hb in Hb'. injection Hb' as <-. exact H. }
  unfold flatten_value.
  assert (N0 : none_true M a []) by (intros c []).
  pose proof (clauses_taken M a cs 0 true [] m N0 T) as C. cbn [Nat.add] in C.
  destruct (clauses 0 true cs []) as [k|cl].
  - destruct C as [-> _]. cbn [flatv_true]. rewrite (nth_error_nth es m EAbsent Hb). reflexivity.
  - cbn [flatv_true]. pose proof C as (p & F & c & Hp).
    rewrite (ite_pred_first _ _ _ F). rewrite (def_at M dom lit a cl [map BrE es] b m SL D C). rewrite Hp.
    cbn [forallb]. rewrite nth_error_map, Hb. cbn [option_map]. rewrite andb_true_r.
    split; [tauto|]. intros [-> Hd]. split; [reflexivity|]. split; [exact Hd|].
    destruct (dom_of bnd (row_exps cl (map BrE es))) as [d|] eqn:E; [|exact I].
    eapply dom_of_in; try eassumption. eapply row_exps_in; [eassumption|]. rewrite nth_error_map, Hb. reflexivity.
Qed.
