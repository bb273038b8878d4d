(** Proofs about nested JSON arrays. *)
Require Import ZArith List Bool Lia ZifyBool Arith.
From Verif Require Import Base StrModel JsonModel JsonSpec JsonProofs.
Import ListNotations.
Open Scope nat_scope.

Fixpoint leaves (m : nat) (l : list jval) : list jval :=
  match m with O => l | S m' => flat_map (fun x => match as_arr x with Some l' => leaves m' l' | None => [] end) l end.
Fixpoint cost (m : nat) (l : list jval) : nat :=
  match m with
  | O => 1
  | S m' => S (fold_right (fun x a => match as_arr x with Some nal => S (cost m' nal) | None => 1 end + a) 0 l)
  end.
Fixpoint conf (m k : nat) (dims : list nat) (x : jval) : Prop :=
  match m with
  | O => True
  | S m' => match as_arr x with Some nal => nth_error dims k = Some (length nal) /\ Forall (conf m' (S k) dims) nal | None => False end
  end.
Definition prefix (a b : list nat) : Prop := exists t, b = a ++ t.
Lemma prefix_refl : forall a, prefix a a.
Proof. intros a. exists []. rewrite app_nil_r. reflexivity. Qed.
Lemma prefix_trans : forall a b c, prefix a b -> prefix b c -> prefix a c.
Proof. intros a b c [t ->] [u ->]. exists (t ++ u). rewrite app_assoc. reflexivity. Qed.
Lemma prefix_nth : forall a b k d, prefix a b -> nth_error a k = Some d -> nth_error b k = Some d.
Proof. intros a b k d [t ->] H. rewrite nth_error_app1; [exact H|]. apply nth_error_Some. congruence. Qed.
Lemma prefix_length : forall a b, prefix a b -> length a <= length b.
Proof. intros a b [t ->]. rewrite app_length. lia. Qed.
Lemma prefix_snoc : forall a b d, prefix a b -> nth_error b (length a) = Some d -> prefix (a ++ [d]) b.
Proof.
  intros a b d [t ->] H. rewrite nth_error_app2, Nat.sub_diag in H by lia. destruct t as [|e t]; [discriminate|]. cbn in H. inversion H; subst.
  exists t. rewrite <- app_assoc. reflexivity.
Qed.
Lemma conf_mono : forall m k a b x, prefix a b -> conf m k a x -> conf m k b x.
Proof.
  induction m as [|m IH]; intros k a b x P H; [exact I|]. cbn [conf] in *. destruct (as_arr x) as [nal|]; [|exact H]. destruct H as [H1 H2].
  split; [eapply prefix_nth; eassumption|]. eapply Forall_impl; [|exact H2]. intros y. apply IH. exact P.
Qed.

Lemma conf_cons : forall m k ds x nal l, as_arr x = Some nal -> Forall (conf (S m) k ds) (x :: l) ->
  nth_error ds k = Some (length nal) /\ Forall (conf m (S k) ds) nal /\ Forall (conf (S m) k ds) l.
Proof. intros m k ds x nal l A F. inversion F as [|? ? H G]; subst. cbn [conf] in H. rewrite A in H. destruct H. auto. Qed.

Lemma loop_run : forall dim m l below els dims, length (l :: below) + m = dim -> length (l :: below) <= length dims <= dim ->
  (exists dims1, (forall fuel, coerce_loop (cost m l + fuel) dim (l :: below) els dims = coerce_loop fuel dim below (els ++ leaves m l) dims1) /\
     prefix dims dims1 /\ length dims1 <= dim /\ Forall (conf m (length (l :: below)) dims1) l /\
     (forall ds, prefix dims ds -> Forall (conf m (length (l :: below)) ds) l -> prefix dims1 ds)) \/
  ((forall fuel, coerce_loop (cost m l + fuel) dim (l :: below) els dims = Err SyntaxError) /\
     forall ds, prefix dims ds -> ~ Forall (conf m (length (l :: below)) ds) l).
Proof.
  intros dim. induction m as [|m IH].
  - intros l below els dims E L. left. exists dims. split; [|split; [apply prefix_refl|split; [lia|split; [apply Forall_forall; intros; exact I|auto]]]].
    intros fuel. cbn [cost Nat.add coerce_loop]. rewrite (proj2 (Nat.eqb_eq _ _)) by lia. reflexivity.
  - induction l as [|x l IHl]; intros below els dims E L.
    + left. exists dims. split; [|split; [apply prefix_refl|split; [lia|split; [constructor|auto]]]].
      intros fuel. cbn [cost fold_right Nat.add coerce_loop]. rewrite (proj2 (Nat.eqb_neq _ _)) by lia. cbn [leaves flat_map]. rewrite app_nil_r. reflexivity.
    + destruct (as_arr x) as [nal|] eqn:AX.
      2:{ right. split; [|intros ds _ F; inversion F as [|? ? H G]; subst; cbn [conf] in H; rewrite AX in H; contradiction].
        intros fuel. cbn [cost fold_right Nat.add coerce_loop]. rewrite AX, (proj2 (Nat.eqb_neq _ _)) by lia. reflexivity. }
      * assert (exists dims2, (forall fuel, coerce_loop (S fuel) dim ((x :: l) :: below) els dims = coerce_loop fuel dim (nal :: l :: below) els dims2) /\
            prefix dims dims2 /\ S (S (length below)) <= length dims2 <= dim /\ nth_error dims2 (S (length below)) = Some (length nal) /\
            (forall ds, prefix dims ds -> nth_error ds (S (length below)) = Some (length nal) -> prefix dims2 ds) \/
          (forall fuel, coerce_loop (S fuel) dim ((x :: l) :: below) els dims = Err SyntaxError) /\
            forall ds, prefix dims ds -> nth_error ds (S (length below)) <> Some (length nal)) as D.
        { cbn [length] in E, L. destruct (Nat.ltb (length dims) (S (S (length below)))) eqn:B.
          - apply Nat.ltb_lt in B. exists (dims ++ [length nal]). left. split; [|split; [|split; [|split]]].
            + intros fuel. cbn [coerce_loop]. rewrite AX, (proj2 (Nat.eqb_neq _ _)) by (cbn [length]; lia). cbn [length]. rewrite (proj2 (Nat.ltb_lt _ _)) by lia. reflexivity.
            + exists [length nal]. reflexivity.
            + rewrite app_length. cbn [length]. lia.
            + rewrite nth_error_app2 by lia. replace (S (length below) - length dims) with 0 by lia. reflexivity.
            + intros ds P N. apply prefix_snoc; [exact P|]. replace (length dims) with (S (length below)) by lia. exact N.
          - apply Nat.ltb_ge in B. destruct (nth_error dims (S (length below))) as [d|] eqn:N; [|apply nth_error_None in N; lia].
            destruct (Nat.eq_dec (length nal) d) as [ED|ND].
            + exists dims. left. split; [|split; [apply prefix_refl|split; [lia|split; [rewrite ED; exact N|auto]]]].
              intros fuel. cbn [coerce_loop]. rewrite AX, (proj2 (Nat.eqb_neq _ _)) by (cbn [length]; lia). cbn [length]. rewrite (proj2 (Nat.ltb_ge _ _)) by lia.
              replace (S (S (length below)) - 1) with (S (length below)) by lia. rewrite N, ED, Nat.eqb_refl. reflexivity.
            + exists []. right. split.
              * intros fuel. cbn [coerce_loop]. rewrite AX, (proj2 (Nat.eqb_neq _ _)) by (cbn [length]; lia). cbn [length]. rewrite (proj2 (Nat.ltb_ge _ _)) by lia.
                replace (S (S (length below)) - 1) with (S (length below)) by lia. rewrite N, (proj2 (Nat.eqb_neq _ _) ND). reflexivity.
              * intros ds P H. rewrite (prefix_nth _ _ _ _ P N) in H. congruence. }
        destruct D as [dims2 [(R2 & P2 & L2 & N2 & U2)|(R2 & U2)]].
        2:{ right. split; [intros fuel; cbn [cost Nat.add]; apply R2|]. intros ds P F. destruct (conf_cons _ _ _ _ _ _ AX F) as [F1 _]. apply (U2 ds P). exact F1. }
        destruct (IH nal (l :: below) els dims2) as [(dims3 & R3 & P3 & L3 & C3 & U3)|(R3 & U3)]; [cbn [length] in *; lia|cbn [length] in *; lia| |].
        2:{ right. split.
            - intros fuel. cbn [cost fold_right Nat.add]. rewrite AX, R2. rewrite <- Nat.add_assoc. cbn [Nat.add].
              match goal with |- coerce_loop (S ?k) _ _ _ _ = _ => replace (S k) with (cost m nal + S (k - cost m nal)) by lia end. apply R3.
            - intros ds P F. destruct (conf_cons _ _ _ _ _ _ AX F) as [F1 [F2 _]]. apply (U3 ds); [apply U2; [exact P|exact F1]|exact F2]. }
        destruct (IHl below (els ++ leaves m nal) dims3) as [(dims1 & R1 & P1 & L1 & C1 & U1)|(R1 & U1)]; [exact E|cbn [length] in *; pose proof (prefix_length _ _ P3); lia| |].
        { left. exists dims1. split; [|split; [|split; [exact L1|split]]].
          - intros fuel. specialize (R1 fuel). cbn [cost fold_right Nat.add] in *. rewrite AX, R2.
            match goal with |- coerce_loop ?k _ _ _ _ = _ => replace k with (cost m nal + S (fold_right (fun x a => match as_arr x with Some nal => S (cost m nal) | None => 1 end + a) 0 l + fuel)) by lia end.
            rewrite R3. cbn [leaves flat_map] in *. rewrite AX, app_assoc. exact R1.
          - exact (prefix_trans _ _ _ P2 (prefix_trans _ _ _ P3 P1)).
          - constructor; [|exact C1]. cbn [conf]. rewrite AX. split; [exact (prefix_nth _ _ _ _ (prefix_trans _ _ _ P3 P1) N2)|].
            eapply Forall_impl; [|exact C3]. intros y. apply conf_mono. exact P1.
          - intros ds P F. destruct (conf_cons _ _ _ _ _ _ AX F) as [F1 [F2 F3]]. apply U1; [|exact F3]. apply U3; [|exact F2]. apply U2; [exact P|exact F1]. }
        { right. split.
          - intros fuel. specialize (R1 fuel). cbn [cost fold_right Nat.add] in *. rewrite AX, R2.
            match goal with |- coerce_loop ?k _ _ _ _ = _ => replace k with (cost m nal + S (fold_right (fun x a => match as_arr x with Some nal => S (cost m nal) | None => 1 end + a) 0 l + fuel)) by lia end.
            rewrite R3. exact R1.
          - intros ds P F. destruct (conf_cons _ _ _ _ _ _ AX F) as [F1 [F2 F3]]. apply (U1 ds); [|exact F3]. apply U3; [|exact F2]. apply U2; [exact P|exact F1]. }
Qed.

Lemma cost_size : forall m l, S (cost m l) <= jsize (JArr l).
Proof.
  induction m as [|m IH]; intros l; [cbn [cost jsize]; lia|]. cbn [cost jsize]. apply le_n_S, le_n_S. induction l as [|x l IHl]; [cbn; lia|].
  cbn [fold_right]. assert (match as_arr x with Some nal => S (cost m nal) | None => 1 end <= jsize x); [|lia]. destruct x; cbn [as_arr]; try (cbn; lia); apply (IH l0).
Qed.
Lemma as_arr_no : forall x l, no_objects x -> as_arr x = Some l -> x = JArr l.
Proof. intros x l N A. inversion N; subst; [cbn in A; congruence|]. destruct x; try discriminate A; cbn in A; inversion A; subst; exfalso; first [eapply H; reflexivity|eapply H0; reflexivity]. Qed.
Lemma skipn_cons : forall A (ds : list A) k n, nth_error ds k = Some n -> skipn k ds = n :: skipn (S k) ds.
Proof. intros A ds k n. revert ds. induction k as [|k IH]; intros [|d ds] N; try discriminate; [inversion N; reflexivity|]. cbn [skipn]. rewrite (IH ds N). reflexivity. Qed.
Lemma rect_conf : forall ds m k x, length ds = k + m -> rect (skipn k ds) x -> conf m k ds x.
Proof.
  intros ds. induction m as [|m IH]; intros k x L R; [exact I|]. cbn [conf]. destruct (nth_error ds k) as [n|] eqn:N; [|apply nth_error_None in N; lia].
  rewrite (skipn_cons _ _ _ _ N) in R. inversion R; subst. cbn [as_arr]. split; [reflexivity|]. eapply Forall_impl; [|eassumption].
  intros y Hy. apply (IH (S k) y); [lia|exact Hy].
Qed.
Lemma conf_rect : forall ds m k x, length ds = k + m -> no_objects x -> conf m k ds x -> rect (skipn k ds) x.
Proof.
  intros ds. induction m as [|m IH]; intros k x L NO C; [rewrite skipn_all2 by lia; constructor|]. cbn [conf] in C.
  destruct (as_arr x) as [nal|] eqn:A; [|contradiction]. apply as_arr_no in A; [|exact NO]. subst x. destruct C as [H1 H2].
  rewrite (skipn_cons _ _ _ _ H1). constructor; [reflexivity|]. inversion NO as [? F|? F]; subst; [|exfalso; eapply F; reflexivity].
  rewrite Forall_forall in *. intros y Hy. apply (IH (S k) y); [lia|auto|auto].
Qed.
Lemma leaves_row : forall ds l, Forall (rect ds) l -> flat_map (row_major ds) l = leaves (length ds) l.
Proof.
  induction ds as [|d ds IH]; intros l F; cbn [row_major length leaves].
  - clear F. induction l as [|x l IHl]; [reflexivity|]. cbn. f_equal. exact IHl.
  - induction F as [|x l R F IHl]; [reflexivity|]. cbn [flat_map]. rewrite IHl. f_equal. inversion R; subst. cbn [as_arr]. apply IH. assumption.
Qed.
Lemma conf_full : forall ds, Forall (fun d => 0 < d) ds -> forall m k dims x, conf m k dims x -> prefix dims ds -> k <= length dims -> k + m <= length dims.
Proof.
  intros ds F. induction m as [|m IH]; intros k dims x C P L; [lia|]. cbn [conf] in C. destruct (as_arr x) as [nal|]; [|contradiction]. destruct C as [N C].
  assert (k < length dims) as K by (apply nth_error_Some; congruence).
  pose proof (prefix_nth _ _ _ _ P N) as N'. apply nth_error_In in N'. rewrite Forall_forall in F. specialize (F _ N'). destruct nal as [|y nal]; [cbn in F; lia|].
  inversion C; subst. apply (IH (S k) dims y) in H1; [lia|exact P|lia].
Qed.
Lemma coerce_run : forall dim x y al, 1 < dim -> as_arr x = Some y -> let l := x :: al in
  (exists ds1, coerce dim l = Ok (leaves (dim - 1) l, ds1) /\ prefix [length l] ds1 /\ length ds1 <= dim /\ Forall (conf (dim - 1) 1 ds1) l /\
    (forall ds, prefix [length l] ds -> Forall (conf (dim - 1) 1 ds) l -> prefix ds1 ds)) \/
  (coerce dim l = Err SyntaxError /\ forall ds, prefix [length l] ds -> ~ Forall (conf (dim - 1) 1 ds) l).
Proof.
  intros dim x y al D AX l.
  assert (coerce dim l = coerce_loop (S (jsize (JArr l))) dim [l] [] [length l]) as -> by (unfold coerce, l; rewrite AX, (proj2 (Nat.ltb_lt 1 dim) D); reflexivity).
  pose proof (cost_size (dim - 1) l) as CS.
  destruct (loop_run dim (dim - 1) l [] [] [length l]) as [(ds1 & R & P & L & C & U)|(R & U)]; [cbn [length]; lia|cbn [length]; lia| |].
  - left. exists ds1. split; [|auto]. replace (S (jsize (JArr l))) with (cost (dim - 1) l + S (jsize (JArr l) - cost (dim - 1) l)) by lia. rewrite R. reflexivity.
  - right. split; [|exact U]. replace (S (jsize (JArr l))) with (cost (dim - 1) l + (S (jsize (JArr l)) - cost (dim - 1) l)) by lia. apply R.
Qed.
Lemma conf_to_rect : forall ds dim l, length ds = dim -> 1 < dim -> no_objects (JArr l) -> Forall (conf (dim - 1) 1 ds) l -> prefix [length l] ds -> rect ds (JArr l).
Proof.
  intros ds dim l L D NO F [t P]. inversion P; subst ds. constructor; [reflexivity|]. inversion NO as [? G|? G]; subst; [|exfalso; eapply G; reflexivity].
  rewrite Forall_forall in *. intros x Hx. apply (conf_rect (length l :: t) (length (length l :: t) - 1) 1 x); [cbn [length app]; lia|auto|apply F; exact Hx].
Qed.
Lemma rect_to_conf : forall ds dim l, length ds = dim -> 1 < dim -> rect ds (JArr l) -> Forall (conf (dim - 1) 1 ds) l /\ prefix [length l] ds.
Proof.
  intros ds dim l L D R. inversion R as [|n ds' l' E F]; subst; [cbn in D; lia|]. split; [|exists ds'; reflexivity].
  eapply Forall_impl; [|exact F]. intros x Hx. apply (rect_conf (length l :: ds')); [cbn; lia|exact Hx].
Qed.
Lemma C64_sound : forall dim y al els ds, 1 < dim -> no_objects (JArr (JArr y :: al)) -> coerce dim (JArr y :: al) = Ok (els, ds) -> length ds = dim ->
  rect ds (JArr (JArr y :: al)) /\ els = row_major ds (JArr (JArr y :: al)).
Proof.
  intros dim y al els ds D NO E L. destruct (coerce_run dim (JArr y) y al D eq_refl) as [(ds1 & R & P & _ & C & _)|(R & _)]; rewrite R in E; [|discriminate]. inversion E; subst els ds1.
  assert (rect ds (JArr (JArr y :: al))) as RR by (apply (conf_to_rect ds dim); auto).
  split; [exact RR|]. inversion RR as [|n ds' l' E' F']; subst; [cbn in D; lia|]. cbn [row_major]. rewrite leaves_row by exact F'. f_equal. cbn [length]. lia.
Qed.
Lemma C64_complete : forall l ds, 1 < length ds -> Forall (fun d => 0 < d) ds -> rect ds (JArr l) -> coerce (length ds) l = Ok (row_major ds (JArr l), ds).
Proof.
  intros l ds D F R. destruct (rect_to_conf ds (length ds) l eq_refl D R) as [C P].
  assert (exists y al, l = JArr y :: al) as (y & al & ->).
  { inversion R as [|n ds' l' E' F']; subst; [cbn in D; lia|]. inversion F; subst. destruct l as [|x al]; [cbn in *; lia|]. inversion F'; subst.
    destruct ds' as [|d2 ds']; [cbn in D; lia|]. inversion H3; subst. eauto. }
  set (l := JArr y :: al) in *.
  destruct (coerce_run (length ds) (JArr y) y al D eq_refl) as [(ds1 & E & P1 & L1 & C1 & U)|(E & U)]; fold l in E; fold l in U; rewrite E.
  - assert (prefix ds1 ds) as P2 by (apply U; assumption). inversion C1; subst.
    assert (1 + (length ds - 1) <= length ds1) as LL by (apply (conf_full ds F _ _ _ (JArr y)); try assumption; apply (prefix_length _ _ P1)).
    destruct P2 as [t P2]. assert (t = []) as -> by (destruct t; [reflexivity|]; apply (f_equal (@length nat)) in P2; rewrite app_length in P2; cbn in P2; lia).
    rewrite app_nil_r in P2. subst ds1. f_equal. f_equal. inversion R as [|n ds' l' E' F']; subst; [cbn in D; lia|]. cbn [row_major]. rewrite leaves_row by exact F'. f_equal. cbn [length]. lia.
  - exfalso. apply (U ds P C).
Qed.
Lemma C64_reject : forall y al dim, 1 < dim -> no_objects (JArr (JArr y :: al)) -> (forall ds, length ds = dim -> ~ rect ds (JArr (JArr y :: al))) ->
  coerce dim (JArr y :: al) = Err SyntaxError \/ exists els ds, coerce dim (JArr y :: al) = Ok (els, ds) /\ length ds < dim.
Proof.
  intros y al dim D NO N. destruct (coerce_run dim (JArr y) y al D eq_refl) as [(ds1 & E & P1 & L1 & C1 & U)|(E & U)]; [|left; exact E].
  right. exists (leaves (dim - 1) (JArr y :: al)), ds1. split; [exact E|]. destruct (Nat.eq_dec (length ds1) dim) as [L|]; [|lia]. exfalso.
  apply (N ds1 L). apply (conf_to_rect ds1 dim); auto.
Qed.
Lemma coerce_no_fuel : forall dim l, coerce dim l <> Err OutOfFuel /\ coerce dim l <> UB.
Proof.
  intros dim [|x l]; [split; discriminate|]. destruct (Nat.ltb 1 dim) eqn:D.
  - destruct (as_arr x) as [y|] eqn:A.
    + apply Nat.ltb_lt in D. destruct (coerce_run dim x y l D A) as [(ds & -> & _)|[-> _]]; split; discriminate.
    + unfold coerce. rewrite A. split; discriminate.
  - unfold coerce. rewrite D. destruct (as_arr x); split; discriminate.
Qed.
