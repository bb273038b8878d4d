(** C83-C84: decomposition of domains for MIP solvers.  Statements only; proofs are in MipProofs*.v. *)
Require Import ZArith List Bool Lia.
From Verif Require Import Base IntValSpec MipModel MipSpec MipProofs MipProofs2 MipProofs3 MipProofs4.
Import ListNotations.
Open Scope Z_scope.

(** ** C83: sets of intervals *)
(** removing the points strictly between l and r *)
Theorem C83_cut : forall s l r, separate s -> ext_lt l r -> exists s', cut_out s l r = Done s' /\ separate s' /\
  (forall z, member z s' <-> member z s /\ ~ strictly_between l r z) /\ refines s' s /\
  (forall v, In v s' -> ext_le (rt v) l \/ ext_le r (lf v)) /\ (proper s -> proper s').
Proof. exact cut_ok. Qed.
Print Assumptions C83_cut.
(** intersection *)
Theorem C83_intersect : forall s s2, separate s -> proper s -> separate s2 -> proper s2 ->
  exists s', intersect s s2 = Done s' /\ separate s' /\ proper s' /\ refines s' s /\ forall z, member z s' <-> member z s /\ member z s2.
Proof. exact intersect_ok. Qed.
Print Assumptions C83_intersect.
(** cutting a gap of width d outside of each end of each interval of s2: exactly the points of the gaps are removed,
    and afterwards no interval crosses an end *)
Theorem C83_gaps : forall d s2 s, 0 < d -> proper s2 -> separate s -> proper s ->
  exists s', cut_deltas s s2 d = Done s' /\ separate s' /\ proper s' /\ refines s' s /\
  (forall z, member z s' <-> member z s /\ ~ exists w, In w s2 /\
      (lf w <> MInf /\ strictly_between (xadd (lf w) (- d)) (lf w) z \/ rt w <> PInf /\ strictly_between (rt w) (xadd (rt w) d) z)) /\
  (forall v w, In v s' -> In w s2 -> (lf w <> MInf -> ext_lt (rt v) (lf w) \/ ext_le (lf w) (lf v)) /\
                                     (rt w <> PInf -> ext_le (rt v) (rt w) \/ ext_lt (rt w) (lf v))).
Proof. exact cut_deltas_ok. Qed.
Print Assumptions C83_gaps.
(** the check that intervals are in order and apart *)
Theorem C83_check : forall s, disjunct_strict s = true <-> separate s.
Proof. exact disjunct_iff. Qed.
Print Assumptions C83_check.
(** the bounds of a set *)
Theorem C83_bounds : forall s, separate s -> proper s -> finite_bounds s = true ->
  exists lo hi, bounds s = (Fin lo, Fin hi) /\ (forall z, member z s -> lo <= z <= hi) /\ member lo s /\ member hi s.
Proof.
  intros s SS PS F. pose proof (finite_of_bounds s SS PS F). apply bounds_ok; auto. intros ->. discriminate.
Qed.
Print Assumptions C83_bounds.
(** splitting into single values keeps the members *)
Theorem C83_split : forall s s', separate s -> proper s -> finite_bounds s = true -> split_bits s = Done s' ->
  separate s' /\ (forall z, member z s' <-> member z s) /\ forall v, In v s' -> exists z, v = Iv (Fin z) (Fin z).
Proof.
  intros s s' SS PS F H. pose proof (finite_of_bounds s SS PS F) as FS. destruct (split_bits_ok s s' SS FS H) as (A & _ & _ & B). split; auto. split; auto.
  clear - H. revert s' H. induction s as [|v s IH]; intros s' H; [injection H as <-; intros v []|]. cbn [split_bits] in H.
  destruct (to_int (zof (lf v))) as [l| | | |]; try discriminate. cbn [obind] in H. destruct (to_int (zof (rt v) + 1)) as [r| | | |]; try discriminate. cbn [obind] in H.
  destruct (split_bits s) as [t| | | |]; try discriminate. cbn [obind] in H. injection H as <-. intros u I. apply in_app_or in I. destruct I as [I | I]; [|apply (IH t); auto].
  apply singles_in in I. destruct I as (z & _ & ->). eauto.
Qed.
Print Assumptions C83_split.
Definition ex_set : soi := [Iv MInf (Fin 3); Iv (Fin 5) (Fin 9); Iv (Fin 20) PInf].
Example C83_nonvacuous :
  separate ex_set /\ proper ex_set /\
  cut_out ex_set (Fin 2) (Fin 7) = Done [Iv MInf (Fin 2); Iv (Fin 7) (Fin 9); Iv (Fin 20) PInf] /\
  intersect ex_set [Iv (Fin 0) (Fin 6); Iv (Fin 8) (Fin 30)] = Done [Iv (Fin 0) (Fin 3); Iv (Fin 5) (Fin 6); Iv (Fin 8) (Fin 9); Iv (Fin 20) (Fin 30)] /\
  cut_deltas ex_set [Iv (Fin 2) (Fin 6)] 1 = Done [Iv MInf (Fin 1); Iv (Fin 2) (Fin 3); Iv (Fin 5) (Fin 6); Iv (Fin 7) (Fin 9); Iv (Fin 20) PInf] /\
  split_bits [Iv (Fin 1) (Fin 3); Iv (Fin 7) (Fin 7)] = Done [Iv (Fin 1) (Fin 1); Iv (Fin 2) (Fin 2); Iv (Fin 3) (Fin 3); Iv (Fin 7) (Fin 7)].
Proof.
  split. { apply disjunct_iff. reflexivity. }
  split. { intros v [<- | [<- | [<- | []]]]; split; discriminate. }
  repeat split.
Qed.

(** ** C84: the decomposition keeps the solutions *)
(** the values of the variables and of the 0/1 variables satisfy the constraints that were postponed exactly if some
    values of the flags satisfy the constraints that replace them; and "no solutions" is reported rightly *)
Theorem C84_same_solutions : forall vs nmi dn dd x vals bs, Forall good_var vs -> has_reference vs -> linked vs x vals -> binary vs bs ->
  match process vs nmi dn dd with
  | Done r => original vs vals bs <-> decomposed r x vals bs
  | Unsat => ~ original vs vals bs
  | _ => True
  end.
Proof. exact process_ok. Qed.
Print Assumptions C84_same_solutions.
(** the new domains of the variables are the values for which the reference lies between its bounds *)
Theorem C84_ranges : forall vs nmi dn dd r, Forall good_var vs -> process vs nmi dn dd = Done r ->
  exists lo hi, lo <= hi /\ Forall2 (fun m d => forall v, fst d <= v <= snd d <-> den (mv_view m) * lo <= num (mv_view m) * v + off (mv_view m) <= den (mv_view m) * hi) vs (r_ranges r).
Proof. exact process_ranges. Qed.
Print Assumptions C84_ranges.
(** it succeeds if the reference has a domain within -10^9..10^9 and the constants of equalities are values of the
    reference. Missing: it should succeed without the last condition (see the refutations) *)
Theorem C84_succeeds_partial : forall vs nmi dn dd, Forall good_var vs -> bounded_reference vs ->
  Forall (fun m => Forall (representable (mv_view m)) (mv_posts m)) vs ->
  process vs nmi dn dd = Unsat \/ exists r, process vs nmi dn dd = Done r.
Proof. exact process_done. Qed.
Print Assumptions C84_succeeds_partial.
(** the domains of the 0/1 variables: kept if no variable whose domain is replaced by 0..0 is fixed to 1.
    Missing: the other variables (see the refutation) *)
Theorem C84_flag_domains_partial : forall vs nmi dn dd x vals bs dom r, Forall good_var vs -> has_reference vs -> linked vs x vals -> binary vs bs ->
  process vs nmi dn dd = Done r -> (forall b, In b (r_zero r) -> fst (dom b) <= 0 <= snd (dom b)) ->
  (original_in dom vs vals bs <-> decomposed_in dom r x vals bs).
Proof.
  intros vs nmi dn dd x vals bs dom r G HR L B E Z. pose proof (process_ok vs nmi dn dd x vals bs G HR L B) as K. rewrite E in K. unfold original_in, decomposed_in. rewrite K. split.
  - intros [D H]. split; auto.
  - intros [D H]. split; auto. intros b. destruct (in_dec Nat.eq_dec b (r_zero r)) as [I | I]; auto. destruct D as (_ & Q & _). rewrite (Q b I). auto.
Qed.
Print Assumptions C84_flag_domains_partial.
(** x in {1..3, 7, 20..30}, x != 2, y = 10 - 2 x with y in -100..100, b0 <-> x in {1, 7}, b1 <-> y <= -3, b2 -> y <= 0, b3 <-> y = 4 *)
Definition ex_group : list mvard :=
  [ MVar (View 1 0 1) (Some [Iv (Fin 1) (Fin 3); Iv (Fin 7) (Fin 7); Iv (Fin 20) (Fin 30)]) [NE 2; IN_R [Iv (Fin 1) (Fin 1); Iv (Fin 7) (Fin 7)] 0%nat];
    MVar (View (-1) 10 2) (Some [Iv (Fin (-100)) (Fin 100)]) [LE_R (-3) 1%nat; LE0_IF 2%nat; EQ_R 4 3%nat] ].
Definition ex_bits (b : nat) : Z := match b with 0%nat | 1%nat => 1 | _ => 0 end.
Lemma good_check : forall D, disjunct_strict D = true -> forallb (fun v => match lf v, rt v with Fin _, Fin _ => true | _, _ => false end) D = true -> good_set D.
Proof. intros D H F. split; [now apply disjunct_iff|]. intros v I. rewrite forallb_forall in F. specialize (F v I). destruct (lf v), (rt v); try discriminate; split; discriminate. Qed.
Lemma member_here : forall x v D, within x v -> member x (v :: D).
Proof. intros x v D W. exists v. split; [now left|auto]. Qed.
Lemma member_there : forall x v D, member x D -> member x (v :: D).
Proof. intros x v D (u & I & W). exists u. split; [now right|auto]. Qed.
Lemma ex_good : Forall good_var ex_group.
Proof.
  constructor; [|constructor; [|constructor]]; (split; [unfold good_view; cbn; lia|]); (split; [intros D E; injection E as <-; apply good_check; reflexivity|]); cbn [mv_posts].
  - constructor; [constructor|]. constructor; [constructor; [apply good_check; reflexivity|constructor]|]. constructor.
  - constructor; [constructor|]. constructor; [constructor|]. constructor; [constructor|]. constructor.
Qed.
Example C84_nonvacuous :
  Forall good_var ex_group /\ has_reference ex_group /\ bounded_reference ex_group /\
  Forall (fun m => Forall (representable (mv_view m)) (mv_posts m)) ex_group /\
  linked ex_group 7 [7; -4] /\ binary ex_group ex_bits /\ original ex_group [7; -4] ex_bits /\
  (exists r, process ex_group 0 3 1 = Done r /\ r_flags r = 4%nat /\ length (r_lins r) = 7%nat /\ r_zero r = [] /\ r_ranges r = [(1, 30); (-50, 8)]).
Proof.
  split. { exact ex_good. }
  split. { eexists. split; [left; reflexivity|reflexivity]. }
  split. { do 2 eexists. split; [left; reflexivity|]. split; [reflexivity|]. split; [reflexivity|]. intros z (v & I & W1 & W2). destruct I as [<- | [<- | [<- | []]]]; cbn in W1, W2; lia. }
  split. { constructor; [|constructor; [|constructor]]; cbn [mv_posts mv_view].
    - constructor; [exact I|]. constructor; [exact I|constructor].
    - constructor; [exact I|]. constructor; [intros _; exists 5; reflexivity|]. constructor; [exists 3; reflexivity|constructor]. }
  split. { constructor; [reflexivity|]. constructor; [reflexivity|constructor]. }
  split. { intros m p b _ _ _. destruct b as [|[|b]]; cbn; auto. }
  split.
  { constructor; [|constructor; [|constructor]]; cbn [mv_dom mv_posts].
    - split; [intros D E; injection E as <-; apply member_there, member_here; split; cbn; lia|].
      constructor; [unfold post_holds; lia|]. constructor; [|constructor].
      unfold post_holds, says, ex_bits. split; [intros _; apply member_there, member_here; split; cbn; lia|auto].
    - split; [intros D E; injection E as <-; apply member_here; split; cbn; lia|].
      constructor; [unfold post_holds, says, ex_bits; lia|]. constructor; [unfold post_holds, ex_bits; lia|]. constructor; [unfold post_holds, says, ex_bits; lia|constructor]. }
  eexists. split; [vm_compute; reflexivity|]. repeat split.
Qed.
(** equality with a constant that is not a value of the reference: y = 2 x, b <-> y = 3, x in 0..5. The program fails
    with an internal error although "b = 0" would do *)
Theorem C84_succeeds_refuted_fraction :
  exists vs, Forall good_var vs /\ bounded_reference vs /\ process vs 0 3 1 = Internal /\
  linked vs 1 [1; 2] /\ binary vs (fun _ => 0) /\ original vs [1; 2] (fun _ => 0).
Proof.
  exists [MVar (View 1 0 1) (Some [Iv (Fin 0) (Fin 5)]) []; MVar (View 1 0 2) None [EQ_R 3 0%nat]].
  split. { constructor; [|constructor; [|constructor]]; (split; [unfold good_view; cbn; lia|]); (split; [intros D E; try discriminate; injection E as <-; apply good_check; reflexivity|]); cbn [mv_posts]; repeat constructor. }
  split. { do 2 eexists. split; [left; reflexivity|]. split; [reflexivity|]. split; [reflexivity|]. intros z (v & [<- | []] & W1 & W2). cbn in W1, W2. lia. }
  split. { vm_compute. reflexivity. }
  split. { constructor; [reflexivity|]. constructor; [reflexivity|constructor]. }
  split. { intros m p b _ _ _. auto. }
  constructor; [|constructor; [|constructor]]; cbn [mv_dom mv_posts].
  - split; [intros D E; injection E as <-; apply member_here; split; cbn; lia|constructor].
  - split; [discriminate|]. constructor; [unfold post_holds, says; lia|constructor].
Qed.
Print Assumptions C84_succeeds_refuted_fraction.
(** likewise b -> y <= 0 with y = 1 - 2 x, x in 0..5 *)
Theorem C84_succeeds_refuted_implication :
  exists vs, Forall good_var vs /\ bounded_reference vs /\ process vs 0 3 1 = Internal /\
  linked vs 1 [1; -1] /\ binary vs (fun _ => 1) /\ original vs [1; -1] (fun _ => 1).
Proof.
  exists [MVar (View 1 0 1) (Some [Iv (Fin 0) (Fin 5)]) []; MVar (View (-1) 1 2) None [LE0_IF 0%nat]].
  split. { constructor; [|constructor; [|constructor]]; (split; [unfold good_view; cbn; lia|]); (split; [intros D E; try discriminate; injection E as <-; apply good_check; reflexivity|]); cbn [mv_posts]; repeat constructor. }
  split. { do 2 eexists. split; [left; reflexivity|]. split; [reflexivity|]. split; [reflexivity|]. intros z (v & [<- | []] & W1 & W2). cbn in W1, W2. lia. }
  split. { vm_compute. reflexivity. }
  split. { constructor; [reflexivity|]. constructor; [reflexivity|constructor]. }
  split. { intros m p b _ _ _. auto. }
  constructor; [|constructor; [|constructor]]; cbn [mv_dom mv_posts].
  - split; [intros D E; injection E as <-; apply member_here; split; cbn; lia|constructor].
  - split; [discriminate|]. constructor; [unfold post_holds; lia|constructor].
Qed.
Print Assumptions C84_succeeds_refuted_implication.
(** values outside of int: with the default options x in {3000000000, 3000000002} converts doubles outside of the range
    of int to int *)
Theorem C84_succeeds_refuted_large :
  exists vs, Forall good_var vs /\ has_reference vs /\ process vs 0 3 1 = Undef /\
  linked vs 3000000000 [3000000000] /\ original vs [3000000000] (fun _ => 0).
Proof.
  exists [MVar (View 1 0 1) (Some [Iv (Fin 3000000000) (Fin 3000000000); Iv (Fin 3000000002) (Fin 3000000002)]) []].
  split. { constructor; [|constructor]. split; [unfold good_view; cbn; lia|]. split; [intros D E; injection E as <-; apply good_check; reflexivity|constructor]. }
  split. { eexists. split; [left; reflexivity|reflexivity]. }
  split. { vm_compute. reflexivity. }
  split. { constructor; [reflexivity|constructor]. }
  constructor; [|constructor]. split; [|constructor]. intros D E. injection E as <-. apply member_here. split; cbn; lia.
Qed.
Print Assumptions C84_succeeds_refuted_large.
(** a 0/1 variable fixed to 1 whose constraint is false gets the domain 0..0: the model without solutions
    x in 0..5, 1 <-> x <= -3 gets solutions *)
Theorem C84_flag_domains_refuted :
  exists vs dom r x vals bs, Forall good_var vs /\ has_reference vs /\ linked vs x vals /\ binary vs bs /\ dom 0%nat = (1, 1) /\
  process vs 0 3 1 = Done r /\ decomposed_in dom r x vals bs /\ forall x' vals' bs', linked vs x' vals' -> ~ original_in dom vs vals' bs'.
Proof.
  exists [MVar (View 1 0 1) (Some [Iv (Fin 0) (Fin 5)]) [LE_R (-3) 0%nat]], (fun b => if (b =? 0)%nat then (1, 1) else (0, 1)). eexists. exists 2, [2], (fun _ => 0).
  split. { constructor; [|constructor]. split; [unfold good_view; cbn; lia|]. split; [intros D E; injection E as <-; apply good_check; reflexivity|repeat constructor]. }
  split. { eexists. split; [left; reflexivity|reflexivity]. }
  split. { constructor; [reflexivity|constructor]. }
  split. { intros m p b _ _ _. auto. }
  split; [reflexivity|]. split; [vm_compute; reflexivity|]. split.
  - split; [split; [exists (fun _ => 0); split; [intros; auto|constructor]|split]|].
    + cbn. intros; auto.
    + constructor; [cbn; lia|constructor].
    + cbn [r_zero]. intros b N. destruct b; [exfalso; apply N; now left|cbn; lia].
  - intros x' vals' bs' L [O H]. inversion O as [|m v ms vl A B E1 E2]; subst. destruct A as [A1 A2]. specialize (A1 _ eq_refl). destruct A1 as (u & [<- | []] & W1 & W2).
    inversion_clear A2. specialize (H 0%nat). cbn in *. assert (bs' 0%nat = 1) by lia. apply H0 in H2. lia.
Qed.
Print Assumptions C84_flag_domains_refuted.
