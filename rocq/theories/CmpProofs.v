(** Proofs about comparison of expressions. *)
Require Import ZArith List Bool Lia ZifyBool Sorted.
From Verif Require Import Base IntValModel IntValSpec IntValProofs StrModel StrSpec StrProofs2 CmpModel CmpSpec.
Import ListNotations.
Open Scope Z_scope.

(** ** Induction on subexpressions *)
Fixpoint nsize (e : expr) : nat :=
  let sum := fix sum (l : list expr) : nat := match l with [] => O | x :: r => (nsize x + sum r)%nat end in
  S match e with
    | ENull | EInt _ | EFloat _ | ESetI _ _ | ESetF _ _ | EBool _ _ | EString _ _ | EId _ _ _ _ _ | EAnon _ _ | ETIId _ _ _ => O
    | ESetV _ l => sum l
    | EArray _ _ _ v => sum v
    | EAccess _ v l => nsize v + sum l
    | EField _ v f => nsize v + nsize f
    | EComp _ _ x g _ => nsize x + sum g
    | EIte _ l x => nsize x + sum l
    | EBin _ _ l r => nsize l + nsize r
    | EUn _ _ x => nsize x
    | ECall _ _ _ l => sum l
    | EVarDecl _ t i x => nsize t + (nsize i + nsize x)
    | ELet _ l x => nsize x + sum l
    | ETI _ l x => nsize x + sum l
    end%nat.
Definition nsum := fix sum (l : list expr) : nat := match l with [] => O | x :: r => (nsize x + sum r)%nat end.
Lemma nsum_in : forall l x, In x l -> (nsize x <= nsum l)%nat.
Proof. induction l as [|y l IH]; intros x H; [destruct H|]. cbn. destruct H as [<-|H]; [lia|]. apply IH in H. lia. Qed.
Lemma child_size : forall e c, In c (children e) -> (nsize c < nsize e)%nat.
Proof.
  intros e c H. destruct e; cbn [children] in H; try contradiction; cbn [nsize]; fold nsum;
    repeat match goal with
    | H : In _ (_ :: _) |- _ => apply in_inv in H; destruct H as [<-|H]; [lia|]
    | H : In _ [] |- _ => destruct H
    | H : In _ ?l |- _ => is_var l; apply nsum_in in H; lia
    end.
Qed.
Lemma expr_induct : forall Q : expr -> Prop, (forall e, (forall c, In c (children e) -> Q c) -> Q e) -> forall e, Q e.
Proof.
  intros Q H e. remember (nsize e) as n eqn:E. revert e E. induction n as [n IH] using lt_wf_ind. intros e ->. apply H. intros c Hc.
  apply (IH (nsize c)); [apply child_size, Hc|reflexivity].
Qed.
Lemma everywhere_child : forall P e c, everywhere P e -> In c (children e) -> everywhere P c.
Proof. intros P e c [_ H] Hc. apply H, Hc. Qed.
Lemma everywhere_here : forall P e, everywhere P e -> P e.
Proof. intros P e [H _]. exact H. Qed.

(** ** Sign of a comparison *)
Lemma cmpZ_opp : forall a b, cmpZ b a = - cmpZ a b.
Proof. intros a b. unfold cmpZ. destruct (a =? b) eqn:E1, (b =? a) eqn:E2, (a <? b) eqn:E3, (b <? a) eqn:E4; lia. Qed.
Lemma cthen_opp : forall a b, cthen (- a) (- b) = - cthen a b.
Proof. intros a b. unfold cthen. destruct (- a =? 0) eqn:E1, (a =? 0) eqn:E2; lia. Qed.
Lemma cthen_opp' : forall x x' y y', x' = - x -> (x = 0 -> y' = - y) -> cthen x' y' = - cthen x y.
Proof. intros x x' y y' -> H. unfold cthen. destruct (- x =? 0) eqn:E1, (x =? 0) eqn:E2; try lia. Qed.
Lemma cmpZ_0 : forall a b, cmpZ a b = 0 -> a = b.
Proof. intros a b. unfold cmpZ. destruct (a =? b) eqn:E; [lia|]. destruct (a <? b); discriminate. Qed.
Lemma cmpV_key : forall a b, wf a -> wf b -> cmpV a b = cmpZ (key BIG a) (key BIG b).
Proof.
  intros a b Ha Hb. apply wf_wfv in Ha, Hb. unfold cmpV, cmpZ. rewrite (iv_lt_key BIG), (iv_eq_key BIG) by (auto; lia).
  destruct (_ <? _) eqn:E, (_ =? _) eqn:E2; try reflexivity. lia.
Qed.
Lemma cmpV'_key : forall a b, wf a -> wf b -> cmpV' a b = cmpZ (key BIG a) (key BIG b).
Proof.
  intros a b Ha Hb. apply wf_wfv in Ha, Hb. unfold cmpV', cmpZ, iv_ne. rewrite (iv_lt_key BIG), (iv_eq_key BIG) by (auto; lia).
  destruct (_ =? _) eqn:E2; reflexivity.
Qed.
Lemma str_eqb_eq : forall a b, str_eqb a b = true <-> a = b.
Proof. intros a b. unfold str_eqb. destruct (list_eq_dec Z.eq_dec a b); split; congruence. Qed.
Lemma str_eqb_refl : forall a, str_eqb a a = true.
Proof. intros a. apply str_eqb_eq. reflexivity. Qed.
Lemma cmp_astr_cases : forall a b, nul_free a -> nul_free b ->
  (a = b /\ cmp_astr a b = 0) \/ (lex a b /\ cmp_astr a b = -1) \/ (lex b a /\ cmp_astr a b = 1).
Proof.
  intros a b Na Nb. unfold cmp_astr. destruct (str_eqb a b) eqn:E; [apply str_eqb_eq in E; auto|].
  destruct (lex_total a b) as [H|[H|H]].
  - right. left. split; [exact H|]. apply str_lt_ok in H; auto. rewrite H. reflexivity.
  - apply str_eqb_eq in H. congruence.
  - right. right. split; [exact H|]. destruct (str_lt a b) eqn:E2; [|reflexivity]. apply str_lt_ok in E2; auto. destruct (lex_irrefl a). eapply lex_trans; eassumption.
Qed.
Lemma cmp_astr_opp : forall a b, nul_free a -> nul_free b -> cmp_astr b a = - cmp_astr a b.
Proof.
  intros a b Na Nb. destruct (cmp_astr_cases a b Na Nb) as [[H1 H2]|[[H1 H2]|[H1 H2]]], (cmp_astr_cases b a Nb Na) as [[H3 H4]|[[H3 H4]|[H3 H4]]];
    rewrite H2, H4; try reflexivity; subst; exfalso; try (eapply lex_irrefl; eassumption); eapply lex_irrefl; eapply lex_trans; eassumption.
Qed.

(** ** Lists *)
Lemma clist_opp : forall A (f : A -> A -> Z) a b, (forall x y, In x a -> In y b -> f y x = - f x y) -> clist f b a = - clist f a b.
Proof.
  intros A f a. induction a as [|x a IH]; intros [|y b] H; try reflexivity. cbn [clist]. rewrite H by (left; reflexivity). rewrite IH; [apply cthen_opp|].
  intros; apply H; right; assumption.
Qed.
Lemma clists_opp : forall A (f : A -> A -> Z) a b, (forall x y, In x a -> In y b -> f y x = - f x y) ->
  cthen (csize b a) (clist f b a) = - cthen (csize a b) (clist f a b).
Proof. intros A f a b H. unfold csize. rewrite cmpZ_opp, (clist_opp A f a b H). apply cthen_opp. Qed.
Lemma cranges_opp : forall a b, Forall (fun r => wf (fst r) /\ wf (snd r)) a -> Forall (fun r => wf (fst r) /\ wf (snd r)) b ->
  cranges b a = - cranges a b.
Proof.
  intros a b Ha Hb. unfold cranges. apply clists_opp. intros x y Hx Hy. rewrite Forall_forall in Ha, Hb. destruct (Ha x Hx), (Hb y Hy).
  rewrite !cmpV'_key by assumption. rewrite (cmpZ_opp (key BIG (fst x))), (cmpZ_opp (key BIG (snd x))). apply cthen_opp.
Qed.

(** the loop over a possibly compressed array goes over its elements *)
Definition cmp_body (e0 e1 : expr) : Z :=
  match e0, e1 with
  | EInt a, EInt b => cmpV a b
  | EFloat a, EFloat b => cmpV a b
  | EBool _ a, EBool _ b => cmpZ (Z.b2z a) (Z.b2z b)
  | EString _ a, EString _ b => cmp_astr a b
  | ESetI _ a, ESetI _ b => cranges a b
  | ESetF _ a, ESetF _ b => cranges a b
  | ESetV _ a, ESetV _ b => cthen (csize a b) (clist compare a b)
  | ESetV _ a, (ESetI _ _ | ESetF _ _) => csize a []
  | (ESetI _ _ | ESetF _ _), ESetV _ b => csize [] b
  | EId _ n0 v0 _ _, EId _ n1 v1 _ _ => cthen (cmpZ n0 n1) (if n0 =? -1 then cmp_astr v0 v1 else 0)
  | EArray _ _ k0 a0, EArray _ _ k1 a1 => cthen (csize (elems k0 a0) (elems k1 a1)) (clist compare (elems k0 a0) (elems k1 a1))
  | EAccess _ v0 x0, EAccess _ v1 x1 => cthen (compare v0 v1) (cthen (csize x0 x1) (clist compare x0 x1))
  | ECall _ i0 _ a0, ECall _ i1 _ a1 => cthen (cmp_astr i0 i1) (cthen (csize a0 a1) (clist compare a0 a1))
  | EBin _ o0 l0 r0, EBin _ o1 l1 r1 => cthen (cmpZ o0 o1) (cthen (compare l0 l1) (compare r0 r1))
  | EUn _ o0 x0, EUn _ o1 x1 => cthen (cmpZ o0 o1) (compare x0 x1)
  | EField _ v0 f0, EField _ v1 f1 => cthen (compare f0 f1) (compare v0 v1)
  | EComp _ s0 x0 g0 i0, EComp _ s1 x1 g1 i1 =>
      cthen (cmpZ (Z.b2z s0) (Z.b2z s1)) (cthen (compare x0 x1) (cthen (cthen (csize g0 g1) (clist compare g0 g1))
        (cthen (csize i0 i1) (clist cmpZ i0 i1))))
  | EIte _ t0 x0, EIte _ t1 x1 => cthen (cthen (csize t0 t1) (clist compare t0 t1)) (compare x0 x1)
  | EVarDecl _ t0 i0 x0, EVarDecl _ t1 i1 x1 => cthen (compare i0 i1) (cthen (compare t0 t1) (compare x0 x1))
  | ELet _ l0 x0, ELet _ l1 x1 => cthen (compare x0 x1) (cthen (csize l0 l1) (clist compare l0 l1))
  | ETI _ r0 d0, ETI _ r1 d1 => cthen (cthen (csize r0 r1) (clist compare r0 r1)) (compare d0 d1)
  | ETIId _ _ v0, ETIId _ _ v1 => cmp_astr v0 v1
  | _, _ => 0
  end.
Lemma cthen_assoc : forall a b c, cthen (cthen a b) c = cthen a (cthen b c).
Proof. intros a b c. unfold cthen. destruct (a =? 0) eqn:E; [reflexivity|]. rewrite E. reflexivity. Qed.
Lemma rep_clist : forall (f : expr -> expr -> Z) x t k l,
  (fix rep (k : nat) (l : list expr) : Z :=
     match k with O => clist f t l | S k' => match l with y :: l' => cthen (f x y) (rep k' l') | [] => 0 end end) k l
  = clist f (repeat x k ++ t) l.
Proof. intros f x t. induction k as [|k IH]; intros l; [reflexivity|]. destruct l as [|y l]; [reflexivity|]. cbn [repeat app clist]. rewrite IH. reflexivity. Qed.
Lemma compare_eq : forall e0 e1, compare e0 e1 = cthen (cmpZ (eid e0) (eid e1)) (cmp_body e0 e1).
Proof.
  intros e0 e1. destruct e0; try (destruct e1; cbn [compare cmp_body]; rewrite ?cthen_assoc; reflexivity).
  destruct e1; try reflexivity. cbn [compare cmp_body]. do 2 f_equal. destruct vec as [|x0 t0]; [reflexivity|]. cbn [elems]. apply rep_clist.
Qed.
Lemma elems_in : forall A k (v : list A) x, In x (elems k v) -> In x v.
Proof.
  intros A k v x H. destruct v as [|y v]; [exact H|]. cbn [elems] in H. apply in_app_iff in H. destruct H as [H|H]; [|right; exact H].
  apply repeat_spec in H. left. congruence.
Qed.

Lemma compare_opp : forall a b, everywhere clean a -> everywhere clean b -> compare b a = - compare a b.
Proof.
  intros a. induction a as [a IH] using expr_induct. intros b Ha Hb. rewrite !compare_eq, cmpZ_opp.
  destruct (Z.eq_dec (eid a) (eid b)) as [E|E].
  2:{ unfold cthen, cmpZ. destruct (eid a =? eid b) eqn:E1; [lia|]. destruct (eid a <? eid b); reflexivity. }
  rewrite <- cthen_opp. f_equal.
  assert (forall x y, In x (children a) -> In y (children b) -> compare y x = - compare x y) as IH'.
  { intros x y Hx Hy. apply IH; [exact Hx|exact (everywhere_child _ _ _ Ha Hx)|exact (everywhere_child _ _ _ Hb Hy)]. }
  apply everywhere_here in Ha, Hb. clear IH.
  destruct a, b; try discriminate E; clear E; cbn [cmp_body children clean] in *;
    try (apply cranges_opp; assumption);
    repeat (apply cthen_opp'; [|intros ?]);
    try reflexivity; try apply cmpZ_opp; try (apply cmp_astr_opp; assumption); try (apply cranges_opp; assumption);
    try (apply IH'; cbn; auto; fail);
    try (apply clist_opp; intros; apply IH'; try right; try (eapply elems_in; eassumption); assumption);
    try (apply clist_opp; intros; apply cmpZ_opp).
  - rewrite !cmpV_key by assumption. apply cmpZ_opp.
  - rewrite !cmpV_key by assumption. apply cmpZ_opp.
  - match goal with H : cmpZ _ _ = 0 |- _ => apply cmpZ_0 in H; subst end. destruct (_ =? -1); [apply cmp_astr_opp; assumption|reflexivity].
Qed.

Lemma cmpZ_range : forall a b, cmpZ a b = -1 \/ cmpZ a b = 0 \/ cmpZ a b = 1.
Proof. intros a b. unfold cmpZ. destruct (a =? b), (a <? b); auto. Qed.
Lemma cmpV_range : forall a b, cmpV a b = -1 \/ cmpV a b = 0 \/ cmpV a b = 1.
Proof. intros a b. unfold cmpV. destruct (iv_lt a b), (iv_eq a b); auto. Qed.
Lemma cmpV'_range : forall a b, cmpV' a b = -1 \/ cmpV' a b = 0 \/ cmpV' a b = 1.
Proof. intros a b. unfold cmpV'. destruct (iv_ne a b), (iv_lt a b); auto. Qed.
Lemma cmp_astr_range : forall a b, cmp_astr a b = -1 \/ cmp_astr a b = 0 \/ cmp_astr a b = 1.
Proof. intros a b. unfold cmp_astr. destruct (str_eqb a b), (str_lt a b); auto. Qed.

(** ** Transitivity *)
(** x compares the first with the second, y the second with the third, z the first with the third *)
Definition trio (x y z : Z) : Prop := x <= 0 -> y <= 0 -> z <= 0 /\ (z = 0 -> x = 0 /\ y = 0) /\ (x = 0 -> y = 0 -> z = 0).
Lemma trio_then : forall x y z x' y' z', trio x y z -> (x = 0 -> y = 0 -> z = 0 -> trio x' y' z') -> trio (cthen x x') (cthen y y') (cthen z z').
Proof.
  intros x y z x' y' z' H1 H2 Hx Hy. unfold cthen in *.
  destruct (x =? 0) eqn:Ex, (y =? 0) eqn:Ey, (z =? 0) eqn:Ez; unfold trio in *; try lia.
Qed.
Lemma trio_Z : forall a b c, trio (cmpZ a b) (cmpZ b c) (cmpZ a c).
Proof. intros a b c. unfold trio, cmpZ. destruct (a =? b) eqn:?, (b =? c) eqn:?, (a =? c) eqn:?, (a <? b) eqn:?, (b <? c) eqn:?, (a <? c) eqn:?; lia. Qed.
Lemma trio_0 : trio 0 0 0.
Proof. unfold trio. lia. Qed.
Lemma trio_V : forall a b c, wf a -> wf b -> wf c -> trio (cmpV a b) (cmpV b c) (cmpV a c).
Proof. intros a b c Ha Hb Hc. rewrite !cmpV_key by assumption. apply trio_Z. Qed.
Lemma trio_V' : forall a b c, wf a -> wf b -> wf c -> trio (cmpV' a b) (cmpV' b c) (cmpV' a c).
Proof. intros a b c Ha Hb Hc. rewrite !cmpV'_key by assumption. apply trio_Z. Qed.
Lemma trio_astr : forall a b c, nul_free a -> nul_free b -> nul_free c -> trio (cmp_astr a b) (cmp_astr b c) (cmp_astr a c).
Proof.
  intros a b c Na Nb Nc. unfold trio.
  destruct (cmp_astr_cases a b Na Nb) as [[H1 ->]|[[H1 ->]|[H1 ->]]], (cmp_astr_cases b c Nb Nc) as [[H2 ->]|[[H2 ->]|[H2 ->]]],
    (cmp_astr_cases a c Na Nc) as [[H3 ->]|[[H3 ->]|[H3 ->]]]; try lia; exfalso; subst;
    repeat match goal with
    | H : lex ?x ?x |- _ => exact (lex_irrefl _ H)
    | H1 : lex ?x ?y, H2 : lex ?y ?x |- _ => exact (lex_irrefl _ (lex_trans _ _ _ H1 H2))
    | H1 : lex ?x ?y, H2 : lex ?y ?z, H3 : lex ?z ?x |- _ => exact (lex_irrefl _ (lex_trans _ _ _ H1 (lex_trans _ _ _ H2 H3)))
    end.
Qed.
Lemma trio_list : forall A (f : A -> A -> Z) a b c, length a = length b -> length b = length c ->
  (forall x y z, In x a -> In y b -> In z c -> trio (f x y) (f y z) (f x z)) -> trio (clist f a b) (clist f b c) (clist f a c).
Proof.
  intros A f a. induction a as [|x a IH]; intros [|y b] [|z c] L1 L2 H; try discriminate; [apply trio_0|]. cbn [clist].
  apply trio_then; [apply H; left; reflexivity|]. intros _ _ _. apply IH; [cbn in L1; congruence|cbn in L2; congruence|].
  intros; apply H; right; assumption.
Qed.
Lemma trio_size : forall A (a b c : list A), trio (csize a b) (csize b c) (csize a c).
Proof. intros. unfold csize. apply trio_Z. Qed.
Lemma csize_0 : forall A (a b : list A), csize a b = 0 -> length a = length b.
Proof. intros A a b H. apply cmpZ_0 in H. lia. Qed.
Lemma trio_ranges : forall a b c, let P := Forall (fun r : IntVal * IntVal => wf (fst r) /\ wf (snd r)) in P a -> P b -> P c ->
  trio (cranges a b) (cranges b c) (cranges a c).
Proof.
  intros a b c P Ha Hb Hc. unfold P in *. rewrite Forall_forall in Ha, Hb, Hc. unfold cranges. apply trio_then; [apply trio_size|]. intros L1 L2 _.
  apply csize_0 in L1, L2. apply trio_list; try assumption. intros x y z Hx Hy Hz. destruct (Ha x Hx), (Hb y Hy), (Hc z Hz).
  apply trio_then; [apply trio_V'; assumption|]. intros. apply trio_V'; assumption.
Qed.
Lemma csize_lt : forall A (b : list A), b <> [] -> csize (@nil A) b = -1.
Proof. intros A [|x b] H; [congruence|]. unfold csize, cmpZ. cbn [length]. destruct (_ =? _) eqn:E; [lia|]. destruct (_ <? _) eqn:E2; [reflexivity|lia]. Qed.
Lemma csize_gt : forall A (b : list A), b <> [] -> csize b (@nil A) = 1.
Proof. intros A [|x b] H; [congruence|]. unfold csize, cmpZ. cbn [length]. destruct (_ =? _) eqn:E; [lia|]. destruct (_ <? _) eqn:E2; [lia|reflexivity]. Qed.

Lemma compare_trio : forall fl a b c, everywhere clean a -> everywhere clean b -> everywhere clean c ->
  everywhere (one_kind fl) a -> everywhere (one_kind fl) b -> everywhere (one_kind fl) c -> trio (compare a b) (compare b c) (compare a c).
Proof.
  intros fl a. induction a as [a IH] using expr_induct. intros b c Ha Hb Hc Ka Kb Kc. rewrite !compare_eq.
  apply trio_then; [apply trio_Z|]. intros E1 E2 _. apply cmpZ_0 in E1, E2.
  assert (forall x y z, In x (children a) -> In y (children b) -> In z (children c) -> trio (compare x y) (compare y z) (compare x z)) as IH'.
  { intros x y z Hx Hy Hz. apply IH; try exact Hx; [exact (everywhere_child _ _ _ Ha Hx)|exact (everywhere_child _ _ _ Hb Hy)|exact (everywhere_child _ _ _ Hc Hz)
      |exact (everywhere_child _ _ _ Ka Hx)|exact (everywhere_child _ _ _ Kb Hy)|exact (everywhere_child _ _ _ Kc Hz)]. }
  apply everywhere_here in Ha, Hb, Hc, Ka, Kb, Kc. clear IH.
  destruct a, b; try discriminate E1; clear E1; destruct c; try discriminate E2; clear E2; cbn [cmp_body children clean one_kind] in *;
    try congruence;
    try (rewrite ?csize_lt, ?csize_gt by assumption; unfold trio; lia);
    try (apply trio_ranges; assumption);
    repeat (apply trio_then; [|intros ? ? ?]);
    repeat match goal with H : csize _ _ = 0 |- _ => apply csize_0 in H end;
    try apply trio_0; try apply trio_Z; try apply trio_size; try (apply trio_astr; assumption); try (apply trio_V; assumption);
    try (apply IH'; cbn; auto; fail);
    try (apply trio_list; [assumption|assumption|]; intros; apply IH'; try right; try (eapply elems_in; eassumption); assumption);
    try (apply trio_list; [assumption|assumption|]; intros; apply trio_Z).
  repeat match goal with H : cmpZ _ _ = 0 |- _ => apply cmpZ_0 in H; subst end. destruct (_ =? -1); [apply trio_astr; assumption|apply trio_0].
Qed.

(** ** Equality *)
Definition eq_body (h : leaf -> Z) (e0 e1 : expr) : bool :=
  match e0, e1 with
  | ESetI _ a, ESetI _ b => esize a b && elist erange a b
  | ESetF _ a, ESetF _ b => esize a b && elist erange a b
  | ESetV _ a, ESetV _ b => esize a b && elist (equal h) a b
  | EBool _ a, EBool _ b => Bool.eqb a b
  | EString _ a, EString _ b => str_eqb a b
  | EId _ n0 v0 d0 f0, EId _ n1 v1 d1 f1 => id_eqb n0 v0 d0 f0 n1 v1 d1 f1
  | EAnon _ a, EAnon _ b => Nat.eqb a b
  | EArray _ s0 k0 a0, EArray _ s1 k1 a1 =>
      (esize s0 s1 && elist Z.eqb s0 s1) && (esize (elems k0 a0) (elems k1 a1) && elist (equal h) (elems k0 a0) (elems k1 a1))
  | EAccess _ v0 x0, EAccess _ v1 x1 => equal h v0 v1 && (esize x0 x1 && elist (equal h) x0 x1)
  | EField _ v0 f0, EField _ v1 f1 => equal h f0 f1 && equal h v0 v1
  | EComp _ s0 x0 g0 i0, EComp _ s1 x1 g1 i1 =>
      Bool.eqb s0 s1 && (equal h x0 x1 && ((esize g0 g1 && elist (equal h) g0 g1) && elist Z.eqb i0 i1))
  | EIte _ t0 x0, EIte _ t1 x1 => (esize t0 t1 && elist (equal h) t0 t1) && equal h x0 x1
  | EBin _ o0 l0 r0, EBin _ o1 l1 r1 => (o0 =? o1) && (equal h l0 l1 && equal h r0 r1)
  | EUn _ o0 x0, EUn _ o1 x1 => (o0 =? o1) && equal h x0 x1
  | ECall _ i0 d0 a0, ECall _ i1 d1 a1 => str_eqb i0 i1 && (opt_eqb d0 d1 && (esize a0 a1 && elist (equal h) a0 a1))
  | EVarDecl _ t0 i0 x0, EVarDecl _ t1 i1 x1 => equal h t0 t1 && (equal h i0 i1 && equal h x0 x1)
  | ELet _ l0 x0, ELet _ l1 x1 => equal h x0 x1 && (esize l0 l1 && elist (equal h) l0 l1)
  | ETI _ r0 d0, ETI _ r1 d1 => (esize r0 r1 && elist (equal h) r0 r1) && equal h d0 d1
  | ETIId _ a v0, ETIId _ b v1 => Nat.eqb a b && str_eqb v0 v1
  | _, _ => false
  end.
Lemma rep_elist : forall (f : expr -> expr -> bool) x t k l,
  (fix rep (k : nat) (l : list expr) : bool :=
     match k with O => elist f t l | S k' => match l with y :: l' => f x y && rep k' l' | [] => false end end) k l
  = elist f (repeat x k ++ t) l.
Proof. intros f x t. induction k as [|k IH]; intros l; [reflexivity|]. destruct l as [|y l]; [reflexivity|]. cbn [repeat app elist]. rewrite IH. reflexivity. Qed.
Lemma equal_eq : forall h e0 e1, equal h e0 e1 =
  match e0, e1 with
  | ENull, ENull => true
  | EInt a, EInt b => iv_eq a b
  | EFloat a, EFloat b => iv_eq a b
  | _, _ => head_eqb h e0 e1 && eq_body h e0 e1
  end.
Proof.
  intros h e0 e1.
  assert (match e0, e1 with EArray _ _ _ _, EArray _ _ _ _ => False | _, _ => True end -> equal h e0 e1 =
    match e0, e1 with ENull, ENull => true | EInt a, EInt b => iv_eq a b | EFloat a, EFloat b => iv_eq a b
    | _, _ => head_eqb h e0 e1 && eq_body h e0 e1 end) as G.
  { intros N. destruct e0, e1; try (exfalso; exact N); clear N; cbn [equal eq_body]; rewrite ?andb_false_r; try reflexivity; rewrite <- ?andb_assoc; reflexivity. }
  destruct e0; try (apply G; exact I). destruct e1; try (apply G; exact I). clear G. cbn [equal eq_body]. rewrite <- andb_assoc. rewrite <- andb_assoc. f_equal.
  destruct vec as [|x0 t0]; [cbn [elems]; change (elist (equal h) [] (elems reps0 vec0)) with true|rewrite rep_elist; cbn [elems]]; repeat match goal with |- context [elist ?f ?l ?m] => destruct (elist f l m) end;
    repeat match goal with |- context [esize ?l ?m] => destruct (esize l m) end; reflexivity.
Qed.

Lemma elist_F2 : forall A (f : A -> A -> bool) a b, esize a b && elist f a b = true <-> Forall2 (fun x y => f x y = true) a b.
Proof.
  intros A f a. induction a as [|x a IH]; intros [|y b].
  - split; [constructor|reflexivity].
  - split; [discriminate|intros H; inversion H].
  - split; [discriminate|intros H; inversion H].
  - cbn [elist]. unfold esize in *. cbn [length]. specialize (IH b). split.
    + intros H. rewrite !andb_true_iff in H. destruct H as [L [H1 H2]]. constructor; [exact H1|]. apply IH. rewrite H2, andb_true_r. lia.
    + intros H. inversion H; subst. apply IH in H5. rewrite andb_true_iff in H5. destruct H5 as [L H5]. rewrite H3, H5. rewrite andb_true_iff. split; [lia|reflexivity].
Qed.
Lemma F2_in : forall A B (R S : A -> B -> Prop) a b, (forall x y, In x a -> In y b -> R x y -> S x y) -> Forall2 R a b -> Forall2 S a b.
Proof. intros A B R S a b H F. induction F; constructor; [apply H; auto; left; reflexivity|]. apply IHF. intros; apply H; auto; right; assumption. Qed.
Lemma F2_length : forall A B (R : A -> B -> Prop) a b, Forall2 R a b -> length a = length b.
Proof. intros A B R a b F. induction F; cbn; congruence. Qed.
Lemma F2_eq : forall A (a b : list A), Forall2 eq a b -> a = b.
Proof. intros A a b F. induction F; congruence. Qed.
Lemma F2_refl : forall A (R : A -> A -> Prop) a, (forall x, In x a -> R x x) -> Forall2 R a a.
Proof. intros A R a. induction a as [|x a IH]; intros H; constructor; [apply H; left; reflexivity|]. apply IH. intros; apply H; right; assumption. Qed.
Lemma F2_sym : forall A (R : A -> A -> Prop) a b, (forall x y, In x a -> In y b -> R x y -> R y x) -> Forall2 R a b -> Forall2 R b a.
Proof. intros A R a b H F. induction F; constructor; [apply H; auto; left; reflexivity|]. apply IHF. intros; apply H; auto; right; assumption. Qed.
Lemma F2_trans : forall A (R : A -> A -> Prop) a b c, (forall x y z, In x a -> In y b -> In z c -> R x y -> R y z -> R x z) ->
  Forall2 R a b -> Forall2 R b c -> Forall2 R a c.
Proof.
  intros A R a b c T F. revert c T. induction F as [|x y a b Hxy F IH]; intros c T G; inversion G as [|? z ? c' Hyz G']; subst; constructor.
  - apply (T x y z); try (left; reflexivity); assumption.
  - apply IH; [|assumption]. intros x0 y1 z0 Hx Hy Hz. apply T; right; assumption.
Qed.

Lemma erange_eq : forall x y, erange x y = true <-> x = y.
Proof.
  intros [a b] [c d]. unfold erange. cbn [fst snd]. rewrite andb_true_iff, !iv_eq_iff. split; [intros [-> ->]; reflexivity|intros E; inversion E; auto].
Qed.
Lemma elist_prefix : forall a b, elist Z.eqb a b = true -> exists t, b = a ++ t.
Proof.
  induction a as [|x a IH]; intros b H; [exists b; reflexivity|]. destruct b as [|y b]; [discriminate|]. cbn [elist] in H. rewrite andb_true_iff in H.
  destruct H as [H1 H2]. destruct (IH b H2) as [t ->]. exists t. cbn. f_equal. lia.
Qed.
Lemma sorted_last : forall l, StronglySorted Z.lt l -> Forall (fun x => x <= last l 0) l.
Proof.
  intros l H. induction H as [|a l H IH F]; [constructor|]. destruct l as [|b l]; [constructor; [cbn; lia|constructor]|].
  change (last (a :: b :: l) 0) with (last (b :: l) 0). constructor; [|exact IH]. inversion F; subst. inversion IH; subst. lia.
Qed.
Lemma last_app_in : forall (a t : list Z), t <> [] -> last (a ++ t) 0 = last t 0.
Proof.
  induction a as [|x a IH]; intros t H; [reflexivity|]. rewrite <- (IH t H). cbn [app last]. destruct (a ++ t) eqn:E; [|reflexivity].
  apply app_eq_nil in E. destruct E; congruence.
Qed.
Lemma last_in : forall (l : list Z), l <> [] -> In (last l 0) l.
Proof. induction l as [|x l IH]; intros H; [congruence|]. destruct l as [|y l]; [left; reflexivity|]. right. apply IH. discriminate. Qed.
Lemma sorted_app : forall a t, StronglySorted Z.lt (a ++ t) -> forall x y, In x a -> In y t -> x < y.
Proof.
  induction a as [|z a IH]; intros t H x y Hx Hy; [destruct Hx|]. cbn [app] in H. inversion H; subst. destruct Hx as [<-|Hx]; [|eapply IH; eassumption].
  rewrite Forall_forall in H3. apply H3. apply in_app_iff. right. exact Hy.
Qed.
(** comparing the first index with the beginning of the second is enough *)
Lemma prefix_all : forall a t, StronglySorted Z.lt (a ++ t) -> a <> [] -> last a 0 = last (a ++ t) 0 -> t = [].
Proof.
  intros a t S N L. destruct t as [|y t]; [reflexivity|]. rewrite last_app_in in L by discriminate.
  pose proof (sorted_app a (y :: t) S (last a 0) (last (y :: t) 0) (last_in a N) (last_in (y :: t) ltac:(discriminate))). lia.
Qed.
Lemma opt_eqb_eq : forall a b, opt_eqb a b = true <-> a = b.
Proof. intros [a|] [b|]; cbn; rewrite ?Nat.eqb_eq; split; congruence. Qed.
Lemma id_eqb_same : forall n0 v0 d0 f0 n1 v1 d1 f1, id_eqb n0 v0 d0 f0 n1 v1 d1 f1 = true <-> same_id n0 v0 d0 f0 n1 v1 d1 f1.
Proof.
  intros. unfold id_eqb, same_id. destruct d0 as [x|], d1 as [y|]; try (rewrite andb_true_iff, str_eqb_eq, Z.eqb_eq; reflexivity).
  rewrite orb_true_iff, Nat.eqb_eq. destruct f0 as [a|], f1 as [b|]; rewrite ?Nat.eqb_eq;
    split; intros [H|H]; try (left; exact H); try discriminate; try (right; exists a; subst; split; congruence);
    destruct H as [c [H1 H2]]; try discriminate; right; congruence.
Qed.

Lemma equal_same : forall h a b, everywhere clean a -> everywhere clean b -> equal h a b = true -> same a b.
Proof.
  intros h a. induction a as [a IH] using expr_induct. intros b Ha Hb E. rewrite equal_eq in E.
  assert (forall x y, In x (children a) -> In y (children b) -> equal h x y = true -> same x y) as IH'.
  { intros x y Hx Hy. apply IH; [exact Hx|exact (everywhere_child _ _ _ Ha Hx)|exact (everywhere_child _ _ _ Hb Hy)]. }
  apply everywhere_here in Ha, Hb. clear IH.
  destruct a, b; try discriminate E; try (apply andb_true_iff in E; destruct E as [E E']; unfold head_eqb in E; cbn [eid ety] in E;
    rewrite !andb_true_iff in E; destruct E as [[_ Et] _]; apply Z.eqb_eq in Et; subst);
    cbn [eq_body children clean] in *; try discriminate;
    repeat match goal with
    | H : _ && elist _ _ _ = true |- _ => apply elist_F2 in H
    | H : _ && _ = true |- _ => apply andb_true_iff in H; destruct H
    | H : (_ =? _) = true |- _ => apply Z.eqb_eq in H; subst
    | H : Nat.eqb _ _ = true |- _ => apply Nat.eqb_eq in H; subst
    | H : str_eqb _ _ = true |- _ => apply str_eqb_eq in H; subst
    | H : Bool.eqb _ _ = true |- _ => apply Bool.eqb_prop in H; subst
    | H : opt_eqb _ _ = true |- _ => apply opt_eqb_eq in H; subst
    | H : iv_eq _ _ = true |- _ => apply iv_eq_iff in H; subst
    | H : Forall2 (fun x y => erange x y = true) _ _ |- _ =>
        apply (F2_in _ _ _ eq) in H; [|intros ? ? _ _ ?; apply erange_eq; assumption]; apply F2_eq in H; subst
    | H : Forall2 (fun x y => (x =? y) = true) _ _ |- _ =>
        apply (F2_in _ _ _ eq) in H; [|intros ? ? _ _ ?; apply Z.eqb_eq; assumption]; apply F2_eq in H; subst
    end; try (constructor;
    try (match goal with H : Forall2 _ ?x ?y |- Forall2 _ ?x ?y => refine (F2_in _ _ _ _ _ _ _ H) end; intros; apply IH'; try right; try (eapply elems_in; eassumption); assumption);
    try (apply IH'; cbn; auto; fail)); try (apply id_eqb_same; assumption).
  destruct Ha as [S1 [N1 L1]], Hb as [S2 [N2 L2]]. pose proof (F2_length _ _ _ _ _ H1) as L. destruct (elist_prefix _ _ H2) as [t ->].
  assert (t = []) by (apply (prefix_all gIndex); [exact S2|exact N1|congruence]). subst. rewrite app_nil_r. constructor; [apply IH'; cbn; auto|].
  refine (F2_in _ _ _ _ _ _ _ H1). intros; apply IH'; try right; assumption.
Qed.

(** the same expressions have the same hash, if no array is compressed and no two names stand for the same variable *)
Lemma same_id_name : forall nm fl t n v d f t' n' v' d' f', named nm fl (EId t n v d f) -> named nm fl (EId t' n' v' d' f') -> no_alias nm fl ->
  same_id n v d f n' v' d' f' -> n = n' /\ v = v'.
Proof.
  intros nm fl t n v d f t' n' v' d' f' H H' NA S. unfold same_id in S. destruct d as [x|], d' as [y|]; try (destruct S; auto; fail).
  cbn [named] in H, H'. destruct H as [E ->], H' as [E' ->]. destruct S as [->|[a [S1 S2]]].
  - rewrite <- E in E'. inversion E'. auto.
  - rewrite (NA x y a S1 S2) in E. rewrite <- E in E'. inversion E'. auto.
Qed.
Lemma F2_map : forall A B (f : A -> B) a b, Forall2 (fun x y => f x = f y) a b -> map f a = map f b.
Proof. intros A B f a b F. induction F; cbn; congruence. Qed.
Definition hvec (h : leaf -> Z) := fix go (i : Z) (l : list expr) : list (list Z) :=
  match l with [] => [] | x :: r => [hnum h i; hash h x] :: go (i + 1) r end.
Lemma F2_hvec : forall h a b i, Forall2 (fun x y => hash h x = hash h y) a b -> hvec h i a = hvec h i b.
Proof. intros h a b i F. revert i. induction F; intros i; [reflexivity|]. cbn [hvec]. rewrite H, IHF. reflexivity. Qed.
Lemma elems_1 : forall A (v : list A), elems 1 v = v.
Proof. intros A [|x v]; reflexivity. Qed.
Section Same.
Variable h : leaf -> Z.
Variable nm : nat -> Z * str.
Variable fl : nat -> option nat.
Hypothesis NA : no_alias nm fl.
Lemma same_hash : forall a b, everywhere uncompressed a -> everywhere uncompressed b -> everywhere (named nm fl) a -> everywhere (named nm fl) b ->
  same a b -> hash h a = hash h b.
Proof.
  intros a. induction a as [a IH] using expr_induct. intros b Ua Ub Na Nb S.
  assert (forall x y, In x (children a) -> In y (children b) -> same x y -> hash h x = hash h y) as IH'.
  { intros x y Hx Hy. apply IH; [exact Hx|exact (everywhere_child _ _ _ Ua Hx)|exact (everywhere_child _ _ _ Ub Hy)
      |exact (everywhere_child _ _ _ Na Hx)|exact (everywhere_child _ _ _ Nb Hy)]. }
  assert (forall l l', incl l (children a) -> incl l' (children b) -> Forall2 same l l' -> Forall2 (fun x y => hash h x = hash h y) l l') as IHl.
  { intros l l' I1 I2 F. refine (F2_in _ _ _ _ _ _ _ F). intros x y Hx Hy. apply IH'; auto. }
  apply everywhere_here in Ua, Ub, Na, Nb. clear IH.
  destruct S; try reflexivity; cbn [hash children eid uncompressed] in *; fold (hvec h) in *;
    try (rewrite (F2_map _ _ (hash h) l l') by (apply IHl; try assumption; intros ? ?; try right; assumption));
    repeat match goal with S : same ?x ?y |- _ => apply IH' in S; [|cbn; auto; fail|cbn; auto; fail]; rewrite ?S end;
    try match goal with F : Forall2 same ?l ?l' |- _ => pose proof (F2_length _ _ _ _ _ F) as L; rewrite ?L end; try reflexivity.
  - destruct (same_id_name _ _ _ _ _ _ _ _ _ _ _ _ Na Nb NA H) as [-> ->]. reflexivity.
  - subst. rewrite !elems_1 in H. rewrite (F2_hvec h v v') by (apply IHl; try assumption; intros ? ?; assumption). reflexivity.
  - rewrite (F2_map _ _ (hash h) g g') by (apply IHl; try assumption; intros ? ?; right; assumption). reflexivity.
Qed.

Lemma esize_refl : forall A (l : list A), esize l l = true.
Proof. intros. unfold esize. apply Z.eqb_refl. Qed.
Lemma elist_refl : forall A (f : A -> A -> bool) l, (forall x, f x x = true) -> elist f l l = true.
Proof. intros A f l H. induction l as [|x l IH]; [reflexivity|]. cbn [elist]. rewrite H, IH. reflexivity. Qed.
Lemma erange_refl : forall x, erange x x = true.
Proof. intros x. apply erange_eq. reflexivity. Qed.
Lemma opt_eqb_refl : forall x, opt_eqb x x = true.
Proof. intros x. apply opt_eqb_eq. reflexivity. Qed.
Lemma iv_eq_refl' : forall x, iv_eq x x = true.
Proof. intros x. apply iv_eq_iff. reflexivity. Qed.
Lemma same_equal : forall a b, everywhere uncompressed a -> everywhere uncompressed b -> everywhere (named nm fl) a -> everywhere (named nm fl) b ->
  same a b -> equal h a b = true.
Proof.
  intros a. induction a as [a IH] using expr_induct. intros b Ua Ub Na Nb S.
  assert (hash h a = hash h b) as EH by (apply same_hash; assumption).
  assert (forall x y, In x (children a) -> In y (children b) -> same x y -> equal h x y = true) as IH'.
  { intros x y Hx Hy. apply IH; [exact Hx|exact (everywhere_child _ _ _ Ua Hx)|exact (everywhere_child _ _ _ Ub Hy)
      |exact (everywhere_child _ _ _ Na Hx)|exact (everywhere_child _ _ _ Nb Hy)]. }
  assert (forall l l', incl l (children a) -> incl l' (children b) -> Forall2 same l l' -> esize l l' && elist (equal h) l l' = true) as IHl.
  { intros l l' I1 I2 F. apply elist_F2. refine (F2_in _ _ _ _ _ _ _ F). intros x y Hx Hy. apply IH'; auto. }
  assert (forall k l k' l', incl l (children a) -> incl l' (children b) -> Forall2 same (elems k l) (elems k' l') ->
    esize (elems k l) (elems k' l') && elist (equal h) (elems k l) (elems k' l') = true) as IHe.
  { intros k l k' l' I1 I2 F. apply elist_F2. refine (F2_in _ _ _ _ _ _ _ F). intros x y Hx Hy. apply elems_in in Hx, Hy. apply IH'; auto. }
  apply everywhere_here in Ua, Ub, Na, Nb. clear IH. rewrite equal_eq. 
  destruct S; unfold head_eqb; rewrite ?EH; clear EH; cbn [eid ety eq_body children] in *; rewrite ?Z.eqb_refl, ?Nat.eqb_refl, ?str_eqb_refl, ?Bool.eqb_reflx, ?esize_refl,
      ?(elist_refl _ Z.eqb) by apply Z.eqb_refl; rewrite ?(elist_refl _ erange) by apply erange_refl; rewrite ?opt_eqb_refl, ?iv_eq_refl'; try reflexivity; cbn [andb];
    repeat match goal with S : same ?x ?y |- _ => apply IH' in S; [|cbn; auto; fail|cbn; auto; fail]; rewrite ?S; clear S end; cbn [andb]; try reflexivity;
    rewrite ?andb_true_r;
    try (apply IHl; try assumption; intros ? ?; try right; assumption);
    try (apply IHe; try assumption; intros ? ?; assumption).
  apply id_eqb_same. exact H.
Qed.

(** equal expressions compare equal *)
Lemma clist_0 : forall A (f : A -> A -> Z) a b, Forall2 (fun x y => f x y = 0) a b -> cthen (csize a b) (clist f a b) = 0.
Proof.
  intros A f a b F. pose proof (F2_length _ _ _ _ _ F) as L. unfold csize. rewrite L. unfold cmpZ at 1. rewrite Z.eqb_refl. unfold cthen at 1. rewrite Z.eqb_refl. clear L.
  induction F; [reflexivity|]. cbn [clist]. rewrite H. exact IHF.
Qed.
Lemma cmpZ_refl : forall a, cmpZ a a = 0.
Proof. intros a. unfold cmpZ. rewrite Z.eqb_refl. reflexivity. Qed.
Lemma cmpV_refl : forall a, wf a -> cmpV a a = 0.
Proof. intros a H. rewrite cmpV_key by assumption. apply cmpZ_refl. Qed.
Lemma cmpV'_refl : forall a, wf a -> cmpV' a a = 0.
Proof. intros a H. rewrite cmpV'_key by assumption. apply cmpZ_refl. Qed.
Lemma cmp_astr_refl : forall a, cmp_astr a a = 0.
Proof. intros a. unfold cmp_astr. rewrite str_eqb_refl. reflexivity. Qed.
Lemma cranges_refl : forall a, Forall (fun r => wf (fst r) /\ wf (snd r)) a -> cranges a a = 0.
Proof.
  intros a H. unfold cranges. apply clist_0. apply F2_refl. rewrite Forall_forall in H. intros x Hx. destruct (H x Hx). rewrite !cmpV'_refl by assumption. reflexivity.
Qed.
Lemma same_compare : forall a b, everywhere clean a -> everywhere (named nm fl) a -> everywhere (named nm fl) b -> same a b -> compare a b = 0.
Proof.
  intros a. induction a as [a IH] using expr_induct. intros b Ca Na Nb S.
  assert (forall x y, In x (children a) -> In y (children b) -> same x y -> compare x y = 0) as IH'.
  { intros x y Hx Hy. apply IH; [exact Hx|exact (everywhere_child _ _ _ Ca Hx)|exact (everywhere_child _ _ _ Na Hx)|exact (everywhere_child _ _ _ Nb Hy)]. }
  assert (forall l l', incl l (children a) -> incl l' (children b) -> Forall2 same l l' -> cthen (csize l l') (clist compare l l') = 0) as IHl.
  { intros l l' I1 I2 F. apply clist_0. refine (F2_in _ _ _ _ _ _ _ F). intros x y Hx Hy. apply IH'; auto. }
  assert (forall k l k' l', incl l (children a) -> incl l' (children b) -> Forall2 same (elems k l) (elems k' l') ->
    cthen (csize (elems k l) (elems k' l')) (clist compare (elems k l) (elems k' l')) = 0) as IHe.
  { intros k l k' l' I1 I2 F. apply clist_0. refine (F2_in _ _ _ _ _ _ _ F). intros x y Hx Hy. apply elems_in in Hx, Hy. apply IH'; auto. }
  apply everywhere_here in Ca, Na, Nb. clear IH. rewrite compare_eq.
  destruct S; cbn [eid cmp_body children clean] in *; rewrite ?cmpZ_refl, ?cmp_astr_refl; 
    repeat match goal with S : same ?x ?y |- _ => apply IH' in S; [|cbn; auto; fail|cbn; auto; fail]; rewrite ?S; clear S end; cbn [cthen Z.eqb]; try reflexivity;
    try (apply cmpV_refl; assumption); try (apply cranges_refl; assumption);
    try (apply IHl; try assumption; intros ? ?; try right; assumption);
    try (apply IHe; try assumption; intros ? ?; assumption).
  - change (cthen 0) with (fun k : Z => k). cbv beta. destruct (same_id_name _ _ _ _ _ _ _ _ _ _ _ _ Na Nb NA H) as [-> ->]. rewrite cmpZ_refl, cmp_astr_refl. unfold cthen. destruct (_ =? -1); reflexivity.
  - rewrite (IHl g g') by (try assumption; intros ? ?; right; assumption). apply clist_0, F2_refl. intros; apply cmpZ_refl.
  - rewrite IHl by (try assumption; intros ? ?; right; assumption). reflexivity.
  - rewrite IHl by (try assumption; intros ? ?; right; assumption). reflexivity.
Qed.
End Same.

(** ** same is an equivalence relation *)
Lemma same_refl : forall a, same a a.
Proof.
  intros a. induction a as [a IH] using expr_induct.
  assert (forall l, incl l (children a) -> Forall2 same l l) as IHl by (intros l I; apply F2_refl; auto).
  destruct a; constructor; cbn [children] in *; try (apply IHl; intros ? ?; try right; assumption); try (apply IH; cbn; auto; fail).
  - unfold same_id. destruct decl; auto.
  - apply F2_refl. intros x Hx. apply IH. eapply elems_in. exact Hx.
Qed.
Lemma same_sym : forall a b, same a b -> same b a.
Proof.
  intros a. induction a as [a IH] using expr_induct. intros b S.
  assert (forall k l l', incl l (children a) -> Forall2 same (elems k l) l' -> Forall2 same l' (elems k l)) as IHl.
  { intros k l l' I F. revert F. apply F2_sym. intros x y Hx _. apply IH. apply I. eapply elems_in. exact Hx. }
  destruct S; constructor; cbn [children] in *;
    try (match goal with F : Forall2 same ?l _ |- Forall2 same _ ?l => rewrite <- (elems_1 _ l) in F |- * end; apply IHl; try assumption; intros ? ?; try right; assumption);
    try (apply IHl; try assumption; intros ? ?; assumption);
    try (apply IH; [cbn; auto; fail|assumption]).
  unfold same_id in *. destruct d, d'; try (destruct H; auto; fail). destruct H as [->|[a [H1 H2]]]; [left; reflexivity|]. right. exists a. auto.
Qed.
Lemma same_trans : forall nm fl a b c, everywhere resolved a -> everywhere resolved b -> everywhere resolved c ->
  everywhere (named nm fl) a -> everywhere (named nm fl) b -> everywhere (named nm fl) c -> same a b -> same b c -> same a c.
Proof.
  intros nm fl a. induction a as [a IH] using expr_induct. intros b c Ra Rb Rc Na Nb Nc S T.
  assert (forall x y z, In x (children a) -> In y (children b) -> In z (children c) -> same x y -> same y z -> same x z) as IH'.
  { intros x y z Hx Hy Hz. apply IH; [exact Hx|exact (everywhere_child _ _ _ Ra Hx)|exact (everywhere_child _ _ _ Rb Hy)|exact (everywhere_child _ _ _ Rc Hz)
      |exact (everywhere_child _ _ _ Na Hx)|exact (everywhere_child _ _ _ Nb Hy)|exact (everywhere_child _ _ _ Nc Hz)]. }
  assert (forall ka kb kc la lb lc, incl la (children a) -> incl lb (children b) -> incl lc (children c) ->
    Forall2 same (elems ka la) (elems kb lb) -> Forall2 same (elems kb lb) (elems kc lc) -> Forall2 same (elems ka la) (elems kc lc)) as IHe.
  { intros ka kb kc la lb lc I1 I2 I3. apply F2_trans. intros x y z Hx Hy Hz. apply elems_in in Hx, Hy, Hz. apply IH'; auto. }
  assert (forall la lb lc, incl la (children a) -> incl lb (children b) -> incl lc (children c) ->
    Forall2 same la lb -> Forall2 same lb lc -> Forall2 same la lc) as IHl.
  { intros la lb lc. specialize (IHe 1%nat 1%nat 1%nat la lb lc). rewrite !elems_1 in IHe. exact IHe. }
  apply everywhere_here in Ra, Rb, Rc, Na, Nb, Nc. clear IH.
  destruct S; inversion T; subst; constructor; cbn [children] in *;
    try (match goal with F : Forall2 same ?l ?m, G : Forall2 same ?m ?n |- Forall2 same ?l ?n => apply (IHl l m n) end; try assumption; intros ? ?; try right; assumption);
    try (match goal with F : same ?l ?m, G : same ?m ?n |- same ?l ?n => apply (IH' l m n) end; try assumption; cbn; auto; fail);
    try (eapply IHe; [| | |eassumption|eassumption]; intros ? ?; assumption).
  cbn [resolved named] in *. unfold same_id in *. destruct d, d', d'0; try congruence. destruct Na as [_ ->], Nb as [_ ->], Nc as [_ ->].
  clear T. match goal with G : n1 = _ \/ _ |- _ => rename G into H' end.
  destruct H as [->|[x [H1 H2]]]; [exact H'|]. destruct H' as [<-|[y [H3 H4]]]; [right; exists x; auto|]. right. exists x. split; congruence.
Qed.

(** ** The statements *)
Lemma equal_hash : forall h a b, equal h a b = true -> hash h a = hash h b.
Proof.
  intros h a b E. rewrite equal_eq in E.
  destruct a, b; try discriminate; try reflexivity; try (apply iv_eq_iff in E; subst; reflexivity);
    apply andb_true_iff in E; destruct E as [E _]; unfold head_eqb in E; rewrite !andb_true_iff in E; destruct E as [_ E]; apply Z.eqb_eq in E; exact E.
Qed.
Lemma C47_transitive_l : forall fl a b c, everywhere clean a -> everywhere clean b -> everywhere clean c ->
  everywhere (one_kind fl) a -> everywhere (one_kind fl) b -> everywhere (one_kind fl) c ->
  compare a b <= 0 -> compare b c <= 0 -> compare a c <= 0 /\ (compare a c = 0 -> compare a b = 0 /\ compare b c = 0).
Proof. intros fl a b c Ca Cb Cc Ka Kb Kc H1 H2. destruct (compare_trio fl a b c Ca Cb Cc Ka Kb Kc H1 H2) as [H3 [H4 _]]. auto. Qed.
Lemma C47_equal_l : forall h nm fl a b, no_alias nm fl -> everywhere clean a -> everywhere clean b -> everywhere uncompressed a -> everywhere uncompressed b ->
  everywhere (named nm fl) a -> everywhere (named nm fl) b -> (equal h a b = true <-> same a b).
Proof. intros. split; [apply equal_same; assumption|apply (same_equal h nm fl); assumption]. Qed.
Lemma C47_equal_compare_l : forall h nm fl a b, no_alias nm fl -> everywhere clean a -> everywhere clean b ->
  everywhere (named nm fl) a -> everywhere (named nm fl) b -> equal h a b = true -> compare a b = 0.
Proof. intros h nm fl a b NA Ca Cb Na Nb E. apply (same_compare nm fl NA); try assumption. apply (equal_same h); assumption. Qed.
Lemma C47_equivalence_l : forall h nm fl, no_alias nm fl ->
  let ok := fun e => everywhere clean e /\ everywhere uncompressed e /\ everywhere (named nm fl) e /\ everywhere resolved e in
  (forall a, ok a -> equal h a a = true) /\
  (forall a b, ok a -> ok b -> equal h a b = true -> equal h b a = true) /\
  (forall a b c, ok a -> ok b -> ok c -> equal h a b = true -> equal h b c = true -> equal h a c = true).
Proof.
  intros h nm fl NA ok. unfold ok. repeat split.
  - intros a (C & U & N & R). apply (C47_equal_l h nm fl); try assumption. apply same_refl.
  - intros a b (Ca & Ua & Na & Ra) (Cb & Ub & Nb & Rb) E. apply (C47_equal_l h nm fl) in E; try assumption. apply (C47_equal_l h nm fl); try assumption. apply same_sym, E.
  - intros a b c (Ca & Ua & Na & Ra) (Cb & Ub & Nb & Rb) (Cc & Uc & Nc & Rc) E F. apply (C47_equal_l h nm fl) in E; try assumption.
    apply (C47_equal_l h nm fl) in F; try assumption. apply (C47_equal_l h nm fl); try assumption. apply (same_trans nm fl a b c); assumption.
Qed.

(** ** Where it fails *)
Definition one (z : Z) : list (IntVal * IntVal) := [(ofZ z, ofZ z)].
Lemma wf_small : forall z, -1000 <= z <= 1000 -> wf (ofZ z).
Proof. intros z H. apply wf_wfv. unfold wfv, ofZ, fits64, LLONG_MIN, LLONG_MAX. cbn [iv_inf iv_v]. lia. Qed.
Lemma leaf_everywhere : forall (P : expr -> Prop) e, children e = [] -> P e -> everywhere P e.
Proof. intros P e C H. constructor; [exact H|]. rewrite C. intros c []. Qed.
Lemma one_wf : forall z, -1000 <= z <= 1000 -> Forall (fun r : IntVal * IntVal => wf (fst r) /\ wf (snd r)) (one z).
Proof. intros z H. constructor; [|constructor]. split; apply wf_small, H. Qed.
Lemma C47_sets_refuted_l : exists a b c, everywhere clean a /\ everywhere clean b /\ everywhere clean c /\
  compare a b = 0 /\ compare b c = 0 /\ compare a c < 0.
Proof.
  exists (ESetI 5 (one 1)), (ESetV 5 []), (ESetI 5 (one 2)).
  split; [apply leaf_everywhere; [reflexivity|]; apply one_wf; lia|].
  split; [apply leaf_everywhere; [reflexivity|]; exact I|].
  split; [apply leaf_everywhere; [reflexivity|]; apply one_wf; lia|].
  split; [reflexivity|]. split; reflexivity.
Qed.
(** std::hash of an integer is the integer in the usual libraries *)
Definition idhash (l : leaf) : Z := match l with LInt z => size_t z | LFloat z => size_t (z + 77) | LString s => size_t (fold_left (fun a c => a * 31 + c) s 5381) end.
Lemma C47_compressed_refuted_l : exists a b, everywhere clean a /\ everywhere clean b /\ same a b /\ compare a b = 0 /\ equal idhash a b = false.
Proof.
  exists (EArray 5 [] 1 [EInt (ofZ 1); EInt (ofZ 1); EInt (ofZ 2)]), (EArray 5 [] 2 [EInt (ofZ 1); EInt (ofZ 2)]).
  assert (forall z, -1000 <= z <= 1000 -> everywhere clean (EInt (ofZ z))) as L by (intros z H; apply leaf_everywhere; [reflexivity|]; apply wf_small, H).
  split; [|split]; [| |split; [|split]].
  - constructor; [exact I|]. intros c H. cbn in H. destruct H as [<-|[<-|[<-|[]]]]; apply L; lia.
  - constructor; [exact I|]. intros c H. cbn in H. destruct H as [<-|[<-|[]]]; apply L; lia.
  - constructor. cbn. constructor; [apply same_refl|]. constructor; [apply same_refl|]. constructor; [apply same_refl|]. constructor.
  - reflexivity.
  - vm_compute. reflexivity.
Qed.
Lemma C47_alias_refuted_l : exists a b, everywhere clean a /\ everywhere clean b /\ everywhere uncompressed a /\ everywhere uncompressed b /\
  everywhere resolved a /\ everywhere resolved b /\ same a b /\ equal idhash a b = false /\ compare a b <> 0.
Proof.
  exists (EId 5 (-1) [120] (Some 1%nat) (Some 3%nat)), (EId 5 (-1) [121] (Some 2%nat) (Some 3%nat)).
  assert (forall x, 0 < x < 256 -> nul_free [x]) as N by (intros x H [E|[]]; lia).
  split; [apply leaf_everywhere; [reflexivity|]; apply N; lia|].
  split; [apply leaf_everywhere; [reflexivity|]; apply N; lia|].
  split; [apply leaf_everywhere; [reflexivity|]; exact I|].
  split; [apply leaf_everywhere; [reflexivity|]; exact I|].
  split; [apply leaf_everywhere; [reflexivity|]; discriminate|].
  split; [apply leaf_everywhere; [reflexivity|]; discriminate|].
  split; [constructor; right; exists 3%nat; auto|]. split; [vm_compute; reflexivity|]. vm_compute. discriminate.
Qed.
Lemma C47_unresolved_refuted_l : forall h, exists a b c, equal h a b = true /\ equal h b c = true /\ equal h a c = false.
Proof.
  intros h. exists (EId 5 (-1) [120] (Some 1%nat) None), (EId 5 (-1) [120] None None), (EId 5 (-1) [120] (Some 2%nat) None).
  repeat split; cbn [equal]; unfold head_eqb; cbn [hash eid ety]; rewrite ?Z.eqb_refl; reflexivity.
Qed.

(** ** Examples *)
Definition ex_id (d : nat) : expr := EId 5 (-1) (if Nat.eqb d 1 then [120] else [121]) (Some d) None.
Definition ex_nm (d : nat) : Z * str := (-1, if Nat.eqb d 1 then [120] else [121]).
Definition ex_expr (d : nat) : expr :=
  ECall 1 [102; 111; 114] (Some 7%nat) [EArray 9 [] 1 [ex_id d; EInt (ofZ 4)]; EBin 1 2 (ex_id 2) (EComp 3 true (ex_id d) [ex_id 1; ex_id 2] [1; 2])].
Lemma ex_ok : forall d, d = 1%nat \/ d = 2%nat -> let e := ex_expr d in
  everywhere clean e /\ everywhere uncompressed e /\ everywhere (named ex_nm (fun _ => None)) e /\ everywhere resolved e /\ everywhere (one_kind false) e.
Proof.
  intros d D e.
  assert (forall P : expr -> Prop, (forall x, P (ex_id x)) -> P (EInt (ofZ 4)) -> P e -> P (EArray 9 [] 1 [ex_id d; EInt (ofZ 4)]) ->
    P (EBin 1 2 (ex_id 2) (EComp 3 true (ex_id d) [ex_id 1; ex_id 2] [1; 2])) -> P (EComp 3 true (ex_id d) [ex_id 1; ex_id 2] [1; 2]) -> everywhere P e) as G.
  { intros P H1 H2 H3 H4 H5 H6.
    assert (forall x, everywhere P (ex_id x)) as A by (intros x; constructor; [apply H1|intros c []]).
    constructor; [exact H3|]. intros c H. cbn in H. destruct H as [<-|[<-|[]]]; (constructor; [assumption|]); intros c H; cbn in H.
    - destruct H as [<-|[<-|[]]]; [apply A|constructor; [exact H2|intros c []]].
    - destruct H as [<-|[<-|[]]]; [apply A|]. constructor; [exact H6|]. intros c H. cbn in H. destruct H as [<-|[<-|[<-|[]]]]; apply A. }
  assert (forall x, nul_free (if Nat.eqb x 1 then [120] else [121])) as N by (intros x; destruct (Nat.eqb x 1); intros [E|[]]; lia).
  assert (nul_free [102; 111; 114]) as N' by (intros [E|[E|[E|[]]]]; lia).
  assert (clean (EComp 3 true (ex_id d) [ex_id 1; ex_id 2] [1; 2])) as K.
  { cbn. split; [|split; [discriminate|reflexivity]]. constructor; [|constructor; [lia|constructor]]. constructor; [constructor|constructor]. }
  split; [|split; [|split; [|split]]]; apply G; try exact I; try (intros x; exact I); try discriminate; try (intros x; discriminate); try reflexivity;
    try assumption; try (intros x; exact (N x)); try (apply wf_small; lia).
  intros x. split; reflexivity.
Qed.
Lemma ex_alias : no_alias ex_nm (fun _ => None).
Proof. intros d d' a H. discriminate. Qed.
