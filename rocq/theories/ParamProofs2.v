(** Proofs for C87: the arguments of a parameter file. *)
Require Import ZArith List Bool Lia.
From Verif Require Import Base StrModel JsonModel CmdModel CmdSpec CmdProofs ParamModel ParamSpec ParamProofs.
Import ListNotations.
Open Scope Z_scope.

Lemma flag_ok : forall n, flag_of n (flag_name n).
Proof.
  intros n. unfold flag_of. destruct n as [|x r]; [right; split; [intros (r & E); discriminate|reflexivity]|].
  destruct (Z.eq_dec x 45) as [-> | NE]; [left; split; [eauto|reflexivity]|]. right. split; [intros (r' & E); congruence|].
  cbn. destruct x as [|p|p]; auto. repeat (destruct p as [p|p|]; auto). congruence.
Qed.
Lemma flag_unique : forall n f, flag_of n f -> f = flag_name n.
Proof. intros n f H. pose proof (flag_ok n) as K. destruct H as [[A ->] | [A ->]], K as [[B ->] | [B ->]]; auto; tauto. Qed.
Lemma flag_twice : forall n, flag_name (flag_name n) = flag_name n.
Proof. intros n. destruct (flag_ok n) as [[(r & ->) ->] | [_ ->]]; reflexivity. Qed.

Section Vals.
Variables (bl : list str) (neg : str -> option str).
Fixpoint vsize (v : pval) : nat := match v with PArr l => S ((fix sz l := match l with [] => O | e :: r => (S (vsize e) + sz r)%nat end) l) | _ => 1%nat end.
Fixpoint add_all (f : str) (l : list pval) : perr + list str :=
  match l with [] => inr [] | e :: r => match add_value bl neg f e with inl x => inl x | inr a => match add_all f r with inl x => inl x | inr b => inr (a ++ b) end end end.
Lemma add_arr : forall n l, memb (flag_name n) bl = false -> add_value bl neg n (PArr l) = add_all (flag_name n) l.
Proof using. intros n l M. cbn [add_value]. rewrite M. induction l as [|e l IH]; cbn [add_all]; auto. rewrite IH. reflexivity. Qed.
Lemma add_value_ok : forall k v, (vsize v <= k)%nat -> forall n a, memb (flag_name n) bl = false -> add_value bl neg n v = inr a <-> means neg (flag_name n) v a.
Proof using.
  induction k as [|k IH]; intros v K n a M. { destruct v; cbn in K; lia. }
  destruct v as [l|[|]|s|s|].
  - rewrite add_arr by auto. assert (G : forall l, (forall e, In e l -> (vsize e <= k)%nat) -> forall a, add_all (flag_name n) l = inr a <-> means_all neg (flag_name n) l a).
    { induction l0 as [|e l0 IHl]; intros B a0; cbn [add_all].
      - split; [intros E; injection E as <-; constructor|]. intros H. inversion H. reflexivity.
      - assert (ME : memb (flag_name (flag_name n)) bl = false) by (rewrite flag_twice; auto). pose proof (fun x => IH e (B e (or_introl eq_refl)) (flag_name n) x ME) as IE. rewrite flag_twice in IE.
        specialize (IHl (fun x I => B x (or_intror I))). split.
        + destruct (add_value bl neg (flag_name n) e) as [x|b] eqn:E1; [discriminate|]. destruct (add_all (flag_name n) l0) as [x|c] eqn:E2; [discriminate|]. intros E. injection E as <-.
          constructor; [now apply IE|now apply IHl].
        + intros H. inversion H as [|? ? b c Hb Hc]; subst. apply IE in Hb. apply IHl in Hc. rewrite Hb, Hc. reflexivity. }
    rewrite G. { split; [now constructor|]. intros H. inversion H; auto. }
    intros e I. cbn [vsize] in K. clear - K I. set (sz := fix sz l := match l with [] => O | e :: r => (S (vsize e) + sz r)%nat end) in K.
    assert (S : (vsize e < sz l)%nat); [|lia]. clear K. induction l as [|x l IH]; [destruct I|]. cbn. destruct I as [-> | I]; [lia|]. specialize (IH I). lia.
  - cbn [add_value]. rewrite M. split; [intros E; injection E as <-; constructor|]. intros H. inversion H. reflexivity.
  - cbn [add_value]. rewrite M. destruct (neg (flag_name n)) eqn:E.
    + split; [intros Q; injection Q as <-; now constructor|]. intros H. inversion H; congruence.
    + split; [intros Q; injection Q as <-; now constructor|]. intros H. inversion H; congruence.
  - cbn [add_value]. rewrite M. split; [intros E; injection E as <-; constructor|]. intros H. inversion H. reflexivity.
  - cbn [add_value]. rewrite M. split; [intros E; injection E as <-; constructor|]. intros H. inversion H. reflexivity.
  - cbn [add_value]. rewrite M. split; [discriminate|]. intros H. inversion H.
Qed.
End Vals.

(** * Nested objects *)
Definition free (k : nat) (x : Z) : Prop := ~ is_ctl x /\ ((k <= 1)%nat -> x <> 92) /\ ((k = 0)%nat -> x <> 34).
Lemma clean_word : forall s, clean s -> word s.
Proof. intros s C x I. destruct (C x I) as (A & B & D & _). auto. Qed.
Lemma clean_flag : forall n, clean n -> clean (flag_name n).
Proof.
  intros n C. destruct (flag_ok n) as [[_ ->] | [_ ->]]; auto. intros x [<- | [<- | I]]; [unfold is_ctl; repeat split; lia|unfold is_ctl; repeat split; lia|auto].
Qed.
Lemma escape_enc : forall t, (forall x, In x t -> ~ is_ctl x) -> escapeStringLit t = enc t.
Proof.
  unfold escapeStringLit, enc. induction t as [|x t IH]; intros C; auto. cbn [flat_map]. rewrite IH by (intros y I; apply C; now right). f_equal.
  specialize (C x (or_introl eq_refl)). unfold is_ctl in C. unfold enc1, DQ, BS.
  repeat match goal with |- context [?a =? ?b] => destruct (Z.eqb_spec a b); try lia end; reflexivity.
Qed.
Definition good_text (k : nat) (s : str) (a : list str) : Prop :=
  (s = [] /\ a = [] \/ exists s', s = 32 :: s' /\ a <> [] /\ forall c, exists c' o', fold_left step s' (mkC c [] false false) = mkC c' o' false false /\ c' ++ [o'] = c ++ a) /\
  (forall x, In x s -> free k x).
Lemma words_text : forall k ws, (forall w, In w ws -> clean w) -> good_text k (flat_map (fun w => 32 :: w) ws) ws.
Proof.
  intros k ws C. split.
  - destruct ws as [|w ws]; [left; auto|]. right. exists (w ++ flat_map (fun w => 32 :: w) ws). split; auto. split; [discriminate|]. revert w C. induction ws as [|u ws IH]; intros w C c.
    + cbn [flat_map]. rewrite app_nil_r, word_read by (apply clean_word, C; now left). exists c, w. auto.
    + cbn [flat_map]. rewrite fold_left_app, word_read by (apply clean_word, C; now left). cbn [app fold_left].
      change (step (mkC c w false false) 32) with (mkC (c ++ [w]) [] false false). destruct (IH u (fun x I => C x (or_intror I)) (c ++ [w])) as (c' & o' & E & Q). exists c', o'. split; auto. rewrite Q, <- app_assoc. reflexivity.
  - intros x I. apply in_flat_map in I. destruct I as (w & Iw & [<- | Ix]).
    + unfold free, is_ctl. repeat split; lia.
    + destruct (C w Iw x Ix) as (A & B & D & F). repeat split; auto.
Qed.
Lemma good_app : forall k s t a b, good_text k s a -> good_text k t b -> good_text k (s ++ t) (a ++ b).
Proof.
  intros k s t a b [H1 F1] [H2 F2]. split; [|intros x I; apply in_app_or in I; destruct I; auto].
  destruct H1 as [[-> ->] | (s' & -> & N1 & R1)]; [exact H2|]. right. destruct H2 as [[-> ->] | (t' & -> & N2 & R2)].
  - exists s'. rewrite !app_nil_r. auto.
  - exists (s' ++ 32 :: t'). split; auto. split; [destruct a; [tauto|discriminate]|]. intros c. destruct (R1 c) as (c1 & o1 & E1 & Q1). rewrite fold_left_app, E1. cbn [fold_left].
    change (step (mkC c1 o1 false false) 32) with (mkC (c1 ++ [o1]) [] false false). destruct (R2 (c1 ++ [o1])) as (c2 & o2 & E2 & Q2). exists c2, o2. split; auto. rewrite Q2, Q1, <- app_assoc. reflexivity.
Qed.
Lemma good_mono : forall k s a, good_text 0 s a -> good_text k s a.
Proof. intros k s a [H F]. split; auto. intros x I. destruct (F x I) as (A & B & C). repeat split; auto. Qed.

Section Obj.
Variable addr : pval -> str.
Definition none : str -> option str := fun _ => None.
Lemma simple_fix : forall k l, (fix all l := match l with [] => True | e :: r => simple k e /\ all r end) l <-> Forall (simple k) l.
Proof using. induction l as [|e l IH]; [split; auto|]. split; [intros [A B]; constructor; auto; now apply IH|]. intros H. inversion H; subst. split; auto. now apply IH. Qed.
Lemma nested_text : forall n l, item_text addr (Nested n l) = match all_text addr l with inl x => inl x | inr [] => inl OutOfRange | inr (_ :: t) => inr (32 :: flag_name n ++ 32 :: 34 :: escapeStringLit t ++ [34]) end.
Proof using.
  intros n l. cbn [item_text]. match goal with |- match ?f l with _ => _ end = _ => assert (E : f l = all_text addr l) end.
  { induction l as [|e l IH]; cbn [all_text]; [reflexivity|]; try rewrite IH; reflexivity. }
  rewrite E. reflexivity.
Qed.
Definition item_good (k : nat) (i : pitem) : Prop := exists s a, item_text addr i = inr s /\ stands none i a /\ good_text k s a /\ (speaks i -> s <> []).
Definition list_good (k : nat) (l : list pitem) : Prop := exists s a, all_text addr l = inr s /\ stands_all l a /\ good_text k s a /\ (Exists speaks l -> s <> []).
Lemma list_of_items : forall k l, Forall (item_good k) l -> list_good k l.
Proof using.
  induction l as [|i l IH]; intros F.
  - exists [], []. split; auto. split; [constructor|]. split; [split; [left; auto|intros x []]|]. intros H. inversion H.
  - inversion F as [|? ? (s & a & E & S & G & N) F']; subst. destruct (IH F') as (t & b & E' & S' & G' & N'). exists (s ++ t), (a ++ b). cbn [all_text]. rewrite E, E'.
    split; auto. split; [constructor; auto|]. split; [now apply good_app|]. intros H Q. apply app_eq_nil in Q. destruct Q as [-> ->]. inversion H; subst; [now apply N|now apply N'].
Qed.
Lemma item_simple : forall k i, (k <= 2)%nat -> simple k i -> item_good k i.
Proof using.
  assert (V : forall k n v f a, flag_of n f -> means none f v a -> (forall w, In w a -> clean w) -> item_text addr (Assign n v) = inr (flat_map (fun w => 32 :: w) a) -> (a = [] -> v = PBool false) -> item_good k (Assign n v)).
  { intros k n v f a F M C E Z. exists (flat_map (fun w => 32 :: w) a), a. split; auto. split; [econstructor; eauto|]. split; [now apply words_text|]. intros S Q. destruct a; [|discriminate]. apply (S n). rewrite Z; auto. }
  assert (G : forall k, (k <= 2)%nat -> forall i, simple k i -> item_good k i); [|intros k i K S; now apply G].
  induction k as [|k IH]; intros K i S.
  - destruct i as [n [l|b|s|s|]|n l]; cbn [simple] in S; try tauto.
    + destruct b; [apply (V _ n _ (flag_name n) [flag_name n])|apply (V _ n _ (flag_name n) [])]; [apply flag_ok|constructor| |cbn; rewrite app_nil_r; reflexivity|discriminate|apply flag_ok|now constructor|intros w []|reflexivity|reflexivity].
      intros w0 [<- | []]. now apply clean_flag.
    + destruct S as [S1 S2]. apply (V _ n _ (flag_name n) [flag_name n; s]); [apply flag_ok|constructor| |cbn; rewrite app_nil_r; reflexivity|discriminate]. intros w0 [<- | [<- | []]]; auto using clean_flag.
    + destruct S as [S1 S2]. apply (V _ n _ (flag_name n) [flag_name n; s]); [apply flag_ok|constructor| |cbn; rewrite app_nil_r; reflexivity|discriminate]. intros w0 [<- | [<- | []]]; auto using clean_flag.
  - destruct i as [n [l|b|s|s|]|n l]; cbn [simple] in S; try tauto.
    + destruct b; [apply (V _ n _ (flag_name n) [flag_name n])|apply (V _ n _ (flag_name n) [])]; [apply flag_ok|constructor| |cbn; rewrite app_nil_r; reflexivity|discriminate|apply flag_ok|now constructor|intros w []|reflexivity|reflexivity].
      intros w0 [<- | []]. now apply clean_flag.
    + destruct S as [S1 S2]. apply (V _ n _ (flag_name n) [flag_name n; s]); [apply flag_ok|constructor| |cbn; rewrite app_nil_r; reflexivity|discriminate]. intros w0 [<- | [<- | []]]; auto using clean_flag.
    + destruct S as [S1 S2]. apply (V _ n _ (flag_name n) [flag_name n; s]); [apply flag_ok|constructor| |cbn; rewrite app_nil_r; reflexivity|discriminate]. intros w0 [<- | [<- | []]]; auto using clean_flag.
    + destruct S as (S1 & S2 & S3). apply simple_fix in S3.
      assert (L : list_good k l). { apply list_of_items. eapply Forall_impl; [|exact S3]. apply IH. lia. }
      destruct L as (s & a & E & ST & [[[-> ->] | (t & -> & NE & R)] FR] & N); [destruct (N S2 eq_refl)|].
      assert (FT : forall x, In x t -> free k x) by (intros x I; apply FR; now right).
      assert (PT : plainb t = true).
      { apply plainb_ok. split; [intros x I; apply (FT x I)|]. intros p q ->. destruct (FT 92) as (_ & Q & _); [apply in_or_app; right; now left|]. exfalso. apply Q; auto. lia. }
      exists (32 :: flag_name n ++ 32 :: 34 :: escapeStringLit t ++ [34]), [flag_name n; t]. rewrite nested_text, E. split; auto. split.
      { eapply s_obj; [apply flag_ok|exact ST|]. unfold parse_cmd_line, finish. destruct (R []) as (c' & o' & E' & Q). rewrite E'. exact Q. }
      rewrite escape_enc by (intros x I; apply (FT x I)). split; [|discriminate]. split.
      * right. eexists. split; [reflexivity|]. split; [discriminate|]. intros c. exists (c ++ [flag_name n]), t. split; [|rewrite <- app_assoc; reflexivity].
        rewrite fold_left_app, word_read by (apply clean_word, clean_flag, S1). cbn [app fold_left].
        change (step (step (mkC c (flag_name n) false false) 32) 34) with (inq (c ++ [flag_name n]) []). rewrite fold_left_app, plain_read by auto. reflexivity.
      * intros x [<- | I]; [unfold free, is_ctl; repeat split; lia|]. apply in_app_or in I. destruct I as [I | [<- | [<- | I]]].
        -- destruct (clean_flag n S1 x I) as (A & B & C & D). repeat split; auto.
        -- unfold free, is_ctl; repeat split; lia.
        -- unfold free, is_ctl; repeat split; try lia.
        -- apply in_app_or in I. destruct I as [I | [<- | []]]; [|unfold free, is_ctl; repeat split; lia].
           unfold enc in I. apply in_flat_map in I. destruct I as (y & Iy & I). specialize (FT y Iy). destruct FT as (A & B & C). unfold free.
           assert (YK : enc1 y = [y] \/ (y = 34 /\ enc1 y = [92; 34]) \/ (y = 92 /\ enc1 y = [92; 92])).
           { destruct (enc1_kind y); auto. exfalso. auto. }
           destruct YK as [YK | [[-> YK] | [-> YK]]]; rewrite YK in I.
           ++ destruct I as [<- | []]. split; auto. split; [intros; apply B; lia|discriminate].
           ++ assert (1 <= k)%nat by (destruct k; [exfalso; apply C; auto|lia]). destruct I as [<- | [<- | []]]; unfold is_ctl; repeat split; try lia.
           ++ exfalso. apply B; auto. lia.
Qed.
(** the text of an object that is nested in at most two others *)
Theorem object_text : forall l, Forall (simple 2) l -> Exists speaks l -> exists t a, model_to_string addr l = inr t /\ stands_all l a /\ parse_cmd_line t = a.
Proof using.
  intros l S N. assert (L : list_good 2 l) by (apply list_of_items; eapply Forall_impl; [|exact S]; intros i; apply item_simple; lia).
  destruct L as (s & a & E & ST & [[[-> ->] | (t & -> & NE & R)] FR] & NN); [destruct (NN N eq_refl)|]. unfold model_to_string. rewrite E. exists t, a. split; auto. split; auto.
  unfold parse_cmd_line, finish. destruct (R []) as (c' & o' & E' & Q). rewrite E'. exact Q.
Qed.
End Obj.

(** * The whole file *)
Definition entry_flag (i : pitem) : str := match i with Assign n _ | Nested n _ => n end.
Definition nested_simple (i : pitem) : Prop := match i with Assign _ _ => True | Nested _ l => Forall (simple 2) l /\ Exists speaks l end.
Definition is_value (i : pitem) : Prop := match i with Assign _ _ => True | Nested _ _ => False end.
Lemma load_item_ok : forall addr bl neg i a, nested_simple i -> load_item addr bl neg i = inr a -> stands neg i a.
Proof.
  intros addr bl neg [n v|n l] a N E; cbn [load_item nested_simple] in *.
  - destruct (memb (flag_name n) bl) eqn:M; [destruct v; cbn [add_value] in E; rewrite M in E; discriminate|]. apply (add_value_ok bl neg (vsize v)) in E; auto. econstructor; [apply flag_ok|exact E].
  - destruct (memb (flag_name n) bl); [discriminate|]. destruct N as [N1 N2]. destruct (object_text addr l N1 N2) as (t & b & E' & S & P). rewrite E' in E. injection E as <-. econstructor; eauto. apply flag_ok.
Qed.
Lemma load_ok : forall addr bl neg l a, Forall nested_simple l -> load addr bl neg l = inr a -> file_args neg l a.
Proof.
  intros addr bl neg. induction l as [|i l IH]; intros a F E; cbn [load] in E. { injection E as <-. constructor. }
  inversion F; subst. destruct (load_item addr bl neg i) as [x|b] eqn:E1; [discriminate|]. destruct (load addr bl neg l) as [x|c] eqn:E2; [discriminate|]. injection E as <-.
  constructor; [eapply load_item_ok; eauto|auto].
Qed.
Lemma load_found : forall addr bl neg l a, Forall is_value l -> (forall i f, In i l -> flag_of (entry_flag i) f -> ~ In f bl) -> file_args neg l a -> load addr bl neg l = inr a.
Proof.
  intros addr bl neg l a V B H. induction H as [|i l a b S H IH]; [reflexivity|]. inversion V; subst. cbn [load].
  assert (E : load_item addr bl neg i = inr a).
  { destruct i as [n v|n l0]; [|destruct H2]. inversion S as [? ? f ? ? F M|]; subst. rewrite (flag_unique n f F) in M. apply (add_value_ok bl neg (vsize v)); auto. apply memb_no. apply (B (Assign n v)); [now left|apply flag_ok]. }
  rewrite E, IH; auto. intros j f I. apply B. now right.
Qed.
Lemma load_forbidden : forall addr bl neg l a, load addr bl neg l = inr a -> forall i f, In i l -> flag_of (entry_flag i) f -> ~ In f bl.
Proof.
  intros addr bl neg. induction l as [|i l IH]; intros a E j f I F; [destruct I|]. cbn [load] in E. destruct (load_item addr bl neg i) as [x|b] eqn:E1; [discriminate|]. destruct (load addr bl neg l) as [x|c] eqn:E2; [discriminate|].
  destruct I as [<- | I]; [|eapply IH; eauto]. apply flag_unique in F. subst f. apply memb_no. destruct i as [n v|n l0]; cbn [entry_flag load_item] in *.
  - destruct (memb (flag_name n) bl) eqn:M; auto. destruct v; cbn [add_value] in E1; rewrite M in E1; discriminate.
  - destruct (memb (flag_name n) bl) eqn:M; auto. discriminate.
Qed.
Lemma stands_nested_inv : forall n l f t, stands none (Nested n l) [f; t] -> exists a, stands_all l a /\ parse_cmd_line t = a.
Proof. intros n l f t H. inversion H; subst. eauto. Qed.
Lemma file_args_one : forall neg i a, file_args neg [i] a -> stands neg i a.
Proof. intros neg i a H. inversion H as [|? ? b c S F]; subst. inversion F; subst. now rewrite app_nil_r. Qed.
Lemma stands_all_value : forall n v a, stands_all [Assign n v] a -> means none (flag_name n) v a.
Proof. intros n v a H. inversion H as [|? ? b c S F]; subst. inversion F; subst. rewrite app_nil_r. inversion S as [? ? f ? ? Q M|]; subst. apply flag_unique in Q. now subst. Qed.
Lemma means_str : forall neg f s a, means neg f (PStr s) a -> a = [f; s].
Proof. intros neg f s a H. now inversion H. Qed.
Lemma means_num1 : forall neg f s a, means neg f (PArr [PNum s]) a -> a = [f; s].
Proof. intros neg f s a H. inversion H as [| | | | |? ? M]; subst. inversion M as [|? ? b c M1 M2]; subst. inversion M1; subst. inversion M2; subst. reflexivity. Qed.
