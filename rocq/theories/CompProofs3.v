(** Proofs about comprehensions: variable sets and variable where clauses become conditions. *)
From Coq Require Import ZArith List Bool Arith Lia Sorting.Sorted.
From Verif Require Import CompModel CompSpec CompProofs CompProofs2.
Import ListNotations.

(** ** Splitting a where clause *)
Definition todo_size (l : list (wexp * wexp)) : nat :=
  fold_right (fun ab n => wsize (WAnd (fst ab) (snd ab)) + n) 0 l.
Definition all_true (s : store) (l : list wexp) : bool := forallb (fun w => wtrue w s) l.
Definition todo_true (s : store) (l : list (wexp * wexp)) : bool :=
  forallb (fun ab => wtrue (WAnd (fst ab) (snd ab)) s) l.

Definition closed (P : wexp -> Prop) : Prop :=
  forall a b, P (WAnd a b) <-> P a /\ P b.
Definition todo_all (P : wexp -> Prop) (l : list (wexp * wexp)) : Prop :=
  Forall (fun ab => P (WAnd (fst ab) (snd ab))) l.

Definition st_true (s : store) (st : list wexp * list wexp * list (wexp * wexp)) : bool :=
  all_true s (fst (fst st)) && all_true s (snd (fst st)) && todo_true s (snd st).
Definition st_all (P : wexp -> Prop) (st : list wexp * list wexp * list (wexp * wexp)) : Prop :=
  Forall P (fst (fst st)) /\ Forall P (snd (fst st)) /\ todo_all P (snd st).

Lemma operand_size e p v t : todo_size (snd (split_operand e (p, v, t))) <= wsize e + todo_size t.
Proof.
  unfold split_operand. destruct (wpar e); [cbn [snd]; lia|]. destruct e as [a b|]; cbn [snd]; [|lia].
  change (todo_size ((a, b) :: t)) with (wsize (WAnd a b) + todo_size t). lia.
Qed.
Lemma operand_true s e st : st_true s (split_operand e st) = wtrue e s && st_true s st.
Proof.
  destruct st as [[p v] t]. unfold split_operand, st_true.
  destruct (wpar e) eqn:Q; [|destruct e as [a b|q ids f]]; cbn [fst snd].
  - unfold all_true. rewrite forallb_app. cbn.
    destruct (forallb _ p), (forallb _ v), (todo_true s t), (wtrue e s); reflexivity.
  - unfold todo_true at 1. cbn [forallb fst snd]. fold (todo_true s t).
    destruct (all_true s p), (all_true s v), (todo_true s t), (wtrue (WAnd a b) s); reflexivity.
  - unfold all_true. rewrite forallb_app. cbn.
    destruct (forallb _ p), (forallb _ v), (todo_true s t), (wtrue (WAtom q ids f) s); reflexivity.
Qed.
Lemma operand_all P e st : closed P -> P e -> st_all P st -> st_all P (split_operand e st).
Proof.
  destruct st as [[p v] t]. intros C He (Hp & Hv & Ht). unfold split_operand, st_all in *.
  cbn [fst snd] in *.
  destruct (wpar e) eqn:Q; [|destruct e as [a b|q ids f]]; cbn [fst snd].
  - split; [apply Forall_app; split; [exact Hp|constructor; [exact He|constructor]]|]. auto.
  - split; [exact Hp|]. split; [exact Hv|]. constructor; [exact He|exact Ht].
  - split; [exact Hp|]. split; [|exact Ht].
    apply Forall_app; split; [exact Hv|constructor; [exact He|constructor]].
Qed.

Lemma split_spec s : forall fuel st, todo_size (snd st) <= fuel ->
  all_true s (fst (split_where fuel st)) && all_true s (snd (split_where fuel st)) = st_true s st.
Proof.
  induction fuel as [|fuel IH]; intros [[p v] t] H.
  - cbn [snd] in H. destruct t as [|[a b] t]; [|cbn in H; lia].
    unfold st_true. cbn. now rewrite andb_true_r.
  - cbn [split_where]. destruct t as [|[a b] t].
    + unfold st_true. cbn. now rewrite andb_true_r.
    + rewrite IH.
      * rewrite !operand_true. unfold st_true. cbn [fst snd todo_true forallb].
        rewrite wtrue_and. fold (todo_true s t).
        destruct (wtrue a s), (wtrue b s), (all_true s p), (all_true s v), (todo_true s t); reflexivity.
      * change (S (wsize a + wsize b) + todo_size t <= S fuel) in H.
        destruct (split_operand b (p, v, t)) as [[p1 v1] t1] eqn:E.
        pose proof (operand_size b p v t) as B. rewrite E in B. cbn [snd] in B.
        pose proof (operand_size a p1 v1 t1). lia.
Qed.
Lemma split_all P : closed P -> forall fuel st, st_all P st ->
  Forall P (fst (split_where fuel st)) /\ Forall P (snd (split_where fuel st)).
Proof.
  intros C. induction fuel as [|fuel IH]; intros [[p v] t] H.
  - destruct H as (Hp & Hv & _). split; assumption.
  - cbn [split_where]. destruct t as [|[a b] t].
    + destruct H as (Hp & Hv & _). split; assumption.
    + apply IH. destruct H as (Hp & Hv & Ht). cbn [fst snd] in *.
      inversion_clear Ht as [|? ? Hab Ht']. cbn [fst snd] in Hab. apply C in Hab. destruct Hab.
      apply operand_all; [exact C|assumption|]. apply operand_all; [exact C|assumption|].
      split; [exact Hp|]. split; assumption.
Qed.

Definition opt_true (w : option wexp) (s : store) : bool :=
  match w with None => true | Some e => wtrue e s end.
Definition opt_all (P : wexp -> Prop) (w : option wexp) : Prop :=
  match w with None => True | Some e => P e end.

Lemma fold_all P : closed P -> forall ws w, P w -> Forall P ws -> P (fold_left WAnd ws w).
Proof.
  intros C. induction ws as [|a ws IH]; intros w Hw H; [exact Hw|]. inversion_clear H.
  cbn. apply IH; [apply C; split; assumption|assumption].
Qed.

Lemma flat_where_true w s :
  opt_true w s = opt_true (fst (flat_where w)) s && all_true s (snd (flat_where w)).
Proof.
  destruct w as [e|]; [|reflexivity]. unfold flat_where. destruct (wpar e) eqn:Q.
  - cbn. now rewrite andb_true_r.
  - destruct e as [a b|q ids f].
    + pose proof (split_spec s (wsize (WAnd a b)) ([], [], [(a, b)])) as H.
      destruct (split_where (wsize (WAnd a b)) ([], [], [(a, b)])) as [p v]. cbn [fst snd] in *.
      assert (A : opt_true (match p with [] => None | p :: ps => Some (fold_left WAnd ps p) end) s
                  = all_true s p).
      { destruct p as [|p ps]; [reflexivity|]. apply wtrue_fold. }
      rewrite A, H by (cbn; lia). unfold st_true. cbn [fst snd all_true todo_true forallb opt_true].
      now rewrite !andb_true_r.
    + cbn. now rewrite andb_true_r.
Qed.
Lemma flat_where_all P w : closed P -> opt_all P w ->
  opt_all P (fst (flat_where w)) /\ Forall P (snd (flat_where w)).
Proof.
  intros C H. destruct w as [e|]; [|split; [exact I|constructor]].
  unfold flat_where. destruct (wpar e) eqn:Q; [split; [exact H|constructor]|].
  destruct e as [a b|q ids f].
  - pose proof (split_all P C (wsize (WAnd a b)) ([], [], [(a, b)])) as S.
    destruct (split_where (wsize (WAnd a b)) ([], [], [(a, b)])) as [p v]. cbn [fst snd] in *.
    destruct S as [Sp Sv].
    { split; [constructor|]. split; [constructor|]. constructor; [exact H|constructor]. }
    split; [|exact Sv]. destruct p as [|p ps]; [exact I|]. inversion_clear Sp.
    apply fold_all; assumption.
  - split; [exact I|]. constructor; [exact H|constructor].
Qed.

Lemma closed_part later : closed (part_ok later).
Proof. intros a b; cbn; tauto. Qed.
Lemma closed_never : closed never_stops.
Proof. intros a b; cbn; tauto. Qed.

(** ** Variable sets *)
Definition mem (d : nat) (src : store -> list Z) (s : store) : bool := existsb (Z.eqb (s d)) (src s).

Lemma sorted_filter : forall b a : list Z,
  StronglySorted Z.lt a -> StronglySorted Z.lt b -> incl a b ->
  a = filter (fun v => existsb (Z.eqb v) a) b.
Proof.
  induction b as [|y b IH]; intros a Ha Hb Hi.
  - destruct a as [|x a]; [reflexivity|]. destruct (Hi x); left; reflexivity.
  - inversion_clear Hb as [|? ? Hb' Hy]. rewrite Forall_forall in Hy.
    destruct a as [|x a].
    + rewrite filter_none; [reflexivity|]. reflexivity.
    + inversion_clear Ha as [|? ? Ha' Hx]. rewrite Forall_forall in Hx.
      destruct (Z.eq_dec x y) as [->|N].
      * cbn [filter]. cbn [existsb]. rewrite Z.eqb_refl. cbn [orb]. f_equal.
        rewrite (IH a Ha' Hb') at 1.
        -- apply filter_ext_in. intros v Hv. specialize (Hy _ Hv).
           destruct (Z.eqb_spec v y); [lia|reflexivity].
        -- intros z Hz. specialize (Hx _ Hz). destruct (Hi z (or_intror Hz)); [lia|assumption].
      * assert (y < x)%Z by (destruct (Hi x (or_introl eq_refl)); [congruence|auto]).
        assert (E : existsb (Z.eqb y) (x :: a) = false).
        { apply not_true_is_false. intros X. apply existsb_exists in X.
          destruct X as (z & Hz & Ez). apply Z.eqb_eq in Ez. subst z.
          destruct Hz as [Hz|Hz]; [lia|]. specialize (Hx _ Hz). lia. }
        cbn [filter]. rewrite E. apply IH; [constructor; [assumption|apply Forall_forall; assumption]|assumption|].
        intros z Hz. destruct (Hi z Hz) as [<-|]; [|assumption]. exfalso.
        destruct Hz as [Hz|Hz]; [lia|]. specialize (Hx _ Hz). lia.
Qed.

Lemma flat_map_filter {A B} (p : A -> bool) (f : A -> list B) l :
  flat_map f (filter p l) = flat_map (fun a => if p a then f a else []) l.
Proof. induction l; [reflexivity|]. cbn. destruct (p a); cbn; now rewrite IHl. Qed.

Definition msteps1 (g : gen) : list step :=
  match g with
  | GIn ds (Some ub) src w => flat_map (fun d => [SIn d ub; STest (mem d src)]) ds ++ wtest w
  | _ => gsteps g
  end.
Definition msteps (gs : list gen) : list step := flat_map msteps1 gs.

Lemma run_wtest w r r' : (forall s, run r s = run r' s) -> forall s, run (wtest w ++ r) s = run (wtest w ++ r') s.
Proof. intros H s. destruct w as [e|]; cbn; [rewrite H; reflexivity|apply H]. Qed.

Lemma run_mem_ds ub src r r' :
  (forall s, StronglySorted Z.lt (ub s) /\ StronglySorted Z.lt (src s) /\ incl (src s) (ub s)) ->
  (forall s, run r s = run r' s) ->
  forall ds s, ignores ds src ->
  run (map (fun d => SIn d src) ds ++ r) s
  = run (flat_map (fun d => [SIn d ub; STest (mem d src)]) ds ++ r') s.
Proof.
  intros B H. induction ds as [|d ds IH]; intros s Ig; [apply H|].
  cbn [map flat_map app run]. destruct (B s) as (Bu & Bs & Bi).
  rewrite (sorted_filter (ub s) (src s) Bs Bu Bi), flat_map_filter.
  apply flat_map_ext_in. intros v _. unfold mem. rewrite upd_same.
  rewrite (ignores_upd (d :: ds) src s d v Ig (or_introl eq_refl)).
  destruct (existsb (Z.eqb v) (src s)); [|reflexivity].
  apply IH. eapply ignores_incl; [|exact Ig]. intros x; right; assumption.
Qed.

Lemma run_same_ds src r r' : (forall s, run r s = run r' s) ->
  forall ds s, run (map (fun d => SIn d src) ds ++ r) s = run (map (fun d => SIn d src) ds ++ r') s.
Proof.
  intros H. induction ds as [|d ds IH]; intros s; [apply H|].
  cbn. apply flat_map_ext_in. intros; apply IH.
Qed.

Lemma run_msteps gs : scoped gs -> bounds_ok gs -> forall s, run (steps gs) s = run (msteps gs) s.
Proof.
  induction gs as [|g gs IH]; intros Sc B s; [reflexivity|].
  inversion_clear B as [|? ? Bg B'].
  cbn [steps msteps flat_map]. change (flat_map gsteps gs) with (steps gs).
  change (flat_map msteps1 gs) with (msteps gs).
  destruct g as [ds vub src w|d e].
  - destruct Sc as (_ & Hs & _ & _ & Sc).
    destruct vub as [ub|]; cbn [msteps1 gsteps]; rewrite <- !app_assoc.
    + apply run_mem_ds; [exact Bg|apply run_wtest; intros; apply IH; assumption|].
      eapply ignores_incl; [|exact Hs]. apply incl_appl, incl_refl.
    + apply run_same_ds. apply run_wtest. intros; apply IH; assumption.
  - destruct Sc as [_ Sc]. cbn. apply IH; assumption.
Qed.

Lemma sdecls_mem ub src ds : sdecls (flat_map (fun d => [SIn d ub; STest (mem d src)]) ds) = ds.
Proof. induction ds; [reflexivity|]. cbn. f_equal. exact IHds. Qed.
Lemma sdecls_msteps gs : sdecls (msteps gs) = decls gs.
Proof.
  induction gs as [|g gs IH]; [reflexivity|].
  cbn [msteps flat_map decls]. rewrite sdecls_app. f_equal; [|exact IH].
  destruct g as [ds [ub|] src w|]; cbn [msteps1 gsteps gdecls]; [| |reflexivity].
  - rewrite sdecls_app, sdecls_mem, sdecls_wtest. apply app_nil_r.
  - rewrite sdecls_app, sdecls_in, sdecls_wtest. apply app_nil_r.
Qed.

Lemma stable_mem ub src r : stable r -> forall ds, NoDup (ds ++ sdecls r) ->
  ignores (ds ++ sdecls r) src ->
  stable (flat_map (fun d => [SIn d ub; STest (mem d src)]) ds ++ r).
Proof.
  intros H. induction ds as [|d ds IH]; intros ND Ig; [exact H|].
  cbn [flat_map app stable]. inversion_clear ND as [|? ? Nd ND']. split.
  - rewrite sdecls_app, sdecls_mem. intros s s' E. unfold mem. rewrite (E d Nd).
    rewrite (Ig s s'); [reflexivity|]. intros x Hx. apply E. intro; apply Hx; right; assumption.
  - apply IH; [assumption|]. eapply ignores_incl; [|exact Ig]. intros x; right; assumption.
Qed.

Lemma stable_wtest w r : stable r -> match w with None => True | Some e => part_ok (sdecls r) e end ->
  stable (wtest w ++ r).
Proof. intros H Hw. destruct w as [e|]; cbn; [split; [apply wtrue_ignores; exact Hw|exact H]|exact H]. Qed.

Lemma NoDup_app_r {A} (a b : list A) : NoDup (a ++ b) -> NoDup b.
Proof. induction a; [auto|]. intros H. inversion_clear H. auto. Qed.

Lemma stable_msteps gs : NoDup (decls gs) -> scoped gs -> stable (msteps gs).
Proof.
  induction gs as [|g gs IH]; intros ND Sc; [exact I|].
  cbn [msteps flat_map]. change (flat_map msteps1 gs) with (msteps gs).
  assert (ND' : NoDup (decls gs)) by (cbn in ND; eapply NoDup_app_r; exact ND).
  destruct g as [ds vub src w|d e].
  - destruct Sc as (_ & Hs & _ & Hw & Sc).
    assert (St : stable (wtest w ++ msteps gs)).
    { apply stable_wtest; [apply IH; assumption|]. rewrite sdecls_msteps. exact Hw. }
    destruct vub as [ub|]; cbn [msteps1 gsteps]; rewrite <- app_assoc.
    + apply stable_mem; [exact St| |]; rewrite sdecls_app, sdecls_wtest, sdecls_msteps; assumption.
    + apply stable_in. exact St.
  - destruct Sc as [_ Sc]. cbn. apply IH; assumption.
Qed.

(** ** The flattened generators *)
Lemma flat_gen_decls g : gdecls (fst (flat_gen g)) = gdecls g.
Proof.
  destruct g as [ds vub src w|d e]; [|reflexivity]. cbn. destruct (flat_where w), vub; reflexivity.
Qed.
Lemma flat_decls gs : decls (flat_gens gs) = decls gs.
Proof.
  induction gs as [|g gs IH]; [reflexivity|]. cbn. change (flat_map gdecls ?x) with (decls x).
  change (map (fun g => fst (flat_gen g)) gs) with (flat_gens gs).
  now rewrite flat_gen_decls, IH.
Qed.

Lemma flat_scoped gs : scoped gs -> scoped (flat_gens gs).
Proof.
  induction gs as [|g gs IH]; intros Sc; [exact I|].
  change (flat_gens (g :: gs)) with (fst (flat_gen g) :: flat_gens gs).
  destruct g as [ds vub src w|d e].
  - destruct Sc as (N & Hs & Hu & Hw & Sc). cbn [flat_gen].
    pose proof (flat_where_all _ w (closed_part (decls gs)) Hw) as [A _].
    destruct (flat_where w) as [w' c]. cbn [fst] in A.
    destruct vub as [ub|]; cbn [fst scoped]; rewrite flat_decls;
      (split; [exact N|]; split; [assumption|]; split; [exact I|]; split; [exact A|apply IH; exact Sc]).
  - destruct Sc as [He Sc]. cbn [flat_gen fst scoped]. rewrite flat_decls. split; [exact He|apply IH; exact Sc].
Qed.

Lemma flat_total gs : wheres_total gs -> wheres_total (flat_gens gs).
Proof.
  intros T. apply Forall_forall. intros g Hg. apply in_map_iff in Hg. destruct Hg as (g0 & <- & H0).
  unfold wheres_total in T. rewrite Forall_forall in T. specialize (T _ H0).
  destruct g0 as [ds vub src w|d e]; [|exact I]. cbn [flat_gen].
  pose proof (flat_where_all never_stops w closed_never) as A.
  assert (Hw : opt_all never_stops w) by (destruct w; [exact T|exact I]).
  destruct (A Hw) as [A' _]. destruct (flat_where w) as [w' c]. cbn [fst] in A'.
  destruct vub; cbn; destruct w'; auto.
Qed.

Lemma erase_mem ub src ds :
  erase (flat_map (fun d => [SIn d ub; STest (mem d src)]) ds) = map (fun d => SIn d ub) ds.
Proof. induction ds; [reflexivity|]. cbn. f_equal. exact IHds. Qed.

Lemma flat_erase gs : erase (msteps gs) = erase (steps (flat_gens gs)).
Proof.
  induction gs as [|g gs IH]; [reflexivity|].
  change (msteps (g :: gs)) with (msteps1 g ++ msteps gs).
  change (steps (flat_gens (g :: gs))) with (gsteps (fst (flat_gen g)) ++ steps (flat_gens gs)).
  rewrite !erase_app, IH. f_equal.
  destruct g as [ds vub src w|d e]; [|reflexivity]. cbn [flat_gen].
  destruct (flat_where w) as [w' c].
  destruct vub as [ub|]; cbn [fst gsteps msteps1]; rewrite !erase_app, !erase_wtest, !app_nil_r.
  - rewrite erase_mem, erase_in. reflexivity.
  - reflexivity.
Qed.

Lemma pass_mem ub src ds s :
  pass (flat_map (fun d => [SIn d ub; STest (mem d src)]) ds) s = forallb (fun d => mem d src s) ds.
Proof. unfold pass. induction ds; [reflexivity|]. cbn. f_equal. exact IHds. Qed.
Lemma pass_wtest w s : pass (wtest w) s = opt_true w s.
Proof. destruct w; [|reflexivity]. unfold pass. cbn. apply andb_true_r. Qed.
Lemma holds_app a b s : holds (a ++ b) s = holds a s && holds b s.
Proof. apply forallb_app. Qed.
Lemma holds_member src ds s : holds (map (member src) ds) s = forallb (fun d => mem d src s) ds.
Proof.
  induction ds as [|d ds IH]; [reflexivity|].
  change (holds (map (member src) (d :: ds)) s)
    with (wtrue (member src d) s && holds (map (member src) ds) s).
  rewrite IH. unfold wtrue. cbn. unfold mem. destruct (existsb _ _); reflexivity.
Qed.

Lemma flat_pass gs s : pass (msteps gs) s = pass (steps (flat_gens gs)) s && holds (conditions gs) s.
Proof.
  induction gs as [|g gs IH]; [reflexivity|].
  change (msteps (g :: gs)) with (msteps1 g ++ msteps gs).
  change (steps (flat_gens (g :: gs))) with (gsteps (fst (flat_gen g)) ++ steps (flat_gens gs)).
  change (conditions (g :: gs)) with (snd (flat_gen g) ++ conditions gs).
  rewrite !pass_app, holds_app, IH.
  assert (E : pass (msteps1 g) s = pass (gsteps (fst (flat_gen g))) s && holds (snd (flat_gen g)) s).
  { destruct g as [ds vub src w|d e]; [|reflexivity]. cbn [flat_gen].
    pose proof (flat_where_true w s) as A.
    destruct (flat_where w) as [w' c]. cbn [fst snd] in A.
    change (holds c s) with (all_true s c).
    destruct vub as [ub|]; cbn [fst snd gsteps msteps1]; rewrite ?holds_app, ?holds_member, !pass_app,
      !pass_in, !pass_wtest, A, ?pass_mem; cbn [andb].
    - change (holds c s) with (all_true s c).
      destruct (forallb _ ds), (opt_true w' s), (all_true s c); reflexivity.
    - reflexivity. }
  rewrite E. destruct (pass (gsteps _) s), (holds (snd _) s), (pass (steps _) s), (holds (conditions gs) s); reflexivity.
Qed.

Theorem flat_elements gs s : well_formed gs -> wheres_total gs -> bounds_ok gs ->
  exists F, elements (flat_gens gs) s = Some F
            /\ elements gs s = Some (filter (holds (conditions gs)) F).
Proof.
  intros [ND Sc] T B. exists (run (steps (flat_gens gs)) s). split.
  - apply elements_steps; [apply flat_scoped; exact Sc|apply flat_total; exact T].
  - rewrite elements_steps by assumption. f_equal. rewrite run_msteps by assumption.
    rewrite (run_filter (msteps gs)) by (apply stable_msteps; assumption).
    rewrite (run_filter (steps (flat_gens gs))) by (apply stable_steps, flat_scoped; exact Sc).
    rewrite filter_filter, flat_erase. apply filter_ext. intros s'. apply flat_pass.
Qed.

(** ** The surrounding calls *)
Lemma forall_filter conds e F :
  forallb (elem_forall conds e) F = forallb e (filter (holds conds) F).
Proof.
  induction F as [|s F IH]; [reflexivity|]. cbn [forallb filter]. rewrite IH.
  unfold elem_forall at 1. destruct conds as [|c conds]; [reflexivity|].
  destruct (holds (c :: conds) s); reflexivity.
Qed.
Lemma exists_filter conds e F :
  existsb (elem_exists conds e) F = existsb e (filter (holds conds) F).
Proof.
  induction F as [|s F IH]; [reflexivity|]. cbn [existsb filter]. rewrite IH.
  unfold elem_exists at 1. destruct conds as [|c conds]; [reflexivity|].
  destruct (holds (c :: conds) s); reflexivity.
Qed.
Lemma sum_filter epar conds e F :
  (epar = true -> forall s, In s F -> e s <> None) ->
  sum_all (map (elem_sum epar conds e) F) = sum_all (map e (filter (holds conds) F)).
Proof.
  induction F as [|s F IH]; intros H; [reflexivity|]. cbn [map filter].
  assert (H' : epar = true -> forall s, In s F -> e s <> None) by (intros; apply H; [assumption|right; assumption]).
  specialize (IH H').
  assert (Hs : epar = true -> e s <> None) by (intros; apply H; [assumption|left; reflexivity]).
  unfold elem_sum at 1. destruct conds as [|c conds]; [cbn [holds forallb map]; cbn [sum_all]; rewrite IH; reflexivity|].
  destruct (holds (c :: conds) s).
  - cbn [map]. destruct epar.
    + destruct (e s) as [v|]; [|reflexivity]. cbn [sum_all]. rewrite IH, Z.mul_1_l. reflexivity.
    + cbn [sum_all]. rewrite IH. reflexivity.
  - destruct epar.
    + destruct (e s) as [v|]; [|exfalso; exact (Hs eq_refl eq_refl)]. cbn [sum_all]. rewrite IH.
      destruct (sum_all (map e _)); reflexivity.
    + cbn [sum_all]. rewrite IH. destruct (sum_all (map e _)); reflexivity.
Qed.
Lemma other_filter conds e F :
  present (map (elem_other conds e) F) = present (map (fun s => option_map Some (e s)) (filter (holds conds) F)).
Proof.
  induction F as [|s F IH]; [reflexivity|]. cbn [map filter].
  unfold elem_other at 1. destruct conds as [|c conds].
  - cbn [holds forallb map]. cbn [present]. destruct (e s) as [v|]; cbn; [rewrite <- IH; reflexivity|reflexivity].
  - destruct (holds (c :: conds) s).
    + cbn [map]. cbn [present]. destruct (e s) as [v|]; cbn; [rewrite <- IH; reflexivity|reflexivity].
    + cbn [present]. exact IH.
Qed.
