(** Proofs about comprehensions: where clauses as filters over the full enumeration. *)
From Coq Require Import ZArith List Bool Arith Lia Sorting.Sorted.
From Verif Require Import CompModel CompSpec.
Import ListNotations.

Inductive step : Type :=
| SIn (d : nat) (l : store -> list Z)
| SAsn (d : nat) (e : store -> Z)
| STest (f : store -> bool).

Fixpoint run (st : list step) (s : store) : list store :=
  match st with
  | [] => [s]
  | SIn d l :: r => flat_map (fun v => run r (upd s d v)) (l s)
  | SAsn d e :: r => run r (upd s d (e s))
  | STest f :: r => if f s then run r s else []
  end.

Definition sdecl (x : step) : list nat :=
  match x with SIn d _ => [d] | SAsn d _ => [d] | STest _ => [] end.
Definition sdecls (st : list step) : list nat := flat_map sdecl st.
Definition erase (st : list step) : list step :=
  filter (fun x => match x with STest _ => false | _ => true end) st.
Definition tests (st : list step) : list (store -> bool) :=
  flat_map (fun x => match x with STest f => [f] | _ => [] end) st.

Fixpoint stable (st : list step) : Prop :=
  match st with
  | [] => True
  | STest f :: r => ignores (sdecls r) f /\ stable r
  | _ :: r => stable r
  end.

Lemma upd_other s d v x : x <> d -> upd s d v x = s x.
Proof. intros H. unfold upd. destruct (Nat.eqb_spec x d); congruence. Qed.
Lemma upd_same s d v : upd s d v d = v.
Proof. unfold upd. now rewrite Nat.eqb_refl. Qed.

Lemma run_agree st : forall s s', In s' (run st s) -> forall x, ~ In x (sdecls st) -> s' x = s x.
Proof.
  induction st as [|a st IH]; intros s s' H x Hx.
  - destruct H as [<-|[]]. reflexivity.
  - destruct a as [d l|d e|f]; cbn [run] in H; cbn [sdecls flat_map sdecl app] in Hx.
    + apply in_flat_map in H. destruct H as (v & _ & H).
      rewrite (IH _ _ H) by (intro; apply Hx; right; assumption).
      apply upd_other. intro; apply Hx; left; congruence.
    + rewrite (IH _ _ H) by (intro; apply Hx; right; assumption).
      apply upd_other. intro; apply Hx; left; congruence.
    + destruct (f s); [|destruct H]. apply (IH _ _ H). assumption.
Qed.

Lemma filter_flat_map {A B} (p : B -> bool) (f : A -> list B) l :
  filter p (flat_map f l) = flat_map (fun a => filter p (f a)) l.
Proof. induction l; [reflexivity|]. cbn. now rewrite filter_app, IHl. Qed.
Lemma flat_map_ext_in {A B} (f g : A -> list B) l :
  (forall a, In a l -> f a = g a) -> flat_map f l = flat_map g l.
Proof.
  induction l; intros H; [reflexivity|]. cbn. rewrite H by (left; reflexivity).
  f_equal. apply IHl. intros; apply H; right; assumption.
Qed.
Lemma filter_all {A} (p : A -> bool) l : (forall a, In a l -> p a = true) -> filter p l = l.
Proof.
  induction l; intros H; [reflexivity|]. cbn. rewrite H by (left; reflexivity).
  f_equal. apply IHl. intros; apply H; right; assumption.
Qed.
Lemma filter_none {A} (p : A -> bool) l : (forall a, In a l -> p a = false) -> filter p l = [].
Proof.
  induction l; intros H; [reflexivity|]. cbn. rewrite H by (left; reflexivity).
  apply IHl. intros; apply H; right; assumption.
Qed.
Lemma filter_filter {A} (p q : A -> bool) l :
  filter p (filter q l) = filter (fun a => q a && p a) l.
Proof. induction l; [reflexivity|]. cbn. destruct (q a); cbn; [destruct (p a)|]; now rewrite IHl. Qed.

Lemma sdecls_erase st : sdecls (erase st) = sdecls st.
Proof.
  induction st as [|a st IH]; [reflexivity|].
  destruct a; cbn; [f_equal|f_equal|]; exact IH.
Qed.

Definition pass (st : list step) (s : store) : bool := forallb (fun f => f s) (tests st).

Lemma run_filter st : forall s, stable st -> run st s = filter (pass st) (run (erase st) s).
Proof.
  induction st as [|a st IH]; intros s H; [reflexivity|].
  destruct a as [d l|d e|f]; cbn [run erase filter].
  - rewrite filter_flat_map. apply flat_map_ext_in. intros v _. apply IH. exact H.
  - apply IH. exact H.
  - destruct H as [Hf H].
    assert (E : forall s', In s' (run (erase st) s) -> f s' = f s).
    { intros s' Hs'. apply Hf. intros x Hx. apply (run_agree (erase st)); [exact Hs'|].
      rewrite sdecls_erase. exact Hx. }
    fold (erase st). destruct (f s).
    + rewrite IH by exact H. apply filter_ext_in. intros s' Hs'.
      unfold pass at 2. cbn. rewrite (E _ Hs'). reflexivity.
    + rewrite filter_none; [reflexivity|]. intros s' Hs'.
      unfold pass. cbn. rewrite (E _ Hs'). reflexivity.
Qed.

Lemma run_snoc st f : forall s, run (st ++ [STest f]) s = filter f (run st s).
Proof.
  induction st as [|a st IH]; intros s.
  - reflexivity.
  - destruct a as [d l|d e|g]; cbn [run app].
    + rewrite filter_flat_map. apply flat_map_ext_in. intros; apply IH.
    + apply IH.
    + destruct (g s); [apply IH|reflexivity].
Qed.

(** ** From generators to steps *)
Definition wtrue (w : wexp) (s : store) : bool :=
  match weval w s with Some true => true | _ => false end.
Definition wtest (w : option wexp) : list step :=
  match w with None => [] | Some e => [STest (wtrue e)] end.
Definition gsteps (g : gen) : list step :=
  match g with
  | GIn ds _ src w => map (fun d => SIn d src) ds ++ wtest w
  | GAsn d e => [SAsn d e]
  end.
Definition steps (gs : list gen) : list step := flat_map gsteps gs.

Lemma sdecls_app a b : sdecls (a ++ b) = sdecls a ++ sdecls b.
Proof. apply flat_map_app. Qed.
Lemma sdecls_in ds src : sdecls (map (fun d => SIn d src) ds) = ds.
Proof. induction ds; [reflexivity|]. cbn. f_equal. exact IHds. Qed.
Lemma sdecls_wtest w : sdecls (wtest w) = [].
Proof. destruct w; reflexivity. Qed.
Lemma sdecls_steps gs : sdecls (steps gs) = decls gs.
Proof.
  induction gs as [|g gs IH]; [reflexivity|].
  cbn [steps flat_map decls]. rewrite sdecls_app. f_equal; [|exact IH].
  destruct g; cbn [gsteps gdecls]; [|reflexivity].
  rewrite sdecls_app, sdecls_in, sdecls_wtest. apply app_nil_r.
Qed.

Lemma ignores_incl {A} xs ys (f : store -> A) : incl xs ys -> ignores ys f -> ignores xs f.
Proof. intros I H s s' E. apply H. intros x Hx. apply E. intro; apply Hx, I; assumption. Qed.
Lemma ignores_upd {A} xs (f : store -> A) s d v : ignores xs f -> In d xs -> f (upd s d v) = f s.
Proof. intros H I. apply H. intros x Hx. apply upd_other. intro; subst; auto. Qed.

Lemma concat_all_some {A B} (f : A -> list B) l :
  concat_all (map (fun a => Some (f a)) l) = Some (flat_map f l).
Proof. induction l; [reflexivity|]. cbn. now rewrite IHl. Qed.

Lemma each_run src rest k : forall ds s,
  ignores ds src -> (forall s', k s' = Some (run rest s')) ->
  each ds (src s) k s = Some (run (map (fun d => SIn d src) ds ++ rest) s).
Proof.
  induction ds as [|d ds IH]; intros s H K; [apply K|].
  cbn [each map app run]. rewrite <- concat_all_some. f_equal. apply map_ext_in. intros v _.
  rewrite <- (ignores_upd (d :: ds) src s d v H (or_introl eq_refl)).
  apply IH; [|exact K]. eapply ignores_incl; [|exact H]. intros x; right; assumption.
Qed.

Lemma never_stops_eval w s : never_stops w -> weval w s <> None.
Proof.
  induction w as [a IHa b IHb|p ids f]; cbn.
  - intros [Ha Hb]. destruct (weval a s) as [[|]|]; [apply IHb; exact Hb|discriminate|].
    exfalso; apply IHa; auto.
  - auto.
Qed.

Lemma elements_steps gs : forall s, scoped gs -> wheres_total gs ->
  elements gs s = Some (run (steps gs) s).
Proof.
  induction gs as [|g gs IH]; intros s Sc T; [reflexivity|].
  inversion_clear T as [|? ? Tg T'].
  destruct g as [ds vub src w|d e].
  - destruct Sc as (_ & Hsrc & _ & _ & Sc).
    cbn [elements steps flat_map gsteps]. rewrite <- app_assoc. apply each_run.
    + eapply ignores_incl; [|exact Hsrc]. apply incl_appl, incl_refl.
    + intros s'. destruct w as [w|]; cbn [wtest app run]; [|apply IH; assumption].
      unfold wtrue. pose proof (never_stops_eval w s' Tg).
      destruct (weval w s') as [[|]|]; [apply IH; assumption|reflexivity|congruence].
  - destruct Sc as [_ Sc]. cbn. apply IH; assumption.
Qed.

Lemma weval_ignores later w : part_ok later w -> ignores later (weval w).
Proof.
  induction w as [a IHa b IHb|p ids f]; cbn [part_ok weval].
  - intros [Ha Hb] s s' E. cbn. rewrite (IHa Ha s s' E), (IHb Hb s s' E). reflexivity.
  - intros [Hr Hi] s s' E. apply Hr. intros x Hx. apply E. apply Hi. exact Hx.
Qed.
Lemma wtrue_ignores later w : part_ok later w -> ignores later (wtrue w).
Proof. intros H s s' E. unfold wtrue. now rewrite (weval_ignores later w H s s' E). Qed.

Lemma stable_in ds src r : stable r -> stable (map (fun d => SIn d src) ds ++ r).
Proof. induction ds; [auto|]. cbn. assumption. Qed.
Lemma stable_steps gs : scoped gs -> stable (steps gs).
Proof.
  induction gs as [|g gs IH]; [intros; exact I|].
  destruct g as [ds vub src w|d e].
  - intros (_ & _ & _ & Hw & Sc). cbn [steps flat_map gsteps]. rewrite <- app_assoc.
    apply stable_in. destruct w as [w|]; cbn [wtest app stable]; [|apply IH; exact Sc].
    split; [|apply IH; exact Sc].
    change (flat_map gsteps gs) with (steps gs). rewrite sdecls_steps. apply wtrue_ignores. exact Hw.
  - intros [_ Sc]. cbn. apply IH; exact Sc.
Qed.

Lemma erase_app a b : erase (a ++ b) = erase a ++ erase b.
Proof. apply filter_app. Qed.
Lemma erase_in ds src : erase (map (fun d => SIn d src) ds) = map (fun d => SIn d src) ds.
Proof. apply filter_all. intros a H. apply in_map_iff in H. now destruct H as (? & <- & _). Qed.
Lemma erase_wtest w : erase (wtest w) = [].
Proof. destruct w; reflexivity. Qed.
Lemma pass_app a b s : pass (a ++ b) s = pass a s && pass b s.
Proof. unfold pass, tests. rewrite flat_map_app. apply forallb_app. Qed.
Lemma pass_in ds src s : pass (map (fun d => SIn d src) ds) s = true.
Proof. induction ds; [reflexivity|]. exact IHds. Qed.

(** Two generator lists with the same variables over the same values and where clauses that
    say the same together have the same elements. *)
Lemma same_elements gs1 gs2 s :
  scoped gs1 -> scoped gs2 -> wheres_total gs1 -> wheres_total gs2 ->
  erase (steps gs1) = erase (steps gs2) ->
  (forall s', pass (steps gs1) s' = pass (steps gs2) s') ->
  elements gs1 s = elements gs2 s.
Proof.
  intros S1 S2 T1 T2 E P. rewrite !elements_steps by assumption. f_equal.
  rewrite (run_filter _ s (stable_steps _ S1)), (run_filter _ s (stable_steps _ S2)), E.
  apply filter_ext. exact P.
Qed.

(** ** Conjunctions *)
Lemma wtrue_and a b s : wtrue (WAnd a b) s = wtrue a s && wtrue b s.
Proof. unfold wtrue. cbn. destruct (weval a s) as [[|]|]; reflexivity. Qed.
Lemma wtrue_fold ws : forall w s, wtrue (fold_left WAnd ws w) s = wtrue w s && forallb (fun p => wtrue p s) ws.
Proof.
  induction ws as [|a ws IH]; intros w s; cbn; [now rewrite andb_true_r|].
  rewrite IH, wtrue_and. now rewrite andb_assoc.
Qed.
Lemma wtrue_parts w s : wtrue w s = forallb (fun p => wtrue p s) (where_parts w).
Proof.
  induction w as [a IHa b IHb|p ids f]; cbn [where_parts].
  - rewrite wtrue_and, forallb_app, IHa, IHb. reflexivity.
  - cbn. now rewrite andb_true_r.
Qed.
Lemma part_ok_fold later ws : forall w, part_ok later w -> Forall (part_ok later) ws -> part_ok later (fold_left WAnd ws w).
Proof.
  induction ws as [|a ws IH]; intros w Hw H; [exact Hw|]. inversion_clear H.
  cbn. apply IH; [split; assumption|assumption].
Qed.
Lemma never_fold ws : forall w, never_stops w -> Forall never_stops ws -> never_stops (fold_left WAnd ws w).
Proof.
  induction ws as [|a ws IH]; intros w Hw H; [exact Hw|]. inversion_clear H.
  cbn. apply IH; [split; assumption|assumption].
Qed.
Lemma parts_ok later w : part_ok later w -> Forall (part_ok later) (where_parts w).
Proof.
  induction w as [a IHa b IHb|p ids f]; cbn [where_parts].
  - intros [Ha Hb]. apply Forall_app. auto.
  - intros H. constructor; [exact H|constructor].
Qed.
Lemma parts_never w : never_stops w -> Forall never_stops (where_parts w).
Proof.
  induction w as [a IHa b IHb|p ids f]; cbn [where_parts].
  - intros [Ha Hb]. apply Forall_app. auto.
  - intros H. constructor; [exact H|constructor].
Qed.
