(** Proofs about comprehensions: where the type checker moves the parts of a where clause. *)
From Coq Require Import ZArith List Bool Arith Lia.
From Verif Require Import CompModel CompSpec CompProofs.
Import ListNotations.

Definition in_decls (gs : list gen) : list nat :=
  flat_map (fun g => match g with GIn ds _ _ _ => ds | GAsn _ _ => [] end) gs.
Definition is_in (g : gen) : Prop := match g with GIn _ _ _ _ => True | GAsn _ _ => False end.
Definition nonempty (gs : list gen) : Prop := Forall (fun g => gdecls g <> []) gs.

Lemma scoped_nonempty gs : scoped gs -> nonempty gs.
Proof.
  induction gs as [|g gs IH]; intros H; [constructor|].
  destruct g as [ds vub src w|d e].
  - destruct H as (N & _ & _ & _ & H). constructor; [exact N|apply IH; exact H].
  - destruct H as [_ H]. constructor; [discriminate|apply IH; exact H].
Qed.

Lemma split_two {A} (p1 : list A) : forall p2 a b r1 r2,
  p1 ++ a :: r1 = p2 ++ b :: r2 -> In b (a :: r1) \/ In a r2.
Proof.
  induction p1 as [|x p1 IH]; intros p2 a b r1 r2 E.
  - left. cbn in E. rewrite E. apply in_or_app. right; left; reflexivity.
  - destruct p2 as [|y p2]; cbn in E.
    + injection E as -> <-. right. apply in_or_app. right; left; reflexivity.
    + injection E as _ E. eapply IH. exact E.
Qed.

Lemma lookup_app a b x :
  lookup (a ++ b) x = match lookup a x with Some p => Some p | None => lookup b x end.
Proof. induction a as [|[y p] a IH]; [reflexivity|]. cbn. destruct (Nat.eqb x y); auto. Qed.

Lemma lookup_combine gi x : forall ds di g k,
  lookup (combine ds (map (fun k => (gi, k)) (seq di (length ds)))) x = Some (g, k) ->
  g = gi /\ exists j, nth_error ds j = Some x /\ k = di + j.
Proof.
  induction ds as [|d ds IH]; intros di g k H; [discriminate|].
  cbn in H. destruct (Nat.eqb_spec x d).
  - injection H as <- <-. split; [reflexivity|]. exists 0. subst. split; [reflexivity|lia].
  - apply IH in H. destruct H as (-> & j & Hj & ->). split; [reflexivity|].
    exists (S j). split; [exact Hj|lia].
Qed.
Lemma lookup_combine_none gi x : forall ds di,
  lookup (combine ds (map (fun k => (gi, k)) (seq di (length ds)))) x = None -> ~ In x ds.
Proof.
  induction ds as [|d ds IH]; intros di H; [auto|].
  cbn in H. destruct (Nat.eqb_spec x d); [discriminate|].
  intros [->|I]; [congruence|]. exact (IH _ H I).
Qed.

Lemma lookup_map x : forall gs gi di g k,
  lookup (generator_map gs gi di) x = Some (g, k) ->
  exists pre g0 rest j, gs = pre ++ g0 :: rest /\ g = gi + length pre
    /\ nth_error (gdecls g0) j = Some x /\ k = di + length (decls pre) + j.
Proof.
  induction gs as [|g0 gs IH]; intros gi di g k H; [discriminate|].
  cbn [generator_map] in H. rewrite lookup_app in H.
  destruct (lookup (combine _ _) x) as [[g' k']|] eqn:E.
  - injection H as -> ->. apply lookup_combine in E. destruct E as (-> & j & Hj & ->).
    exists [], g0, gs, j. cbn. repeat split; [lia|exact Hj|lia].
  - apply IH in H. destruct H as (pre & g1 & rest & j & -> & -> & Hj & ->).
    exists (g0 :: pre), g1, rest, j. cbn [app decls flat_map length]. rewrite app_length.
    change (flat_map gdecls pre) with (decls pre).
    split; [reflexivity|]. split; [lia|]. split; [exact Hj|lia].
Qed.
Lemma lookup_map_none x : forall gs gi di,
  lookup (generator_map gs gi di) x = None -> ~ In x (decls gs).
Proof.
  induction gs as [|g0 gs IH]; intros gi di H; [auto|].
  cbn [generator_map] in H. rewrite lookup_app in H.
  destruct (lookup (combine _ _) x) as [[g' k']|] eqn:E; [discriminate|].
  apply lookup_combine_none in E. apply IH in H.
  cbn. intros I. apply in_app_or in I. tauto.
Qed.

Lemma decls_app a b : decls (a ++ b) = decls a ++ decls b.
Proof. apply flat_map_app. Qed.
Lemma in_decls_incl gs : incl (in_decls gs) (decls gs).
Proof.
  intros x H. apply in_flat_map in H. destruct H as (g & Hg & H). apply in_flat_map.
  exists g. split; [exact Hg|]. destruct g; [exact H|destruct H].
Qed.

(** the current choice is a variable of a generator that is not an assignment *)
Definition inv (gs : list gen) (st : nat * nat) : Prop :=
  nth_error (decls gs) (fst st) = Some (snd st) /\ In (snd st) (in_decls gs).

Lemma inv_in gs pre ds vub src w rest j d :
  gs = pre ++ GIn ds vub src w :: rest -> nth_error ds j = Some d ->
  inv gs (length (decls pre) + j, d).
Proof.
  intros -> H. split; cbn [fst snd].
  - rewrite decls_app, nth_error_app2 by lia.
    replace (_ + j - _) with j by lia. cbn. rewrite nth_error_app1; [exact H|].
    apply nth_error_Some. congruence.
  - unfold in_decls. rewrite flat_map_app. apply in_or_app. right. cbn. apply in_or_app. left.
    eapply nth_error_In. exact H.
Qed.
Lemma hd_nth (ds : list nat) : ds <> [] -> nth_error ds 0 = Some (hd 0 ds).
Proof. destruct ds; [congruence|reflexivity]. Qed.

Lemma first_in_inv gs : nonempty gs -> forall rest pre i,
  gs = pre ++ rest -> length (decls pre) = i -> Exists is_in rest -> inv gs (first_in rest i).
Proof.
  intros NE. induction rest as [|g rest IH]; intros pre i E L X; [inversion X|].
  destruct g as [ds vub src w|d e]; cbn [first_in].
  - rewrite <- (Nat.add_0_r i), <- L.
    eapply inv_in; [exact E|]. apply hd_nth.
    subst gs. unfold nonempty in NE. rewrite Forall_app in NE. destruct NE as [_ NE].
    inversion_clear NE. assumption.
  - apply (IH (pre ++ [GAsn d e])).
    + rewrite <- app_assoc. exact E.
    + rewrite decls_app, app_length. cbn. lia.
    + inversion X as [? ? Hx|? ? Hx]; [destruct Hx|exact Hx].
Qed.

Lemma advance_inv gs : nonempty gs -> forall rest pre di d,
  gs = pre ++ rest -> Exists is_in rest ->
  match rest with
  | GIn _ _ _ _ :: _ => inv gs (di, d)
  | _ => di = length (decls pre)
  end ->
  inv gs (advance rest di d) /\ di <= fst (advance rest di d).
Proof.
  intros NE. induction rest as [|g rest IH]; intros pre di d E X H; [inversion X|].
  destruct g as [ds vub src w|d0 e].
  - cbn. split; [exact H|lia].
  - assert (X' : Exists is_in rest) by (inversion X as [? ? Hx|? ? Hx]; [destruct Hx|exact Hx]).
    cbn [advance]. destruct rest as [|g2 tl]; [inversion X'|].
    destruct (IH (pre ++ [GAsn d0 e]) (S di) (first_decl g2)) as [A B].
    + rewrite <- app_assoc. exact E.
    + exact X'.
    + assert (L : length (decls (pre ++ [GAsn d0 e])) = S di)
        by (rewrite decls_app, app_length; cbn; lia).
      destruct g2 as [ds vub src w|d2 e2]; [|symmetry; exact L].
      rewrite <- L, <- (Nat.add_0_r (length _)). cbn [first_decl].
      eapply (inv_in gs (pre ++ [GAsn d0 e])).
      * rewrite <- app_assoc. exact E.
      * apply hd_nth. subst gs. unfold nonempty in NE. rewrite Forall_app in NE.
        destruct NE as [_ NE]. inversion_clear NE as [|? ? _ NE']. inversion_clear NE'. assumption.
    + split; [exact A|lia].
Qed.

Lemma visit_inv gs pre G rest st x :
  NoDup (decls gs) -> nonempty gs -> gs = pre ++ G :: rest -> is_in G -> ~ In x (decls rest) ->
  inv gs st ->
  inv gs (visit_id gs st x) /\ fst st <= fst (visit_id gs st x)
  /\ forall k, nth_error (decls gs) k = Some x -> k <= fst (visit_id gs st x).
Proof.
  intros ND NE E HG Hx I. unfold visit_id.
  destruct (lookup (generator_map gs 0 0) x) as [[g k]|] eqn:L.
  - apply lookup_map in L. destruct L as (pre' & g0 & rest' & j & E' & -> & Hj & ->).
    cbn [Nat.add]. set (k := length (decls pre') + j).
    assert (K : nth_error (decls gs) k = Some x).
    { unfold k. rewrite E', decls_app, nth_error_app2 by lia.
      replace (_ + j - _) with j by lia. cbn. rewrite nth_error_app1; [exact Hj|].
      apply nth_error_Some. congruence. }
    assert (KU : forall k', nth_error (decls gs) k' = Some x -> k' = k).
    { intros k' Hk'. apply (NoDup_nth_error (decls gs)); [exact ND| |congruence].
      apply nth_error_Some. congruence. }
    destruct (Nat.ltb_spec (fst st) k).
    + assert (Sk : skipn (length pre') gs = g0 :: rest').
      { rewrite E', skipn_app, skipn_all, Nat.sub_diag. reflexivity. }
      rewrite Sk.
      destruct (advance_inv gs NE (g0 :: rest') pre' k x E') as [A B].
      * assert (In G (g0 :: rest') \/ In g0 rest)
          by (eapply split_two; rewrite <- E', E; reflexivity).
        destruct H0 as [H0|H0]; [apply Exists_exists; exists G; split; assumption|].
        exfalso. apply Hx. apply in_flat_map. exists g0. split; [exact H0|].
        eapply nth_error_In. exact Hj.
      * destruct g0 as [ds vub src w|d0 e0].
        -- eapply inv_in; [exact E'|exact Hj].
        -- unfold k. destruct j as [|j]; [lia|]. destruct j; discriminate Hj.
      * split; [exact A|]. split; [lia|]. intros k' Hk'. rewrite (KU _ Hk'). exact B.
    + split; [exact I|]. split; [lia|]. intros k' Hk'. rewrite (KU _ Hk'). lia.
  - split; [exact I|]. split; [lia|]. intros k Hk. apply lookup_map_none in L.
    exfalso. apply L. eapply nth_error_In. exact Hk.
Qed.

Lemma fold_visit gs pre G rest :
  NoDup (decls gs) -> nonempty gs -> gs = pre ++ G :: rest -> is_in G ->
  forall ids st, (forall x, In x ids -> ~ In x (decls rest)) -> inv gs st ->
  inv gs (fold_left (visit_id gs) ids st) /\ fst st <= fst (fold_left (visit_id gs) ids st)
  /\ forall x k, In x ids -> nth_error (decls gs) k = Some x ->
                 k <= fst (fold_left (visit_id gs) ids st).
Proof.
  intros ND NE E HG. induction ids as [|x ids IH]; intros st Hx I.
  - split; [exact I|]. split; [cbn; lia|]. intros ? ? [].
  - cbn [fold_left].
    destruct (visit_inv gs pre G rest st x ND NE E HG) as (A & B & C);
      [apply Hx; left; reflexivity|exact I|].
    destruct (IH (visit_id gs st x)) as (A' & B' & C');
      [intros; apply Hx; right; assumption|exact A|].
    split; [exact A'|]. split; [lia|]. intros y k [<-|Hy] Hk.
    + specialize (C _ Hk). lia.
    + eapply C'; eassumption.
Qed.

Lemma parts_atoms w : Forall (fun p => exists par ids f, p = WAtom par ids f) (where_parts w).
Proof.
  induction w; cbn; [apply Forall_app; auto|]. constructor; [eauto|constructor].
Qed.

Lemma part_ok_atom later later' par ids f :
  part_ok later (WAtom par ids f) -> (forall x, In x ids -> ~ In x later') ->
  part_ok later' (WAtom par ids f).
Proof. intros [H _] H'. split; assumption. Qed.

(** where a part goes *)
Lemma latest_spec gs pre ds vub src w rest p :
  NoDup (decls gs) -> nonempty gs -> gs = pre ++ GIn ds vub src (Some w) :: rest ->
  In p (where_parts w) -> part_ok (decls rest) p ->
  In (latest gs p) (in_decls gs)
  /\ forall l post, decls gs = l ++ latest gs p :: post -> part_ok post p.
Proof.
  intros ND NE E Hp Ok.
  pose proof (parts_atoms w) as A. rewrite Forall_forall in A.
  destruct (A _ Hp) as (par & ids & f & ->).
  destruct (fold_visit gs pre (GIn ds vub src (Some w)) rest ND NE E I ids (first_in gs 0))
    as ((I1 & I2) & _ & I3).
  - apply Ok.
  - apply (first_in_inv gs NE gs []); [reflexivity|reflexivity|].
    rewrite E. apply Exists_app. right. left. exact I.
  - unfold latest. cbn [atom_ids]. split; [exact I2|].
    intros l post D. eapply part_ok_atom; [exact Ok|]. intros x Hx Hpost.
    set (st := fold_left (visit_id gs) ids (first_in gs 0)) in *.
    assert (fst st = length l).
    { apply (NoDup_nth_error (decls gs)); [exact ND|apply nth_error_Some; congruence|].
      rewrite I1, D, nth_error_app2, Nat.sub_diag by lia. reflexivity. }
    apply In_nth_error in Hpost. destruct Hpost as [k Hk].
    assert (length l + S k <= fst st); [|lia].
    apply (I3 x); [exact Hx|]. rewrite D, nth_error_app2 by lia.
    replace (_ + S k - _) with (S k) by lia. exact Hk.
Qed.

Lemma in_where_map gs d p :
  In (d, p) (where_map gs) <->
  exists ds vub src w, In (GIn ds vub src (Some w)) gs /\ In p (where_parts w) /\ d = latest gs p.
Proof.
  unfold where_map. rewrite in_flat_map. split.
  - intros (g & Hg & H). destruct g as [ds vub src [w|]|]; try destruct H.
    apply in_map_iff in H. destruct H as (q & E & Hq). injection E as <- <-.
    exists ds, vub, src, w. auto.
  - intros (ds & vub & src & w & Hg & Hp & ->). exists (GIn ds vub src (Some w)).
    split; [exact Hg|]. apply in_map_iff. exists p. auto.
Qed.
Lemma in_wheres m d p : In p (wheres m d) <-> In (d, p) m.
Proof.
  unfold wheres. rewrite in_map_iff. split.
  - intros ([d' p'] & <- & H). apply filter_In in H. destruct H as [H E].
    cbn in *. apply Nat.eqb_eq in E. now subst.
  - intros H. exists (d, p). split; [reflexivity|]. apply filter_In. split; [exact H|].
    apply Nat.eqb_refl.
Qed.

Lemma scoped_part gs : scoped gs -> forall pre ds vub src w rest,
  gs = pre ++ GIn ds vub src (Some w) :: rest -> part_ok (decls rest) w.
Proof.
  induction gs as [|g gs IH]; intros Sc pre ds vub src w rest E.
  - destruct pre; discriminate.
  - destruct pre as [|g0 pre]; cbn in E; injection E as -> E.
    + subst gs. destruct Sc as (_ & _ & _ & H & _). exact H.
    + apply (IH) with (1 := match g0 as g' return scoped (g' :: gs) -> scoped gs with
                            | GIn _ _ _ _ => fun H => proj2 (proj2 (proj2 (proj2 H)))
                            | GAsn _ _ => fun H => proj2 H end Sc) (2 := E).
Qed.

Lemma where_map_spec gs d p : well_formed gs -> In (d, p) (where_map gs) ->
  In d (in_decls gs) /\ forall l post, decls gs = l ++ d :: post -> part_ok post p.
Proof.
  intros [ND Sc] H. apply in_where_map in H.
  destruct H as (ds & vub & src & w & Hg & Hp & ->).
  apply in_split in Hg. destruct Hg as (pre & rest & E).
  eapply latest_spec; [exact ND|apply scoped_nonempty; exact Sc|exact E|exact Hp|].
  pose proof (parts_ok _ _ (scoped_part gs Sc _ _ _ _ _ _ E)) as F.
  rewrite Forall_forall in F. apply F. exact Hp.
Qed.

(** ** The rebuilt generators *)
Definition tst (ws : list wexp) : list step :=
  match ws with [] => [] | w :: ws => [STest (wtrue (fold_left WAnd ws w))] end.

Lemma steps_app a b : steps (a ++ b) = steps a ++ steps b.
Proof. apply flat_map_app. Qed.

Lemma steps_split m vub src : forall ds acc, (ds = [] -> acc = []) ->
  steps (split_decls m vub src acc ds)
  = map (fun d => SIn d src) acc ++ flat_map (fun d => SIn d src :: tst (wheres m d)) ds.
Proof.
  induction ds as [|d ds IH]; intros acc H.
  - rewrite (H eq_refl). reflexivity.
  - cbn [split_decls flat_map]. destruct (wheres m d) as [|w ws].
    + destruct ds as [|d2 ds].
      * cbn. rewrite !app_nil_r, map_app. reflexivity.
      * rewrite IH by discriminate. rewrite map_app, <- app_assoc. reflexivity.
    + cbn [steps flat_map gsteps tst wtest]. change (flat_map gsteps ?x) with (steps x).
      rewrite IH by reflexivity. rewrite map_app, <- !app_assoc. reflexivity.
Qed.

Lemma decls_split m vub src : forall ds acc, (ds = [] -> acc = []) ->
  decls (split_decls m vub src acc ds) = acc ++ ds.
Proof.
  induction ds as [|d ds IH]; intros acc H.
  - rewrite (H eq_refl). reflexivity.
  - cbn [split_decls]. destruct (wheres m d) as [|w ws].
    + destruct ds as [|d2 ds].
      * cbn. rewrite !app_nil_r. reflexivity.
      * rewrite IH by discriminate. rewrite <- app_assoc. reflexivity.
    + cbn [decls flat_map gdecls]. change (flat_map gdecls ?x) with (decls x).
      rewrite IH by reflexivity. rewrite <- app_assoc. reflexivity.
Qed.

Lemma scoped_split m vub src tail : scoped tail -> forall ds acc, (ds = [] -> acc = []) ->
  ignores (acc ++ ds ++ decls tail) src ->
  match vub with None => True | Some ub => ignores (acc ++ ds ++ decls tail) ub end ->
  (forall l d post, ds = l ++ d :: post -> Forall (part_ok (post ++ decls tail)) (wheres m d)) ->
  scoped (split_decls m vub src acc ds ++ tail).
Proof.
  intros St. induction ds as [|d ds IH]; intros acc H Hs Hu Hw.
  - exact St.
  - cbn [split_decls]. pose proof (Hw [] d ds eq_refl) as W.
    assert (Hw' : forall l d0 post, ds = l ++ d0 :: post ->
                  Forall (part_ok (post ++ decls tail)) (wheres m d0))
      by (intros l d0 post ->; apply (Hw (d :: l)); reflexivity).
    destruct (wheres m d) as [|w ws].
    + destruct ds as [|d2 ds].
      * cbn [app scoped]. split; [destruct acc; discriminate|].
        rewrite <- app_assoc. cbn in Hs, Hu |- *.
        split; [exact Hs|]. split; [exact Hu|]. split; [exact I|exact St].
      * apply IH; try assumption; [discriminate| |];
          rewrite <- app_assoc; assumption.
    + cbn [app scoped]. rewrite decls_app, decls_split by reflexivity. cbn [app].
      split; [destruct acc; discriminate|]. rewrite <- app_assoc. cbn [app] in *.
      split; [exact Hs|]. split; [exact Hu|]. inversion_clear W.
      split; [apply part_ok_fold; assumption|].
      apply IH; try assumption; [reflexivity| |].
      * eapply ignores_incl; [|exact Hs]. intros x Hx. apply in_or_app. right. right. exact Hx.
      * destruct vub; [|exact I]. eapply ignores_incl; [|exact Hu].
        intros x Hx. apply in_or_app. right. right. exact Hx.
Qed.

(** conditions on the map, relative to a suffix of the generators *)
Definition map_ok (m : list (nat * wexp)) (gs : list gen) : Prop :=
  (forall d e, In (GAsn d e) gs -> wheres m d = [])
  /\ forall l d post, decls gs = l ++ d :: post -> Forall (part_ok post) (wheres m d).

Lemma map_ok_tail m g gs : map_ok m (g :: gs) -> map_ok m gs.
Proof.
  intros [A B]. split.
  - intros d e H. apply (A d e). right. exact H.
  - intros l d post E. apply (B (gdecls g ++ l)). cbn. change (flat_map gdecls gs) with (decls gs).
    rewrite E. apply app_assoc.
Qed.

Lemma nonempty_nil {A} (ds acc : list A) : ds <> [] -> ds = [] -> acc = [].
Proof. congruence. Qed.

Lemma rebuild_decls m : forall gs, map_ok m gs -> scoped gs ->
  decls (flat_map (rebuild_gen m) gs) = decls gs.
Proof.
  induction gs as [|g gs IH]; intros M Sc; [reflexivity|].
  pose proof (map_ok_tail _ _ _ M) as M'.
  cbn [flat_map]. rewrite decls_app. cbn [decls flat_map].
  change (flat_map gdecls gs) with (decls gs).
  destruct g as [ds vub src w|d e]; cbn [rebuild_gen gdecls].
  - destruct Sc as (N & _ & _ & _ & Sc). rewrite IH by assumption.
    f_equal. apply decls_split. reflexivity.
  - destruct Sc as (_ & Sc). destruct M as [A _]. rewrite (A d e (or_introl eq_refl)).
    rewrite IH by assumption. reflexivity.
Qed.

Lemma rebuild_scoped m : forall gs, map_ok m gs -> scoped gs ->
  scoped (flat_map (rebuild_gen m) gs).
Proof.
  induction gs as [|g gs IH]; intros M Sc; [exact I|].
  pose proof (map_ok_tail _ _ _ M) as M'.
  cbn [flat_map]. destruct g as [ds vub src w|d e]; cbn [rebuild_gen].
  - destruct Sc as (N & Hs & Hu & _ & Sc).
    apply scoped_split; [apply IH; assumption|reflexivity| | |].
    + rewrite rebuild_decls by assumption. exact Hs.
    + rewrite rebuild_decls by assumption. exact Hu.
    + intros l d post E. rewrite rebuild_decls by assumption. destruct M as [_ B].
      apply (B l). cbn. rewrite E, <- app_assoc. reflexivity.
  - destruct Sc as (He & Sc). destruct M as [A _]. rewrite (A d e (or_introl eq_refl)).
    cbn [app scoped]. rewrite rebuild_decls by assumption. split; [exact He|apply IH; assumption].
Qed.

Lemma erase_flat src m ds :
  erase (flat_map (fun d => SIn d src :: tst (wheres m d)) ds) = map (fun d => SIn d src) ds.
Proof.
  induction ds as [|d ds IH]; [reflexivity|]. cbn [flat_map map]. rewrite erase_app, IH.
  destruct (wheres m d); reflexivity.
Qed.

Lemma rebuild_erase m : forall gs, map_ok m gs -> scoped gs ->
  erase (steps (flat_map (rebuild_gen m) gs)) = erase (steps gs).
Proof.
  induction gs as [|g gs IH]; intros M Sc; [reflexivity|].
  pose proof (map_ok_tail _ _ _ M) as M'.
  cbn [flat_map]. rewrite steps_app, erase_app.
  change (steps (g :: gs)) with (gsteps g ++ steps gs). rewrite erase_app.
  destruct g as [ds vub src w|d e]; cbn [rebuild_gen].
  - destruct Sc as (N & _ & _ & _ & Sc). rewrite IH by assumption. f_equal.
    rewrite steps_split by reflexivity. cbn [map app gsteps].
    rewrite erase_flat, erase_app, erase_in, erase_wtest. symmetry; apply app_nil_r.
  - destruct Sc as (_ & Sc). destruct M as [A _]. rewrite (A d e (or_introl eq_refl)).
    rewrite IH by assumption. reflexivity.
Qed.

Lemma pass_tst ws s : pass (tst ws) s = forallb (fun p => wtrue p s) ws.
Proof.
  destruct ws as [|w ws]; [reflexivity|]. unfold pass. cbn. rewrite andb_true_r. apply wtrue_fold.
Qed.
Lemma pass_flat src m ds s :
  pass (flat_map (fun d => SIn d src :: tst (wheres m d)) ds) s
  = forallb (fun d => forallb (fun p => wtrue p s) (wheres m d)) ds.
Proof.
  induction ds as [|d ds IH]; [reflexivity|]. cbn [flat_map forallb].
  change (SIn d src :: tst (wheres m d)) with ([SIn d src] ++ tst (wheres m d)).
  rewrite !pass_app, pass_tst, IH. reflexivity.
Qed.
Lemma rebuild_pass m s : forall gs, map_ok m gs -> scoped gs ->
  pass (steps (flat_map (rebuild_gen m) gs)) s
  = forallb (fun d => forallb (fun p => wtrue p s) (wheres m d)) (in_decls gs).
Proof.
  induction gs as [|g gs IH]; intros M Sc; [reflexivity|].
  pose proof (map_ok_tail _ _ _ M) as M'.
  cbn [flat_map in_decls]. rewrite steps_app, pass_app, forallb_app.
  destruct g as [ds vub src w|d e]; cbn [rebuild_gen].
  - destruct Sc as (N & _ & _ & _ & Sc). rewrite IH by assumption. f_equal.
    rewrite steps_split by reflexivity. apply pass_flat.
  - destruct Sc as (_ & Sc). destruct M as [A _]. rewrite (A d e (or_introl eq_refl)).
    rewrite IH by assumption. reflexivity.
Qed.

Lemma gens_pass s : forall gs,
  pass (steps gs) s = true <->
  forall ds vub src w p, In (GIn ds vub src (Some w)) gs -> In p (where_parts w) -> wtrue p s = true.
Proof.
  induction gs as [|g gs IH].
  - split; [intros _ ? ? ? ? ? []|reflexivity].
  - change (steps (g :: gs)) with (gsteps g ++ steps gs). rewrite pass_app, andb_true_iff, IH.
    split.
    + intros [A B] ds vub src w p [->|Hg] Hp; [|eapply B; eassumption].
      cbn [gsteps] in A. rewrite pass_app, pass_in in A. unfold pass in A. cbn in A.
      rewrite andb_true_r, wtrue_parts in A. rewrite forallb_forall in A. apply A. exact Hp.
    + intros H. split.
      * destruct g as [ds vub src [w|]|d e]; [| |reflexivity].
        -- cbn [gsteps]. rewrite pass_app, pass_in. unfold pass. cbn.
           rewrite andb_true_r, wtrue_parts. apply forallb_forall. intros p Hp.
           eapply H; [left; reflexivity|exact Hp].
        -- cbn [gsteps]. rewrite pass_app, pass_in. reflexivity.
      * intros. eapply H; [right; eassumption|assumption].
Qed.

Lemma move_map_ok gs : well_formed gs -> map_ok (where_map gs) gs.
Proof.
  intros W. split.
  - intros d e H. destruct (wheres (where_map gs) d) as [|p ps] eqn:E; [reflexivity|].
    exfalso. assert (Hp : In p (wheres (where_map gs) d)) by (rewrite E; left; reflexivity).
    apply in_wheres in Hp. apply (where_map_spec gs d p W) in Hp. destruct Hp as [Hd _].
    destruct W as [ND _]. apply in_split in H. destruct H as (pre & rest & ->).
    unfold in_decls in Hd. rewrite flat_map_app in Hd. cbn in Hd.
    rewrite decls_app in ND. cbn in ND. apply NoDup_remove_2 in ND. apply ND.
    apply in_app_or in Hd. apply in_or_app.
    destruct Hd as [Hd|Hd]; [left|right]; apply in_decls_incl; exact Hd.
  - intros l d post E. apply Forall_forall. intros p Hp. apply in_wheres in Hp.
    apply (where_map_spec gs d p W) in Hp. eapply (proj2 Hp). exact E.
Qed.

Lemma move_well_formed gs : well_formed gs -> well_formed (move_wheres gs).
Proof.
  intros W. pose proof (move_map_ok gs W) as M. destruct W as [ND Sc]. split.
  - unfold move_wheres. rewrite rebuild_decls by assumption. exact ND.
  - apply rebuild_scoped; assumption.
Qed.

Lemma split_forall (P : gen -> Prop) m vub src :
  (forall ds w, match w with None => True
                | Some e => exists d w0 ws, wheres m d = w0 :: ws /\ e = fold_left WAnd ws w0 end ->
                P (GIn ds vub src w)) ->
  forall ds acc, Forall P (split_decls m vub src acc ds).
Proof.
  intros H. induction ds as [|d ds IH]; intros acc; [constructor|].
  cbn [split_decls]. destruct (wheres m d) as [|w ws] eqn:E.
  - destruct ds; [|apply IH]. constructor; [apply H; exact I|constructor].
  - constructor; [apply H; exists d, w, ws; auto|apply IH].
Qed.

Lemma wheres_never gs d : wheres_total gs -> Forall never_stops (wheres (where_map gs) d).
Proof.
  intros T. apply Forall_forall. intros p Hp. apply in_wheres, in_where_map in Hp.
  destruct Hp as (ds & vub & src & w & Hg & Hp & _).
  unfold wheres_total in T. rewrite Forall_forall in T. specialize (T _ Hg). cbn in T.
  apply parts_never in T. rewrite Forall_forall in T. apply T. exact Hp.
Qed.

Lemma move_total gs : well_formed gs -> wheres_total gs -> wheres_total (move_wheres gs).
Proof.
  intros W T. apply Forall_forall. intros g Hg. apply in_flat_map in Hg.
  destruct Hg as (g0 & H0 & Hg). destruct g0 as [ds vub src w|d e]; cbn [rebuild_gen] in Hg.
  - revert g Hg. apply Forall_forall. apply split_forall. intros ds' [w'|]; [|auto].
    intros (d & w0 & ws & E & ->). pose proof (wheres_never gs d T) as N. rewrite E in N.
    inversion_clear N. apply never_fold; assumption.
  - rewrite (proj1 (move_map_ok gs W) d e H0) in Hg. destruct Hg as [<-|[]]. exact I.
Qed.

Lemma move_bounds gs : well_formed gs -> bounds_ok gs -> bounds_ok (move_wheres gs).
Proof.
  intros W T. apply Forall_forall. intros g Hg. apply in_flat_map in Hg.
  destruct Hg as (g0 & H0 & Hg). destruct g0 as [ds vub src w|d e]; cbn [rebuild_gen] in Hg.
  - revert g Hg. apply Forall_forall. apply split_forall. intros ds' w' _.
    unfold bounds_ok in T. rewrite Forall_forall in T. exact (T _ H0).
  - rewrite (proj1 (move_map_ok gs W) d e H0) in Hg. destruct Hg as [<-|[]]. exact I.
Qed.

Theorem move_elements gs s : well_formed gs -> wheres_total gs ->
  elements (move_wheres gs) s = elements gs s.
Proof.
  intros W T. pose proof (move_map_ok gs W) as M. pose proof W as [ND Sc].
  apply same_elements.
  - apply (move_well_formed gs W).
  - exact Sc.
  - apply move_total; assumption.
  - exact T.
  - apply rebuild_erase; assumption.
  - intros s'. apply eq_true_iff_eq. rewrite (gens_pass s' gs). unfold move_wheres.
    rewrite rebuild_pass by assumption. rewrite forallb_forall. split.
    + intros H ds vub src w p Hg Hp.
      assert (Hm : In (latest gs p, p) (where_map gs))
        by (apply in_where_map; exists ds, vub, src, w; auto).
      specialize (H _ (proj1 (where_map_spec _ _ _ W Hm))).
      rewrite forallb_forall in H. apply H. apply in_wheres. exact Hm.
    + intros H d Hd. apply forallb_forall. intros p Hp. apply in_wheres, in_where_map in Hp.
      destruct Hp as (ds & vub & src & w & Hg & Hp & _). eapply H; eassumption.
Qed.
