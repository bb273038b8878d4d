(** Proofs for C85 and C86. *)
Require Import ZArith List Bool Lia.
From Verif Require Import Base SelModel SelSpec.
Import ListNotations.
Open Scope Z_scope.

Lemma after_last_ok : forall c s, match after_last c s with Some r => (exists a, s = a ++ c :: r) /\ ~ In c r | None => ~ In c s end.
Proof.
  intros c. induction s as [|x s IH]; cbn [after_last]; [auto|]. destruct (after_last c s) as [r|].
  - destruct IH as [(a & ->) N]. split; auto. exists (x :: a). reflexivity.
  - destruct (Z.eqb_spec x c) as [-> | NE]; [split; auto; exists []; reflexivity|]. intros [-> | I]; auto.
Qed.
Lemma last_unique : forall (c : Z) a a' r r', a ++ c :: r = a' ++ c :: r' -> ~ In c r -> ~ In c r' -> r = r'.
Proof.
  intros c. induction a as [|x a IH]; intros [|x' a'] r r' E N N'; cbn in E.
  - congruence.
  - injection E as E1 E2. subst. exfalso. apply N. apply in_or_app. right. now left.
  - injection E as E1 E2. subst. exfalso. apply N'. apply in_or_app. right. now left.
  - injection E as E1 E2. eapply IH; eauto.
Qed.
Lemma all_tags_ok : forall d sc t, In t (all_tags d sc) <-> called d sc t.
Proof.
  intros d sc t. unfold all_tags, called. cbv zeta. rewrite !in_app_iff. pose proof (after_last_ok 46 (lower (c_id sc))) as A.
  set (id := lower (c_id sc)) in *. set (nm := lower (c_name sc)).
  assert (L : In t (match after_last 46 id with Some l => if str_dec l nm then [] else [l] | None => [] end) \/ t = nm <-> (exists a, id = a ++ 46 :: t /\ ~ In 46 t) \/ t = nm).
  { destruct (after_last 46 id) as [l|].
    - destruct A as [(a & E) N]. assert (U : (exists a, id = a ++ 46 :: t /\ ~ In 46 t) <-> l = t).
      { split; [intros (b & E' & N'); apply (last_unique 46 a b); congruence|intros <-; eauto]. }
      rewrite U. destruct (str_dec l nm); cbn; [split; [intuition congruence|intros [<- | ->]; auto]|]. intuition congruence.
    - split; [intros [[] | ->]; auto|]. intros [(a & E & _) | ->]; auto. exfalso. apply A. rewrite E. apply in_or_app. right. now left. }
  assert (D : In t (match d [] with Some i => if str_dec i id then [txt_default] else [] | None => [] end) <-> t = txt_default /\ d [] = Some id).
  { destruct (d []) as [i|]; [|cbn; intuition discriminate]. destruct (str_dec i id) as [-> | NE]; cbn; [intuition congruence|intuition congruence]. }
  rewrite D. cbn [In]. intuition congruence.
Qed.

(** * The map of tags *)
Lemma lookup_add : forall m t i u, lookup (add_tag m t i) u = if str_dec t u then Some (match lookup m t with Some l => l ++ [i] | None => [i] end) else lookup m u.
Proof.
  induction m as [|[w l] m IH]; intros t i u; cbn [add_tag lookup].
  - destruct (str_dec t u); reflexivity.
  - destruct (str_dec w t) as [-> | NE]; cbn [lookup].
    + destruct (str_dec t u); reflexivity.
    + rewrite IH. destruct (str_dec w u) as [-> | NE']; destruct (str_dec t u) as [-> | NE2]; try congruence; reflexivity.
Qed.
Definition listed (m : tagmap) (t : str) (i : nat) : Prop := exists l, lookup m t = Some l /\ In i l.
Definition full (m : tagmap) : Prop := forall t l, lookup m t = Some l -> l <> [].
Lemma add_tags : forall ts m i, full m -> full (fold_left (fun m t => add_tag m t i) ts m) /\
  forall t j, listed (fold_left (fun m t => add_tag m t i) ts m) t j <-> listed m t j \/ (j = i /\ In t ts).
Proof.
  induction ts as [|u ts IH]; intros m i F; cbn [fold_left]. { split; auto. intros t j. cbn. tauto. }
  assert (F' : full (add_tag m u i)).
  { intros t l E. rewrite lookup_add in E. destruct (str_dec u t); [|eapply F; eauto]. injection E as <-. destruct (lookup m u) as [[|]|]; discriminate. }
  destruct (IH (add_tag m u i) i F') as [A B]. split; auto. intros t j. rewrite B. unfold listed at 1. rewrite lookup_add. destruct (str_dec u t) as [-> | NE].
  - unfold listed. split.
    + intros [(l & E & I) | [-> I]]; [|right; split; auto; now right]. injection E as <-. destruct (lookup m t) as [l|].
      * apply in_app_or in I. destruct I as [I | [<- | []]]; [left; eauto|right; split; auto; now left].
      * destruct I as [<- | []]. right. split; auto. now left.
    + intros [(l & E & I) | [-> [_ | I]]].
      * left. rewrite E. eexists. split; [reflexivity|]. apply in_or_app. auto.
      * left. eexists. split; [reflexivity|]. destruct (lookup m t); [apply in_or_app; right|]; now left.
      * right. auto.
  - fold (listed m t j). split; [intros [H | [-> I]]; auto; right; split; auto; now right|]. intros [H | [-> [E | I]]]; auto. congruence.
Qed.
Lemma populate_ok : forall d cs, fst (populate d cs) = cs /\ full (snd (populate d cs)) /\
  forall t i, listed (snd (populate d cs)) t i <-> exists sc, nth_error cs i = Some sc /\ called d sc t.
Proof.
  intros d cs. unfold populate. induction cs as [|sc cs IH] using rev_ind.
  { cbn. split; auto. split; [intros t l E; discriminate|]. intros t i. split; [intros (l & E & _); discriminate|]. intros (sc & E & _). destruct i; discriminate. }
  rewrite fold_left_app. cbn [fold_left]. destruct IH as (E & F & L). set (st := fold_left (add_config d) cs ([], [])) in *. unfold add_config. rewrite E. cbn [fst snd].
  destruct (add_tags (all_tags d sc) (snd st) (length cs) F) as [F' L']. split; auto. split; auto. intros t i. rewrite L', L, all_tags_ok. split.
  - intros [(sc' & N & C) | [-> C]]; [exists sc'; split; auto; rewrite nth_error_app1; auto; apply nth_error_Some; congruence|].
    exists sc. split; auto. rewrite nth_error_app2, Nat.sub_diag by lia. reflexivity.
  - intros (sc' & N & C). destruct (Nat.lt_ge_cases i (length cs)) as [B | B].
    + left. exists sc'. rewrite nth_error_app1 in N by auto. auto.
    + right. rewrite nth_error_app2 in N by auto. destruct (i - length cs)%nat as [|k] eqn:Ek; [|destruct k; discriminate]. injection N as <-. split; auto. lia.
Qed.

(** * Sets of positions *)
Fixpoint rising (s : list nat) : Prop := match s with [] => True | i :: r => (forall j, In j r -> (i < j)%nat) /\ rising r end.
Lemma set_insert_ok : forall s i, rising s -> rising (set_insert i s) /\ forall j, In j (set_insert i s) <-> j = i \/ In j s.
Proof.
  induction s as [|k s IH]; intros i R; cbn [set_insert]. { split; [cbn; split; auto; intros j []|]. intros j. cbn. intuition. }
  destruct R as [K R]. destruct (Nat.ltb_spec i k); [|destruct (Nat.eqb_spec i k)].
  - split; [|intros j; cbn; intuition]. split; [|split; auto]. intros j [<- | I]; auto. specialize (K j I). lia.
  - subst. split; [split; auto|]. intros j. cbn. intuition.
  - destruct (IH i R) as [A B]. split; [|intros j; cbn [In]; rewrite B; intuition]. split; auto. intros j I. apply B in I. destruct I as [-> | I]; auto. lia.
Qed.
Lemma set_of_ok : forall l, rising (set_of l) /\ forall j, In j (set_of l) <-> In j l.
Proof.
  intros l. unfold set_of. assert (G : forall l s, rising s -> rising (fold_left (fun s i => set_insert i s) l s) /\ forall j, In j (fold_left (fun s i => set_insert i s) l s) <-> In j s \/ In j l).
  { induction l0 as [|i l0 IH]; intros s R; cbn [fold_left]; [split; auto; intros; cbn; tauto|]. destruct (set_insert_ok s i R) as [A B]. destruct (IH _ A) as [C D]. split; auto.
    intros j. rewrite D, B. cbn. intuition. }
  destruct (G l [] I) as [A B]. split; auto. intros j. rewrite B. cbn. tauto.
Qed.
Lemma rising_filter : forall f s, rising s -> rising (filter f s).
Proof. induction s as [|i s IH]; intros R; cbn; auto. destruct R as [K R]. destruct (f i); auto. split; auto. intros j I. apply filter_In in I. apply K. tauto. Qed.
Lemma set_inter_ok : forall a b, rising a -> rising (set_inter a b) /\ forall j, In j (set_inter a b) <-> In j a /\ In j b.
Proof. intros a b R. unfold set_inter. split; [now apply rising_filter|]. intros j. rewrite filter_In. destruct (in_dec Nat.eq_dec j b); intuition discriminate. Qed.
Lemma fits_dec : forall sc v, (if str_dec v [] then true else false) || (if str_dec v (c_version sc) then true else false) = true <-> fits sc v.
Proof. intros. unfold fits. destruct (str_dec v []), (str_dec v (c_version sc)); cbn; intuition discriminate. Qed.

Lemma get_tag_twice : forall t, get_tag (get_tag t) = get_tag t.
Proof. unfold get_tag. induction t as [|x t IH]; cbn [before]; auto. destruct (x =? 64) eqn:E; auto. cbn [before]. rewrite E. congruence. Qed.
Section Choose.
Variables (d : str -> option str) (cs : list cfg).
Let st := populate d cs.

Lemma of_version_ok : forall t v l, lookup (snd st) t = Some l -> rising (of_version cs v l) /\
  forall i, In i (of_version cs v l) <-> exists sc, nth_error cs i = Some sc /\ meets d sc (t, v).
Proof using.
  intros t v l E. destruct (populate_ok d cs) as (_ & _ & L). fold st in L. unfold of_version. destruct (set_of_ok (filter (fun i => match nth_error cs i with Some sc => (if str_dec v [] then true else false) || (if str_dec v (c_version sc) then true else false) | None => false end) l)) as [A B].
  split; auto. intros i. rewrite B, filter_In. split.
  - intros [I F]. destruct (proj1 (L t i)) as (sc & N & C); [exists l; auto|]. exists sc. split; auto. rewrite N in F. apply fits_dec in F. split; auto.
  - intros (sc & N & C & F). destruct (proj2 (L t i)) as (l' & E' & I); [exists sc; auto|]. rewrite E in E'. injection E' as <-. split; auto. rewrite N. now apply fits_dec.
Qed.
Definition req (t : str) : request := (get_tag t, get_version t).
Definition refusal (e : choice) (ts : list str) : Prop :=
  e = NoTags \/ exists t, In t ts /\ e = NoTag t /\ forall sc, In sc cs -> ~ called d sc (get_tag t).
Lemma narrow_ok : forall ts sel, rising sel -> sel <> [] ->
  let P := fun i => In i sel /\ exists sc, nth_error cs i = Some sc /\ Forall (meets d sc) (map req ts) in
  (forall i, In i sel -> nth_error cs i <> None) ->
  match narrow cs (snd st) ts sel with inr s' => rising s' /\ s' <> [] /\ (forall i, In i s' <-> P i) | inl e => (forall i, ~ P i) /\ refusal e ts end.
Proof using.
  destruct (populate_ok d cs) as (_ & _ & L). fold st in L.
  induction ts as [|t ts IH]; intros sel R NE P V; cbn [narrow].
  { split; auto. split; auto. intros i. unfold P. split; [intros I; split; auto|tauto]. specialize (V i I). destruct (nth_error cs i) as [sc|]; [|tauto]. exists sc. split; auto. constructor. }
  destruct (lookup (snd st) (get_tag t)) as [l|] eqn:E.
  2:{ split; [|right; exists t; split; [now left|]; split; auto; intros sc I C; apply In_nth_error in I; destruct I as (k & Nk); destruct (proj2 (L (get_tag t) k)) as (l & E' & _); [exists sc; auto|]; congruence].
      intros i (I & sc & N & F). inversion F as [|? ? [C _] _]; subst. destruct (proj2 (L (get_tag t) i)) as (l & E' & _); [exists sc; auto|]. congruence. }
  destruct (of_version_ok (get_tag t) (get_version t) l E) as [A B]. destruct (set_inter_ok sel (of_version cs (get_version t) l) R) as [C D]. cbv zeta.
  set (sel' := set_inter sel (of_version cs (get_version t) l)) in *.
  assert (Q : forall i, P i <-> In i sel' /\ exists sc, nth_error cs i = Some sc /\ Forall (meets d sc) (map req ts)).
  { intros i. unfold P. rewrite D, B. cbn [map]. split.
    - intros (I & sc & N & F). inversion F; subst. split; eauto.
    - intros ((I & sc & N & M) & sc' & N' & F). rewrite N in N'. injection N' as <-. split; auto. exists sc. split; auto. }
  assert (V' : forall i, In i sel' -> nth_error cs i <> None) by (intros i I; apply V; now apply D in I).
  assert (Z : sel' = [] \/ sel' <> []) by (destruct sel'; [now left|now right]). destruct Z as [Z | Z].
  { rewrite Z. split; [|now left]. intros i H. apply Q in H. rewrite Z in H. destruct H as [[] _]. }
  specialize (IH sel' C Z V'). cbv zeta in IH.
  replace (match sel' with [] => inl NoTags | _ => narrow cs (snd st) ts sel' end) with (narrow cs (snd st) ts sel') by (destruct sel'; tauto).
  destruct (narrow cs (snd st) ts sel') as [e|s'].
  - destruct IH as [IH RE]. split; [intros i H; apply Q in H; apply (IH i H)|]. destruct RE as [RE | (u & I & RE)]; [now left|right]. exists u. split; auto. now right.
  - destruct IH as (A1 & A2 & A3). split; auto. split; auto. intros i. rewrite A3, Q. tauto.
Qed.
Lemma defaults_ok : forall ts i, In i (defaults d ts) <-> exists t, In t ts /\ d (get_tag t) = Some i.
Proof using.
  clear. induction ts as [|t ts IH]; intros i; cbn [defaults]. { split; [intros []|]. intros (t & [] & _). }
  destruct (d (get_tag t)) as [x|] eqn:E; cbn [In]; rewrite IH; split.
  - intros [<- | (u & I & Q)]; [exists t; auto|exists u; auto].
  - intros (u & [<- | I] & Q); [left; congruence|right; eauto].
  - intros (u & I & Q). exists u. auto.
  - intros (u & [<- | I] & Q); [congruence|eauto].
Qed.
Lemma pick_ok : forall ts sel, rising sel -> sel <> [] -> (forall i, In i sel -> nth_error cs i <> None) ->
  let pref := preferred d cs (map req ts) in
  exists i, pick cs (defaults d ts) sel = Picked i /\
  (least (fun j => In j sel /\ pref j) i \/ (forall j, In j sel -> ~ pref j) /\ least (fun j => In j sel) i).
Proof using.
  intros ts sel R NE V pref. set (f := fun j => match nth_error cs j with Some sc => mem (c_id sc) (defaults d ts) | None => false end).
  assert (F : forall j, f j = true <-> pref j).
  { intros j. unfold f, pref, preferred. destruct (nth_error cs j) as [sc|]; [|split; [discriminate|intros (sc & r & Q & _); discriminate]].
    unfold mem. destruct (in_dec str_dec (c_id sc) (defaults d ts)) as [I | N].
    - split; auto. intros _. apply defaults_ok in I. destruct I as (t & It & E). exists sc, (req t). split; auto. split; [now apply in_map|auto].
    - split; [discriminate|]. intros (sc' & r & Q & I & E). injection Q as <-. exfalso. apply N. apply defaults_ok. apply in_map_iff in I. destruct I as (t & <- & It). exists t. auto. }
  assert (FD : forall s, rising s -> match find f s with Some i => least (fun j => In j s /\ pref j) i | None => forall j, In j s -> ~ pref j end).
  { induction s as [|x s IH]; intros K; cbn [find]; [auto|]. destruct K as [K1 K2]. destruct (f x) eqn:E.
    - split; [split; [now left|now apply F]|]. intros j [[<- | I] _]; [lia|]. specialize (K1 j I). lia.
    - specialize (IH K2). assert (NX : ~ pref x) by (rewrite <- F; congruence). destruct (find f s) as [i|].
      + destruct IH as [[I P] H]. split; [split; [now right|auto]|]. intros j [[<- | J] Q]; [tauto|]. apply H. auto.
      + intros j [<- | J]; auto. }
  specialize (FD sel R). destruct sel as [|x [|y sel]]; [tauto| |].
  - exists x. split; auto. cbn [find] in FD. destruct (f x) eqn:E; [left; auto|]. right. split; auto. split; [now left|]. intros j [<- | []]. lia.
  - set (s := x :: y :: sel) in *. change (pick cs (defaults d ts) s) with (match find f s with Some j => Picked j | None => Picked x end). destruct (find f s) as [i|].
    + exists i. auto.
    + exists x. split; auto. right. split; auto. split; [now left|]. intros j [<- | J]; [lia|]. destruct R as [K _]. specialize (K j J). lia.
Qed.

Definition cand (first : str) (ts : list str) : nat -> Prop := candidate d cs (req first) (map req ts).
Theorem config_ok : forall s first ts,
  (match fields 44 (lower s) [] with [] => d [] | t :: _ => Some t end) = Some first -> ts = tl (fields 44 (lower s) []) ->
  match config d st s with
  | Picked i => cand first ts i /\
      (least (fun j => cand first ts j /\ preferred d cs (map req (first :: ts)) j) i \/
       (forall j, cand first ts j -> ~ preferred d cs (map req (first :: ts)) j) /\ least (cand first ts) i)
  | NoDefault => False
  | NoTag t => (forall i, ~ cand first ts i) /\ forall sc, In sc cs -> ~ called d sc (get_tag t)
  | NoTags => forall i, ~ cand first ts i
  end.
Proof using.
  intros s first ts E ->. unfold config. rewrite E. cbv zeta. destruct (populate_ok d cs) as (FS & FU & L). fold st in FS, FU, L. rewrite FS.
  destruct (lookup (snd st) (get_tag first)) as [l|] eqn:EL.
  2:{ rewrite get_tag_twice. split. 2:{ intros sc I C. apply In_nth_error in I. destruct I as (k & Nk). destruct (proj2 (L (get_tag first) k)) as (l & E' & _); [exists sc; auto|]. congruence. }
      intros i (sc & N & (C & _) & _). destruct (proj2 (L (get_tag first) i)) as (l & E' & _); [exists sc; auto|]. congruence. }
  destruct (of_version_ok (get_tag first) (get_version first) l EL) as [A B].
  set (sel := match of_version cs (get_version first) l with [] => set_of l | _ => of_version cs (get_version first) l end).
  assert (S : rising sel /\ sel <> [] /\ forall i, In i sel <-> exists sc, nth_error cs i = Some sc /\ meets_first d cs sc (req first)).
  { destruct (of_version cs (get_version first) l) as [|x r] eqn:EV.
    - destruct (set_of_ok l) as [C D]. split; auto. assert (NL : l <> []) by (eapply FU; eauto). split. { intros Q. unfold sel in Q. destruct l as [|y l]; [tauto|]. assert (I : In y (set_of (y :: l))) by (apply D; now left). rewrite Q in I. destruct I. }
      assert (NF : forall sc', In sc' cs -> called d sc' (get_tag first) -> ~ fits sc' (get_version first)).
      { intros sc' I' C' F'. apply In_nth_error in I'. destruct I' as (k & Nk). apply (proj2 (B k)). exists sc'. split; auto. split; auto. }
      intros i. unfold sel. rewrite D. split.
      + intros I. destruct (proj1 (L (get_tag first) i)) as (sc & N & Q); [exists l; auto|]. exists sc. split; auto. split; auto.
      + intros (sc & N & (C' & _)). destruct (proj2 (L (get_tag first) i)) as (l' & E' & I); [exists sc; auto|]. rewrite EL in E'. injection E' as <-. auto.
    - unfold sel. split; auto. split; [discriminate|]. intros i. rewrite B. split.
      + intros (sc & N & C & F). exists sc. split; auto. split; auto.
      + intros (sc & N & C & [F | F]); exists sc; (split; auto); split; auto. exfalso.
        destruct (proj1 (B x) (or_introl eq_refl)) as (sc' & N' & C' & F'). apply (F sc'); auto. eapply nth_error_In; eauto. }
  destruct S as (R & NE & M).
  assert (V : forall i, In i sel -> nth_error cs i <> None) by (intros i I; apply M in I; destruct I as (sc & -> & _); discriminate).
  pose proof (narrow_ok (tl (fields 44 (lower s) [])) sel R NE V) as K. cbv zeta in K. fold sel.
  assert (Q : forall i, cand first (tl (fields 44 (lower s) [])) i <-> In i sel /\ exists sc, nth_error cs i = Some sc /\ Forall (meets d sc) (map req (tl (fields 44 (lower s) [])))).
  { intros i. rewrite M. unfold cand, candidate. split.
    - intros (sc & N & A1 & A2). split; eauto.
    - intros ((sc & N & A1) & sc' & N' & A2). rewrite N in N'. injection N' as <-. eauto. }
  destruct (narrow cs (snd st) (tl (fields 44 (lower s) [])) sel) as [e|s'].
  - destruct K as [K RE]. assert (K' : forall i, ~ cand first (tl (fields 44 (lower s) [])) i) by (intros i H; apply (K i), Q, H).
    destruct RE as [-> | (t & _ & -> & H)]; auto.
  - destruct K as (R' & NE' & K). assert (K' : forall i, In i s' <-> cand first (tl (fields 44 (lower s) [])) i) by (intros i; rewrite K; symmetry; apply Q).
    assert (V' : forall i, In i s' -> nth_error cs i <> None) by (intros i I; apply K' in I; destruct I as (sc & -> & _); discriminate).
    destruct (pick_ok (first :: tl (fields 44 (lower s) [])) s' R' NE' V') as (i & -> & H).
    assert (T : forall P, least (fun j => In j s' /\ P j) i <-> least (fun j => cand first (tl (fields 44 (lower s) [])) j /\ P j) i).
    { intros P. unfold least. rewrite K'. split; intros [A1 A2]; (split; auto); intros j [J1 J2]; apply A2; split; auto; now apply K'. }
    destruct H as [H | [H1 H2]].
    + apply T in H. split; [apply H|]. auto.
    + assert (L2 : least (cand first (tl (fields 44 (lower s) []))) i). { destruct H2 as [A1 A2]. split; [now apply K'|]. intros j J. apply A2. now apply K'. }
      split; [apply L2|]. right. split; auto. intros j J. apply H1. now apply K'.
Qed.
End Choose.

(** * Reading the text *)
Lemma fields_run : forall sep t cur, ~ In sep t -> fields sep t cur = match cur ++ t with [] => [] | _ => [cur ++ t] end.
Proof.
  intros sep. induction t as [|c t IH]; intros cur N; cbn [fields]. { rewrite app_nil_r. reflexivity. }
  destruct (Z.eqb_spec c sep) as [-> | NE]; [exfalso; apply N; now left|]. rewrite IH by (intros I; apply N; now right). rewrite <- app_assoc. reflexivity.
Qed.
Lemma fields_part : forall sep t r cur, ~ In sep t -> fields sep (t ++ sep :: r) cur = (cur ++ t) :: fields sep r [].
Proof.
  intros sep. induction t as [|c t IH]; intros r cur N; cbn [fields app]. { rewrite Z.eqb_refl, app_nil_r. reflexivity. }
  destruct (Z.eqb_spec c sep) as [-> | NE]; [exfalso; apply N; now left|]. rewrite IH by (intros I; apply N; now right). rewrite <- app_assoc. reflexivity.
Qed.
Lemma fields_joined : forall ts, Forall (fun t => ~ In 44 t) ts -> last ts [] <> [] -> fields 44 (joined ts) [] = ts.
Proof.
  induction ts as [|t [|u ts] IH]; intros F NE; cbn [joined]; [reflexivity| |].
  - inversion F; subst. rewrite fields_run by auto. cbn in NE |- *. destruct t; [tauto|reflexivity].
  - inversion F; subst. rewrite fields_part by auto. cbn [app]. f_equal. apply IH; auto.
Qed.
Lemma req_of_text : forall r t, tag_text r t -> req t = r.
Proof.
  intros [a v] t (N & _ & H). unfold req, get_tag, get_version. cbn in *. assert (B : forall x, ~ In 64 x -> before 64 x = x /\ behind 64 x = [] /\ forall y, before 64 (x ++ 64 :: y) = x /\ behind 64 (x ++ 64 :: y) = y).
  { induction x as [|c x IH]; intros NI. { cbn. auto. } destruct IH as (I1 & I2 & I3); [intros J; apply NI; now right|]. cbn [before behind app]. destruct (Z.eqb_spec c 64); [exfalso; apply NI; now left|].
    rewrite I1, I2. split; auto. split; auto. intros y. destruct (I3 y) as [-> ->]. auto. }
  destruct (B a N) as (B1 & B2 & B3). destruct H as [[-> ->] | ->]; [congruence|]. destruct (B3 v). congruence.
Qed.
Theorem config_text : forall d cs s r rs ts, lower s = joined ts -> last ts [] <> [] -> Forall2 tag_text (r :: rs) ts ->
  match config d (populate d cs) s with
  | Picked i => candidate d cs r rs i /\
      (least (fun j => candidate d cs r rs j /\ preferred d cs (r :: rs) j) i \/
       (forall j, candidate d cs r rs j -> ~ preferred d cs (r :: rs) j) /\ least (candidate d cs r rs) i)
  | NoDefault => False
  | NoTag t => (forall i, ~ candidate d cs r rs i) /\ forall sc, In sc cs -> ~ called d sc (get_tag t)
  | NoTags => forall i, ~ candidate d cs r rs i
  end.
Proof.
  intros d cs s r rs ts E NE F. assert (FF : fields 44 (lower s) [] = ts).
  { rewrite E. apply fields_joined; auto. clear - F. induction F as [|? ? ? ? H]; constructor; auto. apply H. }
  assert (MR : map req ts = r :: rs). { clear - F. induction F as [|? ? ? ? H]; cbn; auto. rewrite (req_of_text _ _ H). congruence. }
  destruct ts as [|t ts]; [inversion F|]. cbn in MR. injection MR as <- <-.
  pose proof (config_ok d cs s t ts) as K. rewrite FF in K. exact (K eq_refl eq_refl).
Qed.
(** an empty text asks for the default solver *)
Theorem config_empty : forall d cs r i, d [] = Some i -> tag_text r i ->
  match config d (populate d cs) [] with
  | Picked k => candidate d cs r [] k /\
      (least (fun j => candidate d cs r [] j /\ preferred d cs [r] j) k \/
       (forall j, candidate d cs r [] j -> ~ preferred d cs [r] j) /\ least (candidate d cs r []) k)
  | NoDefault => False
  | NoTag t => (forall k, ~ candidate d cs r [] k) /\ forall sc, In sc cs -> ~ called d sc (get_tag t)
  | NoTags => forall k, ~ candidate d cs r [] k
  end.
Proof.
  intros d cs r i D T. pose proof (config_ok d cs [] i []) as K. cbn [lower map fields tl] in K. rewrite <- (req_of_text r i T). exact (K D eq_refl).
Qed.
Lemma config_no_default : forall d st, d [] = None -> config d st [] = NoDefault.
Proof. intros d st E. unfold config. cbn [lower map fields]. rewrite E. reflexivity. Qed.
Lemma lower_twice : forall s, lower (lower s) = lower s.
Proof.
  intros s. unfold lower. rewrite map_map. apply map_ext. intros c. unfold lower_char.
  destruct ((65 <=? c) && (c <=? 90)) eqn:E; [|rewrite E; reflexivity]. apply andb_prop in E. destruct E as [E1 E2]. apply Z.leb_le in E1.
  destruct (Z.leb_spec (c + 32) 90); [lia|]. now rewrite andb_false_r.
Qed.
Theorem config_case : forall d st s t, lower s = lower t -> config d st s = config d st t.
Proof. intros d st s t E. unfold config. rewrite E. reflexivity. Qed.

Lemma plain_text : forall t v, plain t -> Forall (fun c => c <> 44) v -> tag_text (t, []) t /\ tag_text (t, v) (t ++ [64] ++ v).
Proof.
  intros t v [_ F] G. assert (A : ~ In 64 t) by (intros I; rewrite Forall_forall in F; destruct (F 64 I); auto). assert (B : ~ In 44 t) by (intros I; rewrite Forall_forall in F; destruct (F 44 I); auto).
  split; (split; [exact A|]); (split; [|cbn; auto]); auto. intros I. apply in_app_or in I. destruct I as [I | [I | I]]; [auto|discriminate|]. rewrite Forall_forall in G. apply (G 44 I eq_refl).
Qed.
Lemma plain_tag : forall d cs sc t, In sc cs -> called d sc t -> t <> [] -> plain t -> exists i sc', config d (populate d cs) t = Picked i /\ nth_error cs i = Some sc' /\ called d sc' t.
Proof.
  intros d cs sc t I C NE P. destruct (plain_text t [] P (Forall_nil _)) as [T _]. apply In_nth_error in I. destruct I as (k & N).
  pose proof (config_text d cs t (t, []) [] [t] (proj1 P) NE ltac:(constructor; auto)) as K.
  assert (CK : candidate d cs (t, []) [] k) by (exists sc; split; auto; split; [split; [exact C|left; now left]|constructor]).
  destruct (config d (populate d cs) t) as [i| |u|].
  - destruct K as [(sc' & N' & (C' & _) & _) _]. eauto.
  - destruct K.
  - destruct K as [K _]. destruct (K k CK).
  - destruct (K k CK).
Qed.
Lemma plain_version : forall d cs sc t v, In sc cs -> called d sc t -> v = c_version sc -> v <> [] -> plain t -> plain v ->
  exists i sc', config d (populate d cs) (t ++ [64] ++ v) = Picked i /\ nth_error cs i = Some sc' /\ called d sc' t /\ c_version sc' = v.
Proof.
  intros d cs sc t v I C EV NE P PV. destruct (plain_text t v P) as [_ T]. { eapply Forall_impl; [|apply PV]. intros ? H; apply H. } pose proof I as I0. apply In_nth_error in I. destruct I as (k & N).
  assert (E : lower (t ++ [64] ++ v) = joined [t ++ [64] ++ v]). { destruct P as [P _], PV as [PV _]. unfold lower in *. rewrite !map_app, P, PV. reflexivity. }
  assert (NE' : last [t ++ [64] ++ v] [] <> []) by (cbn; destruct t; discriminate).
  pose proof (config_text d cs _ (t, v) [] _ E NE' ltac:(constructor; auto)) as K.
  assert (F : fits sc v) by (now right).
  assert (CK : candidate d cs (t, v) [] k) by (exists sc; split; auto; split; [split; [exact C|left; exact F]|constructor]).
  destruct (config d (populate d cs) (t ++ [64] ++ v)) as [i| |u|].
  - destruct K as [(sc' & N' & (C' & [[F' | F'] | F']) & _) _]; cbn [fst snd] in *; [tauto| |destruct (F' sc I0 C F)]. exists i, sc'. auto.
  - destruct K.
  - destruct K as [K _]. destruct (K k CK).
  - destruct (K k CK).
Qed.
Lemma plain_default : forall d cs sc, In sc cs -> d [] = Some (c_id sc) -> c_id sc <> [] -> plain (c_id sc) ->
  exists i sc', config d (populate d cs) [] = Picked i /\ nth_error cs i = Some sc' /\ called d sc' (c_id sc).
Proof.
  intros d cs sc I D NE P. destruct (plain_text (c_id sc) [] P (Forall_nil _)) as [T _]. apply In_nth_error in I. destruct I as (k & N).
  pose proof (config_empty d cs (c_id sc, []) (c_id sc) D T) as K.
  assert (CK : candidate d cs (c_id sc, []) [] k) by (exists sc; split; auto; split; [split; [right; left; symmetry; apply P|left; now left]|constructor]).
  destruct (config d (populate d cs) []) as [i| |u|].
  - destruct K as [(sc' & N' & (C' & _) & _) _]. eauto.
  - destruct K.
  - destruct K as [K _]. destruct (K k CK).
  - destruct (K k CK).
Qed.

(** * Default options *)
Lemma find_set : forall m t o u, find_opts (set_opts m t o) u = if str_dec t u then Some o else find_opts m u.
Proof.
  induction m as [|[w l] m IH]; intros t o u; cbn [set_opts find_opts]. { destruct (str_dec t u); reflexivity. }
  destruct (str_dec w t) as [-> | NE]; cbn [find_opts]; [destruct (str_dec t u); reflexivity|]. rewrite IH.
  destruct (str_dec w u) as [-> | NE']; destruct (str_dec t u) as [-> | NE2]; congruence.
Qed.
Definition flat (ps : list (str * str)) : list str := flat_map (fun p => [fst p; snd p]) ps.
Definition table (ps : list (str * str)) : list (str * str) := map (fun o => (o, match last_value ps o with Some v => v | None => [] end)) (firsts (map fst ps)).
Fixpoint put (ps : list (str * str)) (o v : str) : list (str * str) :=
  match ps with [] => [(o, v)] | (a, b) :: r => if str_dec a o then (a, v) :: r else (a, b) :: put r o v end.
Lemma override_flat : forall ps o v, override (flat ps) o v = flat (put ps o v).
Proof.
  induction ps as [|[a b] ps IH]; intros o v; cbn [flat flat_map put app fst snd]; [reflexivity|]. cbn [override]. destruct (str_dec a o); [reflexivity|].
  cbn [flat flat_map app fst snd]. rewrite <- IH. reflexivity.
Qed.
Lemma last_value_snoc : forall ps o v u, last_value (ps ++ [(o, v)]) u = if str_dec o u then Some v else last_value ps u.
Proof. induction ps as [|[a b] ps IH]; intros o v u; cbn [app last_value]; [reflexivity|]. rewrite IH. destruct (str_dec o u); reflexivity. Qed.
Lemma firsts_in : forall l o, In o (firsts l) <-> In o l.
Proof.
  induction l as [|a l IH]; intros o; cbn [firsts In]; [tauto|]. rewrite filter_In, IH. destruct (str_dec o a) as [-> | NE]; intuition congruence.
Qed.
Lemma firsts_snoc : forall l o, firsts (l ++ [o]) = if in_dec str_dec o l then firsts l else firsts l ++ [o].
Proof.
  induction l as [|a l IH]; intros o; cbn [app firsts]; [reflexivity|]. rewrite IH.
  destruct (in_dec str_dec o l) as [I | N], (in_dec str_dec o (a :: l)) as [I' | N']; auto.
  - exfalso. apply N'. now right.
  - destruct I' as [-> | I']; [|tauto]. rewrite filter_app. cbn [filter]. destruct (str_dec o o); [|congruence]. now rewrite app_nil_r.
  - rewrite filter_app. cbn [filter]. destruct (str_dec o a) as [-> | NE]; [exfalso; apply N'; now left|]. reflexivity.
Qed.
Lemma firsts_nodup : forall l, NoDup (firsts l).
Proof. induction l as [|a l IH]; cbn [firsts]; constructor. - rewrite filter_In. destruct (str_dec a a); [intuition discriminate|congruence]. - apply NoDup_filter, IH. Qed.
Lemma put_table : forall (l : list str) f o v, NoDup l -> put (map (fun a => (a, f a)) l) o v = map (fun a => (a, if str_dec o a then v else f a)) (if in_dec str_dec o l then l else l ++ [o]).
Proof.
  induction l as [|a l IH]; intros f o v ND. { cbn. destruct (str_dec o o); [reflexivity|congruence]. }
  inversion ND as [|? ? NI ND']; subst. cbn [map put]. destruct (str_dec a o) as [-> | NE].
  - destruct (in_dec str_dec o (o :: l)) as [_ | N]; [|exfalso; apply N; now left]. cbn [map]. destruct (str_dec o o); [|congruence]. f_equal. apply map_ext_in. intros b B. destruct (str_dec o b); [congruence|reflexivity].
  - rewrite IH by auto. destruct (in_dec str_dec o l) as [I | N], (in_dec str_dec o (a :: l)) as [I' | N']; cbn [map app]; (destruct (str_dec o a); [congruence|]); auto.
    + exfalso. apply N'. now right.
    + destruct I'; tauto.
Qed.
Lemma table_snoc : forall ps o v, table (ps ++ [(o, v)]) = put (table ps) o v.
Proof.
  intros ps o v. unfold table. rewrite (put_table _ (fun a => match last_value ps a with Some w => w | None => [] end)) by apply firsts_nodup.
  rewrite map_app. cbn [map fst]. rewrite firsts_snoc.
  assert (IFF : (if in_dec str_dec o (map fst ps) then firsts (map fst ps) else firsts (map fst ps) ++ [o]) = (if in_dec str_dec o (firsts (map fst ps)) then firsts (map fst ps) else firsts (map fst ps) ++ [o])).
  { destruct (in_dec str_dec o (map fst ps)) as [I | N], (in_dec str_dec o (firsts (map fst ps))) as [I' | N']; auto; [exfalso; apply N'; now apply firsts_in|exfalso; apply N; now apply firsts_in]. }
  rewrite IFF. apply map_ext. intros a. rewrite last_value_snoc. destruct (str_dec o a); reflexivity.
Qed.
Lemma given_snoc : forall xs s o v u, given (xs ++ [(s, o, v)]) u = if str_dec s u then given xs u ++ [(o, v)] else given xs u.
Proof. intros. unfold given. rewrite filter_app, map_app. cbn [filter fst snd]. destruct (str_dec s u); cbn; [reflexivity|apply app_nil_r]. Qed.
Theorem defaults_table : forall xs s, find_opts (solver_defaults xs) s = match given xs s with [] => None | _ => Some (flat (table (given xs s))) end.
Proof.
  intros xs s. unfold solver_defaults. induction xs as [|[[u o] v] xs IH] using rev_ind; [reflexivity|]. rewrite fold_left_app. cbn [fold_left]. set (m := fold_left add_default xs []) in *.
  rewrite given_snoc. unfold add_default. destruct (str_dec u s) as [-> | NE].
  - rewrite IH. destruct (given xs s) as [|p ps] eqn:G.
    + rewrite find_set. destruct (str_dec s s); [|congruence]. cbn. destruct (str_dec o o); [reflexivity|congruence].
    + rewrite find_set. destruct (str_dec s s); [|congruence]. rewrite override_flat, <- table_snoc. destruct ((p :: ps) ++ [(o, v)]) eqn:Z; [destruct ps; discriminate|]. reflexivity.
  - destruct (find_opts m u); rewrite find_set; (destruct (str_dec u s); [congruence|]); exact IH.
Qed.
Theorem default_options_ok : forall xs s, default_options (solver_defaults xs) s = filter nonempty (flat_map (fun o => [o; match last_value (given xs s) o with Some v => v | None => [] end]) (firsts (map fst (given xs s)))).
Proof.
  intros xs s. unfold default_options. rewrite defaults_table. destruct (given xs s) as [|p ps]; [reflexivity|]. unfold table, flat. rewrite flat_map_concat_map, map_map. rewrite <- flat_map_concat_map. reflexivity.
Qed.
