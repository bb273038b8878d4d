(** Proofs for C48 and C56. *)
Require Import ZArith List Bool Lia Permutation.
From Verif Require Import Base DenseModel DenseSpec.
Import ListNotations.
Open Scope Z_scope.

Lemma keqb_eq : forall a b, keqb a b = true <-> a = b.
Proof. intros. unfold keqb. destruct (key_dec a b); split; congruence. Qed.
Lemma keqb_refl : forall a, keqb a a = true.
Proof. intros. now apply keqb_eq. Qed.
Lemma keqb_neq : forall a b, keqb a b = false <-> a <> b.
Proof. intros. unfold keqb. destruct (key_dec a b); split; congruence. Qed.

Definition BIG := 2147483648.
Lemma to_int_small : forall n, 0 <= n < 2147483648 -> to_int n = n.
Proof.
  intros n H. unfold to_int. rewrite Z.mod_small by lia.
  destruct (n <? 2147483648) eqn:E; [reflexivity|]. apply Z.ltb_ge in E. lia.
Qed.

Lemma resize_length : forall A n (x : A) l, 0 <= n -> length (resize n x l) = Z.to_nat n.
Proof.
  intros. unfold resize. rewrite app_length, repeat_length, firstn_length. lia.
Qed.
Lemma resize_nth : forall A n (x : A) l i, (i < Z.to_nat n)%nat -> (length l <= Z.to_nat n)%nat ->
  nth_error (resize n x l) i = Some (match nth_error l i with Some y => y | None => x end).
Proof.
  intros A n x l i H H0. unfold resize. rewrite firstn_all2 by lia.
  destruct (Nat.lt_ge_cases i (length l)).
  - rewrite nth_error_app1 by auto. destruct (nth_error l i) eqn:E; auto.
    apply nth_error_None in E. lia.
  - rewrite nth_error_app2 by auto.
    replace (nth_error l i) with (@None A) by (symmetry; apply nth_error_None; lia).
    rewrite nth_error_repeat; auto; lia.
Qed.

Lemma nth_skipn : forall A n (l : list A) i, nth_error (skipn n l) i = nth_error l (n + i)%nat.
Proof. induction n; intros; cbn; auto. destruct l; auto. now destruct i. Qed.
Lemma set_at_ok : forall A n (x : A) l, 0 <= n < Z.of_nat (length l) ->
  exists l', set_at n x l = Ok l' /\ length l' = length l /\
    (forall i, nth_error l' i = if Nat.eqb i (Z.to_nat n) then Some x else nth_error l i).
Proof.
  intros A n x l H. unfold set_at.
  replace ((0 <=? n) && (n <? Z.of_nat (length l))) with true by (symmetry; apply andb_true_intro; split; [apply Z.leb_le|apply Z.ltb_lt]; lia).
  eexists; split; [reflexivity|]. set (m := Z.to_nat n). assert (Hm : (m < length l)%nat) by (unfold m; lia).
  split.
  - rewrite app_length. cbn [length]. rewrite firstn_length, skipn_length. lia.
  - intros i. destruct (Nat.eqb_spec i m).
    + subst i. rewrite nth_error_app2 by (rewrite firstn_length; lia).
      rewrite firstn_length. replace (m - Nat.min m (length l))%nat with O by lia. reflexivity.
    + destruct (Nat.lt_ge_cases i m).
      * rewrite nth_error_app1 by (rewrite firstn_length; lia).
        revert i n0 H0. clear. revert l. induction m; intros l i; [lia|].
        destruct l; destruct i; cbn; auto. intros. apply IHm; lia.
      * rewrite nth_error_app2 by (rewrite firstn_length; lia). rewrite firstn_length.
        replace (i - Nat.min m (length l))%nat with (S (i - S m)) by lia. cbn [nth_error].
        rewrite nth_skipn. f_equal. lia.
Qed.

Section D.
Variable T : Type.
Variable dflt : T.

Record inv (d : dense T) : Prop := mkInv {
  i_len : length (d_im d) = length (d_ip d);
  i_small : Z.of_nat (length (d_im d)) < 2147483648;
  i_nodup : NoDup (map fst (d_sm d));
  i_dflt : forall i, nth_error (d_ip d) i = Some false -> nth_error (d_im d) i = Some dflt;
  i_pres : forall i, nth_error (d_ip d) i = Some true -> Z.of_nat i < 1431655765
}.

Lemma inv0 : inv dense0.
Proof. constructor; cbn; try lia; try constructor; intros i H; destruct i; discriminate. Qed.

(* what find sees *)
Definition look (d : dense T) (k : key) : option T :=
  match k with
  | KName s => sm_find s (d_sm d)
  | KInt n => match nth_error (d_ip d) (Z.to_nat n) with
              | Some true => nth_error (d_im d) (Z.to_nat n)
              | _ => None
              end
  end.

Lemma find_look : forall d k, inv d -> id_ok k -> find d k = Ok (look d k).
Proof.
  intros d k I K. destruct k as [s|n]; cbn; [reflexivity|]. cbn in K.
  destruct (Z.of_nat (length (d_ip d)) <=? n) eqn:E.
  - apply Z.leb_le in E. replace (nth_error (d_ip d) (Z.to_nat n)) with (@None bool); auto.
    symmetry. apply nth_error_None. lia.
  - apply Z.leb_gt in E. unfold get_at. replace (0 <=? n) with true by (symmetry; apply Z.leb_le; lia).
    destruct (nth_error (d_ip d) (Z.to_nat n)) as [b|] eqn:Eb.
    2:{ apply nth_error_None in Eb. lia. }
    destruct b; cbn; auto.
    destruct (nth_error (d_im d) (Z.to_nat n)) eqn:Et; auto.
    apply nth_error_None in Et. rewrite (i_len d I) in Et. lia.
Qed.

Lemma sm_find_none : forall s (l : list (Z * T)), sm_find s l = None <-> ~ In s (map fst l).
Proof.
  induction l as [|[s' t] l IH]; cbn; [tauto|]. destruct (Z.eqb_spec s' s).
  - split; [discriminate|]. intros. exfalso. apply H. auto.
  - rewrite IH. tauto.
Qed.
Lemma sm_find_app : forall s s' t (l : list (Z * T)),
  sm_find s (l ++ [(s', t)]) = match sm_find s l with Some x => Some x | None => if s' =? s then Some t else None end.
Proof.
  induction l as [|[a b] l IH]; cbn; [reflexivity|]. destruct (a =? s); auto.
Qed.
Lemma sm_find_erase : forall s s' (l : list (Z * T)),
  sm_find s (sm_erase s' l) = if s' =? s then None else sm_find s l.
Proof.
  intros s s' l. unfold sm_erase. induction l as [|[a b] l IH]; cbn; [now destruct (s' =? s)|].
  destruct (Z.eqb_spec a s'); cbn.
  - rewrite IH. destruct (Z.eqb_spec s' s); auto. destruct (Z.eqb_spec a s); auto. congruence.
  - destruct (Z.eqb_spec a s).
    + destruct (Z.eqb_spec s' s); auto. congruence.
    + apply IH.
Qed.
Lemma sm_find_set : forall s s' t (l : list (Z * T)),
  sm_find s (sm_set s' t l) = if (s' =? s) then match sm_find s l with Some _ => Some t | None => None end else sm_find s l.
Proof.
  induction l as [|[a b] l IH]; cbn; [now destruct (s' =? s)|].
  destruct (Z.eqb_spec a s'); cbn.
  - subst a. destruct (Z.eqb_spec s' s); auto.
  - destruct (Z.eqb_spec a s); auto. destruct (Z.eqb_spec s' s); auto. congruence.
Qed.
Lemma sm_set_keys : forall s t (l : list (Z * T)), map fst (sm_set s t l) = map fst l.
Proof. induction l as [|[a b] l IH]; cbn; auto. destruct (a =? s); cbn; congruence. Qed.
Lemma NoDup_filter_map : forall f (l : list (Z * T)), NoDup (map fst l) -> NoDup (map fst (filter f l)).
Proof.
  induction l as [|[a b] l IH]; cbn; intros H; [constructor|]. inversion H; subst.
  destruct (f (a, b)); cbn; auto. constructor; auto. intros C. apply H2.
  apply in_map_iff in C. destruct C as ([x y] & E1 & E2). cbn in E1. subst. apply filter_In in E2.
  apply in_map_iff. exists (a, y). tauto.
Qed.

Definition upd (m : key -> option T) (k : key) (v : option T) (k' : key) : option T :=
  if key_dec k k' then v else m k'.

Lemma nat_ne : forall n n', 0 <= n -> 0 <= n' -> n <> n' -> Nat.eqb (Z.to_nat n') (Z.to_nat n) = false.
Proof. intros. apply Nat.eqb_neq. lia. Qed.

Lemma grow_ok : forall d n, inv d -> 0 <= n < 1431655765 ->
  exists d', (if grows d n then
                  do sz <- newSize (n + 1); Ok (mkD (d_sm d) (resize sz dflt (d_im d)) (resize sz false (d_ip d)))
                else Ok d) = Ok d' /\ inv d' /\ n < Z.of_nat (length (d_im d')) /\ d_sm d' = d_sm d /\
     (grows d n = false -> d' = d) /\
     (forall k, id_ok k -> look d' k = look d k) /\ (length (d_im d) <= length (d_im d'))%nat.
Proof.
  intros d n I H. destruct (grows d n) eqn:G; unfold grows in G; rewrite to_int_small in G by (destruct I; lia).
  - apply Z.ltb_lt in G. unfold newSize.
    assert (P : n + 1 <= 3 * (n + 1) / 2 < 2147483648).
    { split; [apply Z.div_le_lower_bound|apply Z.div_lt_upper_bound]; lia. }
    set (p := 3 * (n + 1) / 2) in *. replace (p <? 4294967296) with true by (symmetry; apply Z.ltb_lt; lia).
    cbn. eexists; split; [reflexivity|]. destruct I as [I1 I2 I3 I4 I5].
    assert (L1 : length (resize p dflt (d_im d)) = Z.to_nat p) by (apply resize_length; lia).
    assert (L2 : length (resize p false (d_ip d)) = Z.to_nat p) by (apply resize_length; lia).
    split; [constructor; cbn; auto; try lia|].
    { intros i Hi. assert (i < Z.to_nat p)%nat by (rewrite <- L2; apply nth_error_Some; congruence).
      rewrite resize_nth in Hi by lia. rewrite resize_nth by lia.
      destruct (nth_error (d_ip d) i) eqn:E.
      - injection Hi as ->. now rewrite (I4 _ E).
      - apply nth_error_None in E. replace (nth_error (d_im d) i) with (@None T); auto.
        symmetry. apply nth_error_None. lia. }
    { intros i Hi. assert (i < Z.to_nat p)%nat by (rewrite <- L2; apply nth_error_Some; congruence).
      rewrite resize_nth in Hi by lia. destruct (nth_error (d_ip d) i) eqn:E; [|discriminate].
      apply I5. congruence. }
    split; [cbn; lia|]. split; [reflexivity|]. split; [discriminate|]. split; [|cbn; lia].
    intros [s|m] K; cbn; auto. cbn in K.
    destruct (Nat.lt_ge_cases (Z.to_nat m) (Z.to_nat p)).
    + rewrite resize_nth by lia. rewrite resize_nth by lia.
      destruct (nth_error (d_ip d) (Z.to_nat m)) as [[]|] eqn:E; auto.
      destruct (nth_error (d_im d) (Z.to_nat m)) eqn:E'; auto.
      apply nth_error_None in E'. assert (Z.to_nat m < length (d_ip d))%nat by (apply nth_error_Some; congruence). lia.
    + replace (nth_error (resize p false (d_ip d)) (Z.to_nat m)) with (@None bool) by (symmetry; apply nth_error_None; lia).
      replace (nth_error (d_ip d) (Z.to_nat m)) with (@None bool) by (symmetry; apply nth_error_None; lia). reflexivity.
  - apply Z.ltb_ge in G. exists d. split; [reflexivity|]. split; [exact I|]. split; [lia|]. split; [reflexivity|]. split; [reflexivity|]. split; [reflexivity|lia].
Qed.

Lemma setpt_ok : forall d n t b, inv d -> 0 <= n < Z.of_nat (length (d_im d)) -> (b = false -> t = dflt) -> n < 1431655765 ->
  exists d', (do im <- set_at n t (d_im d); do ip <- set_at n b (d_ip d); Ok (mkD (d_sm d) im ip)) = Ok d' /\
    inv d' /\ d_sm d' = d_sm d /\ length (d_im d') = length (d_im d) /\
    (forall k, id_ok k -> look d' k = upd (look d) (KInt n) (if b : bool then Some t else None) k).
Proof.
  intros d n t b I H Hb Hn. destruct I as [I1 I2 I3 I4 I5].
  destruct (set_at_ok T n t (d_im d)) as (im & E1 & L1 & N1); [lia|].
  destruct (set_at_ok bool n b (d_ip d)) as (ip & E2 & L2 & N2); [lia|].
  rewrite E1, E2. cbn. eexists; split; [reflexivity|]. split; [constructor; cbn; auto; try congruence|].
  - intros i Hi. rewrite N2 in Hi. rewrite N1. destruct (Nat.eqb i (Z.to_nat n)); auto.
    injection Hi as Hi. f_equal. auto.
  - intros i Hi. rewrite N2 in Hi. destruct (Nat.eqb_spec i (Z.to_nat n)); [lia|auto].
  - split; [reflexivity|]. split; [cbn; lia|].
    intros [s|m] K; cbn; unfold upd.
    + try (destruct key_dec; [discriminate|]); reflexivity.
    + cbn in K. rewrite N2, N1. destruct (key_dec (KInt n) (KInt m)) as [e|e].
      * injection e as ->. rewrite Nat.eqb_refl. now destruct b.
      * rewrite (nat_ne n m) by (try lia; congruence). reflexivity.
Qed.

Lemma insert_ok : forall d k t, inv d -> id_ok k ->
  exists d', insert dflt d k t = Ok d' /\ inv d' /\ (length (d_im d) <= length (d_im d'))%nat /\
    (forall n, k = KInt n -> n < Z.of_nat (length (d_im d'))) /\
    (forall k', id_ok k' -> look d' k' = upd (look d) k
       (match k, look d k with KName _, Some t' => Some t' | _, _ => Some t end) k').
Proof.
  intros d k t I K. destruct k as [s|n]; cbn.
  - eexists; split; [reflexivity|]. destruct I as [I1 I2 I3 I4 I5].
    destruct (sm_find s (d_sm d)) eqn:E.
    + split; [constructor; auto|]. split; [lia|]. split; [discriminate|].
      intros k' K'. unfold upd. destruct (key_dec (KName s) k'); auto. subst. cbn. auto.
    + split; [constructor; cbn; auto|].
      { rewrite map_app. cbn. apply sm_find_none in E. apply Permutation_NoDup with (s :: map fst (d_sm d)).
        - apply Permutation_cons_append.
        - constructor; auto. }
      split; [cbn; lia|]. split; [discriminate|]. intros [s'|m] K'; unfold upd.
      * cbn [look d_sm]. rewrite sm_find_app. destruct (key_dec (KName s) (KName s')) as [e|e].
        -- injection e as <-. now rewrite E, Z.eqb_refl.
        -- destruct (sm_find s' (d_sm d)); auto. destruct (Z.eqb_spec s s'); auto; congruence.
      * try (destruct key_dec; [discriminate|]); reflexivity.
  - cbn in K. unfold ll. replace (fits64b (n + 1)) with true.
    2:{ symmetry. unfold fits64b, LLONG_MIN, LLONG_MAX. apply andb_true_intro; split; apply Z.leb_le; lia. }
    cbn. destruct (grow_ok d n I K) as (d1 & E1 & I1 & L1 & S1 & _ & Q1 & Q2). rewrite E1. cbn.
    destruct (setpt_ok d1 n t true I1) as (d2 & E2 & I2 & S2 & L2 & Q3); [lia|discriminate|lia|].
    rewrite E2. exists d2. split; [reflexivity|]. split; [auto|]. split; [lia|]. split.
    { intros m [= <-]. lia. }
    intros k' K'. rewrite Q3 by auto. unfold upd. destruct key_dec; auto.
Qed.

Lemma remove_ok : forall d k, inv d -> id_ok k ->
  exists d', remove dflt d k = Ok d' /\ inv d' /\ length (d_im d') = length (d_im d) /\
    (forall k', id_ok k' -> look d' k' = upd (look d) k None k').
Proof.
  intros d k I K. destruct k as [s|n]; cbn.
  - eexists; split; [reflexivity|]. destruct I as [I1 I2 I3 I4 I5]. split; [constructor; cbn; auto|].
    { now apply NoDup_filter_map. }
    split; [reflexivity|]. intros [s'|m] K'; unfold upd; cbn [look d_sm].
    + rewrite sm_find_erase. destruct (Z.eqb_spec s s'); destruct key_dec; congruence.
    + try (destruct key_dec; [discriminate|]); reflexivity.
  - cbn in K. rewrite to_int_small by (destruct I; lia).
    destruct (n <? Z.of_nat (length (d_ip d))) eqn:E.
    + apply Z.ltb_lt in E. destruct (setpt_ok d n dflt false I) as (d2 & E2 & I2 & S2 & L2 & Q3); [rewrite (i_len d I); lia|auto|lia|].
      rewrite E2. exists d2. auto.
    + apply Z.ltb_ge in E. exists d. split; [reflexivity|]. split; [auto|]. split; [auto|].
      intros k' K'. unfold upd. destruct key_dec; auto. subst k'. cbn.
      replace (nth_error (d_ip d) (Z.to_nat n)) with (@None bool); auto.
      symmetry. apply nth_error_None. lia.
Qed.

Lemma assign_ok : forall d k t t0, inv d -> id_ok k -> look d k = Some t0 ->
  exists d', assign d k t = Ok d' /\ inv d' /\ length (d_im d') = length (d_im d) /\
    (forall k', id_ok k' -> look d' k' = upd (look d) k (Some t) k').
Proof.
  intros d k t t0 I K L. destruct k as [s|n]; cbn.
  - eexists; split; [reflexivity|]. destruct I as [I1 I2 I3 I4 I5]. split; [constructor; cbn; auto|].
    { now rewrite sm_set_keys. }
    split; [reflexivity|]. intros [s'|m] K'; unfold upd; cbn [look d_sm].
    + rewrite sm_find_set. cbn in L. destruct (Z.eqb_spec s s'); destruct key_dec; try congruence. subst s'. now rewrite L.
    + try (destruct key_dec; [discriminate|]); reflexivity.
  - cbn in K, L. destruct I as [I1 I2 I3 I4 I5].
    destruct (nth_error (d_ip d) (Z.to_nat n)) as [[]|] eqn:E; try discriminate.
    assert (Z.to_nat n < length (d_im d))%nat by (apply nth_error_Some; congruence).
    destruct (set_at_ok T n t (d_im d)) as (im & E1 & L1 & N1); [lia|].
    rewrite E1. cbn. eexists; split; [reflexivity|]. split; [constructor; cbn; auto; try congruence|].
    { intros i Hi. rewrite N1. destruct (Nat.eqb_spec i (Z.to_nat n)); auto. congruence. }
    split; [auto|]. intros [s|m] K'; cbn; unfold upd.
    + try (destruct key_dec; [discriminate|]); reflexivity.
    + cbn in K'. rewrite N1. destruct (key_dec (KInt n) (KInt m)) as [e|e].
      * injection e as ->. rewrite Nat.eqb_refl. now rewrite E.
      * rewrite (nat_ne n m) by (try lia; congruence). reflexivity.
Qed.

Lemma step_ok : forall d o rh, inv d -> mop_ok o -> (forall k, id_ok k -> look d k = value rh k) ->
  exists d', mstep dflt d o = Ok d' /\ inv d' /\ (forall k, id_ok k -> look d' k = value (o :: rh) k).
Proof.
  intros d o rh I K L. destruct o as [k t|k|]; cbn in K |- *.
  - destruct (insert_ok d k t I K) as (d' & E & I' & _ & _ & Q). exists d'. split; [auto|]. split; [auto|].
    intros k' K'. rewrite Q by auto. unfold upd. destruct key_dec; [|auto]. subst k'.
    destruct k; [|reflexivity]. rewrite L by exact K. reflexivity.
  - destruct (remove_ok d k I K) as (d' & E & I' & _ & Q). exists d'. split; [auto|]. split; [auto|].
    intros k' K'. rewrite Q by auto. unfold upd. destruct key_dec; auto.
  - exists dense0. split; [reflexivity|]. split; [apply inv0|]. intros [s|n] _; cbn; auto. now destruct (Z.to_nat n).
Qed.

Lemma run_ok : forall h d rh, inv d -> Forall mop_ok h -> (forall k, id_ok k -> look d k = value rh k) ->
  exists d', mrun dflt d h = Ok d' /\ inv d' /\ (forall k, id_ok k -> look d' k = value (rev h ++ rh) k).
Proof.
  induction h as [|o h IH]; intros d rh I F L; cbn.
  - exists d. auto.
  - inversion F; subst. destruct (step_ok d o rh I) as (d1 & E & I1 & L1); auto.
    rewrite E. cbn. destruct (IH d1 (o :: rh)) as (d2 & E2 & I2 & L2); auto.
    exists d2. split; [auto|]. split; [auto|]. intros. rewrite L2 by auto. now rewrite <- app_assoc.
Qed.

Lemma C48_find_l : forall h, Forall mop_ok h ->
  exists d, mrun dflt dense0 h = Ok d /\ forall k, id_ok k -> find d k = Ok (value (rev h) k).
Proof.
  intros h F. destruct (run_ok h dense0 [] inv0 F) as (d & E & I & L).
  - intros [s|n] _; cbn; auto. now destruct (Z.to_nat n).
  - exists d. split; auto. intros k K. rewrite find_look by auto. rewrite L by auto. now rewrite app_nil_r.
Qed.

(** get on present keys *)
Lemma C48_get_l : forall h, Forall mop_ok h ->
  exists d, mrun dflt dense0 h = Ok d /\ forall k t, id_ok k -> value (rev h) k = Some t -> get d k = Ok t.
Proof.
  intros h F. destruct (run_ok h dense0 [] inv0 F) as (d & E & I & L).
  - intros [s|n] _; cbn; auto. now destruct (Z.to_nat n).
  - exists d. split; auto. intros k t K V. rewrite app_nil_r in L. rewrite <- L in V by auto.
    destruct k as [s|n]; cbn in *.
    + now rewrite V.
    + destruct (nth_error (d_ip d) (Z.to_nat n)) as [[]|]; try discriminate.
      unfold get_at. replace (0 <=? n) with true by (symmetry; apply Z.leb_le; lia). now rewrite V.
Qed.

(** iteration *)
Lemma skip_length : forall l : list (T * bool), (length (skip l) <= length l)%nat.
Proof. induction l as [|[t []] l IH]; cbn; lia. Qed.

Fixpoint vis (l : list (T * bool)) (f : nat) : list T :=
  match f with
  | O => []
  | S f => match l with
           | [] => []
           | (t, b) :: r => t :: vis (match skip l with [] => [] | _ :: r' => r' end) f
           end
  end.
Lemma visit_int : forall f l, (length l <= f)%nat -> visit f (mkIt [] l) = Ok (vis l f).
Proof.
  induction f; intros l H.
  - destruct l; cbn in *; [reflexivity|lia].
  - destruct l as [|[t b] l]; [reflexivity|].
    cbn [visit deref it_sm it_im incr]. rewrite IHf.
    + reflexivity.
    + destruct b; cbn in *; [lia|]. pose proof (skip_length l). destruct (skip l); cbn in *; lia.
Qed.
Lemma visit_named : forall sm l f, (length l <= f)%nat -> 
  visit (length sm + f) (mkIt sm l) = Ok (map snd sm ++ vis l f).
Proof.
  induction sm as [|[s t] sm IH]; intros l f H.
  - cbn [length Nat.add map app]. now apply visit_int.
  - cbn. rewrite IH by auto. reflexivity.
Qed.

Lemma vis_prefix : forall l n f, (length l + n <= f)%nat ->
  vis (map (fun t => (t, true)) l ++ repeat (dflt, false) n) f = l ++ (if Nat.eqb n 0 then [] else [dflt]).
Proof.
  induction l as [|a l IH]; intros n f H; cbn.
  - destruct n; cbn; [now destruct f|]. destruct f; [cbn in H; lia|]. cbn.
    assert (X : forall n, skip (repeat (dflt, false) n) = @nil (T * bool)) by (clear; induction n; cbn; auto).
    rewrite X. now destruct f.
  - destruct f; [cbn in H; lia|]. cbn. rewrite IH; auto. cbn in H. lia.
Qed.

Definition int_part (l : list T) (n : nat) := map (fun t => (t, true)) l ++ repeat (dflt, false) n.

Lemma combine_prefix : forall (l : list T) n, 
  combine (l ++ repeat dflt n) (repeat true (length l) ++ repeat false n) = int_part l n.
Proof.
  unfold int_part. induction l; intros; cbn; [|now rewrite IHl].
  induction n; cbn; auto. now rewrite IHn.
Qed.

Lemma iterate_prefix : forall d (l : list T) n, 
  d_im d = l ++ repeat dflt n -> d_ip d = repeat true (length l) ++ repeat false n ->
  iterate d = Ok (map snd (d_sm d) ++ l ++
                  (match d_sm d, l with [], [] => [] | _, _ => if Nat.eqb n 0 then [] else [dflt] end)).
Proof.
  intros d l n H1 H2. unfold iterate, begin. rewrite H1, H2, combine_prefix.
  assert (L : length (l ++ repeat dflt n) = (length l + n)%nat) by (rewrite app_length, repeat_length; reflexivity).
  rewrite L.
  destruct (d_sm d) as [|p sm] eqn:E.
  - cbn [mkIter length Nat.add map app]. destruct l as [|a l].
    + unfold int_part. cbn [map app]. assert (X : forall n, skip (repeat (dflt, false) n) = @nil (T * bool)) by (clear; induction n; cbn; auto).
      rewrite X. now destruct n.
    + replace (skip (int_part (a :: l) n)) with (int_part (a :: l) n) by reflexivity.
      rewrite visit_int. 2:{ unfold int_part. rewrite app_length, map_length, repeat_length. lia. }
      unfold int_part. rewrite vis_prefix by lia. reflexivity.
  - cbn [mkIter]. rewrite visit_named. 2:{ unfold int_part. rewrite app_length, map_length, repeat_length. lia. }
    unfold int_part. rewrite vis_prefix by lia. reflexivity.
Qed.

Lemma repeat_of : forall A (x : A) l, (forall i y, nth_error l i = Some y -> y = x) -> l = repeat x (length l).
Proof.
  induction l; intros H; cbn; auto. f_equal; [apply (H O); reflexivity|]. apply IHl. intros i y E. apply (H (S i)); auto.
Qed.
Lemma nth_firstn : forall A (l : list A) n i, (i < n)%nat -> nth_error (firstn n l) i = nth_error l i.
Proof.
  induction l; intros n i H; destruct n; cbn; auto; try lia; destruct i; cbn; auto. apply IHl. lia.
Qed.

Lemma ip_shape : forall d m, inv d -> Z.of_nat m < 1431655765 ->
  (forall n, 0 <= n < 1431655765 -> (look d (KInt n) <> None <-> n < Z.of_nat m)) ->
  (m <= length (d_im d))%nat /\
  d_ip d = repeat true m ++ repeat false (length (d_im d) - m) /\
  d_im d = firstn m (d_im d) ++ repeat dflt (length (d_im d) - m).
Proof.
  intros d m I B H. destruct I as [I1 I2 I3 I4 I5].
  assert (T1 : forall i, (i < m)%nat -> nth_error (d_ip d) i = Some true).
  { intros i Hi. specialize (H (Z.of_nat i)). cbn in H. rewrite Nat2Z.id in H.
    destruct (nth_error (d_ip d) i) as [[]|]; auto; exfalso; apply (proj2 (H ltac:(lia))); auto; lia. }
  assert (T2 : forall i, (m <= i)%nat -> nth_error (d_ip d) i <> Some true).
  { intros i Hi C. pose proof (I5 _ C) as Hl.
    specialize (H (Z.of_nat i)). cbn in H. rewrite Nat2Z.id in H.
    rewrite C in H. assert (nth_error (d_im d) i <> None).
    { apply nth_error_Some. rewrite I1. apply nth_error_Some. congruence. }
    assert (Z.of_nat i < Z.of_nat m) by (apply H; auto; lia). lia. }
  assert (M : (m <= length (d_im d))%nat).
  { destruct m; [lia|]. rewrite I1. apply (proj1 (nth_error_Some (d_ip d) m)). rewrite T1; [discriminate|lia]. }
  split; [auto|]. split.
  - rewrite <- (firstn_skipn m (d_ip d)) at 1. f_equal.
    + rewrite (repeat_of _ true (firstn m (d_ip d))).
      * rewrite firstn_length. f_equal. lia.
      * intros i y E. assert (i < m)%nat. { assert (i < length (firstn m (d_ip d)))%nat by (apply nth_error_Some; congruence). rewrite firstn_length in H0. lia. }
        rewrite nth_firstn in E by auto. rewrite T1 in E by auto. congruence.
    + rewrite (repeat_of _ false (skipn m (d_ip d))).
      * rewrite skipn_length. f_equal. lia.
      * intros i y E. rewrite nth_skipn in E. destruct y; auto. exfalso. apply (T2 (m + i)%nat); [lia|auto].
  - rewrite <- (firstn_skipn m (d_im d)) at 1. f_equal.
    rewrite (repeat_of _ dflt (skipn m (d_im d))).
    + rewrite skipn_length. f_equal.
    + intros i y E. rewrite nth_skipn in E.
      assert (nth_error (d_ip d) (m + i) = Some false).
      { destruct (nth_error (d_ip d) (m + i)) as [[]|] eqn:X; auto.
        - exfalso. apply (T2 (m + i)%nat); [lia|auto].
        - apply nth_error_None in X. rewrite <- I1 in X. apply nth_error_None in X. congruence. }
      apply I4 in H0. congruence.
Qed.
End D.

(** the visited values when the integer keys are 0..m-1 *)
Lemma sm_find_in : forall T s t (l : list (Z * T)), NoDup (map fst l) -> In (s, t) l -> sm_find s l = Some t.
Proof.
  induction l as [|[a b] l IH]; cbn; intros N H; [tauto|]. inversion N; subst. destruct H as [H|H].
  - injection H as -> ->. now rewrite Z.eqb_refl.
  - destruct (Z.eqb_spec a s); auto. subst. exfalso. apply H2. apply in_map_iff. exists (s, t). auto.
Qed.

Lemma NoDup_app : forall A (l l' : list A), NoDup l -> NoDup l' -> (forall x, In x l -> In x l' -> False) -> NoDup (l ++ l').
Proof.
  induction l; intros l' H H' D; cbn; auto. inversion H; subst. constructor.
  - intros C. apply in_app_or in C. destruct C; [tauto|]. apply (D a); [now left|auto].
  - apply IHl; auto. intros x X1 X2. apply (D x); [now right|auto].
Qed.

Lemma C48_iterate_l : forall T (dflt : T) h d m, Forall mop_ok h -> mrun dflt dense0 h = Ok d ->
  0 <= m < 1431655765 -> (forall n, id_ok (KInt n) -> (value (rev h) (KInt n) <> None <-> n < m)) ->
  exists ks vs extra, iterate d = Ok (vs ++ extra) /\ (extra = [] \/ extra = [dflt]) /\
    NoDup ks /\ Forall2 (fun k v => value (rev h) k = Some v) ks vs /\
    (forall k, id_ok k -> value (rev h) k <> None -> In k ks).
Proof.
  intros T dflt h d m F R M H. destruct (run_ok T dflt h dense0 [] (inv0 T dflt) F) as (d' & E & I & L).
  { intros [s|n] _; cbn; auto. now destruct (Z.to_nat n). }
  rewrite R in E. injection E as <-. rewrite app_nil_r in L.
  destruct (ip_shape T dflt d (Z.to_nat m) I) as (P1 & P2 & P3); [lia| |].
  { intros n Hn. rewrite L by exact Hn. rewrite H by exact Hn. lia. }
  set (m' := Z.to_nat m) in *.
  set (l := firstn m' (d_im d)) in *. assert (Ll : length l = m') by (unfold l; rewrite firstn_length; lia).
  rewrite <- Ll in P2 at 1. pose proof (iterate_prefix T dflt d l (length (d_im d) - m') P3 P2) as Q.
  exists (map KName (map fst (d_sm d)) ++ map (fun i => KInt (Z.of_nat i)) (seq 0 m')), (map snd (d_sm d) ++ l).
  eexists. rewrite <- app_assoc. split; [exact Q|]. split.
  { destruct (d_sm d), l; auto; destruct (Nat.eqb _ 0); auto. }
  split; [|split].
  - apply NoDup_app; [| |].
    + apply FinFun.Injective_map_NoDup; [|apply (i_nodup T dflt d I)]. intros a b [=]; auto.
    + apply FinFun.Injective_map_NoDup; [|apply seq_NoDup]. intros a b [= X]. lia.
    + intros k K1 K2. apply in_map_iff in K1. apply in_map_iff in K2. destruct K1 as (? & <- & _), K2 as (? & ? & _). discriminate.
  - apply Forall2_app.
    + assert (G : forall l', incl l' (d_sm d) -> Forall2 (fun k v => value (rev h) k = Some v) (map KName (map fst l')) (map snd l')).
      { induction l' as [|[s t] l' IH]; intros Hi; cbn; constructor.
        - rewrite <- L by exact Logic.I. cbn. apply sm_find_in; [apply (i_nodup T dflt d I)|]. apply Hi. left. reflexivity.
        - apply IH. intros x Hx. apply Hi. now right. }
      apply G. apply incl_refl.
    + assert (G : forall q j, (j + length q = m')%nat -> (forall i, nth_error q i = nth_error (d_im d) (j + i)%nat \/ nth_error q i = None) ->
           Forall2 (fun k v => value (rev h) k = Some v) (map (fun i => KInt (Z.of_nat i)) (seq j (length q))) q).
      { induction q as [|a q IH]; intros j Hj Hq; cbn; constructor.
        - assert (Hi : id_ok (KInt (Z.of_nat j))) by (cbn; cbn in Hj; lia).
          rewrite <- L by exact Hi. cbn. rewrite Nat2Z.id.
          replace (nth_error (d_ip d) j) with (Some true).
          2:{ symmetry. rewrite P2. rewrite nth_error_app1 by (rewrite repeat_length; cbn in Hj; lia).
              apply nth_error_repeat. cbn in Hj. lia. }
          destruct (Hq O) as [X|X]; [|discriminate]. cbn in X. rewrite Nat.add_0_r in X. auto.
        - apply IH; [cbn in Hj; lia|]. intros i. destruct (Hq (S i)) as [X|X]; cbn in X; [left|right]; auto.
          rewrite X. f_equal. lia. }
      specialize (G l O). rewrite Ll in G. apply G; [lia|]. intros i.
      destruct (Nat.lt_ge_cases i m').
      * left. unfold l. now apply nth_firstn.
      * right. apply nth_error_None. lia.
  - intros k K V. apply in_or_app. destruct k as [s|n].
    + left. rewrite <- L in V by exact K. cbn in V. apply in_map.
      destruct (in_dec Z.eq_dec s (map fst (d_sm d))); auto. exfalso. apply V. now apply sm_find_none.
    + right. apply H in V; auto. cbn in K. apply in_map_iff. exists (Z.to_nat n). split; [f_equal; lia|]. apply in_seq. lia.
Qed.
