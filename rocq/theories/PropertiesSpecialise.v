(** C95, C96: specialisation of polymorphic functions (lib/type_specialise.cpp). *)
Require Import List Arith Bool Lia String Ascii.
From Verif Require Import SpecialiseModel SpecialiseSpec SpecialiseProofs SpecialiseProofs2.
Import ListNotations.

(** All places governed by one type-inst variable get the same base type: the least one above the types of the call. *)
Theorem C95_base_type : forall ps T v, well_typed_call ps T -> (exists o, governed ps v o) ->
  exists b, (forall o, governed ps v o -> place_base (instantiated_types ps T) o = b /\ below (place_base T o) b) /\
            (forall b', (forall o, governed ps v o -> below (place_base T o) b') -> below b b').
Proof.
  intros ps T v W [o0 G0]. destruct (instantiated_inv ps T W) as [m I].
  assert (E : forall o, In o (m v) <-> governed ps v o).
  { intros o. rewrite (i_map _ _ _ _ I), occs_of_in. apply all_occs_governed. }
  destruct (i_base _ _ _ _ I v) as (b & B1 & o1 & B2 & B3).
  { intros N. apply E in G0. rewrite N in G0. exact G0. }
  exists b. split; [intros o G; apply B1; apply E; exact G|].
  intros b' U. rewrite <- B3. apply U. apply E. exact B2.
Qed.
Print Assumptions C95_base_type.

(** The enumerated types: if the first place has none, no place keeps one; if all places agree, all keep theirs.
    Missing (false, see C95_enum_refuted and C95_float_enum_refuted): a first place with an enumerated type that others do not
    share. *)
Theorem C95_enum_type_partial : forall ps T v o1, well_typed_call ps T -> first_place ps v o1 ->
  (place_enum T o1 = 0 -> forall o, governed ps v o -> place_enum (instantiated_types ps T) o = 0) /\
  ((forall o, governed ps v o -> place_enum T o = place_enum T o1) ->
   forall o, governed ps v o -> place_enum (instantiated_types ps T) o = place_enum T o1).
Proof.
  intros ps T v o1 W [G1 F1]. destruct (instantiated_inv ps T W) as [m I].
  assert (E : forall o, In o (m v) <-> governed ps v o).
  { intros o. rewrite (i_map _ _ _ _ I), occs_of_in. apply all_occs_governed. }
  split.
  - intros Z o G. destruct (occs_of_head (all_occs 0 ps) v o1 (all_occs_ord ps 0)) as [r Q].
    + apply all_occs_governed. exact G1.
    + intros o' X. apply F1. apply all_occs_governed. exact X.
    + eapply (i_zero _ _ _ _ I v o1 r); [rewrite (i_map _ _ _ _ I); exact Q|exact Z|apply E; exact G].
  - intros A o G. apply (i_enum _ _ _ _ I v); [|apply E; exact G]. intros p X. apply A. apply E. exact X.
Qed.
Print Assumptions C95_enum_type_partial.

(** Nothing else changes. *)
Theorem C95_frame : forall ps T, well_typed_call ps T ->
  (forall i, trest (instantiated_types ps T i) = trest (T i)) /\
  (forall o, (forall v, ~ governed ps v o) ->
     place_base (instantiated_types ps T) o = place_base T o /\ place_enum (instantiated_types ps T) o = place_enum T o).
Proof.
  intros ps T W. destruct (instantiated_inv ps T W) as [m I]. split; [exact (i_rest _ _ _ _ I)|].
  intros o N. apply (i_out _ _ _ _ I). intros X. apply in_snd in X. destruct X as [v X]. apply (N v). apply all_occs_governed. exact X.
Qed.
Print Assumptions C95_frame.

(** f($T: x, $T: y) called with a value of the enumerated type 7 and an integer, or a float *)
Definition two_params : list param := [mkParam [] (Some 0); mkParam [] (Some 0)].
Definition scalar (b : base) (e : nat) : aty := mkAty b (fun _ => 0) e 0.
Definition enum_then (t : aty) (i : nat) : aty := match i with 0 => scalar IntBase 7 | 1 => t | _ => scalar IntBase 0 end.
Lemma two_governed : forall v o, governed two_params v o -> v = 0 /\ (o = (0, None) \/ o = (1, None)).
Proof.
  intros v [i s] (p & N & X). cbn [fst snd] in *. destruct i as [|[|i]]; cbn in N; [| |destruct i; discriminate];
    injection N as <-; cbn in X; (destruct s as [j|]; [destruct j; discriminate|]); injection X as <-; auto.
Qed.
Lemma enum_then_typed : forall b, b = IntBase \/ b = FloatBase -> well_typed_call two_params (enum_then (scalar b 0)).
Proof.
  intros b B. split; [|split].
  - intros v o o' X Y. apply two_governed in X. apply two_governed in Y. destruct X as [_ [-> | ->]], Y as [_ [-> | ->]];
      destruct B as [-> | ->]; cbn; (left; constructor) || (right; constructor).
  - intros v o i j _ Y. apply two_governed in Y. destruct Y as [_ [Y|Y]]; discriminate.
  - intros [i [j|]]; cbn; [reflexivity|]. destruct i as [|[|i]]; cbn; [reflexivity| |]; intros N; congruence.
Qed.
Theorem C95_enum_refuted : exists ps T, well_typed_call ps T /\ governed ps 0 (0, None) /\ governed ps 0 (1, None) /\
  place_enum T (1, None) = 0 /\
  place_enum (instantiated_types ps T) (0, None) <> place_enum (instantiated_types ps T) (1, None).
Proof.
  exists two_params, (enum_then (scalar IntBase 0)). split; [apply enum_then_typed; auto|].
  split; [eexists; split; reflexivity|]. split; [eexists; split; reflexivity|]. split; [reflexivity|]. vm_compute. discriminate.
Qed.
Print Assumptions C95_enum_refuted.
(** here the result is not even a type: a float with an enumerated type *)
Theorem C95_float_enum_refuted : exists ps T, well_typed_call ps T /\ governed ps 0 (0, None) /\
  place_base (instantiated_types ps T) (0, None) = FloatBase /\ place_enum (instantiated_types ps T) (0, None) <> 0.
Proof.
  exists two_params, (enum_then (scalar FloatBase 0)). split; [apply enum_then_typed; auto|].
  split; [eexists; split; reflexivity|]. split; [reflexivity|]. vm_compute. discriminate.
Qed.
Print Assumptions C95_float_enum_refuted.

(** Two calls share an instance number exactly if they call the same name with the same parameter names and the same
    types up to var and opt; a call finds its instance exactly if an earlier call created it, directly or as
    the par version. *)
Theorem C95_instances : forall calls,
  List.length (serve empty_registry calls) = List.length calls /\
  (forall n n' c c' a a', nth_error calls n = Some c -> nth_error calls n' = Some c' ->
     nth_error (serve empty_registry calls) n = Some a -> nth_error (serve empty_registry calls) n' = Some a' ->
     (a_id a = a_id a' <-> c_name c = c_name c' /\ c_params c = c_params c' /\ Forall2 same_up_to_inst (c_types c) (c_types c'))) /\
  (forall n c a, nth_error calls n = Some c -> nth_error (serve empty_registry calls) n = Some a ->
     (a_exists a = true <-> exists n' c', n' < n /\ nth_error calls n' = Some c' /\
        c_name c = c_name c' /\ c_params c = c_params c' /\
        (c_types c = c_types c' \/
         c_types c = map (fun t => mkKty false (kopt t) (kcore t) (kid t)) (c_types c')))).
Proof.
  intros calls. assert (R0 : Reg [] empty_registry).
  { split; cbn; try discriminate. intros k. split; [contradiction|]. intros (c & [] & _). }
  destruct (serve_reg calls [] empty_registry R0) as (L & m & _ & J & A). split; [exact L|]. split.
  - intros n n' c c' a a' X X' Y Y'. destruct (A n c a X Y) as [F _]. destruct (A n' c' a' X' Y') as [F' _].
    transitivity (base_key c = base_key c').
    + split; [intros E; rewrite <- E in F'; exact (J _ _ _ F F')|intros E; rewrite E in F; congruence].
    + unfold base_key. rewrite <- same_types. split; [intros E; injection E as -> -> ->; auto|intros (-> & -> & ->); reflexivity].
  - intros n c a X Y. destruct (A n c a X Y) as [_ E]. rewrite E. cbn [app]. split.
    + intros (c' & I & K). apply In_nth_error in I. destruct I as [n' I].
      assert (LT : n' < n).
      { assert (n' < List.length (firstn n calls)) by (apply nth_error_Some; congruence). rewrite firstn_length in *. lia. }
      exists n', c'. split; [exact LT|]. split.
      { rewrite <- (firstn_skipn n calls). rewrite nth_error_app1; [exact I|]. apply nth_error_Some. congruence. }
      unfold concrete_key, par_key, mk_par in K. destruct K as [K|K]; injection K as -> -> ->; auto.
    + intros (n' & c' & LT & I & K1 & K2 & K3). exists c'. split.
      * rewrite <- (firstn_skipn n calls) in I. rewrite nth_error_app1 in I; [eapply nth_error_In; exact I|].
        rewrite firstn_length. assert (n < List.length calls) by (apply nth_error_Some; congruence). lia.
      * unfold concrete_key, par_key, mk_par. rewrite K1, K2. destruct K3 as [-> | ->]; auto.
Qed.
Print Assumptions C95_instances.

Example C95_nonvacuous :
  (* f(array[$$E] of $T: a, $T: y, $$E: e) called with an array of int over the enumerated type 3, a float and a value of type 3 *)
  let ps := [mkParam [Some 1] (Some 0); mkParam [] (Some 0); mkParam [] (Some 1)] in
  let T := fun i => match i with 0 => mkAty IntBase (fun j => match j with 0 => 3 | _ => 0 end) 0 11
                               | 1 => scalar FloatBase 0 | 2 => scalar IntBase 3 | _ => scalar IntBase 0 end in
  well_typed_call ps T /\ first_place ps 1 (0, Some 0) /\ first_place ps 0 (0, None) /\
  place_base (instantiated_types ps T) (0, None) = FloatBase /\ place_enum (instantiated_types ps T) (0, Some 0) = 3 /\
  place_enum (instantiated_types ps T) (2, None) = 3 /\
  serve empty_registry
    [mkCall "f" [mkKty true false 5 0] ["x"%string]; mkCall "f" [mkKty false true 5 0] ["x"%string];
     mkCall "f" [mkKty false false 5 0] ["x"%string]; mkCall "f" [mkKty false false 5 2] ["x"%string]] =
    [mkAns 0 false false; mkAns 0 false true; mkAns 0 true true; mkAns 1 false true].
Proof.
  cbv zeta. set (ps := [_; _; _]).
  assert (G : forall v o, governed ps v o -> (v = 1 /\ (o = (0, Some 0) \/ o = (2, None))) \/ (v = 0 /\ (o = (0, None) \/ o = (1, None)))).
  { intros v [i s] (p & N & X). cbn [fst snd] in *. destruct i as [|[|[|i]]]; cbn in N; [| | |destruct i; discriminate];
      injection N as <-; cbn in X; destruct s as [[|j]|]; try (destruct j; discriminate); try discriminate; injection X as <-; auto. }
  split; [|split; [|split; [|split; [|split; [|split]]]]]; try reflexivity.
  - split; [|split].
    + intros v o o' X Y. apply G in X. apply G in Y.
      destruct X as [[-> [-> | ->]]|[-> [-> | ->]]], Y as [[E [-> | ->]]|[E [-> | ->]]]; try discriminate; cbn; (left; constructor) || (right; constructor).
    + intros v o i j X Y. apply G in X. apply G in Y. destruct Y as [[-> [Y|Y]]|[-> [Y|Y]]]; try discriminate.
      destruct X as [[_ [-> | ->]]|[X _]]; try discriminate.
    + intros [i [j|]]; cbn; [reflexivity|]. destruct i as [|[|[|i]]]; cbn; congruence.
  - split; [eexists; split; reflexivity|]. intros o' X. apply G in X. destruct X as [[_ [-> | ->]]|[X _]]; [left; reflexivity|right; left; cbn; lia|discriminate].
  - split; [eexists; split; reflexivity|]. intros o' X. apply G in X. destruct X as [[X _]|[_ [-> | ->]]]; [discriminate|left; reflexivity|right; left; cbn; lia].
Qed.

(** ** C96 names *)

(** The name of an instance determines the instance number and the function, and gives back the user's name. *)
Theorem C96_mangled : forall i name j name',
  demangle (mangle i name) = name /\ (mangle i name = mangle j name' -> i = j /\ name = name').
Proof. intros. split; [apply demangle_mangle|apply mangle_inj]. Qed.
Print Assumptions C96_mangled.
(** names that do not start with a backslash are left alone *)
Theorem C96_plain : forall c s, c <> "092"%char -> demangle (String c s) = String c s.
Proof. intros c s N. unfold demangle, backslash. apply Ascii.eqb_neq in N. rewrite N. reflexivity. Qed.
Print Assumptions C96_plain.

(** Renaming the instances for printing always ends; if every name with a leading backslash is that of an instance, instances get
    names without backslash that are different from each other and from all other functions, which keep theirs.
    Missing (false, see C96_rename_refuted): user functions whose own name starts with a backslash. *)
Theorem C96_rename_partial : forall names,
  exists r, rename_functions names = Some r /\ List.length r = List.length names /\
  ((forall s, In s names -> (exists s', s = String "092"%char s') -> exists i f, s = mangle i f) ->
   forall n s t, nth_error names n = Some s -> nth_error r n = Some t ->
     ((forall s', s <> String "092"%char s') -> t = s) /\
     ((exists s', s = String "092"%char s') ->
        (forall t', t <> String "092"%char t') /\
        forall n' t', n' <> n -> nth_error r n' = Some t' -> t' <> t)).
Proof.
  intros names. unfold rename_functions. destruct (rename (filter has_at names) names) as [r|] eqn:E; [|exfalso; exact (rename_some _ _ E)].
  exists r. split; [reflexivity|].
  assert (LEN : forall l used r, rename used l = Some r -> List.length r = List.length l).
  { clear. induction l as [|s l IH]; intros used r E; cbn in E; [injection E as <-; reflexivity|]. destruct (is_mangled s).
    - destruct (fresh _ _ _); [|discriminate]. destruct (rename _ l) eqn:R; [|discriminate]. injection E as <-. cbn. f_equal. eapply IH. exact R.
    - destruct (rename _ l) eqn:R; [|discriminate]. injection E as <-. cbn. f_equal. eapply IH. exact R. }
  split; [eapply LEN; exact E|]. intros A.
  assert (MI : forall s, is_mangled s = true <-> exists s', s = String "092"%char s').
  { intros [|c s]; cbn; [split; [discriminate|intros [s' X]; discriminate]|]. rewrite Ascii.eqb_eq. unfold backslash.
    split; [intros ->; eexists; reflexivity|intros [s' X]; injection X as ->; reflexivity]. }
  assert (A' : forall s, In s names -> is_mangled s = true -> has_at s = true).
  { intros s X M. apply MI in M. destruct (A s X M) as (i & f & ->). unfold has_at, mangle. cbn [after_at].
    change (Ascii.eqb backslash at_sign) with false. cbv iota. rewrite digits_no_at. reflexivity. }
  destruct (rename_spec _ _ _ A' E) as (L & P & Q).
  intros n s t X Y. pose proof (P n s t X Y) as PN. split.
  - intros N. destruct (is_mangled s) eqn:M; [|exact PN]. apply MI in M. destruct M as [s' ->]. exfalso. exact (N s' eq_refl).
  - intros M. apply MI in M. rewrite M in PN. destruct PN as (P1 & P2 & P3 & _).
    split; [intros t' ->; cbn in P2; discriminate|].
    intros n' t' NE Y' ->. assert (exists s', nth_error names n' = Some s') as [s' X'].
    { destruct (nth_error names n') eqn:Z; [eauto|]. apply nth_error_None in Z. assert (n' < List.length r) by (apply nth_error_Some; congruence). lia. }
    pose proof (P n' s' t X' Y') as PN'. destruct (is_mangled s') eqn:M'.
    + destruct (Nat.lt_total n n') as [LT|[EQ|LT]]; [exact (Q n n' s s' t t LT X X' Y Y' M M' eq_refl)|congruence|exact (Q n' n s' s t t LT X' X Y' Y M' M eq_refl)].
    + subst s'. apply P1. apply filter_In. split; [eapply nth_error_In; exact X'|exact P3].
Qed.
Print Assumptions C96_rename_partial.

(** the user's functions '\f' and _f *)
Theorem C96_rename_refuted : exists names, NoDup names /\ exists s, rename_functions names = Some [s; s].
Proof.
  exists [String "092"%char "f"; "_f"%string]. split; [|eexists; vm_compute; reflexivity].
  constructor; [|constructor; [intros []|constructor]]. intros [X|[]]. discriminate.
Qed.
Print Assumptions C96_rename_refuted.

Example C96_nonvacuous :
  rename_functions [mangle 3 "f"; "f"%string; "_3@f"%string; mangle 3 "f"; mangle 12 "f_reif"] =
    Some ["__3@f"; "f"; "_3@f"; "___3@f"; "_12@f_reif"]%string /\ demangle (mangle 12 "f_reif") = "f_reif"%string.
Proof. split; vm_compute; reflexivity. Qed.
