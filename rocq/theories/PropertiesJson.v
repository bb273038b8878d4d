(** C42, C43, C64, C65, C66: reading JSON. *)
Require Import ZArith List Bool Lia String.
From Verif Require Import Base IntValModel IntValSpec SetModel SetSpec StrModel JsonModel JsonSpec JsonProofs JsonProofs2 JsonProofs3 JsonProofs4 JsonExample.
Import ListNotations.
Open Scope Z_scope.

(** C42: an integer written in JSON is read as that integer.  Proved for the integers of 32 bits; the integers of the language have 64. *)
Theorem C42_exact_partial : forall b t v c rest, Forall blank b -> integer_text t v -> - 2 ^ 31 <= v < 2 ^ 31 -> ends_number c ->
  readToken (b ++ t ++ c :: rest) = Ok (TInt v, c :: rest).
Proof. intros b t v c rest B T R E. apply (rt_int v). apply (I_lit b t v); try assumption. unfold INT_MIN, INT_MAX. lia. Qed.
Print Assumptions C42_exact_partial.
(** FINDING: larger ones are silently replaced by the nearest 32-bit integer, *)
Theorem C42_clamped : forall b t v c rest, Forall blank b -> integer_text t v -> ends_number c ->
  readToken (b ++ t ++ c :: rest) = Ok (TInt (Z.max (- 2 ^ 31) (Z.min (2 ^ 31 - 1) v)), c :: rest).
Proof. exact C42_read. Qed.
Print Assumptions C42_clamped.
Theorem C42_refuted : exists t v rest, integer_text t v /\ fits64 v /\ readToken (t ++ 44 :: rest) = Ok (TInt 2147483647, 44 :: rest) /\ v <> 2147483647.
Proof.
  exists (bytes "2147483648"), 2147483648, []. split; [|split; [unfold fits64, LLONG_MIN, LLONG_MAX; lia|split; [reflexivity|lia]]].
  constructor. assert (forall l v c w, decimal l v -> 48 <= c <= 57 -> w = 10 * v + (c - 48) -> decimal (l ++ [c]) w) as S by (intros l v c w D H ->; constructor; assumption).
  change (bytes "2147483648") with (((((((((([50] ++ [49]) ++ [52]) ++ [55]) ++ [52]) ++ [56]) ++ [51]) ++ [54]) ++ [52]) ++ [56])).
  eapply S; [|lia|]. eapply S; [|lia|]. eapply S; [|lia|]. eapply S; [|lia|]. eapply S; [|lia|]. eapply S; [|lia|]. eapply S; [|lia|]. eapply S; [|lia|]. eapply S; [|lia|].
  constructor. lia. all: reflexivity.
Qed.
Print Assumptions C42_refuted.
(** and a number at the very end of the text is dropped. *)
Theorem C42_end_refuted : readToken (bytes "12") = Ok (TEof, []).
Proof. vm_compute. reflexivity. Qed.
Print Assumptions C42_end_refuted.

Example C42_nonvacuous : integer_text (bytes "-407") (-407) /\ readToken (bytes "  -407 ]") = Ok (TInt (-407), bytes " ]") /\ ends_number 32.
Proof.
  split; [|split; [vm_compute; reflexivity|unfold ends_number; lia]]. apply (I_neg [52; 48; 55] 407). apply (D_more [52; 48] 40 55); [|lia]. apply (D_more [52] 4 48); [|lia]. apply (D_one 52). lia.
Qed.

(** C43: a string written in JSON is read as the characters it denotes.  Proved for strings without the escapes for backspace, form feed
    and carriage return and without escaped characters of the even planes beyond the first. *)
Theorem C43_read_partial : forall b ts vs rest, Forall blank b -> good_all ts vs -> readToken (b ++ 34 :: ts ++ 34 :: rest) = Ok (TString vs, rest).
Proof. exact C43_read. Qed.
Print Assumptions C43_read_partial.
(** Every string survives being written with escapes, as the solution printer does, and read again. *)
Theorem C43_written_read : forall b s rest, Forall blank b -> readToken (b ++ 34 :: escapeStringLit s ++ 34 :: rest) = Ok (TString s, rest).
Proof. exact C43_escape. Qed.
Print Assumptions C43_written_read.
(** FINDING: the escapes b, f and r of RFC 8259 are read as a backslash and a letter. *)
Theorem C43_escapes_refuted : forall e c, In (e, c) [(98, 8); (102, 12); (114, 13)] ->
  denotes [92; e] [c] /\ readToken (34 :: [92; e] ++ [34]) = Ok (TString [92; e], []).
Proof. intros e c [E|[E|[E|[]]]]; inversion E; subst; (split; [constructor|reflexivity]). Qed.
Print Assumptions C43_escapes_refuted.
(** FINDING: a surrogate pair is put together with an or instead of an addition: U+20000 is read as U+10000. *)
Theorem C43_planes_refuted : denotes (bytes "\uD840\uDC00") (utf8 131072) /\
  readToken (34 :: bytes "\uD840\uDC00" ++ [34]) = Ok (TString (utf8 65536), []) /\ utf8 131072 <> utf8 65536.
Proof.
  split; [|split; [vm_compute; reflexivity|vm_compute; discriminate]].
  apply (N_pair [68; 56; 52; 48] 55360 [68; 67; 48; 48] 56320); try lia.
  - exists 68, 56, 52, 48, 13, 8, 4, 0. unfold hex_of. repeat split; try lia.
  - exists 68, 67, 48, 48, 13, 12, 0, 0. unfold hex_of. repeat split; try lia.
Qed.
Print Assumptions C43_planes_refuted.
(** FINDING: a string that is not closed is not an error but the end of the input. *)
Theorem C43_open_refuted : readToken (34 :: bytes "abc") = Ok (TEof, []).
Proof. vm_compute. reflexivity. Qed.
Print Assumptions C43_open_refuted.

Example C43_nonvacuous : good_all (bytes "a\n\u00e9\/") [97; 10; 195; 169; 47] /\ readToken (34 :: bytes "a\n\u00e9\/" ++ [34]) = Ok (TString [97; 10; 195; 169; 47], []).
Proof.
  split; [|vm_compute; reflexivity].
  apply (GA_cons [97] [97]); [constructor; [constructor; lia|discriminate..|intros cp; apply not_long; cbn; lia]|].
  apply (GA_cons [92; 110] [10]); [constructor; [constructor|discriminate..|intros cp; apply not_long; cbn; lia]|].
  apply (GA_cons [92; 117; 48; 48; 101; 57] (utf8 233)).
  { constructor; [|discriminate..|intros cp; apply not_long; cbn; lia]. apply N_unicode; [|lia]. exists 48, 48, 101, 57, 0, 0, 14, 9. unfold hex_of. repeat split; lia. }
  apply (GA_cons [92; 47] [47]); [constructor; [constructor|discriminate..|intros cp; apply not_long; cbn; lia]|constructor].
Qed.

(** C64: a nested JSON array for a parameter that is an array of several dimensions has the same number of elements at each level, and its
    elements are taken in row-major order. *)
Theorem C64_rectangular_partial : forall dim y al els ds, (1 < dim)%nat -> no_objects (JArr (JArr y :: al)) -> coerce dim (JArr y :: al) = Ok (els, ds) -> List.length ds = dim ->
  rect ds (JArr (JArr y :: al)) /\ els = row_major ds (JArr (JArr y :: al)).
Proof. exact C64_sound. Qed.
Print Assumptions C64_rectangular_partial.
Theorem C64_accepted : forall l ds, (1 < List.length ds)%nat -> Forall (fun d => (0 < d)%nat) ds -> rect ds (JArr l) -> coerce (List.length ds) l = Ok (row_major ds (JArr l), ds).
Proof. exact C64_complete. Qed.
Print Assumptions C64_accepted.
Theorem C64_rejected_partial : forall y al dim, (1 < dim)%nat -> no_objects (JArr (JArr y :: al)) -> (forall ds, List.length ds = dim -> ~ rect ds (JArr (JArr y :: al))) ->
  coerce dim (JArr y :: al) = Err SyntaxError \/ exists els ds, coerce dim (JArr y :: al) = Ok (els, ds) /\ (List.length ds < dim)%nat.
Proof. exact C64_reject. Qed.
Print Assumptions C64_rejected_partial.
(** FINDING: with an empty dimension the array gets too few dimensions: [[], []] as an array of three dimensions has two. *)
Theorem C64_empty_refuted : coerce 3 [JArr []; JArr []] = Ok ([], [2%nat; 0%nat]) /\ rect [2%nat; 0%nat; 7%nat] (JArr [JArr []; JArr []]).
Proof. split; [reflexivity|]. repeat (constructor; try reflexivity). Qed.
Print Assumptions C64_empty_refuted.
(** FINDING: an object counts as a level of the array: the fields of the records become the elements. *)
Theorem C64_object_refuted : coerce 2 [JRec [JField k_e (JInt 1)]; JRec [JField k_c (JInt 2)]] = Ok ([JField k_e (JInt 1); JField k_c (JInt 2)], [2%nat; 1%nat]).
Proof. reflexivity. Qed.
Print Assumptions C64_object_refuted.
Example C64_nonvacuous :
  let l := [JArr [JArr [JInt 1; JInt 2]]; JArr [JArr [JInt 3; JInt 4]]] in
  no_objects (JArr l) /\ rect [2%nat; 1%nat; 2%nat] (JArr l) /\ coerce 3 l = Ok ([JInt 1; JInt 2; JInt 3; JInt 4], [2%nat; 1%nat; 2%nat]) /\
  coerce 2 [JArr [JInt 1; JInt 2]; JArr [JInt 3]] = Err SyntaxError.
Proof.
  cbv zeta. split; [|split; [|split; reflexivity]].
  - repeat first [apply NO_arr; repeat apply Forall_cons; try apply Forall_nil|apply NO_other; discriminate].
  - repeat (constructor; try reflexivity).
Qed.

(** C65: a JSON data file assigns to each declared parameter the value written for it, in the order of the file, and nothing else. *)
Theorem C65_data_partial : forall known l s, (forall k t, known k = Some t -> ti_ranges t = ti_dim t) -> data_file known l s -> parseData known s = Ok l.
Proof. exact C65_l. Qed.
Print Assumptions C65_data_partial.
(** the value of one parameter *)
Theorem C65_value : forall t v x s rest fuel, ti_ranges t = ti_dim t -> writes (reading_of t) v s rest -> assigned t v x -> (List.length s < fuel)%nat ->
  parseExp fuel (Some t) s = Ok (x, rest).
Proof. exact value_ok. Qed.
Print Assumptions C65_value.
(** reading any text comes to an end *)
Theorem C65_total : forall known s, parseData known s <> Err OutOfFuel.
Proof. exact C65_total_l. Qed.
Print Assumptions C65_total.
(** FINDING: a set with an enum constructor that lacks its argument makes the reader use a variable that was never assigned. *)
Theorem C65_enum_refuted : parseData (fun _ => Some (mkTI false true false true 0 0)) (bytes "{""S"":{""set"":[{""c"":""f""}]}}") = UB.
Proof. vm_compute. reflexivity. Qed.
Print Assumptions C65_enum_refuted.
(** FINDING: truth values in a set of numbers are dropped, *)
Theorem C65_mixed_refuted : parseExp 100 None (bytes "{""set"":[1,true]}") = Ok (JIntSet [(ofZ 1, ofZ 1)], []).
Proof. vm_compute. reflexivity. Qed.
Print Assumptions C65_mixed_refuted.
(** the empty object is rejected, and so is an empty data file, *)
Theorem C65_empty_refuted : forall known, parseData known (bytes "{}") = Err SyntaxError.
Proof. intros. reflexivity. Qed.
Print Assumptions C65_empty_refuted.
(** and commas may be missing or doubled. *)
Theorem C65_commas_refuted : parseExp 100 None (bytes "[1 2,,3,]") = Ok (JArr [JInt 1; JInt 2; JInt 3], []).
Proof. vm_compute. reflexivity. Qed.
Print Assumptions C65_commas_refuted.

Example C65_nonvacuous : data_file ex_known ex_items ex_text /\ parseData ex_known ex_text = Ok ex_items /\ (forall k t, ex_known k = Some t -> ti_ranges t = ti_dim t).
Proof.
  split; [exact ex_file|]. split; [vm_compute; reflexivity|]. intros k t. unfold ex_known.
  repeat match goal with |- context [if ?b then _ else _] => destruct b end; intros E; inversion E; reflexivity.
Qed.

(** C66: a number with a fraction or an exponent is read as a float with the text that was written.  Exponents with a plus sign are missing. *)
Theorem C66_float_partial : forall b t c rest, Forall blank b -> float_text t -> ends_number c -> readToken (b ++ t ++ c :: rest) = Ok (TFloat t, c :: rest).
Proof. exact C66_read. Qed.
Print Assumptions C66_float_partial.
(** FINDING: 1e+5, which is how many programs write large numbers, is rejected. *)
Theorem C66_plus_refuted : readToken (bytes "1e+5,") = Err SyntaxError.
Proof. vm_compute. reflexivity. Qed.
Print Assumptions C66_plus_refuted.
Example C66_nonvacuous : float_text (bytes "-0.25E-3") /\ readToken (bytes " -0.25E-3]") = Ok (TFloat (bytes "-0.25E-3"), [93]).
Proof.
  split; [|vm_compute; reflexivity]. apply (F_frac [45] [48] [50; 53] [69; 45; 51]); [right; reflexivity|split; [discriminate|repeat constructor; lia]|repeat constructor; lia|].
  right. apply (X_exp 69 [45] [51]); [right; reflexivity|right; reflexivity|split; [discriminate|repeat constructor; lia]].
Qed.
