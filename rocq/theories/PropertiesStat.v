(** C100: messages of a JSON stream.  See StatSpec.v for the definitions used in the statements. *)
Require Import ZArith List Bool Lia String.
From Verif Require Import StrModel JsonModel JsonSpec StatModel StatSpec StatProofs LexModel.
Import ListNotations.
Open Scope Z_scope.
Open Scope list_scope.

(** C100, full property: every message about statistics, comments and unsatisfiable cores is one line with one JSON object that holds what was
    reported.  What is missing: statistics that are sets or other expressions JSON cannot express (C100_range_refuted), and texts
    with control characters other than newlines and tabs (C100_control_refuted). *)
Theorem C100_statistics_partial : forall l r, reports l r ->
  json_line (print_stats true l) (VObj [(txt "type", VStr (txt "statistics")); (txt "statistics", VObj r)]).
Proof. exact stats_ok. Qed.
Print Assumptions C100_statistics_partial.

Theorem C100_comment_partial : forall s, clean s ->
  json_line (comment_message s) (VObj [(txt "type", VStr (txt "comment")); (txt "comment", VStr (s ++ [10]))]).
Proof. exact comment_ok. Qed.
Print Assumptions C100_comment_partial.

Theorem C100_core_partial : forall l, Forall clean l ->
  json_line (core_message l) (VObj [(txt "type", VStr (txt "core")); (txt "core", VList (map VStr l))]).
Proof. exact core_ok. Qed.
Print Assumptions C100_core_partial.

(** In the text format every number or string is a line of its own, in the order of the calls, with no newline in it that is not the name's. *)
Theorem C100_text : forall l, (forall n e, ~ In (AddExpr n e) l) -> exists r, listed l r /\
  print_stats false l = flat_map (fun p => (txt "%%%mzn-stat: " ++ fst p ++ txt "=" ++ snd p) ++ [10]) r ++ txt "%%%mzn-stat-end" ++ [10].
Proof. exact text_ok. Qed.
Print Assumptions C100_text.

(** A solver that reports a range, as in  %%%mzn-stat: bounds=1..3 , makes the message invalid. *)
Theorem C100_range_refuted : exists n lo hi, one_line n /\ json_number lo /\ json_number hi /\
  forall v, ~ json_line (print_stats true [AddExpr n (ERange lo hi)]) v.
Proof.
  exists (txt "bounds"), (txt "1"), (txt "3"). repeat split.
  - cbv. intuition discriminate.
  - apply positive_number; [split; vm_compute; discriminate|constructor].
  - apply positive_number; [split; vm_compute; discriminate|constructor].
  - intros v (u & E & _ & J). assert (u = removelast (print_stats true [AddExpr (txt "bounds") (ERange (txt "1") (txt "3"))])) as ->
      by (rewrite E, removelast_last; reflexivity).
    revert J. apply not_json. vm_compute. discriminate.
Qed.
Print Assumptions C100_range_refuted.

(** A comment with an escape character, such as a solver that prints colours, makes the message invalid. *)
Theorem C100_control_refuted : exists s, one_line s /\ forall v, ~ json_line (comment_message s) v.
Proof.
  exists (txt "% " ++ [27] ++ txt "[31mfailed"). split.
  - cbv. intuition discriminate.
  - intros v (u & E & _ & J). assert (u = removelast (comment_message (txt "% " ++ [27] ++ txt "[31mfailed"))) as -> by (rewrite E, removelast_last; reflexivity).
    revert J. apply not_json. vm_compute. discriminate.
Qed.
Print Assumptions C100_control_refuted.

(** the hypotheses are met, and the texts are what one expects *)
Example C100_nonvacuous :
  let l := [AddInt (txt "nodes") (txt "12"); AddDouble (txt "objective") PosInf; AddString (txt "method") (txt "a""b" ++ [10]);
            AddExpr (txt "opt") (EId (txt "inf")); AddExpr (txt "sizes") (EArr [ENum (txt "1.5e+3"); EBool true])] in
  (exists r, reports l r /\ List.length r = 3%nat) /\
  print_stats true l = txt "{""type"": ""statistics"", ""statistics"": {""nodes"": 12, ""method"": ""a\""b\n"", ""sizes"": [1.5e+3,true]}}" ++ [10] /\
  s_warn (fold_left add l (start true)) = 1%nat /\
  print_stats false (firstn 3 l) = txt "%%%mzn-stat: nodes=12" ++ [10] ++ txt "%%%mzn-stat: objective=infinity" ++ [10] ++
    txt "%%%mzn-stat: method=""a\""b\n""" ++ [10] ++ txt "%%%mzn-stat-end" ++ [10] /\
  clean (txt "% done") /\ comment_message (txt "% done") = txt "{""type"": ""comment"", ""comment"": ""% done\n""}" ++ [10] /\
  core_message [txt "x > 1"; txt "y"] = txt "{""type"": ""core"", ""core"": [""x > 1"", ""y""]}" ++ [10].
Proof.
  assert (C : forall s, forallb (fun c => (32 <=? c) || (c =? 9) || (c =? 10)) s = true -> clean s).
  { intros s H. apply Forall_forall. intros c I. rewrite forallb_forall in H. specialize (H c I). lia. }
  cbv zeta. split.
  { eexists. split.
    - apply P_int; [apply C; reflexivity| |].
      { apply positive_number; [split; vm_compute; discriminate|repeat constructor; vm_compute; discriminate]. }
      apply P_infinite; [auto|]. apply P_string; [apply C; reflexivity..|]. apply P_id. apply P_expr; [apply C; reflexivity| |apply P_nil].
      apply X_cons; [apply X_num|apply X_cons; [apply X_bool|apply X_nil]].
      exists [], (txt "1"), (txt ".5"), (txt "e+3"). repeat split; auto.
      + apply IP_pos; [split; vm_compute; discriminate|constructor].
      + apply FP_some; [split; vm_compute; discriminate|constructor].
      + apply (EP_some 101 [43] 51 []); auto; [unfold is_digit; lia].
    - reflexivity. }
  repeat split; try (vm_compute; reflexivity). apply C. reflexivity.
Qed.
Print Assumptions C100_nonvacuous.
