(** C41: combining and splitting command lines. *)
Require Import ZArith List Bool Lia.
From Verif Require Import Base StrModel CmdModel CmdSpec CmdProofs.
Import ListNotations.
Open Scope Z_scope.

(** Exactly these vectors survive; the property asks for all non-empty vectors and is false (C41_refuted). *)
Theorem C41_round_trip_partial : forall v, parse_cmd_line (combine_cmd_line v) = v <-> v <> [] /\ Forall plain v.
Proof. exact C41_l. Qed.
Print Assumptions C41_round_trip_partial.

(** words without blanks, quotes and backslashes are split at the blanks *)
Theorem C41_words : forall v, v <> [] -> Forall word v -> parse_cmd_line (join v) = v.
Proof. exact C41_words_l. Qed.
Print Assumptions C41_words.

(** FINDING: the two arguments C:\ and x are read as one argument, with a quote in place of the backslash; a newline is read
    as a backslash and the letter n; a double backslash is read as one *)
Theorem C41_refuted :
  parse_cmd_line (combine_cmd_line [[67; 58; 92]; [120]]) = [[67; 58; 34; 32; 120]] /\
  parse_cmd_line (combine_cmd_line [[10]]) = [[92; 110]] /\
  parse_cmd_line (combine_cmd_line [[97; 92; 92; 98]]) = [[97; 92; 98]].
Proof. repeat split; vm_compute; reflexivity. Qed.
Print Assumptions C41_refuted.

Example C41_nonvacuous :
  let v := [[45; 45; 115]; []; [97; 32; 34; 98]; [67; 58; 92; 120]] in       (* --s, the empty argument, a, blank, quote, b, and C:\x *)
  v <> [] /\ Forall plain v /\ parse_cmd_line (combine_cmd_line v) = v /\
  combine_cmd_line v = [34; 45; 45; 115; 34; 32; 34; 34; 32; 34; 97; 32; 92; 34; 98; 34; 32; 34; 67; 58; 92; 92; 120; 34] /\
  word [45; 115] /\ parse_cmd_line (join [[45; 115]; []; [120]]) = [[45; 115]; []; [120]].
Proof.
  intros v. split; [discriminate|]. split; [repeat constructor; apply plainb_ok; reflexivity|]. split; [vm_compute; reflexivity|]. split; [vm_compute; reflexivity|].
  split; [|vm_compute; reflexivity]. intros x [<-|[<-|[]]]; lia.
Qed.
