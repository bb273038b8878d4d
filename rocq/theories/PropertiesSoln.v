(** C19, C20, C21, C60, C61: processing of a solver's output stream. *)
Require Import ZArith List Bool String Sorted.
From Verif Require Import Base StrModel SolnModel SolnSpec SolnProofs SolnProofs2 SolnProofs3 SolnProofs4 SolnProofs5.
Import ListNotations.
Open Scope Z_scope.

(** C19: however a stream without 0 characters is cut into chunks, from any state of the processor, feeding the chunks
    one after the other gives the same result as feeding the stream in one piece. *)
Theorem C19_chunks : forall o e cs st, no_nul (List.concat cs) ->
  same_result (feed_all o e cs st) (feed o e (List.concat cs) st).
Proof. exact feed_all_concat. Qed.
Print Assumptions C19_chunks.

(** With a 0 in the stream this is false: the rest of its chunk is skipped, here a status line or not. *)
Theorem C19_nul_refuted : exists o e cs st1 st2, feed_all o e cs (s2o_init o) = Going st1 /\
  feed o e (List.concat cs) (s2o_init o) = Going st2 /\ s_log st1 = [EvStatus OPT] /\ s_log st2 = [].
Proof. exact nul_dependent. Qed.
Print Assumptions C19_nul_refuted.

(** C20: the stream consists of complete lines ls and an unfinished line r, and arrives in any chunks.  Without the
    first o_ignore lines and with carriage returns at line ends removed, the lines have the meaning given by [reads]:
    exactly the standard messages are solutions and statuses, all other lines are text of the next solution.  The
    statuses are printed in order, and the last event is the final status. *)
Theorem C20_lines : forall o e cs ls r st', List.concat cs = terminated ls ++ r -> Forall is_line ls -> is_line r ->
  0 <= o_ignore o -> feed_all o e cs (s2o_init o) = Going st' ->
  exists ls', Forall2 uncr (skipn (Z.to_nat (o_ignore o)) ls) ls' /\ reads [] ls' (s_log st') (s_solution st') /\
    s_part st' = r /\ (s_raw st' = if o_raw o then List.concat cs else []) /\
    statuses (s_out st') = ev_statuses (s_log st') /\
    s_status st' = last (List.map ev_status (s_log st')) UNKNOWN /\
    (s_printed st' = false <-> ev_statuses (s_log st') = []).
Proof. exact stream_events. Qed.
Print Assumptions C20_lines.

(** C21: what is printed for the solutions of the stream, whose output texts are outs. *)
Theorem C21_solutions : forall o e cs ls r st', List.concat cs = terminated ls ++ r -> Forall is_line ls -> is_line r ->
  0 <= o_ignore o -> feed_all o e cs (s2o_init o) = Going st' ->
  exists outs, List.map Some outs = List.map (e_output e) (ev_texts (s_log st')) /\
    (o_canon o = false -> o_unique o = true ->
       firsts [] outs (solutions (s_out st')) /\ NoDup (solutions (s_out st')) /\
       (forall x, In x (solutions (s_out st')) <-> In x outs)) /\
    (o_canon o = false -> o_unique o = false -> solutions (s_out st') = outs) /\
    (o_canon o = false -> s_nsolns st' = Z.of_nat (List.length (solutions (s_out st')))) /\
    (o_canon o = true -> canon_prints e (s_log st') (solutions (s_out st')) /\
       (o_noncanon o = true -> firsts [] outs (solutions (s_noncanon st')))).
Proof. exact stream_prints. Qed.
Print Assumptions C21_solutions.

(** With canonicalisation the list is printed at every status: a stream with two status lines shows its only solution
    twice although unique output is on. *)
Theorem C21_canonical_refuted : exists cs st, feed_all (ex_o true true) ex_e cs (s2o_init (ex_o true true)) = Going st /\
  ev_texts (s_log st) = [lit "x = 2;" ++ [10]] /\ solutions (s_out st) = [lit "x = 2;" ++ [10]; lit "x = 2;" ++ [10]].
Proof. exact canon_twice. Qed.
Print Assumptions C21_canonical_refuted.

(** The hypotheses of C19, C20 and C21 hold for a stream with repeated solutions, both kinds of line ends, an ignored line, a comment
    and an unfinished line, cut after every third character. *)
Example C20_nonvacuous : exists st, List.concat ex_cs = terminated ex_lines ++ ex_rest /\ List.length ex_cs = 31%nat /\
  feed_all (ex_o true false) ex_e ex_cs (s2o_init (ex_o true false)) = Going st /\
  solutions (s_out st) = [lit "x = 2;" ++ [10]; lit "x = 1;" ++ [10] ++ lit "% hi" ++ [10]] /\
  ev_statuses (s_log st) = [OPT] /\ s_part st = ex_rest /\
  text (ex_o true false) (s_out st) = lit "x = 2;" ++ [10] ++ lit "----------" ++ [10] ++ lit "% hi" ++ [10] ++ lit "," ++ [10] ++
    lit "x = 1;" ++ [10] ++ lit "% hi" ++ [10] ++ lit "----------" ++ [10] ++ lit "==========" ++ [10].
Proof. exact ex_run. Qed.
Example C20_nonvacuous_lines : Forall is_line ex_lines /\ is_line ex_rest.
Proof. exact ex_lines_ok. Qed.

(** C60: the stream of an interactive solver, complete lines that do not end with the begin marker unless they are
    exactly the begin marker.  Any two ways of cutting it into chunks give the same result. *)
Theorem C60_chunks_partial : forall o e bm em cs ds ls, List.concat cs = terminated ls -> List.concat ds = terminated ls ->
  Forall is_line ls -> Forall (unambiguous bm) ls ->
  same_run o (ifeed_all o e bm em cs (inter_init o)) (ifeed_all o e bm em ds (inter_init o)).
Proof. exact chunking_irrelevant. Qed.
Print Assumptions C60_chunks_partial.

(** ... and the result is that lines outside blocks are shown, lines in blocks are processed and markers are dropped. *)
Theorem C60_filter_partial : forall o e bm em cs ls st, List.concat cs = terminated ls -> Forall is_line ls ->
  Forall (unambiguous bm) ls -> ifeed_all o e bm em cs (inter_init o) = IGoing st ->
  exists s, plays o e bm em false ls (s2o_init o) s (i_in st) /\ same_text o (i_inner st) s.
Proof. exact run_plays. Qed.
Print Assumptions C60_filter_partial.

Example C60_nonvacuous : exists st, List.concat (cut3 (terminated ex_ilines)) = terminated ex_ilines /\ Forall is_line ex_ilines /\
  Forall (unambiguous bm0) ex_ilines /\
  ifeed_all ex_io ex_e bm0 em0 (cut3 (terminated ex_ilines)) (inter_init ex_io) = IGoing st /\
  text ex_io (s_out (i_inner st)) = lit "hello" ++ [10] ++ lit "x = 1;" ++ [10] ++ lit "----------" ++ [10] ++ lit "<beginning>" ++ [10] ++ lit "bye" ++ [10].
Proof. exact ex_inter. Qed.

(** Not for all streams.  A begin marker line ended by CR LF is recognised, unless the chunk ends between CR and LF:
    then the marker and the solution are echoed and no solution is reported. *)
Theorem C60_crlf_refuted : exists cs ls st1 st2, List.concat cs = terminated ls /\ Forall is_line ls /\
  ifeed_all ex_io ex_e bm0 em0 cs (inter_init ex_io) = IGoing st1 /\
  ifeed_all ex_io ex_e bm0 em0 [List.concat cs] (inter_init ex_io) = IGoing st2 /\
  solutions (s_out (i_inner st2)) = [lit "x = 1;" ++ [10]] /\ solutions (s_out (i_inner st1)) = [] /\
  text ex_io (s_out (i_inner st1)) =
    lit "<begin>" ++ [13; 10] ++ lit "x = 1;" ++ [13; 10] ++ lit "----------" ++ [13; 10] ++ lit "<end>" ++ [13; 10].
Proof. exact crlf_split. Qed.
Print Assumptions C60_crlf_refuted.

(** A begin marker behind a prompt on the same line is recognised only if the prompt arrived in an earlier chunk. *)
Theorem C60_prompt_refuted : exists cs ls st1 st2, List.concat cs = terminated ls /\ Forall is_line ls /\
  ifeed_all ex_io ex_e bm0 em0 cs (inter_init ex_io) = IGoing st1 /\
  ifeed_all ex_io ex_e bm0 em0 [List.concat cs] (inter_init ex_io) = IGoing st2 /\
  solutions (s_out (i_inner st1)) = [lit "x = 1;" ++ [10]] /\ solutions (s_out (i_inner st2)) = [].
Proof. exact prompt_split. Qed.
Print Assumptions C60_prompt_refuted.

(** C61: a line with an unsatisfiable core is reported with one entry for every entry of the solver, in order, the
    names that stand for assumptions replaced by their expressions. *)
Theorem C61_core : forall o e es st, o_comments o = true -> o_json o = false -> s_part st = [] -> s_ignore st = 0 -> Forall entry es ->
  exists rs st', Forall2 (resolves (o_assume o)) es rs /\
    feed o e (lit "%%%mzn-core: [" ++ join (lit ", ") es ++ lit "]" ++ [10]) st = Going st' /\
    s_out st' = s_out st ++ [PText (lit "%%%mzn-core: [" ++ join (lit ", ") rs ++ lit "]" ++ [10])].
Proof. exact core_line. Qed.
Print Assumptions C61_core.

Example C61_nonvacuous : Forall entry [lit "b1"; lit "b1 <= 3"; lit "x"; lit "7"] /\
  resolves (o_assume (ex_o true false)) (lit "b1") (lit "x < y") /\
  resolves (o_assume (ex_o true false)) (lit "b1 <= 3") (lit "(x < y) <= 3") /\
  resolves (o_assume (ex_o true false)) (lit "7") (lit "7").
Proof. exact ex_core. Qed.
