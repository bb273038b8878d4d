(** C97, C98: results and log of NL solvers (solvers/nl/nl_solreader.cpp). *)
Require Import List ZArith Bool Lia String Ascii.
From Verif Require Import NlSolModel NlSolSpec NlSolProofs.
Import ListNotations.
Open Scope Z_scope.

Lemma has_newline_app : forall a b, has_newline (a ++ b)%string = has_newline a || has_newline b.
Proof. induction a as [|c a IH]; intros b; cbn; [reflexivity|]. rewrite IH, orb_assoc. reflexivity. Qed.
Lemma split_line : forall l s, has_newline l = false -> split_lines (l ++ String newline s)%string = (l :: fst (split_lines s), snd (split_lines s)).
Proof.
  induction l as [|c l IH]; intros s N; cbn [String.append split_lines].
  - destruct (split_lines s). reflexivity.
  - cbn in N. apply orb_false_iff in N. destruct N as [N1 N2]. rewrite (IH s N2), N1. reflexivity.
Qed.
Lemma open_text : forall ls s, Forall (fun l => has_newline l = false) ls ->
  open_file (text ls ++ s)%string = mkRd (ls ++ r_lines (open_file s)) (r_tail (open_file s)) false.
Proof.
  intros ls s F. assert (E : split_lines (text ls ++ s)%string = (ls ++ fst (split_lines s), snd (split_lines s))%list).
  { induction F as [|l ls N F IH]; cbn [text app String.append]; [destruct (split_lines s); reflexivity|].
    rewrite <- str_app_assoc. cbn [String.append]. rewrite split_line by exact N. rewrite IH. reflexivity. }
  unfold open_file. rewrite E. destruct (split_lines s) as [a b]. reflexivity.
Qed.

(** A complete solution file is read as written, whatever follows it: the message, the meaning of the result
    code and the primal values in order. *)
Theorem C97_read : forall V (stod : string -> option V) f vals code more,
  Forall (fun l => has_newline l = false) (file_lines f) -> good_file stod f vals code ->
  let s := parse stod (open_file (text (file_lines f) ++ more)%string) in
  s_msg s = text (f_message f) /\ meaning code (s_status s) /\ s_values s = vals.
Proof.
  intros V stod f vals code more N G. cbv zeta. rewrite open_text by exact N. rewrite (parse_ok stod f vals code) by exact G.
  cbn. split; [reflexivity|]. split; [apply status_meaning|reflexivity].
Qed.
Print Assumptions C97_read.

(** the meaning of a code is unique *)
Theorem C97_meaning : forall c, exists s, meaning c s /\ forall s', meaning c s' -> s' = s.
Proof. intros c. exists (status_of c). split; [apply status_meaning|]. intros s' M. eapply meaning_fun; [exact M|apply status_meaning]. Qed.
Print Assumptions C97_meaning.

(** A file that breaks off after any of its lines but the last is an error.
    Missing (false, see C97_truncated_refuted): a file that breaks off in the middle of a line. *)
Theorem C97_truncated_partial : forall V (stod : string -> option V) f vals code p q,
  Forall (fun l => has_newline l = false) (file_lines f) -> good_file stod f vals code ->
  file_lines f = (p ++ q)%list -> q <> [] ->
  s_status (parse stod (open_file (text p))) = PARSE_ERROR.
Proof.
  intros V stod f vals code p q N G E NQ. rewrite <- (str_app_nil (text p)). rewrite open_text.
  - cbn. rewrite app_nil_r. eapply parse_cut; eassumption.
  - rewrite E in N. apply Forall_app in N. apply N.
Qed.
Print Assumptions C97_truncated_partial.

Definition infeasible_file : file :=
  mkFile ["solver: infeasible"%string] "1" ["0"%string] "1" "1" "2" "2" ["5"%string] ["3"; "-4"]%string "objno 0 200".
Lemma infeasible_good : good_file stoi infeasible_file [3; -4] 200.
Proof.
  split; [intros l [<-|[]]; discriminate|]. split; [reflexivity|]. split; [reflexivity|]. split; [reflexivity|].
  split; [repeat constructor|]. exists "objno 0 "%string, "200"%string. repeat split; reflexivity.
Qed.
Theorem C97_truncated_refuted : exists f vals s,
  Forall (fun l => has_newline l = false) (file_lines f) /\ good_file stoi f vals 200 /\
  (exists rest, text (file_lines f) = (s ++ rest)%string /\ rest <> EmptyString) /\
  s_status (parse stoi (open_file s)) = SOLVED.
Proof.
  exists infeasible_file, [3; -4].
  exists (text (removelast (file_lines infeasible_file)) ++ "objno 0 20")%string.
  split; [repeat constructor|]. split; [exact infeasible_good|]. split; [|vm_compute; reflexivity].
  exists (String "0"%char (String newline EmptyString)). split; [vm_compute; reflexivity|discriminate].
Qed.
Print Assumptions C97_truncated_refuted.

(** What is reported for each code: solutions and unsatisfiability only for the codes that say so.
    Missing (false, see C97_failure_refuted): codes 500 to 599 are reported at all. *)
Theorem C97_report_partial : forall opt c s, meaning c s -> (c < 500 \/ 600 <= c) ->
  exists r, report_of opt s = Some r /\
    (forall b, r = RSolution b <-> 0 <= c <= 99 /\ b = opt) /\
    (r = RUnsat <-> 200 <= c <= 299) /\ (r = RUnbounded <-> 300 <= c <= 399) /\ (r <> RError).
Proof.
  intros opt c s M C. destruct M; try lia; cbn; eexists; (split; [reflexivity|]);
    (split; [intros b; split; [intros E; first [discriminate | injection E as <-; split; [lia|reflexivity]]|intros [? E]; first [lia | subst; reflexivity]]|]);
    (split; [split; [intros E; first [discriminate | lia]|intros; first [reflexivity | lia]]|]);
    (split; [split; [intros E; first [discriminate | lia]|intros; first [reflexivity | lia]]|discriminate]).
Qed.
Print Assumptions C97_report_partial.
Theorem C97_failure_refuted : forall opt c, 500 <= c <= 599 -> exists s, meaning c s /\ report_of opt s = None.
Proof. intros opt c C. exists FAILURE. split; [constructor; exact C|reflexivity]. Qed.
Print Assumptions C97_failure_refuted.

(** Integer variables get the value in the file if it is integral.
    Missing (false, see C97_integer_refuted): values within the tolerance of an integer. *)
Theorem C97_integer_partial : forall z den, int_value (z * Zpos den) den = z.
Proof. intros z den. unfold int_value. apply Z.quot_mul. discriminate. Qed.
Print Assumptions C97_integer_partial.
(** 2.9999999 becomes 2 *)
Theorem C97_integer_refuted : exists num den z, Z.abs (num - z * Zpos den) * 1000000 <= Zpos den /\ int_value num den <> z.
Proof. exists 29999999, 10000000%positive, 3. split; [lia|]. vm_compute. discriminate. Qed.
Print Assumptions C97_integer_refuted.

Example C97_nonvacuous : good_file stoi infeasible_file [3; -4] 200 /\
  parse stoi (open_file (text (file_lines infeasible_file))) = mkSol (text ["solver: infeasible"%string]) INFEASIBLE [3; -4] /\
  s_status (parse stoi (open_file (text (firstn 9 (file_lines infeasible_file))))) = PARSE_ERROR.
Proof. split; [exact infeasible_good|]. split; vm_compute; reflexivity. Qed.

(** ** C98 the log *)

(** Every line of the solver's log is printed as a comment if every chunk after the first completes the line begun before.
    Missing (false, see C98_chunks_refuted): chunks without a line break after an unfinished line. *)
Theorem C98_log_partial : forall chunks, (forall c, In c (tl chunks) -> has_newline c = true \/ c = EmptyString) ->
  feed_all false chunks = commented true (joined chunks).
Proof. intros chunks C. apply (feed_all_ok chunks false); [left; reflexivity|exact C]. Qed.
Print Assumptions C98_log_partial.
(** The same log in different chunks: one is all comments, the other has a line that is not. *)
Theorem C98_chunks_refuted : exists chunks chunks', joined chunks = joined chunks' /\
  feed_all false chunks = commented true (joined chunks) /\
  exists a b, feed_all false chunks' = (a ++ String newline (String "1"%char b))%string /\ (forall c, In c chunks' -> c <> EmptyString).
Proof.
  exists [("iteration 1" ++ endl)%string], ["iter"; "ation "; "1" ++ endl]%string.
  split; [reflexivity|]. split; [vm_compute; reflexivity|].
  exists "% iteration "%string, endl. split; [vm_compute; reflexivity|]. intros c [<-|[<-|[<-|[]]]]; discriminate.
Qed.
Print Assumptions C98_chunks_refuted.
Example C98_nonvacuous :
  feed_all false [("a" ++ endl ++ "b")%string; ("c" ++ endl)%string; EmptyString; (endl ++ "d")%string; endl] =
    ("% a" ++ endl ++ "% bc" ++ endl ++ "% " ++ endl ++ "% d" ++ endl)%string.
Proof. vm_compute. reflexivity. Qed.
