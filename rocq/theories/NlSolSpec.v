(** Independent specification for the results of NL solvers. *)
Require Import List ZArith String Ascii.
From Verif Require Import NlSolModel.
Import ListNotations.
Open Scope Z_scope.

(** the parts of a solution file *)
Record file : Type := mkFile {
  f_message : list string;
  f_nopts : string; f_opts : list string;
  f_ncon : string; f_nduals : string; f_nvar : string; f_nprim : string;
  f_duals : list string; f_prims : list string;
  f_objno : string }.
Definition file_lines (f : file) : list string :=
  (f_message f ++ [EmptyString] ++ ["Options"%string; f_nopts f] ++ f_opts f ++
   [f_ncon f; f_nduals f; f_nvar f; f_nprim f] ++ f_duals f ++ f_prims f ++ [f_objno f])%list.
(** the counts are right and the numbers are readable *)
Definition good_file {V} (stod : string -> option V) (f : file) (vals : list V) (code : Z) : Prop :=
  (forall l, In l (f_message f) -> l <> EmptyString) /\
  stoi (f_nopts f) = Some (Z.of_nat (List.length (f_opts f))) /\
  stoi (f_nduals f) = Some (Z.of_nat (List.length (f_duals f))) /\
  stoi (f_nprim f) = Some (Z.of_nat (List.length (f_prims f))) /\
  Forall2 (fun l v => stod l = Some v) (f_prims f) vals /\
  (exists h sub, String.length h = 8%nat /\ f_objno f = (h ++ sub)%string /\ stoi sub = Some code).

Fixpoint text (ls : list string) : string :=
  match ls with [] => EmptyString | l :: ls' => (l ++ String newline EmptyString ++ text ls')%string end.

(** the meaning of the result codes, nl_solreader.hh:65-76 *)
Inductive meaning : Z -> status -> Prop :=
| m_solved : forall c, 0 <= c <= 99 -> meaning c SOLVED
| m_uncertain : forall c, 100 <= c <= 199 -> meaning c UNCERTAIN
| m_infeasible : forall c, 200 <= c <= 299 -> meaning c INFEASIBLE
| m_unbounded : forall c, 300 <= c <= 399 -> meaning c UNBOUNDED
| m_limit : forall c, 400 <= c <= 499 -> meaning c LIMIT
| m_failure : forall c, 500 <= c <= 599 -> meaning c FAILURE
| m_interrupted : meaning 600 INTERRUPTED
| m_unknown : forall c, c < 0 \/ 600 < c -> meaning c UNKNOWN.

(** the log: a comment mark at the start of every line; start: at the start of a line *)
Fixpoint commented (start : bool) (s : string) : string :=
  match s with
  | EmptyString => EmptyString
  | String c s' => ((if start then "% " else "") ++ String c (commented (Ascii.eqb c newline) s'))%string
  end.
Definition joined (chunks : list string) : string := List.fold_right String.append EmptyString chunks.
Fixpoint has_newline (s : string) : bool :=
  match s with EmptyString => false | String c s' => Ascii.eqb c newline || has_newline s' end.
