(** Specification of the processing of a solver's output stream, for C19, C20, C21, C60 and C61. *)
Require Import ZArith List Bool String Sorted.
From Verif Require Import Base StrModel SolnModel.
Import ListNotations.
Open Scope Z_scope.

Definition no_nul (t : str) : Prop := ~ In 0 t.
(** a line: no terminator and no 0 inside *)
Definition is_line (l : str) : Prop := ~ In 10 l /\ ~ In 0 l.
(** the text made of complete lines *)
Definition terminated (ls : list str) : str := flat_map (fun l => l ++ [10]) ls.

(** Two results are the same if both calls returned and left the same object behind, or both threw an exception and the
    objects agree in everything but the copy of the raw stream. *)
Definition without_raw (st : s2o) : s2o :=
  mkS (s_part st) (s_ignore st) (s_solution st) (s_stats st) (s_canon st) (s_nsolns st) (s_out st) (s_noncanon st) []
      (s_status st) (s_printed st) (s_log st).
Definition same_result (a b : outcome) : Prop :=
  match a, b with
  | Going x, Going y => x = y
  | Thrown x, Thrown y => without_raw x = without_raw y
  | _, _ => False
  end.

(** The standard messages *)
Definition std_message (s : status) : option str :=
  match s with
  | SAT => Some (lit "----------")
  | OPT => Some (lit "==========")
  | UNSAT => Some (lit "=====UNSATISFIABLE=====")
  | UNBND => Some (lit "=====UNBOUNDED=====")
  | UNSATorUNBND => Some (lit "=====UNSATorUNBOUNDED=====")
  | UNKNOWN => Some (lit "=====UNKNOWN=====")
  | ERROR => Some (lit "=====ERROR=====")
  | NONE => None
  end.

(** [reads p ls evs q]: with the text p collected so far, the lines ls mean the solutions and statuses evs, and leave
    the text q collected *)
Inductive reads : str -> list str -> list event -> str -> Prop :=
| reads_end : forall p, reads p [] [] p
| reads_solution : forall p l ls evs q,
    std_message SAT = Some l -> reads [] ls evs q -> reads p (l :: ls) (EvSolution p :: evs) q
| reads_status : forall p l ls evs q s,
    s <> SAT -> std_message s = Some l -> reads p ls evs q -> reads p (l :: ls) (EvStatus s :: evs) q
| reads_text : forall p l ls evs q,
    (forall s, std_message s <> Some l) -> reads (p ++ l ++ [10]) ls evs q -> reads p (l :: ls) evs q.

(** a line with one carriage return at its end removed *)
Definition uncr (l l' : str) : Prop := l = l' ++ [13] \/ (l = l' /\ forall k, l <> k ++ [13]).

(** what reached the output *)
Definition solutions (ps : list piece) : list str := flat_map (fun p => match p with PSol t => [t] | _ => [] end) ps.
Definition statuses (ps : list piece) : list status := flat_map (fun p => match p with PStatus s => [s] | _ => [] end) ps.
(** what the stream contained *)
Definition ev_statuses (evs : list event) : list status :=
  flat_map (fun ev => match ev with EvStatus s => [s] | _ => [] end) evs.
Definition ev_texts (evs : list event) : list str :=
  flat_map (fun ev => match ev with EvSolution t => [t] | _ => [] end) evs.
Definition ev_status (ev : event) : status := match ev with EvStatus s => s | EvSolution _ => SAT end.

(** the first occurrences, in order *)
Inductive firsts : list str -> list str -> list str -> Prop :=
| firsts_nil : forall seen, firsts seen [] []
| firsts_old : forall seen x l r, In x seen -> firsts seen l r -> firsts seen (x :: l) r
| firsts_new : forall seen x l r, ~ In x seen -> firsts (x :: seen) l r -> firsts seen (x :: l) (x :: r).

(** order of byte strings *)
Inductive str_lt : str -> str -> Prop :=
| lt_nil : forall y b, str_lt [] (y :: b)
| lt_head : forall x y a b, x < y -> str_lt (x :: a) (y :: b)
| lt_tail : forall x a b, str_lt a b -> str_lt (x :: a) (x :: b).

(** the text an interactive run has shown to the user *)
Definition shown (o : opts) (r : ioutcome) : str :=
  match r with IGoing st | IThrown st => text o (s_out (i_inner st)) end.

(** The output of a canonicalising run: at every status the solutions found so far, sorted and without repetition *)
Inductive canon_prints (e : evals) : list event -> list str -> Prop :=
| cp_nil : canon_prints e [] []
| cp_solution : forall evs p t, canon_prints e evs p -> canon_prints e (evs ++ [EvSolution t]) p
| cp_status : forall evs p s c, canon_prints e evs p -> StronglySorted str_lt c ->
    (forall x, In x c <-> exists t, In (EvSolution t) evs /\ e_output e t = Some x) ->
    canon_prints e (evs ++ [EvStatus s]) (p ++ c).

(** *** Interactive solvers *)
Definition with_out (v : list piece) (st : s2o) : s2o :=
  mkS (s_part st) (s_ignore st) (s_solution st) (s_stats st) (s_canon st) (s_nsolns st) v (s_noncanon st) (s_raw st)
      (s_status st) (s_printed st) (s_log st).
(** two processors that showed the same text and are otherwise in the same state *)
Definition same_text (o : opts) (a b : s2o) : Prop :=
  with_out [] a = with_out [] b /\ text o (s_out a) = text o (s_out b).

(** [plays b ls s s' b']: what the lines mean.  b and b' tell whether a block is open before and after; lines outside
    blocks are shown as they are, lines inside are given to the solution processor, marker lines do neither. *)
Inductive plays (o : opts) (e : evals) (bm em : str) : bool -> list str -> s2o -> s2o -> bool -> Prop :=
| plays_end : forall b s, plays o e bm em b [] s s b
| plays_begin : forall l ls s s' b', uncr l bm -> plays o e bm em true ls s s' b' -> plays o e bm em false (l :: ls) s s' b'
| plays_show : forall l ls s s' b', ~ uncr l bm ->
    plays o e bm em false ls (put [PText (l ++ [10])] s) s' b' -> plays o e bm em false (l :: ls) s s' b'
| plays_close : forall l ls s s' b', uncr l em -> plays o e bm em false ls s s' b' -> plays o e bm em true (l :: ls) s s' b'
| plays_pass : forall l ls s s1 s' b', ~ uncr l em -> feed o e (l ++ [10]) s = Going s1 ->
    plays o e bm em true ls s1 s' b' -> plays o e bm em true (l :: ls) s s' b'.

(** a line that does not end with the begin marker, unless it is exactly the begin marker *)
Definition unambiguous (bm l : str) : Prop := forall p, (l = p ++ bm -> p = []) /\ l <> p ++ bm ++ [13].

(** two results of interactive runs *)
Definition same_run (o : opts) (a b : ioutcome) : Prop :=
  match a, b with
  | IGoing x, IGoing y => same_text o (i_inner x) (i_inner y) /\ i_in x = i_in y
  | IThrown x, IThrown y => same_text o (i_inner x) (i_inner y)
  | _, _ => False
  end.

(** *** Unsatisfiable cores *)
Definition ident_first (c : Z) : Prop := 97 <= c <= 122 \/ 65 <= c <= 90 \/ c = 95.
Definition ident_other (c : Z) : Prop := ident_first c \/ 48 <= c <= 57.
Definition is_ident (s : str) : Prop := exists c r, s = c :: r /\ ident_first c /\ Forall ident_other r.
(** the longest identifier at the beginning of an entry, and what follows it *)
Definition leading (e i r : str) : Prop :=
  e = i ++ r /\ is_ident i /\ (forall c r', r = c :: r' -> ~ ident_other c).

(** what is reported for an entry of a core, with m the first expression recorded for a name *)
Inductive resolves (m : list (str * str)) : str -> str -> Prop :=
| res_name : forall e v, leading e e [] -> assoc e m = Some v -> resolves m e v
| res_comparison : forall e i r v, leading e i r -> r <> [] -> assoc i m = Some v -> resolves m e (lit "(" ++ v ++ lit ")" ++ r)
| res_unknown : forall e i r, leading e i r -> assoc i m = None -> resolves m e e
| res_other : forall e, (forall i r, ~ leading e i r) -> resolves m e e.

(** an entry of a core: not empty, no comma, no line break, no blank at either end *)
Definition entry (e : str) : Prop :=
  e <> [] /\ ~ In 44 e /\ is_line e /\
  (forall c r, (e = c :: r \/ e = r ++ [c]) -> c <> 32 /\ c <> 9 /\ c <> 13).
