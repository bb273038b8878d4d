(** Model of the processing of the output stream of a solver: Solns2Out and Solns2OutInteractive (lib/solns2out.cpp,
    include/minizinc/solns2out.hh), and of Printer::escapeStringLit (include/minizinc/prettyprinter.hh:47-70).
    A string is the list of its characters (0..255), as in StrModel. *)
Require Import ZArith List Bool String Ascii.
From Verif Require Import Base StrModel.
Import ListNotations.
Open Scope Z_scope.

(** a string literal of the source *)
Fixpoint lit (s : string) : str :=
  match s with EmptyString => [] | String c r => Z.of_N (N_of_ascii c) :: lit r end.

Definition NL : Z := 10.
Definition CR : Z := 13.

(** equality of strings, and the order of std::string (unsigned characters) that std::set uses *)
Fixpoint str_eqb (a b : str) : bool :=
  match a, b with
  | [], [] => true
  | x :: a', y :: b' => (x =? y) && str_eqb a' b'
  | _, _ => false
  end.
Fixpoint str_ltb (a b : str) : bool :=
  match a, b with
  | [], [] => false
  | [], _ :: _ => true
  | _ :: _, [] => false
  | x :: a', y :: b' => if x <? y then true else if y <? x then false else str_ltb a' b'
  end.

Fixpoint assoc {A} (s : str) (m : list (str * A)) : option A :=
  match m with [] => None | (k, v) :: r => if str_eqb s k then Some v else assoc s r end.

(** Printer::escapeStringLit, include/minizinc/prettyprinter.hh:47-70 *)
Definition escape_char (c : Z) : str :=
  if c =? NL then lit "\n" else
  if c =? 9 then lit "\t" else
  if c =? 34 then [92; 34] else
  if c =? 92 then [92; 92] else [c].
Definition escape_string_lit (s : str) : str := flat_map escape_char s.

(** SolverInstance::Status *)
Inductive status := SAT | OPT | UNSAT | UNBND | UNSATorUNBND | UNKNOWN | ERROR | NONE.

(** Options of Solns2Out, include/minizinc/solns2out.hh:36-100, and the members set by init() (lib/solns2out.cpp:563-628).
    o_satgoal is the solve item of the model being of kind satisfy; o_noncanon and o_raw that the corresponding file was
    opened; o_assume is _assumptionMap.  Not modelled: flagOutputTime (off), flagOutputFlush, flagOutputFile (getOutput()
    is the stream _os). *)
Record opts := mkO {
  o_comments : bool; o_unique : bool; o_canon : bool; o_json : bool;
  o_sep : str; o_comma : str;
  o_complete : str; o_unsat : str; o_unbnd : str; o_uu : str; o_unknown : str; o_error : str;
  o_satgoal : bool; o_noncanon : bool; o_raw : bool; o_ignore : Z; o_assume : list (str * str) }.

(** What the rest of the system does with the text of a solution, as functions of that text: parse_from_string with the
    type check succeeds (e_parse), the output items evaluate to a text or throw (e_output), the report of the solution
    checker (e_check; empty without a checker), the text printed for a block of statistics (e_stats).  That these are
    functions of the solution alone rests on restoreDefaults (lib/solns2out.cpp:184-198), which is not modelled. *)
Record evals := mkE {
  e_parse : str -> bool; e_output : str -> option str; e_check : str -> str; e_stats : str -> option str }.

(** What is written to the output stream, piece by piece; [render] is the text of a piece *)
Inductive piece :=
| PSol (t : str)          (* printSolution *)
| PComma                  (* solutionComma *)
| PStatus (s : status)    (* evalStatusMsg *)
| PChecker (t : str)      (* checker report *)
| PText (t : str).        (* comments, statistics, echoed text *)

(** the messages of evalStatusMsg, lib/solns2out.cpp:446-515 *)
Definition label (o : opts) (s : status) : str :=
  match s with
  | SAT | NONE => []
  | OPT => if o_json o && negb (str_eqb (o_complete o) []) then
             (if o_satgoal o then lit "ALL_SOLUTIONS" else lit "OPTIMAL_SOLUTION")
           else o_complete o
  | UNSAT => if o_json o then lit "UNSATISFIABLE" else o_unsat o
  | UNBND => if o_json o then lit "UNBOUNDED" else o_unbnd o
  | UNSATorUNBND => if o_json o then lit "UNSAT_OR_UNBOUNDED" else o_uu o
  | UNKNOWN => if o_json o then lit "UNKNOWN" else o_unknown o
  | ERROR => if o_json o then lit "ERROR" else o_error o
  end.

(** the complete lines of a text and the unterminated rest: what repeated getline calls deliver *)
Fixpoint split_lines (d : str) : list str * str :=
  match d with
  | [] => ([], [])
  | c :: d' =>
      let '(ls, r) := split_lines d' in
      if c =? NL then ([] :: ls, r)
      else match ls with [] => ([], c :: r) | l :: ls' => ((c :: l) :: ls', r) end
  end.

(** texts with a separator between them *)
Fixpoint join (sep : str) (l : list str) : str :=
  match l with [] => [] | [x] => x | x :: r => x ++ sep ++ join sep r end.

(** printSolution, lib/solns2out.cpp:238-263; the label, lib/solns2out.cpp:528-549; the checker report, 300-325 *)
Definition render (o : opts) (p : piece) : str :=
  match p with
  | PSol t => if o_json o then lit "{""type"": ""solution"", " ++ filter (fun c => negb (c =? NL)) t ++ lit "}" ++ [NL]
              else t ++ (match o_sep o with [] => [] | s => s ++ [NL] end)
  | PComma => o_comma o ++ [NL]
  | PStatus s => match label o s with
                 | [] => []
                 | l => if o_json o then lit "{""type"": ""status"", ""status"": """ ++ l ++ lit """}" ++ [NL] else l ++ [NL]
                 end
  | PChecker t => let '(ls, r) := split_lines t in
                  let all := match r with [] => ls | _ => ls ++ [r] end in
                  if o_json o then lit "{""type"": ""checker"", ""messages"": [" ++ join (lit ", ") all ++ lit "]" ++
                                   (let l := last all [] in
                                    if Nat.ltb 19 (List.length l) && str_eqb (firstn 19 l) (lit "{""type"": ""solution""")
                                    then skipn 19 l else lit "}") ++ [NL]
                  else lit "% Solution checker report:" ++ [NL] ++ flat_map (fun l => lit "% " ++ l ++ [NL]) all
  | PText t => t
  end.
Definition text (o : opts) (ps : list piece) : str := flat_map (render o) ps.

(** The members of Solns2Out: _linePart, nLinesIgnore, solution, _stats, _sSolsCanon (in the order of std::set),
    stats.nSolns, the three output streams, status and fStatusPrinted.  [s_log] is not a member of the class: it records
    the calls of parseAssignments (with the text they get) and of evalStatus, in order.
    Not modelled: nNodes and nFails, `comments` (always empty). *)
Inductive event := EvSolution (t : str) | EvStatus (s : status).
Record s2o := mkS {
  s_part : str; s_ignore : Z; s_solution : str; s_stats : str; s_canon : list str; s_nsolns : Z;
  s_out : list piece; s_noncanon : list piece; s_raw : str; s_status : status; s_printed : bool; s_log : list event }.

Definition with_part v st := mkS v (s_ignore st) (s_solution st) (s_stats st) (s_canon st) (s_nsolns st) (s_out st) (s_noncanon st) (s_raw st) (s_status st) (s_printed st) (s_log st).
Definition with_ignore v st := mkS (s_part st) v (s_solution st) (s_stats st) (s_canon st) (s_nsolns st) (s_out st) (s_noncanon st) (s_raw st) (s_status st) (s_printed st) (s_log st).
Definition with_solution v st := mkS (s_part st) (s_ignore st) v (s_stats st) (s_canon st) (s_nsolns st) (s_out st) (s_noncanon st) (s_raw st) (s_status st) (s_printed st) (s_log st).
Definition with_stats v st := mkS (s_part st) (s_ignore st) (s_solution st) v (s_canon st) (s_nsolns st) (s_out st) (s_noncanon st) (s_raw st) (s_status st) (s_printed st) (s_log st).
Definition with_canon v st := mkS (s_part st) (s_ignore st) (s_solution st) (s_stats st) v (s_nsolns st) (s_out st) (s_noncanon st) (s_raw st) (s_status st) (s_printed st) (s_log st).
Definition with_nsolns v st := mkS (s_part st) (s_ignore st) (s_solution st) (s_stats st) (s_canon st) v (s_out st) (s_noncanon st) (s_raw st) (s_status st) (s_printed st) (s_log st).
Definition put ps st := mkS (s_part st) (s_ignore st) (s_solution st) (s_stats st) (s_canon st) (s_nsolns st) (s_out st ++ ps) (s_noncanon st) (s_raw st) (s_status st) (s_printed st) (s_log st).
Definition put_noncanon ps st := mkS (s_part st) (s_ignore st) (s_solution st) (s_stats st) (s_canon st) (s_nsolns st) (s_out st) (s_noncanon st ++ ps) (s_raw st) (s_status st) (s_printed st) (s_log st).
Definition put_raw t st := mkS (s_part st) (s_ignore st) (s_solution st) (s_stats st) (s_canon st) (s_nsolns st) (s_out st) (s_noncanon st) (s_raw st ++ t) (s_status st) (s_printed st) (s_log st).
Definition with_status v st := mkS (s_part st) (s_ignore st) (s_solution st) (s_stats st) (s_canon st) (s_nsolns st) (s_out st) (s_noncanon st) (s_raw st) v (s_printed st) (s_log st).
Definition with_printed v st := mkS (s_part st) (s_ignore st) (s_solution st) (s_stats st) (s_canon st) (s_nsolns st) (s_out st) (s_noncanon st) (s_raw st) (s_status st) v (s_log st).
Definition logged e st := mkS (s_part st) (s_ignore st) (s_solution st) (s_stats st) (s_canon st) (s_nsolns st) (s_out st) (s_noncanon st) (s_raw st) (s_status st) (s_printed st) (s_log st ++ [e]).

(** the object after its constructor and init(), lib/solns2out.cpp:563-633 *)
Definition s2o_init (o : opts) : s2o := mkS [] (o_ignore o) [] [] [] 0 [] [] [] UNKNOWN false [].

(** a call returns, or throws and leaves the object in some state *)
Inductive outcome := Going (st : s2o) | Thrown (st : s2o).
Definition obind (r : outcome) (f : s2o -> outcome) : outcome := match r with Going st => f st | Thrown st => Thrown st end.

(** std::set::insert *)
Fixpoint set_insert (s : str) (l : list str) : list str * bool :=
  match l with
  | [] => ([s], true)
  | x :: r => if str_ltb s x then (s :: l, true)
              else if str_ltb x s then (let '(r', b) := set_insert s r in (x :: r', b))
              else (l, false)
  end.

(** parseStatistics and flushStatistics, lib/solns2out.cpp:265-276 and 897-903 *)
Definition flush_statistics (e : evals) (st : s2o) : outcome :=
  match s_stats st with
  | [] => Going st
  | t => match e_stats e t with
         | None => Thrown st
         | Some m => Going (with_stats [] (put [PText m] st))
         end
  end.

(** Solns2Out::evalOutput, lib/solns2out.cpp:278-345, for the solution with text sol *)
Definition eval_output (o : opts) (e : evals) (sol : str) (st : s2o) : outcome :=
  match e_output e sol with
  | None => Thrown st
  | Some t =>
      let '(st, fNew) :=
        if o_unique o || o_canon o then let '(c, b) := set_insert t (s_canon st) in (with_canon c st, b)
        else (st, true) in
      if fNew then
        let st := match e_check e sol with [] => st | c => put [PChecker c] st end in
        let st := with_nsolns (s_nsolns st + 1) st in
        Going (if o_canon o then
                 if o_noncanon o then put_noncanon [PSol t] st else st
               else
                 let st := if negb (str_eqb (o_comma o) []) && (1 <? s_nsolns st) then put [PComma] st else st in
                 put [PSol t] st)
      else Going st
  end.

(** Solns2Out::parseAssignments, lib/solns2out.cpp:200-231 *)
Definition parse_assignments (e : evals) (st : s2o) : outcome :=
  let st := logged (EvSolution (s_solution st)) st in
  if e_parse e (s_solution st) then Going (with_status SAT (with_solution [] st)) else Thrown st.

(** Solns2Out::evalOutputFinalInternal, lib/solns2out.cpp:430-441 *)
Fixpoint with_commas (o : opts) (first : bool) (l : list str) : list piece :=
  match l with
  | [] => []
  | t :: r => (if negb (str_eqb (o_comma o) []) && negb first then [PComma] else []) ++ PSol t :: with_commas o false r
  end.

(** Solns2Out::evalStatus and evalStatusMsg, lib/solns2out.cpp:421-428 and 443-561 *)
Definition eval_status (o : opts) (s : status) (st : s2o) : s2o :=
  let st := logged (EvStatus s) st in
  let st := if o_canon o then put (with_commas o true (s_canon st)) st else st in
  with_printed true (put [PStatus s] (with_status s st)).

(** createInputMap, lib/solns2out.cpp:887-895, with the standard messages of include/minizinc/solns2out.hh:75-81 *)
Definition input_map : list (str * status) :=
  [ (lit "==========", OPT); (lit "----------", SAT); (lit "=====UNSATISFIABLE=====", UNSAT);
    (lit "=====UNBOUNDED=====", UNBND); (lit "=====UNSATorUNBOUNDED=====", UNSATorUNBND);
    (lit "=====UNKNOWN=====", UNKNOWN); (lit "=====ERROR=====", ERROR) ].

(** Solns2Out::resolveAssumptionCore, lib/solns2out.cpp:832-885 *)
Definition is_ws (c : Z) : bool := (c =? 32) || (c =? 9) || (c =? 13) || (c =? 10).
Fixpoint drop_ws (s : str) : str := match s with c :: r => if is_ws c then drop_ws r else s | [] => [] end.
Definition trim (s : str) : str := rev (drop_ws (rev (drop_ws s))).
Definition is_ident_start (c : Z) : bool :=
  ((97 <=? c) && (c <=? 122)) || ((65 <=? c) && (c <=? 90)) || (c =? 95).
Definition is_ident_char (c : Z) : bool := is_ident_start c || ((48 <=? c) && (c <=? 57)).
Fixpoint ident_end (s : str) : nat := match s with c :: r => if is_ident_char c then S (ident_end r) else O | [] => O end.
Fixpoint split_on (sep : Z) (s : str) : list str :=
  match s with
  | [] => [[]]
  | c :: r => if c =? sep then [] :: split_on sep r
              else match split_on sep r with [] => [[c]] | t :: ts => (c :: t) :: ts end
  end.
Definition resolve_token (m : list (str * str)) (token : str) : str :=
  let idEnd := match token with c :: r => if is_ident_start c then S (ident_end r) else O | [] => O end in
  match (match idEnd with O => None | _ => assoc (firstn idEnd token) m end) with
  | None => token
  | Some v => if Nat.eqb idEnd (List.length token) then v else lit "(" ++ v ++ lit ")" ++ skipn idEnd token
  end.
Definition resolve_core (m : list (str * str)) (payload : str) : list str :=
  match trim payload with
  | [] => []
  | (c :: _) as body =>
      let body := if (c =? 91) && (last body 0 =? 93) then firstn (List.length body - 2) (skipn 1 body) else body in
      flat_map (fun t => match trim t with [] => [] | t' => [resolve_token m t'] end) (split_on 44 body)
  end.

(** a message with the entries of a core, lib/solns2out.cpp:690-710 *)
Definition core_message (o : opts) (resolved : list str) : str :=
  if o_json o then
    lit "{""type"": ""core"", ""core"": [" ++
    join (lit ", ") (List.map (fun r => lit """" ++ escape_string_lit r ++ lit """") resolved) ++ lit "]}" ++ [NL]
  else lit "%%%mzn-core: [" ++ join (lit ", ") resolved ++ lit "]" ++ [NL].

(** isspace in the classic locale, used by skipws *)
Definition is_space (c : Z) : bool := (c =? 32) || ((9 <=? c) && (c <=? 13)).
Fixpoint first_nonspace (s : str) : option Z :=
  match s with [] => None | c :: r => if is_space c then first_nonspace r else Some c end.

(** a comment line, lib/solns2out.cpp:681-735.  Printing reaches both streams. *)
Definition put_both (o : opts) (m : str) (st : s2o) : s2o :=
  let st := put [PText m] st in if o_noncanon o then put_noncanon [PText m] st else st.
Definition comment_line (o : opts) (e : evals) (line : str) (st : s2o) : outcome :=
  let is_statistic := str_eqb (firstn 13 line) (lit "%%%mzn-stat: ") in
  let is_core := str_eqb (firstn 13 line) (lit "%%%mzn-core: ") in
  if is_core then Going (put_both o (core_message o (resolve_core (o_assume o) (skipn 13 line))) st)
  else if o_json o then
    if is_statistic then Going (put_both o [] (with_stats (s_stats st ++ skipn 13 line ++ lit ";") st))
    else if str_eqb line (lit "%%%mzn-stat-end") then
      match e_stats e (s_stats st) with
      | None => Thrown st
      | Some m => Going (put_both o m (with_stats [] st))
      end
    else Going (put_both o (lit "{""type"": ""comment"", ""comment"": """ ++ escape_string_lit line ++ lit "\n""}" ++ [NL]) st)
  else Going (put_both o (line ++ [NL]) st).

(** one trailing carriage return is removed, lib/solns2out.cpp:654-658 *)
Fixpoint strip_cr (l : str) : str :=
  match l with
  | [] => []
  | [c] => if c =? CR then [] else [c]
  | c :: r => c :: strip_cr r
  end.

(** the body of the loop of feedRawDataChunk for a complete line, lib/solns2out.cpp:654-742 *)
Definition complete_line (o : opts) (e : evals) (line : str) (st : s2o) : outcome :=
  let line := strip_cr line in
  if 0 <? s_ignore st then Going (with_ignore (s_ignore st - 1) st) else
  match assoc line input_map with
  | Some s =>
      obind (flush_statistics e st) (fun st =>
      match s with
      | SAT => let sol := s_solution st in obind (parse_assignments e st) (eval_output o e sol)
      | _ => Going (eval_status o s st)
      end)
  | None =>
      let st := with_solution (s_solution st ++ line ++ [NL]) st in
      if o_comments o then
        match first_nonspace line with
        | Some c => if c =? 37 then comment_line o e line st else Going st
        | None => Going st
        end
      else Going st
  end.

(** Solns2Out::feedRawDataChunk, lib/solns2out.cpp:642-755.  The chunk is a terminated C string: it ends at the first 0
    of the buffer. *)
Fixpoint cstr (d : str) : str := match d with [] => [] | c :: r => if c =? 0 then [] else c :: cstr r end.

Fixpoint feed_lines (o : opts) (e : evals) (ls : list str) (st : s2o) : outcome :=
  match ls with
  | [] => Going st
  | l :: ls' =>
      let line := s_part st ++ l in
      obind (complete_line o e line (with_part [] st)) (feed_lines o e ls')
  end.

Definition feed (o : opts) (e : evals) (buffer : str) (st : s2o) : outcome :=
  let data := cstr buffer in
  let '(ls, rest) := split_lines data in
  obind (feed_lines o e ls st) (fun st =>
  let st := with_part (s_part st ++ rest) st in
  Going (if o_raw o then put_raw data st else st)).

(** a history of calls, as Process makes them (include/minizinc/process.hh) *)
Fixpoint feed_all (o : opts) (e : evals) (cs : list str) (st : s2o) : outcome :=
  match cs with [] => Going st | c :: cs' => obind (feed o e c st) (feed_all o e cs') end.

(** *** Solns2OutInteractive, lib/solns2out.cpp:757-830 *)
(** is_marker_prefix *)
Fixpoint is_prefix (s m : str) : bool :=
  match s, m with
  | [], _ => true
  | x :: s', y :: m' => (x =? y) && is_prefix s' m'
  | _, [] => false
  end.

Record inter := mkInt { i_inner : s2o; i_part : str; i_echoed : nat; i_in : bool }.
Inductive ioutcome := IGoing (st : inter) | IThrown (st : inter).

(** Solns2OutInteractive::processCompleteLine *)
Definition process_line (o : opts) (e : evals) (bm em : str) (line : str) (st : inter) : ioutcome :=
  let rest := skipn (i_echoed st) line in
  let marker := strip_cr rest in
  if negb (i_in st) then
    if str_eqb marker bm then IGoing (mkInt (i_inner st) (i_part st) (i_echoed st) true)
    else IGoing (mkInt (put [PText (rest ++ [NL])] (i_inner st)) (i_part st) (i_echoed st) (i_in st))
  else
    if str_eqb marker em then IGoing (mkInt (i_inner st) (i_part st) (i_echoed st) false)
    else match feed o e (rest ++ [NL]) (i_inner st) with
         | Going s => IGoing (mkInt s (i_part st) (i_echoed st) (i_in st))
         | Thrown s => IThrown (mkInt s (i_part st) (i_echoed st) (i_in st))
         end.

(** Solns2OutInteractive::feedRawDataChunk *)
Fixpoint ifeed_lines (o : opts) (e : evals) (bm em : str) (ls : list str) (st : inter) : ioutcome :=
  match ls with
  | [] => IGoing st
  | l :: ls' =>
      match process_line o e bm em (i_part st ++ l) st with
      | IGoing st' => ifeed_lines o e bm em ls' (mkInt (i_inner st') [] 0 (i_in st'))
      | IThrown st' => IThrown st'
      end
  end.
Definition ifeed (o : opts) (e : evals) (bm em : str) (buffer : str) (st : inter) : ioutcome :=
  let '(ls, rest) := split_lines (cstr buffer) in
  match ifeed_lines o e bm em ls st with
  | IThrown st' => IThrown st'
  | IGoing st' =>
      let part := i_part st' ++ rest in
      let remainder := skipn (i_echoed st') part in
      if negb (i_in st') && negb (str_eqb remainder []) && negb (is_prefix remainder bm) then
        IGoing (mkInt (put [PText remainder] (i_inner st')) part (List.length part) (i_in st'))
      else IGoing (mkInt (i_inner st') part (i_echoed st') (i_in st'))
  end.
Fixpoint ifeed_all (o : opts) (e : evals) (bm em : str) (cs : list str) (st : inter) : ioutcome :=
  match cs with
  | [] => IGoing st
  | c :: cs' => match ifeed o e bm em c st with IGoing st' => ifeed_all o e bm em cs' st' | IThrown st' => IThrown st' end
  end.
Definition inter_init (o : opts) : inter := mkInt (s2o_init o) [] 0 false.
