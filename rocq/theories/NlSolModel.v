(** Model of reading the results of NL solvers (solvers/nl/nl_solreader.cpp). *)
Require Import List ZArith Bool String Ascii.
Import ListNotations.
Open Scope Z_scope.

Definition newline : ascii := "010"%char.

(** ** the solution file *)

(** A file as std::getline sees it: the lines that end with a newline, then possibly an unterminated, non-empty last one;
    stopped is eofbit. *)
Record reader : Type := mkRd { r_lines : list string; r_tail : option string; r_stopped : bool }.

(* std::getline(in, buffer): whether it succeeded, the rest of the stream and the new contents of the buffer.  Once the
   end has been seen the buffer is left alone; the read that meets the end empties it. *)
Definition getline (r : reader) (buf : string) : bool * reader * string :=
  if r_stopped r then (false, r, buf)
  else match r_lines r with
       | l :: ls => (true, mkRd ls (r_tail r) false, l)
       | [] => match r_tail r with
               | Some t => (true, mkRd [] None true, t)
               | None => (false, mkRd [] None true, EmptyString)
               end
       end.

(* std::stoi: white space, sign, digits; the rest is ignored; no digits or a value outside int is an exception *)
Definition is_space (c : ascii) : bool :=
  let n := nat_of_ascii c in (Nat.eqb n 32) || (Nat.leb 9 n && Nat.leb n 13).
Definition digit (c : ascii) : option Z :=
  let n := nat_of_ascii c in if (Nat.leb 48 n && Nat.leb n 57)%bool then Some (Z.of_nat n - 48) else None.
Fixpoint skip_space (s : string) : string :=
  match s with String c s' => if is_space c then skip_space s' else s | EmptyString => s end.
Fixpoint digits (acc : Z) (s : string) : Z :=
  match s with
  | EmptyString => acc
  | String c s' => match digit c with Some d => digits (10 * acc + d) s' | None => acc end
  end.
Definition unsigned (s : string) : option Z :=
  match s with
  | String c s' => match digit c with Some d => Some (digits d s') | None => None end
  | EmptyString => None
  end.
Definition stoi (s : string) : option Z :=
  let v := match skip_space s with
           | String "-"%char s' => match unsigned s' with Some z => Some (- z) | None => None end
           | String "+"%char s' => unsigned s'
           | s' => unsigned s'
           end in
  match v with Some z => if (-2147483648 <=? z) && (z <=? 2147483647) then Some z else None | None => None end.
(* buffer.substr(8, buffer.length() - 8): an exception for a shorter string *)
Fixpoint drop (n : nat) (s : string) : option string :=
  match n, s with
  | O, _ => Some s
  | S n', String _ s' => drop n' s'
  | S _, EmptyString => None
  end.

(* nl_solreader.hh:65-76 *)
Inductive status : Type :=
  PARSE_ERROR | UNKNOWN | SOLVED | UNCERTAIN | INFEASIBLE | UNBOUNDED | LIMIT | FAILURE | INTERRUPTED.
(* nl_solreader.cpp:90-107 *)
Definition status_of (code : Z) : status :=
  if code =? -1 then UNKNOWN
  else if (0 <=? code) && (code <? 100) then SOLVED
  else if (100 <=? code) && (code <? 200) then UNCERTAIN
  else if (200 <=? code) && (code <? 300) then INFEASIBLE
  else if (300 <=? code) && (code <? 400) then UNBOUNDED
  else if (400 <=? code) && (code <? 500) then LIMIT
  else if (500 <=? code) && (code <? 600) then FAILURE
  else if code =? 600 then INTERRUPTED
  else UNKNOWN.

Section Parse.
(** std::stod, with its exceptions, is left open *)
Context {V : Type} (stod : string -> option V).

Record sol : Type := mkSol { s_msg : string; s_status : status; s_values : list V }.

(* :24-26; fuel: one round per line *)
Fixpoint read_msg (fuel : nat) (r : reader) (buf msg : string) : reader * string * string :=
  match fuel with
  | O => (r, buf, msg)
  | S n => let '(ok, r1, b1) := getline r buf in
           if ok then match b1 with EmptyString => (r1, b1, msg) | _ => read_msg n r1 b1 (msg ++ b1 ++ String newline EmptyString) end
           else (r1, b1, msg)
  end.
(* :38-41, the loop over the options *)
Fixpoint skip_lines (n : nat) (r : reader) (buf : string) : reader * string :=
  match n with O => (r, buf) | S n' => let '(_, r1, b1) := getline r buf in skip_lines n' r1 b1 end.
(* :64-66 *)
Fixpoint skip_duals (n : nat) (r : reader) (buf : string) : reader * string :=
  match n with
  | O => (r, buf)
  | S n' => let '(ok, r1, b1) := getline r buf in if ok then skip_duals n' r1 b1 else (r1, b1)
  end.
(* :73-77; None: stod has thrown; the values read so far are kept *)
Fixpoint read_values (n : nat) (r : reader) (buf : string) (acc : list V) : option (reader * string * list V) * list V :=
  match n with
  | O => (Some (r, buf, acc), acc)
  | S n' => let '(ok, r1, b1) := getline r buf in
            if ok then match stod b1 with Some v => read_values n' r1 b1 (acc ++ [v]) | None => (None, acc) end
            else (Some (r1, b1, acc), acc)
  end.

Definition parse_error (vec : list V) : sol := mkSol "Parsing error (probably a bad number)" PARSE_ERROR vec.

(* :84-110 *)
Definition finish (msg : string) (r : reader) (buf : string) (vec : list V) : sol :=
  let '(_, _, b) := getline r buf in
  match drop 8 b with
  | None => parse_error vec
  | Some sub => match stoi sub with None => parse_error vec | Some code => mkSol msg (status_of code) vec end
  end.
(* :47-82 *)
Definition parse_body (msg : string) (r : reader) (buf : string) : sol :=
  let '(ok1, r1, b1) := getline r buf in
  let '(ok2, r2, b2) := if ok1 then getline r1 b1 else (false, r1, b1) in
  if negb ok2 then mkSol "Error reading the number of dual" PARSE_ERROR []
  else match stoi b2 with
  | None => parse_error []
  | Some nd =>
      let '(ok3, r3, b3) := getline r2 b2 in
      let '(ok4, r4, b4) := if ok3 then getline r3 b3 else (false, r3, b3) in
      if negb ok4 then mkSol "Error reading the number of primal" PARSE_ERROR []
      else match stoi b4 with
      | None => parse_error []
      | Some nv =>
          let '(r5, b5) := skip_duals (Z.to_nat nd) r4 b4 in
          match read_values (Z.to_nat nv) r5 b5 [] with
          | (None, vec) => parse_error vec
          | (Some (r6, b6, vec), _) => finish msg r6 b6 vec
          end
      end
  end.
(* :15-116 NLSol::parseSolution.  Simplification: badbit (an error of the disk) is never set. *)
Definition parse (r : reader) : sol :=
  let '(r1, b1, msg) := read_msg (S (S (List.length (r_lines r)))) r EmptyString EmptyString in
  let '(ok, r2, b2) := getline r1 b1 in
  if ok && String.eqb b2 "Options" then
    let '(ok3, r3, b3) := getline r2 b2 in
    if ok3 then match stoi b3 with
                | None => parse_error []
                | Some n => let '(r4, b4) := skip_lines (Z.to_nat n) r3 b3 in parse_body msg r4 b4
                end
    else parse_body msg r3 b3
  else parse_body msg r2 b2.
End Parse.
Arguments sol : clear implicits.

(** ** the report, :153-262 *)
Inductive report : Type := RError | RUnknown | RSolution (complete : bool) | RUnsat | RUnbounded.
(* None: should_not_happen, an internal error *)
Definition report_of (optimisation : bool) (s : status) : option report :=
  match s with
  | PARSE_ERROR => Some RError
  | UNKNOWN => Some RUnknown
  | SOLVED => Some (RSolution optimisation)
  | UNCERTAIN => Some RUnknown
  | INFEASIBLE => Some RUnsat
  | UNBOUNDED => Some RUnbounded
  | LIMIT => Some RUnknown
  | INTERRUPTED => Some RUnknown
  | FAILURE => None
  end.
(* :188-190, :215-217: static_cast<long long int>; a value is a fraction with positive denominator *)
Definition int_value (num : Z) (den : positive) : Z := Z.quot num (Zpos den).

(** ** the log, :124-151 *)

(* std::getline over a chunk: complete lines and the rest *)
Fixpoint split_lines (s : string) : list string * string :=
  match s with
  | EmptyString => ([], EmptyString)
  | String c s' =>
      let '(ls, t) := split_lines s' in
      if Ascii.eqb c newline then (EmptyString :: ls, t)
      else match ls with
           | [] => ([], String c t)
           | l :: ls' => (String c l :: ls', t)
           end
  end.
Definition endl : string := String newline EmptyString.
Fixpoint log_lines (inl : bool) (ls : list string) : string * bool :=
  match ls with
  | [] => (EmptyString, inl)
  | l :: ls' => let '(out, i) := log_lines false ls' in
      (((if inl then EmptyString else "% ") ++ l ++ endl ++ out)%string, i)
  end.
(* :124-151 feedRawDataChunk; inl is _inLine *)
Definition feed (inl : bool) (data : string) : string * bool :=
  let '(ls, t) := split_lines data in
  let '(out, i) := log_lines inl ls in
  match t with
  | EmptyString => (out, i)
  | _ => if i then ((out ++ t ++ endl)%string, true) else ((out ++ "% " ++ t)%string, true)
  end.
Fixpoint feed_all (inl : bool) (chunks : list string) : string :=
  match chunks with
  | [] => EmptyString
  | c :: cs => let '(out, i) := feed inl c in (out ++ feed_all i cs)%string
  end.

(** opening a file with the given contents *)
Definition open_file (s : string) : reader :=
  let '(ls, t) := split_lines s in mkRd ls (match t with EmptyString => None | _ => Some t end) false.
