(** Model of the printing of statistics (lib/statistics.cpp, include/minizinc/statistics.hh).  Texts are lists of bytes. *)
Require Import ZArith List Bool.
From Verif Require Import StrModel JsonModel.
Import ListNotations.
Open Scope Z_scope.

(** a number as the stream prints it *)
Inductive number : Type := Finite (text : str) | PosInf | NegInf | NaN.

(** the calls of StatisticsStream::add.  AddExpr is the overload for expressions, that is for the statistics that solvers
    report: numbers, Booleans, strings, ranges, arrays of these (other expressions and addRaw are left out) and identifiers. *)
Inductive expr : Type :=
| ENum (text : str) | EBool (b : bool) | EStr (s : str) | ERange (lo hi : str) | EArr (l : list expr) | EId (s : str).
Inductive stat : Type :=
| AddInt (name text : str) | AddDouble (name : str) (d : number) | AddString (name s : str) | AddExpr (name : str) (e : expr).

Definition b_infinity : str := [105; 110; 102; 105; 110; 105; 116; 121].
Definition b_true : str := [116; 114; 117; 101].
Definition b_false : str := [102; 97; 108; 115; 101].

(* operator<< of expressions: literals as in prettyprinter.cpp:350-355, arrays (one dimension, from 1) as in :415-442 *)
Fixpoint print_expr (e : expr) : str :=
  match e with
  | ENum t => t
  | EBool b => if b then b_true else b_false
  | EStr s => [34] ++ escapeStringLit s ++ [34]
  | ERange lo hi => lo ++ [46; 46] ++ hi
  | EArr l => [91] ++ (fix go (l : list expr) : str :=
                         match l with [] => [] | [x] => print_expr x | x :: r => print_expr x ++ [44] ++ go r end) l ++ [93]
  | EId s => s
  end.

(** the stream: its mode, what has been written, whether nothing has been added yet, the number of warnings *)
Record stream : Type := mkS { s_json : bool; s_out : str; s_first : bool; s_warn : nat }.

(* %%%mzn-stat:  and the texts of the constructor and the destructor *)
Definition b_stat : str := [37; 37; 37; 109; 122; 110; 45; 115; 116; 97; 116; 58; 32].
Definition b_end : str := [37; 37; 37; 109; 122; 110; 45; 115; 116; 97; 116; 45; 101; 110; 100; 10].
Definition b_type : str := [116; 121; 112; 101].
Definition b_statistics : str := [115; 116; 97; 116; 105; 115; 116; 105; 99; 115].
Definition quote (s : str) : str := [34] ++ s ++ [34].
(* {"type": "statistics", "statistics": { *)
Definition b_open : str := [123] ++ quote b_type ++ [58; 32] ++ quote b_statistics ++ [44; 32] ++ quote b_statistics ++ [58; 32; 123].

(* statistics.cpp:22-28 *)
Definition start (json : bool) : stream := mkS json (if json then b_open else []) true 0.

(* statistics.hh:33-45 addInternal *)
Definition add_internal (s : stream) (name value : str) : stream :=
  if s_json s then
    mkS true (s_out s ++ (if s_first s then [] else [44; 32]) ++ [34] ++ escapeStringLit name ++ [34; 58; 32] ++ value) false (s_warn s)
  else mkS false (s_out s ++ b_stat ++ name ++ [61] ++ value ++ [10]) (s_first s) (s_warn s).

(* statistics.cpp:57-92 *)
Definition add (s : stream) (c : stat) : stream :=
  match c with
  | AddInt n t => add_internal s n t
  | AddDouble n (Finite t) => add_internal s n t
  | AddDouble n PosInf => if s_json s then s else add_internal s n b_infinity
  | AddDouble n NegInf => if s_json s then s else add_internal s n (45 :: b_infinity)
  | AddDouble n NaN => s
  | AddString n v => add_internal s n ([34] ++ escapeStringLit v ++ [34])
  | AddExpr n (EId v) => mkS (s_json s) (s_out s) (s_first s) (S (s_warn s))
  | AddExpr n e => add_internal s n (print_expr e)
  end.

(* statistics.cpp:30-46: the text of a stream with the given statistics, without the warnings that follow *)
Definition close (s : stream) : str := s_out s ++ (if s_json s then [125; 125; 10] else b_end).
Definition print_stats (json : bool) (l : list stat) : str := close (fold_left add l (start json)).

(** ** Other messages about what a solver prints *)
Definition b_comment : str := [99; 111; 109; 109; 101; 110; 116].
Definition b_core : str := [99; 111; 114; 101].
(* solns2out.cpp:714-715 *)
Definition comment_message (line : str) : str :=
  [123] ++ quote b_type ++ [58; 32] ++ quote b_comment ++ [44; 32] ++ quote b_comment ++ [58; 32; 34] ++ escapeStringLit line ++ [92; 110; 34; 125; 10].
(* solns2out.cpp:691-696 *)
Fixpoint core_items (first : bool) (l : list str) : str :=
  match l with [] => [] | x :: r => (if first then [] else [44; 32]) ++ [34] ++ escapeStringLit x ++ [34] ++ core_items false r end.
Definition core_message (l : list str) : str :=
  [123] ++ quote b_type ++ [58; 32] ++ quote b_core ++ [44; 32] ++ quote b_core ++ [58; 32; 91] ++ core_items true l ++ [93; 125; 10].
