(** Model of the functions on strings: string_length, string_split (lib/builtins.cpp:2447-2500), format,
    format_justify_string, show_int, show_float (2753-2938), concat and join (2962-2986).  A string is the list of its
    bytes, 0..255.  Arguments are already evaluated; how a value is written (show, operator <<) is not modelled here:
    the functions below are given that text. *)
Require Import ZArith List Bool.
From Verif Require Import Base IntValModel ArrModel BarrModel.
Import ListNotations.
Open Scope Z_scope.

Definition bytes := list Z.
(* builtins.cpp:2454-2460, 2474-2480: how far i is advanced beyond the first byte.  s[i] is promoted to int before the
   mask is applied, so the sign of char does not matter *)
Definition extra (b : Z) : nat :=
  if Z.land b 224 =? 192 then 1 else if Z.land b 240 =? 224 then 2 else if Z.land b 248 =? 240 then 3 else 0.
(* builtins.cpp:2452-2461; the list is what is left of s from i on; advancing beyond the end ends the loop.  n: a bound on
   the number of iterations *)
Fixpoint length_loop (n : nat) (s : bytes) (size : Z) : res Z :=
  match s with
  | [] => Ok size
  | b :: r => match n with O => UB | S n => length_loop n (skipn (extra b) r) (size + 1) end
  end.
(* builtins.cpp:2447-2463 b_string_length.  size is an IntVal; it cannot overflow *)
Definition string_length (s : bytes) : res Z := length_loop (length s) s 0.

(* builtins.cpp:2472-2482: substr(start, i - start + 1) is cut off at the end of s *)
Fixpoint chars (n : nat) (s : bytes) (elems : list bytes) : res (list bytes) :=
  match s with
  | [] => Ok elems
  | b :: r => match n with O => UB | S n => chars n (skipn (extra b) r) (elems ++ [b :: firstn (extra b) r]) end
  end.
Fixpoint prefixb (p s : bytes) : bool :=
  match p, s with [] , _ => true | x :: p, y :: s => (x =? y) && prefixb p s | _ :: _, [] => false end.
(* std::string::find: the first position of sep in what is left of s *)
Fixpoint find (sep s : bytes) : option nat :=
  if prefixb sep s then Some O
  else match s with [] => None | _ :: s => match find sep s with Some k => Some (S k) | None => None end end.
(* builtins.cpp:2484-2491; s: what is left from start on *)
Fixpoint pieces (n : nat) (sep s : bytes) (elems : list bytes) : res (list bytes) :=
  match find sep s with
  | Some k => match n with O => UB | S n => pieces n sep (skipn (k + length sep) s) (elems ++ [firstn k s]) end
  | None => Ok (elems ++ [s])
  end.
(* builtins.cpp:2465-2500 b_string_split: the elements of the array, which is numbered from 1 *)
Definition string_split (s sep : bytes) : res (list bytes) :=
  match sep with [] => chars (length s) s [] | _ => pieces (length s) sep s [] end.

Section Arrays.
Variable E : Type.
Variable ev_string : E -> res bytes.
(* builtins.cpp:2967-2969 n elements are left *)
Fixpoint concat_loop (al : arr E) (n : nat) (i : Z) (oss : bytes) : res bytes :=
  match n with
  | O => Ok oss
  | S n => do s <- (do e <- get al i; ev_string e); concat_loop al n (i + 1) (oss ++ s)
  end.
(* builtins.cpp:2962-2971 b_concat *)
Definition concat_str (al : arr E) : res bytes := do n <- asize al; concat_loop al (Z.to_nat n) 0 [].
(* builtins.cpp:2979-2984 *)
Fixpoint join_loop (sep : bytes) (al : arr E) (size : Z) (n : nat) (i : Z) (oss : bytes) : res bytes :=
  match n with
  | O => Ok oss
  | S n =>
      do s <- (do e <- get al i; ev_string e);
      join_loop sep al size n (i + 1) (oss ++ s ++ (if i <? u32 (size - 1) then sep else []))
  end.
(* builtins.cpp:2973-2986 b_join *)
Definition join_str (sep : bytes) (al : arr E) : res bytes := do n <- asize al; join_loop sep al n (Z.to_nat n) 0 [].
End Arrays.
Arguments concat_str {E}. Arguments join_str {E}. Arguments concat_loop {E}. Arguments join_loop {E}.

Definition blanks (n : Z) : bytes := repeat 32 (Z.to_nat n).
(* arithmetic in type int *)
Definition neg_int (z : Z) : res Z := if z =? INT_MIN then UB else Ok (- z).
(* builtins.cpp:2870-2885 in b_show_int and 2913-2928 in b_show_float: text is oss_value.str() *)
Definition show_padded (justify : IntVal) (text : bytes) : res bytes :=
  do j <- toInt justify;
  let justify := to_int j in
  let l := to_int (len text) in
  let addLeft := if justify <? 0 then 0 else justify - l in
  let addLeft := if addLeft <? 0 then 0 else addLeft in
  do addRight <- (if justify <? 0 then do w <- neg_int justify; Ok (w - l) else Ok 0);
  let addRight := if addRight <? 0 then 0 else addRight in
  Ok (blanks addLeft ++ text ++ blanks addRight).
(* builtins.cpp:2840-2858 and 2812-2825: s.size() is compared with std::abs(width) as unsigned *)
Definition pad (width : Z) (s : bytes) : res bytes :=
  do a <- (if width <? 0 then neg_int width else Ok width);
  if len s <? a then
    let addLeft := if width <? 0 then 0 else width - to_int (len s) in
    let addLeft := if addLeft <? 0 then 0 else addLeft in
    do addRight <- (if width <? 0 then do w <- neg_int width; Ok (w - to_int (len s)) else Ok 0);
    let addRight := if addRight <? 0 then 0 else addRight in
    Ok (blanks addLeft ++ s ++ blanks addRight)
  else Ok s.
(* builtins.cpp:2829-2860 b_format_justify_string; the check of max_length, which is unsigned, never fails *)
Definition format_justify_string (width : IntVal) (max_length : option IntVal) (x : bytes) : res bytes :=
  do w <- toInt width;
  let width := to_int w in
  do s <- match max_length with
          | None => Ok x
          | Some p => do p <- toInt p; let max_length := p mod 2 ^ 64 in Ok (if max_length <? len x then firstn (Z.to_nat max_length) x else x)
          end;
  pad width s.
(* std::ostream: writing a number with a field width; left: std::ios::left *)
Definition stream_pad (width : Z) (left : bool) (text : bytes) : bytes :=
  if left then text ++ blanks (width - len text) else blanks (width - len text) ++ text.
(** what b_format is given: a finite integer and its digits, a finite float and its digits for a number of decimals, or any
    other value and its text *)
Inductive shown : Type := ShownInt (text : bytes) | ShownFloat (text : Z -> bytes) | ShownOther (text : bytes).
(* builtins.cpp:2753-2827 b_format; digits10 + 2 is 17 *)
Definition format (width : option IntVal) (prec : option IntVal) (x : shown) : res bytes :=
  do width <- match width with Some w => do w <- toInt w; Ok (to_int w) | None => Ok 0 end;
  do prec <- match prec with
             | Some p => do p <- toInt p; let p := to_int p in if p <? 0 then Err EvalError else Ok p
             | None => Ok (-1)
             end;
  let number text :=
    if 0 <? width then Ok (stream_pad width false text)
    else if width <? 0 then do w <- neg_int width; Ok (stream_pad w true text)
    else Ok text in
  match x with
  | ShownInt text => number text
  | ShownFloat text => number (text (if prec =? -1 then 17 else prec))
  | ShownOther s => pad width (if (0 <=? prec) && (prec <? len s) then firstn (Z.to_nat prec) s else s)
  end.
