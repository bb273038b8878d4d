(** Model of combining and splitting command lines, lib/file_utils.cpp:581-717.
    A string is the list of its characters (0..255), as in StrModel. *)
Require Import ZArith List Bool.
From Verif Require Import Base StrModel.
Import ListNotations.
Open Scope Z_scope.

Definition DQ : Z := 34.        (* double quote *)
Definition BS : Z := 92.        (* backslash *)
Definition SP : Z := 32.        (* blank *)

(** the state of the loop: the arguments in c, the text in oss, inside_quote, had_escape *)
Record cst : Type := mkC { c_args : list str; c_oss : str; c_inq : bool; c_esc : bool }.
Definition emit (t : str) (st : cst) : cst := mkC (c_args st) (c_oss st ++ t) (c_inq st) false.
Definition set_esc (st : cst) : cst := mkC (c_args st) (c_oss st) (c_inq st) true.

(** the letters after a backslash outside quotes, lib/file_utils.cpp:632-657 *)
Definition letter (x : Z) : str :=
  if x =? 97 then [7] else                      (* \a *)
  if x =? 98 then [8] else                      (* \b *)
  if x =? 102 then [12] else                    (* \f *)
  if x =? 110 then [10] else                    (* \n *)
  if x =? 114 then [13] else                    (* \r *)
  if x =? 116 then [9] else                     (* \t *)
  if x =? 118 then [11] else                    (* \v *)
  [BS; x].

(** one character, lib/file_utils.cpp:590-663 *)
Definition step (st : cst) (x : Z) : cst :=
  if c_inq st then
    if x =? DQ then
      if c_esc st then emit [DQ] st else mkC (c_args st) (c_oss st) false (c_esc st)
    else if x =? BS then set_esc st
    else if c_esc st then emit [BS; x] st
    else emit [x] st
  else
    if x =? SP then
      if c_esc st then emit [SP] st else mkC (c_args st ++ [c_oss st]) [] (c_inq st) (c_esc st)
    else if x =? BS then
      if c_esc st then emit [BS] st else set_esc st
    else if x =? DQ then
      if c_esc st then emit [DQ] st else mkC (c_args st) (c_oss st) true (c_esc st)
    else if c_esc st then emit (letter x) st
    else emit [x] st.
(** lib/file_utils.cpp:581-667 *)
Definition finish (st : cst) : list str := c_args st ++ [c_oss st].
Definition parse_cmd_line (s : str) : list str := finish (fold_left step s (mkC [] [] false false)).

(** one character of an argument, lib/file_utils.cpp:675-707 *)
Definition enc1 (x : Z) : str :=
  if x =? 7 then [BS; 97] else
  if x =? 8 then [BS; 98] else
  if x =? 12 then [BS; 102] else
  if x =? 10 then [BS; 110] else
  if x =? 13 then [BS; 114] else
  if x =? 9 then [BS; 116] else
  if x =? 11 then [BS; 118] else
  if x =? DQ then [BS; DQ] else
  if x =? BS then [BS; BS] else
  [x].
Definition enc (a : str) : str := flat_map enc1 a.
(** lib/file_utils.cpp:669-717 *)
Fixpoint combine_cmd_line (cmd : list str) : str :=
  match cmd with
  | [] => []
  | a :: r => DQ :: enc a ++ DQ :: match r with [] => [] | _ => SP :: combine_cmd_line r end
  end.
