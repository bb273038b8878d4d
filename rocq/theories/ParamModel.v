(** Model of parameter configuration files: lib/param_config.cpp:20-157, and the replacement of references to such files
    in the command line, lib/solver.cpp:384-456.
    A file is given as the list of entries the JSON reader has built from it (JsonModel models that reader); numbers
    are given by the text that printing them gives. *)
Require Import ZArith List Bool.
From Verif Require Import Base StrModel JsonModel.
Import ListNotations.
Open Scope Z_scope.

Definition text_dec (a b : str) : {a = b} + {a <> b} := list_eq_dec Z.eq_dec a b.
Definition memb (a : str) (l : list str) : bool := if in_dec text_dec a l then true else false.

(** the values, param_config.cpp:52-90: arrays, Booleans, strings, numbers, and everything else (null, sets, ...) *)
Inductive pval : Type := PArr (l : list pval) | PBool (b : bool) | PStr (s : str) | PNum (s : str) | POther.
(** the entries: values, and nested objects (an include item holding a model, json_parser.cpp:1015-1025) *)
Inductive pitem : Type := Assign (n : str) (v : pval) | Nested (n : str) (l : list pitem).
(** what can go wrong: a flag on the list of forbidden flags, a value of another type, std::out_of_range *)
Inductive perr : Type := Forbidden (f : str) | Unsupported (f : str) | OutOfRange.

(** 93-100, flagName *)
Definition flag_name (n : str) : str := match n with 45 :: _ => n | _ => 45 :: 45 :: n end.

(** 46-91, addValue: the arguments put at the end of _values; bl: the forbidden flags, neg: the negated flags *)
Fixpoint add_value (bl : list str) (neg : str -> option str) (n : str) (v : pval) : perr + list str :=
  let flag := flag_name n in
  if memb flag bl then inl (Forbidden flag) else
  match v with
  | PArr l =>
      (fix all (l : list pval) : perr + list str :=
         match l with
         | [] => inr []
         | e :: r => match add_value bl neg flag e with inl x => inl x | inr a => match all r with inl x => inl x | inr b => inr (a ++ b) end end
         end) l
  | PBool true => inr [flag]
  | PBool false => match neg flag with Some f => inr [f] | None => inr [] end
  | PStr s => inr [flag; s]
  | PNum s => inr [flag; s]
  | POther => inl (Unsupported flag)
  end.

Section Text.
(** 113: an element of an array is printed as a pointer, so its text is an address *)
Variable addr : pval -> str.

(** 104-141, the part of modelToString for one entry *)
Fixpoint item_text (i : pitem) : perr + str :=
  match i with
  | Assign n v =>
      let flag := flag_name n in
      match v with
      | PArr l => inr (flat_map (fun e => 32 :: flag ++ 32 :: addr e) l)
      | PBool true => inr (32 :: flag)
      | PBool false => inr []
      | PStr s => inr (32 :: flag ++ 32 :: s)
      | PNum s => inr (32 :: flag ++ 32 :: s)
      | POther => inl (Unsupported flag)
      end
  | Nested n l =>
      match (fix all (l : list pitem) : perr + str :=
               match l with
               | [] => inr []
               | e :: r => match item_text e with inl x => inl x | inr a => match all r with inl x => inl x | inr b => inr (a ++ b) end end
               end) l with
      | inl x => inl x
      | inr [] => inl OutOfRange
      | inr (_ :: t) => inr (32 :: flag_name n ++ 32 :: 34 :: escapeStringLit t ++ [34])
      end
  end.
(** 102-143, modelToString *)
Fixpoint all_text (l : list pitem) : perr + str :=
  match l with
  | [] => inr []
  | e :: r => match item_text e with inl x => inl x | inr a => match all_text r with inl x => inl x | inr b => inr (a ++ b) end end
  end.
Definition model_to_string (l : list pitem) : perr + str :=
  match all_text l with inl x => inl x | inr [] => inl OutOfRange | inr (_ :: t) => inr t end.

(** 20-44, load *)
Definition load_item (bl : list str) (neg : str -> option str) (i : pitem) : perr + list str :=
  match i with
  | Assign n v => add_value bl neg n v
  | Nested n l => let flag := flag_name n in
      if memb flag bl then inl (Forbidden flag) else match model_to_string l with inl x => inl x | inr t => inr [flag; t] end
  end.
Fixpoint load (bl : list str) (neg : str -> option str) (l : list pitem) : perr + list str :=
  match l with
  | [] => inr []
  | i :: r => match load_item bl neg i with inl x => inl x | inr a => match load bl neg r with inl x => inl x | inr b => inr (a ++ b) end end
  end.
End Text.

(** * References to parameter files in the command line, solver.cpp:384-456 *)
(** the loop at position i is kept as the arguments before i and the arguments from i on *)
Inductive xerr : Type := Missing (f : str) | Cyclic (f : str) | Bad (e : perr) | NoDirs | NoFuel.
Definition f_param : str := [45;45;112;97;114;97;109;45;102;105;108;101].                                     (* --param-file *)
Definition f_nopush : str := f_param ++ [45;110;111;45;112;117;115;104].                                     (* --param-file-no-push *)
Definition f_push : str := [45;45;112;117;115;104;45;119;111;114;107;105;110;103;45;100;105;114;101;99;116;111;114;121]. (* --push-working-directory *)
Definition f_pop : str := [45;45;112;111;112;45;119;111;114;107;105;110;103;45;100;105;114;101;99;116;111;114;121].     (* --pop-working-directory *)
(** 411-414: the text behind the last dot is "mpc" *)
Definition is_mpc (a : str) : bool := if text_dec (rev (firstn 4 (rev a))) [46;109;112;99] then true else false.

Section Expand.
(** the file system: the argument list a parameter file gives (or an error); FileUtils::file_path of a name in a
    directory, and the directory of a path *)
Variable read : str -> perr + list str.
Variable path : str -> str -> str.
Variable dir : str -> str.

(** 417-455: the file is put in place of the reference *)
Definition insert_file (push : bool) (f : str) (dirs used rest : list str) : xerr + (list str * list str) :=
  match dirs with
  | [] => inl NoDirs
  | d :: _ =>
      let p := path f d in
      if memb p used then inl (Cyclic p) else
      match read p with
      | inl e => inl (Bad e)
      | inr vs => inr (if push then f_push :: dir p :: vs ++ f_pop :: rest else vs ++ rest, used ++ [p])
      end
  end.
(** one round of the loop; dirs is the stack of working directories, its top first *)
Fixpoint expand (fuel : nat) (done todo dirs used : list str) : xerr + list str :=
  match fuel with
  | O => inl NoFuel
  | S k =>
      match todo with
      | [] => inr done
      | a :: r =>
          if text_dec a f_param then
            match r with
            | [] => inl (Missing a)
            | f :: r' => match insert_file true f dirs used r' with inl e => inl e | inr (t, u) => expand k done t dirs u end
            end
          else if text_dec a f_nopush then
            match r with
            | [] => inl (Missing a)
            | f :: r' => match insert_file false f dirs used r' with inl e => inl e | inr (t, u) => expand k done t dirs u end
            end
          else if text_dec a f_push then
            match r with
            | [] => inl NoDirs     (* argv[argc]: past the end *)
            | d :: r' => expand k (done ++ [a; d]) r' (d :: dirs) used
            end
          else if text_dec a f_pop then
            match dirs with [] => inl NoDirs | _ :: ds => expand k (done ++ [a]) r ds used end
          else if is_mpc a then
            match insert_file true a dirs used r with inl e => inl e | inr (t, u) => expand k done t dirs u end
          else expand k (done ++ [a]) r dirs used
      end
  end.
(** 913-920 and 953-960: the rest of the program reads each argument in the current working directory *)
Fixpoint placed (args dirs : list str) : list (str * str) :=
  match args with
  | [] => []
  | a :: r =>
      if text_dec a f_push then match r with [] => [] | d :: r' => placed r' (d :: dirs) end
      else if text_dec a f_pop then placed r (tl dirs)
      else (hd [] dirs, a) :: placed r dirs
  end.
End Expand.
