(** Model of the JSON reader (lib/json_parser.cpp) and of the escaping the system uses for JSON and MiniZinc strings
    (include/minizinc/prettyprinter.hh:47-73).

    Bytes are integers 0..255, a text is the rest of the input stream.  Line and column numbers are left out.  A float token carries its
    text: the conversion to double is the C++ library's. *)
Require Import ZArith List Bool.
From Verif Require Import Base IntValModel SetModel StrModel.
Import ListNotations.
Open Scope Z_scope.

(* json_parser.cpp:28-90 *)
Inductive token :=
| TListOpen | TListClose | TObjOpen | TObjClose | TComma | TColon
| TString (s : str) | TInt (i : Z) | TFloat (text : str) | TBool (b : bool) | TNull | TEof.

Definition isdigit (c : Z) : bool := (48 <=? c) && (c <=? 57).
Definition digits_value (l : str) : Z := fold_left (fun a c => a * 10 + (c - 48)) l 0.
(** int v; iss >> v: the nearest int if the number does not fit, 0 if there are no digits; the failure bit is not tested *)
Definition stream_int (s : str) : Z :=
  match s with
  | [] => 0
  | c :: l => if c =? 45 then Z.max INT_MIN (- digits_value l) else Z.min INT_MAX (digits_value s)
  end.

(** value of a hexadecimal digit *)
Definition hexdigit (c : Z) : option Z :=
  if isdigit c then Some (c - 48) else if (97 <=? c) && (c <=? 102) then Some (c - 87) else if (65 <=? c) && (c <=? 70) then Some (c - 55) else None.
Fixpoint hex_prefix (l : str) (acc : Z) : Z :=
  match l with
  | [] => acc
  | c :: r => match hexdigit c with Some d => hex_prefix r (acc * 16 + d) | None => acc end
  end.
(** ss << std::hex << l; ss >> v on at most four bytes: the digits up to the first other byte; None: ss.fail().
    Simplified: leading blanks, a sign and the prefix 0x, which the library would skip, are failures here (or end the digits). *)
Definition stream_hex (l : str) : option Z :=
  match l with
  | [] => None
  | c :: _ => match hexdigit c with Some _ => Some (hex_prefix l 0) | None => None end
  end.

(* json_parser.cpp:299-319; the result is cast to char *)
Fixpoint utf8_tail (n : nat) (cp : Z) (acc : str) : Z * str :=
  match n with
  | O => (cp, acc)
  | S n' => utf8_tail n' (Z.shiftr cp 6) (Z.lor 128 (Z.land cp 63) :: acc)
  end.
Definition utf8_bytes (cp : Z) : str :=
  let bytes := if cp <=? 127 then 1%nat else if cp <=? 2047 then 2%nat else if cp <=? 65535 then 3%nat else 4%nat in
  let '(cp', tail) := utf8_tail (bytes - 1) cp [] in
  let cp' := if Nat.ltb 1 bytes then Z.lor (Z.shiftl 240 (Z.of_nat (4 - bytes))) cp' else cp' in
  Z.land cp' 255 :: tail.
(* json_parser.cpp:296 *)
Definition join_surrogates (hi lo : Z) : Z := Z.lor (Z.lor (Z.shiftl (hi - 55296) 10) (lo - 56320)) 65536.

(** states S_STRING and S_STRING_ESCAPE, json_parser.cpp:241-340.  At the end of the input readToken returns an EOF token, also inside
    of a string. *)
Fixpoint read_string (s : str) (result : str) : res (token * str) :=
  match s with
  | [] => Ok (TEof, [])
  | c :: s' =>
      if c =? 34 then Ok (TString result, s')
      else if c =? 92 then
        match s' with
        | [] => Ok (TEof, [])
        | e :: s2 =>
            if e =? 34 then read_string s2 (result ++ [34])
            else if e =? 92 then read_string s2 (result ++ [92])
            else if e =? 47 then read_string s2 (result ++ [47])
            else if e =? 110 then read_string s2 (result ++ [10])
            else if e =? 116 then read_string s2 (result ++ [9])
            else if e =? 117 then
              match s2 with
              | a :: b :: c3 :: d :: s3 =>
                  match stream_hex [a; b; c3; d] with
                  | None => Err SyntaxError
                  | Some cp =>
                      if (55296 <=? cp) && (cp <=? 56319) then
                        match s3 with
                        | x :: y :: a' :: b' :: c' :: d' :: s4 =>
                            if (x =? 92) && (y =? 117) then
                              match stream_hex [a'; b'; c'; d'] with
                              | None => Err SyntaxError
                              | Some lo =>
                                  if (lo <? 56320) || (57343 <? lo) then Err SyntaxError
                                  else read_string s4 (result ++ utf8_bytes (join_surrogates cp lo))
                              end
                            else Err SyntaxError
                        | _ => Err SyntaxError
                        end
                      else read_string s3 (result ++ utf8_bytes cp)
                  end
              | _ => Err SyntaxError
              end
            else read_string s2 (result ++ [92; e])
        end
      else read_string s' (result ++ [c])
  end.

(* read_exponent_start, json_parser.cpp:139-159 *)
Definition exponent_start (s : str) (result : str) : res (str * str) :=
  match s with
  | [] => Err SyntaxError
  | c :: s' =>
      if c =? 45 then
        match s' with
        | [] => Err SyntaxError
        | d :: s2 => if isdigit d then Ok (result ++ [45; d], s2) else Err SyntaxError
        end
      else if isdigit c then Ok (result ++ [c], s') else Err SyntaxError
  end.
(* S_FLOAT_EXPONENT *)
Fixpoint read_exponent (s : str) (result : str) : res (token * str) :=
  match s with
  | [] => Ok (TEof, [])
  | c :: s' => if isdigit c then read_exponent s' (result ++ [c]) else Ok (TFloat result, s)
  end.
(* S_FLOAT *)
Fixpoint read_float (s : str) (result : str) : res (token * str) :=
  match s with
  | [] => Ok (TEof, [])
  | c :: s' =>
      if (c =? 101) || (c =? 69) then do ' (r, s2) <- exponent_start s' (result ++ [c]); read_exponent s2 r
      else if isdigit c then read_float s' (result ++ [c])
      else Ok (TFloat result, s)
  end.
(* S_INT *)
Fixpoint read_int (s : str) (result : str) : res (token * str) :=
  match s with
  | [] => Ok (TEof, [])
  | c :: s' =>
      if c =? 46 then read_float s' (result ++ [c])
      else if (c =? 101) || (c =? 69) then do ' (r, s2) <- exponent_start s' (result ++ [c]); read_exponent s2 r
      else if isdigit c then read_int s' (result ++ [c])
      else Ok (TInt (stream_int result), s)
  end.

Definition starts_with (s k : str) : bool := if list_eq_dec Z.eq_dec (firstn (length k) s) k then true else false.
(* readToken, json_parser.cpp:132-393: state S_NOTHING *)
Fixpoint readToken (s : str) : res (token * str) :=
  match s with
  | [] => Ok (TEof, [])
  | c :: s' =>
      if (c =? 10) || (c =? 32) || (c =? 9) || (c =? 13) then readToken s'
      else if c =? 91 then Ok (TListOpen, s')
      else if c =? 93 then Ok (TListClose, s')
      else if c =? 123 then Ok (TObjOpen, s')
      else if c =? 125 then Ok (TObjClose, s')
      else if c =? 44 then Ok (TComma, s')
      else if c =? 58 then Ok (TColon, s')
      else if c =? 34 then read_string s' []
      else if c =? 116 then (if starts_with s' [114; 117; 101] then Ok (TBool true, skipn 3 s') else Err SyntaxError)
      else if c =? 102 then (if starts_with s' [97; 108; 115; 101] then Ok (TBool false, skipn 4 s') else Err SyntaxError)
      else if c =? 110 then (if starts_with s' [117; 108; 108] then Ok (TNull, skipn 3 s') else Err SyntaxError)
      else if isdigit c || (c =? 45) then read_int s' [c]
      else Err SyntaxError
  end.

(** Printer::escapeStringLit, prettyprinter.hh:47-73 *)
Definition escapeStringLit (s : str) : str :=
  flat_map (fun c => if c =? 10 then [92; 110] else if c =? 9 then [92; 116] else if c =? 34 then [92; 34] else if c =? 92 then [92; 92] else [c]) s.

(** ** Values *)
(** the expressions the reader builds.  Simplified: locations are left out; identifiers, enum constructor calls, to_enum calls and the two
    forms of enum definition have a constructor each instead of being calls; JArrD is an array literal with several dimensions (each
    starting from 1), JShift the call of array_index_shift or arrayXd that coerceArray puts around an array with explicit index sets (the
    index sets are left out). *)
Inductive jval :=
| JInt (i : Z) | JFloat (text : str) | JStr (s : str) | JId (s : str) | JBool (b : bool) | JAbsent
| JArr (l : list jval) | JArrD (l : list jval) (dims : list nat) | JShift (a : jval)
| JRec (l : list jval) | JField (key : str) (v : jval)
| JSet (l : list jval) | JIntSet (s : iset) | JFloatSet (l : list (token * token))
| JCtor (c : str) (e : jval) | JToEnum (e : jval) (i : Z)
| JEnumDef (l : list jval) | JAnon (e : jval).
(** the ArrayLits (records are ArrayLits, of VarDecls) *)
Definition as_arr (v : jval) : option (list jval) := match v with JArr l | JRec l => Some l | _ => None end.

(** ** Nested arrays *)
(** JSONParser::coerceArray, json_parser.cpp:888-929, for a type with dim > 1: the stack it of (next position, array), the elements
    found so far and the lengths of the dimensions (all start from 1).  The stack is kept as the list of the elements still to be
    visited in each of its arrays, innermost first. *)
Fixpoint coerce_loop (fuel : nat) (dim : nat) (it : list (list jval)) (elements : list jval) (dims : list nat) : res (list jval * list nat) :=
  match fuel with
  | O => Err OutOfFuel
  | S fuel' =>
      match it with
      | [] => Ok (elements, dims)
      | top :: below =>
          if Nat.eqb (length it) dim then coerce_loop fuel' dim below (elements ++ top) dims
          else
            match top with
            | x :: top' =>
                match as_arr x with
                | None => Err SyntaxError
                | Some nal =>
                    let n := length nal in
                    let it' := nal :: top' :: below in
                    if Nat.ltb (length dims) (length it') then coerce_loop fuel' dim it' elements (dims ++ [n])
                    else match nth_error dims (length it' - 1) with
                         | None => UB
                         | Some d => if Nat.eqb n d then coerce_loop fuel' dim it' elements dims else Err SyntaxError
                         end
                end
            | [] => coerce_loop fuel' dim below elements dims
            end
      end
  end.
Fixpoint jsize (v : jval) : nat :=
  match v with JArr l | JRec l => S (S (fold_right (fun x a => jsize x + a)%nat O l)) | _ => 1%nat end.
(** the elements and the lengths of the dimensions of the array literal after json_parser.cpp:888-929 *)
Definition coerce (dim : nat) (al : list jval) : res (list jval * list nat) :=
  match al with
  | x :: _ =>
      match as_arr x with
      | Some _ => if Nat.ltb 1 dim then coerce_loop (S (jsize (JArr al))) dim [al] [] [length al] else Ok (al, [length al])
      | None => Ok (al, [length al])
      end
  | [] => Ok (al, [length al])
  end.

(** ** The recursive descent *)
(** what the reader looks at in the declared type.  Type aliases are assumed resolved (resolveAlias), tuple and record types are not
    modelled. *)
Record tinfo := mkTI {
  ti_enum : bool;      (* ti->isEnum(): the declaration of an enum *)
  ti_unknown : bool;   (* ti->type().bt() == BT_UNKNOWN: the name of an enum used as a type, not resolved yet *)
  ti_int : bool;       (* ti->type().bt() == BT_INT *)
  ti_set : bool;
  ti_ranges : nat;     (* ti->ranges().size() *)
  ti_dim : nat }.      (* ti->type().dim() *)

(* json_parser.cpp:397-425; t is one of the tokens without a value *)
Definition expectToken (t : token) (s : str) : res str :=
  do ' (r, s') <- readToken s;
  match t, r with
  | TListOpen, TListOpen | TListClose, TListClose | TObjOpen, TObjOpen | TObjClose, TObjClose | TComma, TComma | TColon, TColon | TEof, TEof => Ok s'
  | _, _ => Err SyntaxError
  end.
Definition expectString (s : str) : res (str * str) :=
  do ' (r, s') <- readToken s; match r with TString k => Ok (k, s') | _ => Err SyntaxError end.
Definition expectInt (s : str) : res (Z * str) :=
  do ' (r, s') <- readToken s; match r with TInt k => Ok (k, s') | _ => Err SyntaxError end.

Definition seq (a b : str) : bool := if list_eq_dec Z.eq_dec a b then true else false.
Definition k_set : str := [115; 101; 116].
Definition k_e : str := [101].
Definition k_c : str := [99].
Definition k_i : str := [105].
Definition isnil (s : str) : bool := match s with [] => true | _ => false end.

(** parseEnumObject with parseEnum (json_parser.cpp:517-580).  e = None: the variable e has not been assigned; reading it is undefined. *)
Fixpoint parseEnumObject (fuel : nat) (s : str) (key : str) (e : option jval) (c : str) (i : Z) : res (jval * str) :=
  match fuel with
  | O => Err OutOfFuel
  | S fuel' =>
      do ' (st, s1) <-
        (if seq key k_e then
           do ' (next, s0) <- readToken s;
           do ' (v, s1) <-
             match next with
             | TString k => Ok (JId k, s0)
             | TInt n => Ok (JInt n, s0)
             | TObjOpen =>
                 do ' (k, s2) <- expectString s0;
                 do s3 <- expectToken TColon s2;
                 parseEnumObject fuel' s3 k None [] (-1)
             | _ => Err SyntaxError
             end;
           Ok ((Some v, c, i), s1)
         else if seq key k_c && (i =? -1) then do ' (c', s1) <- expectString s; Ok ((e, c', i), s1)
         else if seq key k_i && isnil c then do ' (i', s1) <- expectInt s; Ok ((e, c, i'), s1)
         else Err SyntaxError);
      let '(e, c, i) := st in
      do ' (next, s2) <- readToken s1;
      match next with
      | TComma =>
          do ' (k, s3) <- expectString s2;
          do s4 <- expectToken TColon s3;
          parseEnumObject fuel' s4 k e c i
      | TObjClose =>
          match e with
          | None => UB
          | Some v =>
              let ok_arg := match v with JId _ | JInt _ | JCtor _ _ | JToEnum _ _ => true | _ => false end in
              let is_id := match v with JId _ => true | _ => false end in
              if (negb (isnil c) && negb ok_arg) || (negb (i =? -1) && negb is_id) then Err SyntaxError
              else if negb (isnil c) then Ok (JCtor c v, s2)
              else if negb (i =? -1) then Ok (JToEnum v i, s2)
              else Ok (v, s2)
          end
      | _ => Err SyntaxError
      end
  end.

(** the value of a string: an identifier if the type is an enum's (json_parser.cpp:611, 790, 855) *)
Definition string_value (ti : option tinfo) (k : str) : jval :=
  match ti with
  | None => JStr k
  | Some t => if negb (ti_enum t) && negb (ti_unknown t) then JStr k else JId k
  end.

(* listT, json_parser.cpp:587 *)
Inductive listT := LColon | LInt | LFloat | LString | LBool | LObj.
Definition is_num_marker (m : listT) : bool := match m with LString | LObj => false | _ => true end.
Definition no_float (m : listT) : listT := match m with LFloat => LFloat | _ => LInt end.
Definition tok_int (t : token) : Z := match t with TInt i => i | _ => 0 end.
(** json_parser.cpp:672-684 *)
Fixpoint int_ranges (ranges : list (token * token)) (r : iset) : res iset :=
  match ranges with
  | [] => Ok r
  | (a, b) :: rest =>
      do r' <- set_union (set_interval (ofZ (tok_int a)) (ofZ (tok_int b))) r;
      int_ranges rest r'
  end.
(** parseSet after the opening bracket, json_parser.cpp:588-701 *)
Fixpoint parseSet (fuel : nat) (ti : option tinfo) (s : str) (lt : listT) (exprs : list jval) (ranges : list (token * token)) : res (jval * str) :=
  match fuel with
  | O => Err OutOfFuel
  | S fuel' =>
      do ' (next, s1) <- readToken s;
      match next with
      | TListClose =>
          do s2 <- expectToken TObjClose s1;
          match lt with
          | LInt => do r <- int_ranges ranges []; Ok (JIntSet r, s2)
          | LFloat => Ok (JFloatSet ranges, s2)
          | _ => Ok (JSet exprs, s2)
          end
      | TComma => parseSet fuel' ti s1 lt exprs ranges
      | TInt _ => if is_num_marker lt then parseSet fuel' ti s1 (no_float lt) exprs (ranges ++ [(next, next)]) else Err SyntaxError
      | TFloat _ => if is_num_marker lt then parseSet fuel' ti s1 LFloat exprs (ranges ++ [(next, next)]) else Err SyntaxError
      | TString k =>
          match lt with
          | LColon | LString => parseSet fuel' ti s1 LString (exprs ++ [string_value ti k]) ranges
          | _ => Err SyntaxError
          end
      | TBool b =>
          if is_num_marker lt then parseSet fuel' ti s1 (match lt with LColon => LBool | _ => lt end) (exprs ++ [JBool b]) ranges
          else Err SyntaxError
      | TObjOpen =>
          match lt with
          | LColon | LObj =>
              do ' (t, s2) <- readToken s1;
              do s3 <- expectToken TColon s2;
              do ' (v, s4) <- parseEnumObject (S (length s3)) s3 (match t with TString k => k | _ => [] end) None [] (-1);
              parseSet fuel' ti s4 LObj (exprs ++ [v]) ranges
          | _ => Err SyntaxError
          end
      | TListOpen =>
          match lt with
          | LColon | LInt | LFloat =>
              do ' (a, s2) <- readToken s1;
              do lt1 <- match a with TInt _ => Ok (no_float lt) | TFloat _ => Ok LFloat | _ => Err SyntaxError end;
              do s3 <- expectToken TComma s2;
              do ' (b, s4) <- readToken s3;
              do lt2 <- match b with TInt _ => Ok (no_float lt1) | TFloat _ => Ok LFloat | _ => Err SyntaxError end;
              do s5 <- expectToken TListClose s4;
              parseSet fuel' ti s5 lt2 exprs (ranges ++ [(a, b)])
          | _ => Err SyntaxError
          end
      | _ => Err SyntaxError
      end
  end.

(** the end of parseArray (json_parser.cpp:822-844) *)
Definition array_value (ti : option tinfo) (range_index : nat) (exps : list jval) : res jval :=
  match ti with
  | None => Ok (JArr exps)
  | Some t =>
      if Nat.leb (ti_ranges t) range_index && ti_set t then Ok (JSet exps)
      else if Nat.ltb 0 (ti_ranges t) && Nat.eqb range_index 0 then
        match exps with
        | [] => Ok (JArr [])
        | _ =>
            do ' (els, dims) <- coerce (ti_dim t) exps;
            let a := if Nat.eqb (length dims) 1 then JArr els else JArrD els dims in
            if Nat.eqb (ti_dim t) 0 || negb (Nat.eqb (ti_ranges t) (ti_dim t)) then Ok a else Ok (JShift a)
        end
      else Ok (JArr exps)
  end.
(** the end of parseEnumConstructorDef (json_parser.cpp:487-513): an array becomes a set *)
Definition set_of (v : jval) : option jval :=
  match v with
  | JSet _ | JIntSet _ | JFloatSet _ => Some v
  | _ => match as_arr v with Some l => Some (JSet l) | None => None end
  end.
Definition enum_constructor (e : option jval) (c : str) (i : option jval) : res jval :=
  if negb (isnil c) then
    match e with
    | Some (JId k) => Ok (JCtor c (JId k))
    | Some v => match set_of v with Some w => Ok (JCtor c w) | None => Err SyntaxError end
    | None => Err SyntaxError
    end
  else match i with
  | Some v => match set_of v with Some w => Ok (JAnon w) | None => Err SyntaxError end
  | None => match e with Some (JStr k) => Ok (JSet [JId k]) | _ => Err SyntaxError end
  end.
Definition push_literals (constructors literals : list jval) : list jval :=
  match literals with [] => constructors | _ => constructors ++ [JSet literals] end.
(** parseExp, parseArray, parseObject, parseEnumDef and parseEnumConstructorDef, json_parser.cpp:427-515, 703-876.  The types of the
    fields of a record are not modelled: the fields are read as for a type that is not known. *)
Fixpoint parseArray (fuel : nat) (ti : option tinfo) (range_index : nat) (s : str) (exps : list jval) {struct fuel} : res (jval * str) :=
  match fuel with
  | O => Err OutOfFuel
  | S fuel' =>
      do ' (next, s1) <- readToken s;
      match next with
      | TListClose => do v <- array_value ti range_index exps; Ok (v, s1)
      | TListOpen =>
          do ' (v, s2) <- parseArray fuel' ti (match ti with None => O | Some _ => S range_index end) s1 [];
          parseArray fuel' ti range_index s2 (exps ++ [v])
      | TComma => parseArray fuel' ti range_index s1 exps
      | TInt i => parseArray fuel' ti range_index s1 (exps ++ [JInt i])
      | TFloat d => parseArray fuel' ti range_index s1 (exps ++ [JFloat d])
      | TString k => parseArray fuel' ti range_index s1 (exps ++ [string_value ti k])
      | TBool b => parseArray fuel' ti range_index s1 (exps ++ [JBool b])
      | TNull => parseArray fuel' ti range_index s1 (exps ++ [JAbsent])
      | TObjOpen =>
          do ' (v, s2) <- parseObject fuel' ti s1 [];
          parseArray fuel' ti range_index s2 (exps ++ [v])
      | _ => Err SyntaxError
      end
  end
with parseObject (fuel : nat) (ti : option tinfo) (s : str) (fields : list jval) {struct fuel} : res (jval * str) :=
  match fuel with
  | O => Err OutOfFuel
  | S fuel' =>
      do ' (key, s1) <- expectString s;
      do s2 <- expectToken TColon s1;
      if seq key k_set then
        match fields with
        | [] => do s3 <- expectToken TListOpen s2; parseSet (S (length s3)) ti s3 LColon [] []
        | _ => Err SyntaxError
        end
      else if match ti with
              | Some t => (ti_enum t || ti_int t || ti_unknown t) && (seq key k_e || seq key k_i || seq key k_c)
              | None => false
              end
      then
        match fields with
        | [] => parseEnumObject (S (length s2)) s2 key None [] (-1)
        | _ => Err SyntaxError
        end
      else
        do ' (v, s3) <- parseExp fuel' None s2;
        let fields' := fields ++ [JField key v] in
        do ' (next, s4) <- readToken s3;
        match next with
        | TComma => parseObject fuel' ti s4 fields'
        | TObjClose => Ok (JRec fields', s4)
        | _ => Err SyntaxError
        end
  end
with parseExp (fuel : nat) (ti : option tinfo) (s : str) {struct fuel} : res (jval * str) :=
  match fuel with
  | O => Err OutOfFuel
  | S fuel' =>
      do ' (next, s1) <- readToken s;
      match next with
      | TInt i => Ok (JInt i, s1)
      | TFloat d => Ok (JFloat d, s1)
      | TString k => Ok (string_value ti k, s1)
      | TBool b => Ok (JBool b, s1)
      | TNull => Ok (JAbsent, s1)
      | TObjOpen => parseObject fuel' ti s1 []
      | TListOpen =>
          if match ti with Some t => ti_enum t | None => false end then parseEnumDef fuel' s1 [] []
          else parseArray fuel' ti O s1 []
      | _ => Err SyntaxError
      end
  end
with parseEnumDef (fuel : nat) (s : str) (constructors literals : list jval) {struct fuel} : res (jval * str) :=
  match fuel with
  | O => Err OutOfFuel
  | S fuel' =>
      do ' (next, s1) <- readToken s;
      match next with
      | TListClose =>
          Ok (JEnumDef (match literals, constructors with [], _ :: _ => constructors | _, _ => constructors ++ [JSet literals] end), s1)
      | TComma => parseEnumDef fuel' s1 constructors literals
      | TString k => parseEnumDef fuel' s1 constructors (literals ++ [JId k])
      | TObjOpen =>
          do ' (k, s2) <- expectString s1;
          do s3 <- expectToken TColon s2;
          do ' (v, s4) <- parseEnumConstructorDef fuel' s3 k None [] None;
          parseEnumDef fuel' s4 (push_literals constructors literals ++ [v]) []
      | _ => Err SyntaxError
      end
  end
with parseEnumConstructorDef (fuel : nat) (s : str) (key : str) (e : option jval) (c : str) (i : option jval) {struct fuel} : res (jval * str) :=
  match fuel with
  | O => Err OutOfFuel
  | S fuel' =>
      do ' (st, s1) <-
        (if seq key k_e && match i with None => true | _ => false end then do ' (v, s1) <- parseExp fuel' None s; Ok ((Some v, c, i), s1)
         else if seq key k_c && match i with None => true | _ => false end then do ' (c', s1) <- expectString s; Ok ((e, c', i), s1)
         else if seq key k_i && isnil c then do ' (v, s1) <- parseExp fuel' None s; Ok ((e, c, Some v), s1)
         else Err SyntaxError);
      let '(e, c, i) := st in
      do ' (next, s2) <- readToken s1;
      match next with
      | TComma =>
          do ' (k, s3) <- expectString s2;
          do s4 <- expectToken TColon s3;
          parseEnumConstructorDef fuel' s4 k e c i
      | TObjClose => do v <- enum_constructor e c i; Ok (v, s2)
      | _ => Err SyntaxError
      end
  end.

(** parseModel for a data file (isData), json_parser.cpp:983-1036: the assignments, in the order of the file.  knownIds: the declared
    identifiers with their types. *)
Fixpoint parseModel (fuel : nat) (knownIds : str -> option tinfo) (s : str) (items : list (str * jval)) : res (list (str * jval) * str) :=
  match fuel with
  | O => Err OutOfFuel
  | S fuel' =>
      do ' (ident, s1) <- expectString s;
      do s2 <- expectToken TColon s1;
      do ' (e, s3) <- parseExp (S (length s2)) (knownIds ident) s2;
      let private := match ident with c :: _ => c =? 95 | [] => false end in
      let items' := match knownIds ident with Some _ => if private then items else items ++ [(ident, e)] | None => items end in
      do ' (next, s4) <- readToken s3;
      match next with
      | TObjClose => Ok (items', s4)
      | TComma => parseModel fuel' knownIds s4 items'
      | _ => Err SyntaxError
      end
  end.
(** parseFromString, json_parser.cpp:1051-1059 *)
Definition parseData (knownIds : str -> option tinfo) (s : str) : res (list (str * jval)) :=
  do s1 <- expectToken TObjOpen s;
  do ' (items, s2) <- parseModel (S (length s1)) knownIds s1 [];
  do _ <- expectToken TEof s2;
  Ok items.
