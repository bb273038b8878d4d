(** Specification for C42, C43 and C64 to C66. *)
Require Import ZArith List Bool String Ascii.
From Verif Require Import Base IntValModel IntValSpec SetSpec StrModel JsonModel.
Import ListNotations.
Open Scope Z_scope.

(** the bytes of a text, for examples *)
Fixpoint bytes (s : string) : str := match s with EmptyString => [] | String c r => Z.of_N (N_of_ascii c) :: bytes r end.

(** ** Integers *)
(** the number written by a string of decimal digits *)
Inductive decimal : str -> Z -> Prop :=
| D_one c : 48 <= c <= 57 -> decimal [c] (c - 48)
| D_more l v c : decimal l v -> 48 <= c <= 57 -> decimal (l ++ [c]) (10 * v + (c - 48)).
(** a JSON integer: digits, perhaps after a minus sign *)
Inductive integer_text : str -> Z -> Prop :=
| I_pos l v : decimal l v -> integer_text l v
| I_neg l v : decimal l v -> integer_text (45 :: l) (- v).
(** a byte that does not continue a number *)
Definition ends_number (c : Z) : Prop := ~ (48 <= c <= 57) /\ c <> 46 /\ c <> 101 /\ c <> 69.
Definition blank (c : Z) : Prop := c = 32 \/ c = 9 \/ c = 10 \/ c = 13.

(** a JSON number with a fraction or an exponent; the exponent has no plus sign (see C66_plus_refuted) *)
Definition digits1 (l : str) : Prop := l <> [] /\ Forall (fun c => 48 <= c <= 57) l.
Definition digits0 (l : str) : Prop := Forall (fun c => 48 <= c <= 57) l.
Inductive exponent_text : str -> Prop :=
| X_exp e sg d : e = 101 \/ e = 69 -> sg = [] \/ sg = [45] -> digits1 d -> exponent_text (e :: sg ++ d).
Inductive float_text : str -> Prop :=
| F_frac sg i f x : sg = [] \/ sg = [45] -> digits1 i -> digits0 f -> x = [] \/ exponent_text x -> float_text (sg ++ i ++ 46 :: f ++ x)
| F_exp sg i x : sg = [] \/ sg = [45] -> digits1 i -> exponent_text x -> float_text (sg ++ i ++ x).

(** ** Strings *)
(** RFC 3629 *)
Definition utf8 (cp : Z) : str :=
  if cp <? 128 then [cp]
  else if cp <? 2048 then [192 + cp / 64; 128 + cp mod 64]
  else if cp <? 65536 then [224 + cp / 4096; 128 + cp / 64 mod 64; 128 + cp mod 64]
  else [240 + cp / 262144; 128 + cp / 4096 mod 64; 128 + cp / 64 mod 64; 128 + cp mod 64].
(** the value of a hexadecimal digit, in either case *)
Definition hex_of (c d : Z) : Prop := (48 <= c <= 57 /\ d = c - 48) \/ (97 <= c <= 102 /\ d = c - 87) \/ (65 <= c <= 70 /\ d = c - 55).
Definition hex4 (t : str) (v : Z) : Prop :=
  exists a b c d w x y z, t = [a; b; c; d] /\ hex_of a w /\ hex_of b x /\ hex_of c y /\ hex_of d z /\ v = 4096 * w + 256 * x + 16 * y + z.
(** RFC 8259, section 7: one character of a string as it is written, and the bytes it stands for *)
Inductive denotes : str -> str -> Prop :=
| N_plain c : c <> 34 -> c <> 92 -> denotes [c] [c]
| N_quote : denotes [92; 34] [34]
| N_backslash : denotes [92; 92] [92]
| N_slash : denotes [92; 47] [47]
| N_newline : denotes [92; 110] [10]
| N_tab : denotes [92; 116] [9]
| N_backspace : denotes [92; 98] [8]
| N_formfeed : denotes [92; 102] [12]
| N_return : denotes [92; 114] [13]
| N_unicode t cp : hex4 t cp -> ~ (55296 <= cp <= 57343) -> denotes (92 :: 117 :: t) (utf8 cp)
| N_pair t hi u lo : hex4 t hi -> 55296 <= hi <= 56319 -> hex4 u lo -> 56320 <= lo <= 57343 ->
    denotes (92 :: 117 :: t ++ 92 :: 117 :: u) (utf8 (65536 + 1024 * (hi - 55296) + (lo - 56320))).
Inductive denotes_all : str -> str -> Prop :=
| A_nil : denotes_all [] []
| A_cons t v ts vs : denotes t v -> denotes_all ts vs -> denotes_all (t ++ ts) (v ++ vs).
(** characters the reader gets right: not one of the escapes b, f, r, and of the characters beyond U+FFFF only those of an odd plane *)
Inductive good_char : str -> str -> Prop :=
| G_char t v : denotes t v -> t <> [92; 98] -> t <> [92; 102] -> t <> [92; 114] ->
    (forall cp, v = utf8 cp -> 65536 <= cp -> Z.odd (cp / 65536) = true) -> good_char t v.
Inductive good_all : str -> str -> Prop :=
| GA_nil : good_all [] []
| GA_cons t v ts vs : good_char t v -> good_all ts vs -> good_all (t ++ ts) (v ++ vs).

(** ** Arrays *)
(** an array of arrays ... with the same number of elements at each level *)
Inductive rect : list nat -> jval -> Prop :=
| R_leaf v : rect [] v
| R_arr n ds l : List.length l = n -> Forall (rect ds) l -> rect (n :: ds) (JArr l).
(** the elements in row-major order *)
Fixpoint row_major (ds : list nat) (v : jval) : list jval :=
  match ds with
  | [] => [v]
  | _ :: ds' => match v with JArr l => flat_map (row_major ds') l | _ => [] end
  end.
(** a value without objects among its (nested) elements *)
Inductive no_objects : jval -> Prop :=
| NO_arr l : Forall no_objects l -> no_objects (JArr l)
| NO_other v : (forall l, v <> JArr l) -> (forall l, v <> JRec l) -> no_objects v.

(** ** JSON texts *)
(** how a text is to be read: strings are the names of enum members (ids); lists nested deeper than so many levels are sets (lev); objects
    with the keys e, c, i are enum members (ctor) *)
Record reading := mkR { r_ids : bool; r_lev : option nat; r_ctor : bool }.
Definition raw : reading := mkR false None false.
Definition inner (r : reading) : reading := mkR (r_ids r) (match r_lev r with Some k => Some (pred k) | None => None end) (r_ctor r).
Definition list_value (r : reading) (l : list jval) : jval := match r_lev r with Some O => JSet l | _ => JArr l end.

(** [quoted v s rest]: s begins with (blanks and) a string literal that denotes v, and continues with rest *)
Inductive quoted : str -> str -> str -> Prop :=
| Q_string b ts vs rest : Forall blank b -> good_all ts vs -> quoted vs (b ++ 34 :: ts ++ 34 :: rest) rest.
(** [punct c s rest]: s begins with (blanks and) the byte c *)
Inductive punct (c : Z) : str -> str -> Prop :=
| P_punct b rest : Forall blank b -> punct c (b ++ c :: rest) rest.
Inductive int_lit : Z -> str -> str -> Prop :=
| I_lit b t v c rest : Forall blank b -> integer_text t v -> INT_MIN <= v <= INT_MAX -> ends_number c -> int_lit v (b ++ t ++ c :: rest) (c :: rest).
(** a key and the colon after it *)
Definition keyed (k : str) (s rest : str) : Prop := exists s1, quoted k s s1 /\ punct 58 s1 rest.

(** the members of an enum: a name, a number (inside of a constructor), or an object *)
Inductive enum_member : jval -> str -> str -> Prop :=
| E_name k s rest : quoted k s rest -> enum_member (JId k) s rest
| E_number n s rest : int_lit n s rest -> enum_member (JInt n) s rest
| E_object v s s1 rest : punct 123 s s1 -> enum_object v s1 rest -> enum_member v s rest
with enum_object : jval -> str -> str -> Prop :=      (* after the brace *)
| E_plain v s s1 s2 rest : keyed [101] s s1 -> enum_member v s1 s2 -> punct 125 s2 rest -> enum_object v s rest
| E_ctor f v s s1 s2 s3 s4 s5 rest : f <> [] -> keyed [99] s s1 -> quoted f s1 s2 -> punct 44 s2 s3 ->
    keyed [101] s3 s4 -> enum_member v s4 s5 -> punct 125 s5 rest -> enum_object (JCtor f v) s rest
| E_anon k i s s1 s2 s3 s4 s5 rest : i <> -1 -> keyed [101] s s1 -> quoted k s1 s2 -> punct 44 s2 s3 ->
    keyed [105] s3 s4 -> int_lit i s4 s5 -> punct 125 s5 rest -> enum_object (JToEnum (JId k) i) s rest.

(** the items of an integer set: numbers and pairs [a, b] *)
Inductive set_item : Z -> Z -> str -> str -> Prop :=
| S_one v s rest : int_lit v s rest -> set_item v v s rest
| S_pair a b s s1 s2 s3 s4 rest : punct 91 s s1 -> int_lit a s1 s2 -> punct 44 s2 s3 -> int_lit b s3 s4 -> punct 93 s4 rest -> set_item a b s rest.
Inductive set_items : list (Z * Z) -> str -> str -> Prop :=
| S_last a b s s1 rest : set_item a b s s1 -> punct 93 s1 rest -> set_items [(a, b)] s rest
| S_next a b l s s1 s2 rest : set_item a b s s1 -> punct 44 s1 s2 -> set_items l s2 rest -> set_items ((a, b) :: l) s rest.

(** [writes r v s rest]: s begins with a JSON text that stands for the value v, and continues with rest *)
Inductive writes : reading -> jval -> str -> str -> Prop :=
| W_int r v s rest : int_lit v s rest -> writes r (JInt v) s rest
| W_float r b t c rest : Forall blank b -> float_text t -> ends_number c -> writes r (JFloat t) (b ++ t ++ c :: rest) (c :: rest)
| W_string r v s rest : quoted v s rest -> writes r (if r_ids r then JId v else JStr v) s rest
| W_true r b rest : Forall blank b -> writes r (JBool true) (b ++ [116; 114; 117; 101] ++ rest) rest
| W_false r b rest : Forall blank b -> writes r (JBool false) (b ++ [102; 97; 108; 115; 101] ++ rest) rest
| W_null r b rest : Forall blank b -> writes r JAbsent (b ++ [110; 117; 108; 108] ++ rest) rest
| W_list r l s s1 rest : punct 91 s s1 -> writes_list (inner r) l s1 rest -> writes r (list_value r l) s rest
| W_object r l s s1 rest : punct 123 s s1 -> writes_fields r l s1 rest -> writes r (JRec l) s rest
| W_member r v s s1 rest : r_ctor r = true -> punct 123 s s1 -> enum_object v s1 rest -> writes r v s rest
| W_set r l S s s1 s2 s3 s4 rest : punct 123 s s1 -> keyed [115; 101; 116] s1 s2 -> punct 91 s2 s3 -> set_items l s3 s4 -> punct 125 s4 rest ->
    nf S -> (forall z, elem z S <-> exists a b, In (a, b) l /\ a <= z <= b) -> writes r (JIntSet S) s rest
with writes_list : reading -> list jval -> str -> str -> Prop :=
| L_nil r s rest : punct 93 s rest -> writes_list r [] s rest
| L_cons r v l s s1 rest : writes r v s s1 -> writes_more r l s1 rest -> writes_list r (v :: l) s rest
with writes_more : reading -> list jval -> str -> str -> Prop :=
| M_nil r s rest : punct 93 s rest -> writes_more r [] s rest
| M_cons r v l s s1 s2 rest : punct 44 s s1 -> writes r v s1 s2 -> writes_more r l s2 rest -> writes_more r (v :: l) s rest
with writes_fields : reading -> list jval -> str -> str -> Prop :=
| F_last r k v s s1 s2 rest : field_key r k -> keyed k s s1 -> writes raw v s1 s2 -> punct 125 s2 rest -> writes_fields r [JField k v] s rest
| F_next r k v l s s1 s2 s3 rest : field_key r k -> keyed k s s1 -> writes raw v s1 s2 -> punct 44 s2 s3 -> writes_fields r l s3 rest ->
    writes_fields r (JField k v :: l) s rest
with field_key : reading -> str -> Prop :=
| K_key r k : k <> [115; 101; 116] -> (r_ctor r = true -> k <> [101] /\ k <> [99] /\ k <> [105]) -> field_key r k.

(** ** Data files *)
(** the reading the declared type of a parameter asks for *)
Definition reading_of (t : tinfo) : reading :=
  if ti_enum t then mkR true None false
  else mkR (ti_unknown t) (if ti_set t then Some (ti_ranges t) else None) (ti_int t || ti_unknown t).
(** [assigned t v x]: x is the value of a parameter of type t for the JSON value v.  An array gets the index sets of its type (JShift). *)
Inductive assigned (t : tinfo) : jval -> jval -> Prop :=
| A_scalar v : ti_enum t = false -> ti_ranges t = O -> assigned t v v
| A_absent : ti_enum t = false -> assigned t JAbsent JAbsent
| A_empty : ti_enum t = false -> (0 < ti_ranges t)%nat -> assigned t (JArr []) (JArr [])
| A_one l : ti_enum t = false -> ti_ranges t = 1%nat -> l <> [] -> assigned t (JArr l) (JShift (JArr l))
| A_many ds l : ti_enum t = false -> (1 < ti_ranges t)%nat -> List.length ds = ti_ranges t -> Forall (fun d => (0 < d)%nat) ds -> rect ds (JArr l) ->
    assigned t (JArr l) (JShift (JArrD (row_major ds (JArr l)) ds))
| A_enum ks : ti_enum t = true -> assigned t (JArr (map JId ks)) (JEnumDef [JSet (map JId ks)]).
(** the fields of a data file, after the opening brace; the values of parameters that are not declared, or whose name begins with an
    underscore, do not count *)
Definition field_of (known : str -> option tinfo) (k : str) (s rest : str) (out : list (str * jval)) : Prop :=
  match known k with
  | Some t => exists v x, writes (reading_of t) v s rest /\ assigned t v x /\ out = match k with c :: _ => if c =? 95 then [] else [(k, x)] | [] => [(k, x)] end
  | None => exists v, writes raw v s rest /\ out = []
  end.
Inductive data_fields (known : str -> option tinfo) : list (str * jval) -> str -> str -> Prop :=
| DF_last k out s s1 s2 rest : keyed k s s1 -> field_of known k s1 s2 out -> punct 125 s2 rest -> data_fields known out s rest
| DF_next k out l s s1 s2 s3 rest : keyed k s s1 -> field_of known k s1 s2 out -> punct 44 s2 s3 -> data_fields known l s3 rest ->
    data_fields known (out ++ l) s rest.
Inductive data_file (known : str -> option tinfo) : list (str * jval) -> str -> Prop :=
| DF_file l s s1 rest : punct 123 s s1 -> data_fields known l s1 rest -> Forall blank rest -> data_file known l s.
