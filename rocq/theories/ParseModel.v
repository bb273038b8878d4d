(** Model of the expression part of the pretty printer (lib/prettyprinter.cpp) and of the expression part of the grammar (lib/parser.yxx).

    The parser is the automaton that bison makes of the rules for expressions and of their precedence declarations: a stack of started rules,
    and, when a token could either end a rule or go on inside it, the comparison of the precedence of the rule with that of the token.
    Rules left out: annotations, comprehensions and generator calls, let, tuples, records, field accesses, set literals in braces, string
    interpolation, ranges with an open end, quoted operators as functions, two-dimensional and indexed array literals, _ and <>.  A text that
    needs them is rejected by the model. *)
Require Import ZArith List Bool String.
From Verif Require Import Base IntValModel StrModel TypeModel JsonModel LexModel.
Import ListNotations.
Open Scope Z_scope.

(** ast.hh BinOpType, in the order of the declaration of the tokens in parser.yxx:303-320 *)
Inductive bot :=
| OEquiv | OImpl | ORimpl | OOr | OXor | OAnd | OLe | OLq | OGr | OGq | OEq | ONq | OIn | OSubset | OSuperset | OUnion | ODiff | OSymdiff
| OIntersect | ODotdot | OPlus | OMinus | OMult | ODiv | OIdiv | OMod | OPow | OPlusplus.
Inductive uot := UNot | UPlus | UMinus.

(** expressions: integer, Boolean and string literals, identifiers, sets that are one range, operators, calls, array literals with one dimension
    starting at 1, array accesses, conditionals.  Locations, types, declarations and annotations are left out. *)
Inductive ex :=
| EInt (v : IntVal) | EBool (b : bool) | EStr (s : str) | EId (s : str) | ESet (l u : IntVal)
| EBin (o : bot) (a b : ex) | EUn (o : uot) (a : ex) | ECall (f : str) (args : list ex) | EArr (l : list ex) | EAcc (a : ex) (idx : list ex)
| EIte (bs : list (ex * ex)) (els : option ex).

(** ** The printer *)
(** prettyprinter.cpp:35-85 precedence *)
Definition bot_prec (o : bot) : Z :=
  match o with
  | OEquiv => 1200
  | OImpl | ORimpl => 1100
  | OOr | OXor => 1000
  | OAnd => 900
  | OLe | OLq | OGr | OGq | OEq | ONq => 800
  | OIn | OSubset | OSuperset => 700
  | OUnion | ODiff | OSymdiff => 600
  | ODotdot => 500
  | OPlus | OMinus => 400
  | OMult | OIdiv | OMod | ODiv | OIntersect => 300
  | OPow | OPlusplus => 200
  end.
Definition precedence (e : ex) : Z := match e with EBin o _ _ => bot_prec o | _ => 0 end.
(** prettyprinter.cpp:87-108 assoc *)
Inductive assoc := AsLeft | AsRight | AsNone.
Definition bot_assoc (o : bot) : assoc :=
  match o with
  | OLe | OLq | OGr | OGq | ONq | OEq | OIn | OSubset | OSuperset | ODotdot => AsNone
  | OPlusplus => AsRight
  | _ => AsLeft
  end.
(** prettyprinter.cpp:112-119 need_parentheses, the two bits *)
Definition paren_left (o : bot) (left : ex) : bool :=
  (bot_prec o <? precedence left) || ((bot_prec o =? precedence left) && match bot_assoc o with AsLeft => false | _ => true end).
Definition paren_right (o : bot) (right : ex) : bool :=
  (bot_prec o <? precedence right) || ((bot_prec o =? precedence right) && match bot_assoc o with AsRight => false | _ => true end).
(** prettyprinter.cpp:631-719 *)
Definition op_text (o : bot) : str :=
  txt match o with
  | OPlus => "+" | OMinus => "-" | OMult => "*" | OPow => "^" | ODiv => "/" | OIdiv => " div " | OMod => " mod " | OLe => " < " | OLq => "<="
  | OGr => " > " | OGq => ">=" | OEq => "==" | ONq => "!=" | OIn => " in " | OSubset => " subset " | OSuperset => " superset "
  | OUnion => " union " | ODiff => " diff " | OSymdiff => " symdiff " | OIntersect => " intersect " | OPlusplus => "++" | OEquiv => " <-> "
  | OImpl => " -> " | ORimpl => " <- " | OOr => " \/ " | OAnd => " /\ " | OXor => " xor " | ODotdot => ".."
  end.
(** prettyprinter.cpp:729-742 *)
Definition un_text (o : uot) : str := txt match o with UNot => "not " | UPlus => "+" | UMinus => "-" end.
(** prettyprinter.cpp:743-745, without annotations *)
Definition paren_un (e : ex) : bool := match e with EBin _ _ _ | EUn _ _ => true | _ => false end.
(** prettyprinter.cpp:477-479 *)
Definition paren_acc (e : ex) : bool := match e with EId _ | ECall _ _ | EArr _ => false | _ => true end.
(** values.hh:291-301 operator<< of IntVal *)
Definition int_text (v : IntVal) : str :=
  if isMinusInfinity v then txt "-infinity" else if isPlusInfinity v then txt "infinity"
  else if iv_v v <? 0 then 45 :: dec (- iv_v v) else dec (iv_v v).
Definition paren (b : bool) (s : str) : str := if b then 40 :: s ++ [41] else s.
(** the elements with a separator between them *)
Fixpoint sep {A} (c : list A) (l : list (list A)) : list A :=
  match l with [] => [] | [x] => x | x :: l' => x ++ c ++ sep c l' end.
Definition k_default : str := txt "default".

(** prettyprinter.cpp:296-785 PlainPrinter::p *)
Fixpoint print (e : ex) : str :=
  match e with
  | EInt v => int_text v                                                   (* 301-303 *)
  | EBool b => if b then txt "true" else txt "false"                       (* 350-352 *)
  | EStr s => 34 :: escapeStringLit s ++ [34]                              (* 353-355 *)
  | EId s => quoteId s                                                     (* 356-368 *)
  | ESet l u => if iv_lt u l then txt "{}" else int_text l ++ txt ".." ++ int_text u  (* 327-331, values.hh:766-773 *)
  | EBin o a b => paren (paren_left o a) (print a) ++ op_text o ++ paren (paren_right o b) (print b)  (* 621-728 *)
  | EUn o a => un_text o ++ paren (paren_un a) (print a)                   (* 729-753 *)
  | ECall f args =>                                                        (* 754-768 *)
      match args with
      | [x; y] => if str_eqb f k_default then txt "((" ++ print x ++ txt ") default (" ++ print y ++ txt "))"
                  else quoteId f ++ 40 :: print x ++ 44 :: print y ++ [41]
      | _ => quoteId f ++ 40 :: sep [44] (map print args) ++ [41]
      end
  | EArr l => 91 :: sep [44] (map print l) ++ [93]                         (* 418-445 *)
  | EAcc a idx => paren (paren_acc a) (print a) ++ 91 :: sep [44] (map print idx) ++ [93]  (* 475-494 *)
  | EIte bs els =>                                                         (* 608-620 *)
      txt "if " ++ sep (txt " elseif ") (map (fun x => print (fst x) ++ txt " then " ++ print (snd x)) bs) ++
      match els with Some e' => txt " else " ++ print e' | None => [] end ++ txt " endif"
  end.

(** ** The parser *)
(** an infix operator of the grammar: one of the operators, or a function *)
Inductive infix := IOp (o : bot) | IFun (f : str).
(** parser.yxx:303-320 the precedence declarations, the weakest first *)
Definition lev_default : nat := 15.
Definition bot_level (o : bot) : nat :=
  match o with
  | OEquiv => 1
  | OImpl | ORimpl => 2
  | OOr | OXor => 3
  | OAnd => 4
  | OLe | OLq | OGr | OGq | OEq | ONq => 5
  | OIn | OSubset | OSuperset => 6
  | OUnion | ODiff | OSymdiff => 7
  | OIntersect => 8
  | ODotdot => 9
  | OPlus | OMinus => 10
  | OMult | ODiv | OIdiv | OMod => 11
  | OPow => 12
  | OPlusplus => 14
  end.
(** MZN_NOT, and the %prec of the rules for the unary operators, parser.yxx:1512-1531 *)
Definition un_level (o : uot) : nat := match o with UNot => 13 | UPlus | UMinus => 11 end.
(** %nonassoc; all other levels with operators are %left *)
Definition nonassoc (l : nat) : bool := match l with 5 | 6 | 9 | 13 => true | _ => false end%nat.

(** the infix operators, by token *)
Definition infix_of (t : token) : option (infix * nat) :=
  let op o := Some (IOp o, bot_level o) in
  let fn f l := Some (IFun (txt f), l) in
  match t with
  | TSym "MZN_EQUIV" => op OEquiv
  | TSym "MZN_IMPL" => op OImpl
  | TSym "MZN_RIMPL" => op ORimpl
  | TSym "MZN_OR" => op OOr
  | TSym "MZN_XOR" => op OXor
  | TSym "MZN_AND" => op OAnd
  | TSym "MZN_LE" => op OLe
  | TSym "MZN_GR" => op OGr
  | TSym "MZN_LQ" => op OLq
  | TSym "MZN_GQ" => op OGq
  | TSym "MZN_EQ" => op OEq
  | TSym "MZN_NQ" => op ONq
  | TSym "MZN_IN" => op OIn
  | TSym "MZN_SUBSET" => op OSubset
  | TSym "MZN_SUPERSET" => op OSuperset
  | TSym "MZN_UNION" => op OUnion
  | TSym "MZN_DIFF" => op ODiff
  | TSym "MZN_SYMDIFF" => op OSymdiff
  | TSym "MZN_INTERSECT" => op OIntersect
  | TSym "MZN_DOTDOT" => op ODotdot
  | TSym "MZN_PLUS" => op OPlus
  | TSym "MZN_MINUS" => op OMinus
  | TSym "MZN_MULT" => op OMult
  | TSym "MZN_DIV" => op ODiv
  | TSym "MZN_IDIV" => op OIdiv
  | TSym "MZN_MOD" => op OMod
  | TSym "MZN_POW" => op OPow
  | TSym "MZN_PLUSPLUS" => op OPlusplus
  | TSym "MZN_DOTDOT_LE" => fn "'..<'"%string 9%nat
  | TSym "MZN_LE_DOTDOT" => fn "'<..'"%string 9%nat
  | TSym "MZN_LE_DOTDOT_LE" => fn "'<..<'"%string 9%nat
  | TSym "MZN_WEAK_PLUS" => fn "~+"%string 10%nat
  | TSym "MZN_WEAK_MINUS" => fn "~-"%string 10%nat
  | TSym "MZN_WEAK_MULT" => fn "~*"%string 11%nat
  | TSym "MZN_WEAK_DIV" => fn "~/"%string 11%nat
  | TSym "MZN_WEAK_IDIV" => fn "~div"%string 11%nat
  | TSym "MZN_WEAK_EQ" => fn "~="%string 5%nat
  | TSym "MZN_WEAK_NQ" => fn "~!="%string 5%nat
  | TSym "MZN_DEFAULT" => fn "default"%string lev_default
  | TInfix f => Some (IFun f, 16%nat)
  | _ => None
  end%string.

(** started rules *)
Inductive brackets := BCall (f : str) | BArr | BAcc (a : ex) (call : bool).
Inductive frame :=
| FBin (o : infix) (l : nat) (a : ex)                 (* expr op . expr *)
| FUn (o : uot)                                      (* op . expr *)
| FParen                                             (* '(' . expr ')' *)
| FList (b : brackets) (done : list ex)              (* f '(' ..., . expr;  '[' ..., . expr;  a '[' ..., . expr *)
| FIf (done : list (ex * ex))                        (* if ... elseif . expr *)
| FThen (done : list (ex * ex)) (c : ex)             (* ... then . expr *)
| FElse (done : list (ex * ex)).                     (* ... else . expr *)
(** what may follow an expression: a literal takes ^-1, an atom also indices; after a call ^-1 is dropped (parser.yxx:1733); nothing else *)
Inductive kind := KLit | KAtom | KCall | KDone.
Inductive mode := Need | Name (f : str) | Have (e : ex) (k : kind).

(** the actions of the rules, parser.yxx:1356-1534 *)
Definition act_bin (o : infix) (a b : ex) : ex :=
  match o with
  | IOp ODotdot => match a, b with EInt x, EInt y => ESet x y | _, _ => EBin ODotdot a b end
  | IOp o => EBin o a b
  | IFun f => ECall f [a; b]
  end.
Definition act_un (o : uot) (a : ex) : res ex :=
  match o, a with
  | UPlus, EInt v => Ok (EInt v)
  | UMinus, EInt v => do w <- iv_neg v; Ok (EInt w)
  | _, _ => Ok (EUn o a)
  end.

(** what bison does when a rule of precedence r could end before a token of precedence l; None is a token that can only end it *)
Inductive decision := Reduce | Shift | Conflict.
Definition decide (r : nat) (l : option nat) : decision :=
  match l with
  | None => Reduce
  | Some l => if Nat.ltb l r then Reduce else if Nat.ltb r l then Shift else if nonassoc r then Conflict else Reduce
  end.
Fixpoint reduce (F : list frame) (e : ex) (l : option nat) : res (list frame * ex) :=
  match F with
  | FBin o r a :: F' => match decide r l with Reduce => reduce F' (act_bin o a e) l | Shift => Ok (F, e) | Conflict => Err SyntaxError end
  | FUn o :: F' => match decide (un_level o) l with Reduce => do e' <- act_un o e; reduce F' e' l | Shift => Ok (F, e) | Conflict => Err SyntaxError end
  | _ => Ok (F, e)
  end.

Definition finish_list (b : brackets) (l : list ex) : mode :=
  match b with BCall f => Have (ECall f l) KCall | BArr => Have (EArr l) KAtom | BAcc a c => Have (EAcc a l) (if c then KCall else KAtom) end.
Definition iv_minus1 : IntVal := ofZ (-1).

(** a token where an expression has to start *)
Definition need (F : list frame) (t : token) : res (list frame * mode) :=
  match t with
  | TInt v => Ok (F, Have (EInt (ofZ v)) KLit)
  | TSym "MZN_INFINITY" => Ok (F, Have (EInt iv_infinity) KLit)
  | TBool b => Ok (F, Have (EBool b) KLit)
  | TString s => Ok (F, Have (EStr s) KDone)
  | TIdent s => Ok (F, Name s)
  | TSym "MZN_NOT" => Ok (FUn UNot :: F, Need)
  | TSym "MZN_PLUS" => Ok (FUn UPlus :: F, Need)
  | TSym "MZN_MINUS" => Ok (FUn UMinus :: F, Need)
  | TSym "MZN_MAX_NEGATIVE_INTEGER_LITERAL" => match F with FUn UMinus :: F' => Ok (F', Have (EInt (ofZ LLONG_MIN)) KDone) | _ => Err SyntaxError end
  | TChar 40 => Ok (FParen :: F, Need)
  | TSym "MZN_LEFT_BRACKET" => Ok (FList BArr [] :: F, Need)
  | TSym "MZN_IF" => Ok (FIf [] :: F, Need)
  (* an empty list, or a comma before the closing bracket *)
  | TChar 41 => match F with FList (BCall f) l :: F' => Ok (F', finish_list (BCall f) (rev l)) | _ => Err SyntaxError end
  | TSym "MZN_RIGHT_BRACKET" =>
      match F with
      | FList BArr l :: F' => Ok (F', finish_list BArr (rev l))
      | FList (BAcc a c) (x :: l) :: F' => Ok (F', finish_list (BAcc a c) (rev (x :: l)))
      | _ => Err SyntaxError
      end
  | _ => Err SyntaxError
  end%string.

(** a token after an expression *)
Definition have (F : list frame) (e : ex) (k : kind) (t : token) : res (list frame * mode) :=
  match t with
  | TSym "MZN_POW_MINUS1" =>
      match k with KLit | KAtom => Ok (F, Have (EBin OPow e (EInt iv_minus1)) KDone) | KCall => Ok (F, Have e KDone) | KDone => Err SyntaxError end
  | TSym "MZN_LEFT_BRACKET" =>
      match k with KAtom => Ok (FList (BAcc e false) [] :: F, Need) | KCall => Ok (FList (BAcc e true) [] :: F, Need) | _ => Err SyntaxError end
  | TChar 41 =>
      do ' (F', e') <- reduce F e None;
      match F' with
      | FParen :: F'' => Ok (F'', Have e' KAtom)
      | FList (BCall f) l :: F'' => Ok (F'', finish_list (BCall f) (rev (e' :: l)))
      | _ => Err SyntaxError
      end
  | TSym "MZN_RIGHT_BRACKET" =>
      do ' (F', e') <- reduce F e None;
      match F' with
      | FList (BCall f) l :: F'' => Err SyntaxError
      | FList b l :: F'' => Ok (F'', finish_list b (rev (e' :: l)))
      | _ => Err SyntaxError
      end
  | TChar 44 => do ' (F', e') <- reduce F e None; match F' with FList b l :: F'' => Ok (FList b (e' :: l) :: F'', Need) | _ => Err SyntaxError end
  | TSym "MZN_THEN" => do ' (F', e') <- reduce F e None; match F' with FIf d :: F'' => Ok (FThen d e' :: F'', Need) | _ => Err SyntaxError end
  | TSym "MZN_ELSEIF" => do ' (F', e') <- reduce F e None; match F' with FThen d c :: F'' => Ok (FIf (d ++ [(c, e')]) :: F'', Need) | _ => Err SyntaxError end
  | TSym "MZN_ELSE" => do ' (F', e') <- reduce F e None; match F' with FThen d c :: F'' => Ok (FElse (d ++ [(c, e')]) :: F'', Need) | _ => Err SyntaxError end
  | TSym "MZN_ENDIF" =>
      do ' (F', e') <- reduce F e None;
      match F' with
      | FThen d c :: F'' => Ok (F'', Have (EIte (d ++ [(c, e')]) None) KAtom)
      | FElse d :: F'' => Ok (F'', Have (EIte d (Some e')) KAtom)
      | _ => Err SyntaxError
      end
  | _ =>
      match infix_of t with
      | Some (o, l) => do ' (F', e') <- reduce F e (Some l); Ok (FBin o l e' :: F', Need)
      | None => Err SyntaxError
      end
  end%string.

Definition step (F : list frame) (m : mode) (t : token) : res (list frame * mode) :=
  match m with
  | Need => need F t
  | Name f => match t with TChar 40 => Ok (FList (BCall f) [] :: F, Need) | _ => have F (EId f) KAtom t end
  | Have e k => have F e k t
  end.
Fixpoint parse (F : list frame) (m : mode) (ts : list token) : res ex :=
  match ts with
  | t :: ts' => do ' (F', m') <- step F m t; parse F' m' ts'
  | [] =>
      do ' (F', e) <- match m with Need => Err SyntaxError | Name f => reduce F (EId f) None | Have e _ => reduce F e None end;
      match F' with [] => Ok e | _ => Err SyntaxError end
  end.
(** a text that is one expression, parser.yxx:1356 *)
Definition read (text : str) : res ex := do ts <- lex false text; parse [] Need ts.
