(** Model of the lexical analyser (lib/lexer.lxx) and of Printer::quoteId (include/minizinc/prettyprinter.hh).

    flex itself is modelled by its documented rule: among the rules active in the current start condition, the one that matches the longest
    prefix of the input wins, and of several such rules the first.  Left out: locations, the conversion of float literals by strtod (the
    token keeps the text), and the filling of the input buffer (the whole text is there from the start). *)
Require Import ZArith List Bool String Ascii.
From Verif Require Import Base IntValModel StrModel JsonModel.
Import ListNotations.
Open Scope Z_scope.

(** the bytes of a text in the rules *)
Fixpoint txt (s : string) : str := match s with EmptyString => [] | String c r => Z.of_N (N_of_ascii c) :: txt r end.
(** what a C function sees of a byte string *)
Fixpoint cstr (s : str) : str := match s with [] => [] | c :: r => if c =? 0 then [] else c :: cstr r end.

(** ** Patterns *)
(** RSet neg l: one byte that is (or, if neg is set, is not) in one of the ranges *)
Inductive re := RNone | REps | RSet (neg : bool) (l : list (Z * Z)) | RSeq (a b : re) | RAlt (a b : re) | RStar (a : re).
Definition in_ranges (l : list (Z * Z)) (c : Z) : bool := existsb (fun r => (fst r <=? c) && (c <=? snd r)) l.
Definition in_set (neg : bool) (l : list (Z * Z)) (c : Z) : bool := xorb neg (in_ranges l c).
Fixpoint nullable (r : re) : bool :=
  match r with
  | RNone => false | REps => true | RSet _ _ => false
  | RSeq a b => nullable a && nullable b | RAlt a b => nullable a || nullable b | RStar _ => true
  end.
Definition seq (a b : re) : re := match a with RNone => RNone | REps => b | _ => RSeq a b end.
Definition alt (a b : re) : re := match a, b with RNone, _ => b | _, RNone => a | _, _ => RAlt a b end.
(** what is left to match after the byte c *)
Fixpoint deriv (c : Z) (r : re) : re :=
  match r with
  | RNone => RNone | REps => RNone
  | RSet neg l => if in_set neg l c then REps else RNone
  | RSeq a b => if nullable a then alt (seq (deriv c a) b) (deriv c b) else seq (deriv c a) b
  | RAlt a b => alt (deriv c a) (deriv c b)
  | RStar a => seq (deriv c a) (RStar a)
  end.
(** the length of the longest prefix that matches *)
Fixpoint longest (r : re) (s : str) : option nat :=
  match r with
  | RNone => None
  | _ =>
      match s with
      | [] => if nullable r then Some O else None
      | c :: s' => match longest (deriv c r) s' with Some n => Some (S n) | None => if nullable r then Some O else None end
      end
  end.

(** a quoted text, or a regular expression *)
Inductive pat := PLit (l : str) | PRe (r : re).
Fixpoint prefixb (l s : str) : bool :=
  match l, s with [], _ => true | c :: l', d :: s' => (c =? d) && prefixb l' s' | _ :: _, [] => false end.
Definition plen (p : pat) (s : str) : option nat :=
  match p with PLit l => if prefixb l s then Some (List.length l) else None | PRe r => longest r s end.

Definition chr (c : Z) : re := RSet false [(c, c)].
Definition cls (l : list (Z * Z)) : re := RSet false l.
Definition ncls (l : list (Z * Z)) : re := RSet true l.
Definition plus (r : re) : re := RSeq r (RStar r).
Definition opt (r : re) : re := RAlt REps r.
Definition digit : re := cls [(48, 57)].
Definition digits : re := plus digit.
Definition hexd : re := cls [(48, 57); (97, 102); (65, 70)].
Definition octd : re := cls [(48, 55)].
Definition xX : re := cls [(120, 120); (88, 88)].
Definition sign : re := opt (cls [(43, 43); (45, 45)]).
Definition expo : re := RSeq (cls [(69, 69); (101, 101)]) (RSeq sign digits).
Definition pexpo : re := RSeq (cls [(112, 112); (80, 80)]) (RSeq sign digits).
Definition blank : re := cls [(32, 32); (12, 12); (13, 13); (9, 9)].
Definition letter : re := cls [(65, 90); (97, 122)].
Definition idchar : re := cls [(65, 90); (97, 122); (48, 57); (95, 95)].
(** lexer.lxx:380 *)
Definition ident : re := RSeq (opt (chr 95)) (RSeq letter (RStar idchar)).
(** lexer.lxx:206 *)
Definition hexfloat : re :=
  RAlt (RSeq (chr 48) (RSeq xX (RSeq (RAlt (RSeq (RStar hexd) (RSeq (chr 46) (plus hexd))) (RSeq (plus hexd) (chr 46))) pexpo)))
       (RSeq (chr 48) (RSeq xX (RSeq (plus hexd) pexpo))).
(** lexer.lxx:254 *)
Definition field_tail : re :=
  plus (RSeq (RStar blank) (RSeq (chr 46) (RSeq (RStar blank)
       (RAlt digits (RAlt ident (RSeq (chr 39) (RSeq (plus (ncls [(92, 92); (39, 39); (10, 10); (13, 13); (0, 0)])) (chr 39)))))))).

(** ** Tokens, start conditions and actions *)
(** the start conditions, lexer.lxx:155-161 *)
Inductive sc := INITIAL | STRING | STRING_QUOTE | COMMENT | DOC | DOCFILE | BRACKET | QUOTED.
Definition sc_eqb (a b : sc) : bool :=
  match a, b with
  | INITIAL, INITIAL | STRING, STRING | STRING_QUOTE, STRING_QUOTE | COMMENT, COMMENT | DOC, DOC | DOCFILE, DOCFILE
  | BRACKET, BRACKET | QUOTED, QUOTED => true
  | _, _ => false
  end.
(** tokens (parser.yxx:215-338): TSym for those without a value, TChar for those that are one character; TEcho is a byte that no rule matches
    and that flex copies to the standard output *)
Inductive token :=
| TSym (name : string) | TChar (c : Z) | TIdent (s : str) | TInfix (s : str) | TInt (v : Z) | TBool (b : bool) | TFloat (text : str)
| TString (s : str) | TQuoteStart (s : str) | TQuoteMid (s : str) | TQuoteEnd (s : str) | TFieldTail (s : str)
| TTi (s : str) | TTiEnum (s : str) | TDoc (s : str) | TDocFile (s : str) | TEcho (c : Z).
(** the conditions a rule is active in: all of them, INITIAL and the inclusive ones (a rule without a condition), or a list *)
Inductive cond := CAll | CNorm | CIn (l : list sc).
Definition active (c : cond) (s : sc) : bool :=
  match c with
  | CAll => true
  | CNorm => match s with INITIAL | BRACKET | QUOTED => true | _ => false end
  | CIn l => existsb (sc_eqb s) l
  end.
Inductive action :=
| ASkip | ASym (name : string) | ABool (b : bool) | AIdent | AIdentInner | AQuoted | AName (s : str) | AInfix | AInt | AHex | AOct | AFloat
| AChar | AFieldTail | ATi | ATiEnum | APush (s : sc) | APushClear (s : sc) | APushChar (s : sc) | APop | APopChar
| AAppend | AAppendChar (c : Z) | AAppendSecond | AHexChar | AOctChar | ADoc | ADocFile | AQuotedEnd | AQuoteStart | AQuoteMid | AStringEnd
| AQuoteEnd.
Record rule := R { r_cond : cond; r_pat : pat; r_act : action }.

(** lexer.lxx:165-463, in the order of the file; the comments give the lines *)
Local Open Scope string_scope.
Local Open Scope Z_scope.
Definition rules : list rule := [
  (* 165 *) R CAll (PRe (chr 0)) (ASym "MZN_INVALID_NULL");
  (* 167 *) R CNorm (PRe (chr 10)) (ASkip);
  (* 168 *) R CNorm (PRe blank) (ASkip);
  (* 170 *) R CNorm (PLit (txt "/**")) (APushClear DOC);
  (* 172 *) R (CIn [DOC]) (PLit (txt "*/")) (ADoc);
  (* 174 *) R (CIn [DOC]) (PRe (plus (ncls [(42, 42); (10, 10)]))) (AAppend);
  (* 175 *) R (CIn [DOC]) (PLit (txt "*")) (AAppend);
  (* 176 *) R (CIn [DOC]) (PRe (chr 10)) (AAppend);
  (* 179 *) R CNorm (PLit (txt "/***")) (APushClear DOCFILE);
  (* 181 *) R (CIn [DOCFILE]) (PLit (txt "*/")) (ADocFile);
  (* 183 *) R (CIn [DOCFILE]) (PRe (plus (ncls [(42, 42); (10, 10)]))) (AAppend);
  (* 184 *) R (CIn [DOCFILE]) (PLit (txt "*")) (AAppend);
  (* 185 *) R (CIn [DOCFILE]) (PRe (chr 10)) (AAppend);
  (* 188 *) R CNorm (PLit (txt "/*")) (APush COMMENT);
  (* 190 *) R (CIn [COMMENT]) (PLit (txt "*/")) (APop);
  (* 191 *) R (CIn [COMMENT]) (PRe (plus (ncls [(42, 42); (10, 10)]))) (ASkip);
  (* 192 *) R (CIn [COMMENT]) (PLit (txt "*")) (ASkip);
  (* 193 *) R (CIn [COMMENT]) (PRe (chr 10)) (ASkip);
  (* 197 *) R CNorm (PLit (txt "[")) (ASym "MZN_LEFT_BRACKET");
  (* 197 *) R CNorm (PLit (txt "[|")) (ASym "MZN_LEFT_2D_BRACKET");
  (* 197 *) R CNorm (PLit (txt "]")) (ASym "MZN_RIGHT_BRACKET");
  (* 197 *) R CNorm (PLit (txt "|]")) (ASym "MZN_RIGHT_2D_BRACKET");
  (* 201 *) R CNorm (PRe (RSeq (chr 37) (RStar (ncls [(10, 10)])))) (ASkip);
  (* 203 *) R CNorm (PLit (txt "true")) (ABool true);
  (* 204 *) R CNorm (PLit (txt "false")) (ABool false);
  (* 206 *) R CNorm (PRe hexfloat) (AFloat);
  (* 213 *) R CNorm (PRe (RSeq (chr 48) (RSeq xX (plus hexd)))) (AHex);
  (* 219 *) R CNorm (PRe (RSeq (chr 48) (RSeq (chr 111) (plus (cls [(48, 55)]))))) (AOct);
  (* 225 *) R CNorm (PLit (txt "9223372036854775808")) (ASym "MZN_MAX_NEGATIVE_INTEGER_LITERAL");
  (* 228 *) R CNorm (PRe digits) (AInt);
  (* 235 *) R CNorm (PRe (RSeq digits (RSeq (chr 46) digits))) (AFloat);
  (* 241 *) R CNorm (PRe (RSeq digits (RSeq (chr 46) (RSeq digits expo)))) (AFloat);
  (* 247 *) R CNorm (PRe (RSeq digits expo)) (AFloat);
  (* 253 *) R CNorm (PRe (cls [(58, 58); (59, 59); (124, 124); (123, 123); (125, 125); (44, 44); (91, 91); (93, 93)])) (AChar);
  (* 254 *) R CNorm (PRe field_tail) (AFieldTail);
  (* 255 *) R CNorm (PLit (txt "..")) (ASym "MZN_DOTDOT");
  (* 256 *) R CNorm (PLit (txt "'..'")) (ASym "MZN_DOTDOT_QUOTED");
  (* 257 *) R CNorm (PLit (txt "..<")) (ASym "MZN_DOTDOT_LE");
  (* 258 *) R CNorm (PLit (txt "'..<'")) (ASym "MZN_DOTDOT_LE_QUOTED");
  (* 259 *) R CNorm (PLit (txt "<..")) (ASym "MZN_LE_DOTDOT");
  (* 260 *) R CNorm (PLit (txt "'<..'")) (ASym "MZN_LE_DOTDOT_QUOTED");
  (* 261 *) R CNorm (PLit (txt "<..<")) (ASym "MZN_LE_DOTDOT_LE");
  (* 262 *) R CNorm (PLit (txt "'<..<'")) (ASym "MZN_LE_DOTDOT_LE_QUOTED");
  (* 263 *) R CNorm (PLit (txt "::")) (ASym "MZN_COLONCOLON");
  (* 264 *) R CNorm (PLit (txt "_")) (ASym "MZN_UNDERSCORE");
  (* 265 *) R CNorm (PLit (txt "ann")) (ASym "MZN_ANN");
  (* 266 *) R CNorm (PLit (txt "annotation")) (ASym "MZN_ANNOTATION");
  (* 267 *) R CNorm (PLit (txt "any")) (ASym "MZN_ANY");
  (* 268 *) R CNorm (PLit (txt "array")) (ASym "MZN_ARRAY");
  (* 269 *) R CNorm (PLit (txt "bool")) (ASym "MZN_BOOL");
  (* 270 *) R CNorm (PLit (txt "case")) (ASym "MZN_CASE");
  (* 271 *) R CNorm (PLit (txt "constraint")) (ASym "MZN_CONSTRAINT");
  (* 272 *) R CNorm (PLit (txt "default")) (ASym "MZN_DEFAULT");
  (* 273 *) R CNorm (PLit (txt "div")) (ASym "MZN_IDIV");
  (* 274 *) R CNorm (PLit (txt "'div'")) (ASym "MZN_IDIV_QUOTED");
  (* 275 *) R CNorm (PLit (txt "diff")) (ASym "MZN_DIFF");
  (* 276 *) R CNorm (PLit (txt "'diff'")) (ASym "MZN_DIFF_QUOTED");
  (* 277 *) R CNorm (PLit (txt "else")) (ASym "MZN_ELSE");
  (* 278 *) R CNorm (PLit (txt "elseif")) (ASym "MZN_ELSEIF");
  (* 279 *) R CNorm (PLit (txt "endif")) (ASym "MZN_ENDIF");
  (* 280 *) R CNorm (PLit (txt "enum")) (ASym "MZN_ENUM");
  (* 281 *) R CNorm (PLit (txt "float")) (ASym "MZN_FLOAT");
  (* 282 *) R CNorm (PLit (txt "function")) (ASym "MZN_FUNCTION");
  (* 283 *) R CNorm (PLit (txt "if")) (ASym "MZN_IF");
  (* 284 *) R CNorm (PLit (txt "include")) (ASym "MZN_INCLUDE");
  (* 285 *) R CNorm (PLit (txt "infinity")) (ASym "MZN_INFINITY");
  (* 286 *) R CNorm (PLit (txt "intersect")) (ASym "MZN_INTERSECT");
  (* 287 *) R CNorm (PLit (txt "'intersect'")) (ASym "MZN_INTERSECT_QUOTED");
  (* 288 *) R CNorm (PLit (txt "in")) (ASym "MZN_IN");
  (* 289 *) R CNorm (PLit (txt "'in'")) (ASym "MZN_IN_QUOTED");
  (* 290 *) R CNorm (PLit (txt "int")) (ASym "MZN_INT");
  (* 291 *) R CNorm (PLit (txt "let")) (ASym "MZN_LET");
  (* 292 *) R CNorm (PLit (txt "list")) (ASym "MZN_LIST");
  (* 293 *) R CNorm (PLit (txt "maximize")) (ASym "MZN_MAXIMIZE");
  (* 294 *) R CNorm (PLit (txt "minimize")) (ASym "MZN_MINIMIZE");
  (* 295 *) R CNorm (PLit (txt "mod")) (ASym "MZN_MOD");
  (* 296 *) R CNorm (PLit (txt "'mod'")) (ASym "MZN_MOD_QUOTED");
  (* 297 *) R CNorm (PLit (txt "not")) (ASym "MZN_NOT");
  (* 298 *) R CNorm (PLit (txt "'not'")) (ASym "MZN_NOT_QUOTED");
  (* 299 *) R CNorm (PLit (txt "of")) (ASym "MZN_OF");
  (* 300 *) R CNorm (PLit (txt "output")) (ASym "MZN_OUTPUT");
  (* 301 *) R CNorm (PLit (txt "opt")) (ASym "MZN_OPT");
  (* 302 *) R CNorm (PLit (txt "par")) (ASym "MZN_PAR");
  (* 303 *) R CNorm (PLit (txt "predicate")) (ASym "MZN_PREDICATE");
  (* 304 *) R CNorm (PLit (txt "record")) (ASym "MZN_RECORD");
  (* 305 *) R CNorm (PLit (txt "satisfy")) (ASym "MZN_SATISFY");
  (* 306 *) R CNorm (PLit (txt "set")) (ASym "MZN_SET");
  (* 307 *) R CNorm (PLit (txt "solve")) (ASym "MZN_SOLVE");
  (* 308 *) R CNorm (PLit (txt "string")) (ASym "MZN_STRING");
  (* 309 *) R CNorm (PLit (txt "subset")) (ASym "MZN_SUBSET");
  (* 310 *) R CNorm (PLit (txt "'subset'")) (ASym "MZN_SUBSET_QUOTED");
  (* 311 *) R CNorm (PLit (txt "superset")) (ASym "MZN_SUPERSET");
  (* 312 *) R CNorm (PLit (txt "'superset'")) (ASym "MZN_SUPERSET_QUOTED");
  (* 313 *) R CNorm (PLit (txt "symdiff")) (ASym "MZN_SYMDIFF");
  (* 314 *) R CNorm (PLit (txt "'symdiff'")) (ASym "MZN_SYMDIFF_QUOTED");
  (* 315 *) R CNorm (PLit (txt "test")) (ASym "MZN_TEST");
  (* 316 *) R CNorm (PLit (txt "then")) (ASym "MZN_THEN");
  (* 317 *) R CNorm (PLit (txt "tuple")) (ASym "MZN_TUPLE");
  (* 318 *) R CNorm (PLit (txt "type")) (ASym "MZN_TYPE");
  (* 319 *) R CNorm (PLit (txt "union")) (ASym "MZN_UNION");
  (* 320 *) R CNorm (PLit (txt "'union'")) (ASym "MZN_UNION_QUOTED");
  (* 321 *) R CNorm (PLit (txt "var")) (ASym "MZN_VAR");
  (* 322 *) R CNorm (PLit (txt "variant_record")) (ASym "MZN_VARIANT_RECORD");
  (* 323 *) R CNorm (PLit (txt "where")) (ASym "MZN_WHERE");
  (* 324 *) R CNorm (PLit (txt "xor")) (ASym "MZN_XOR");
  (* 325 *) R CNorm (PLit (txt "'xor'")) (ASym "MZN_XOR_QUOTED");
  (* 326 *) R CNorm (PLit (txt "+")) (ASym "MZN_PLUS");
  (* 327 *) R CNorm (PLit (txt "'+'")) (ASym "MZN_PLUS_QUOTED");
  (* 328 *) R CNorm (PLit (txt "-")) (ASym "MZN_MINUS");
  (* 329 *) R CNorm (PLit (txt "'-'")) (ASym "MZN_MINUS_QUOTED");
  (* 330 *) R CNorm (PLit (txt "*")) (ASym "MZN_MULT");
  (* 331 *) R CNorm (PLit (txt "'*'")) (ASym "MZN_MULT_QUOTED");
  (* 332 *) R CNorm (PLit (txt "/")) (ASym "MZN_DIV");
  (* 333 *) R CNorm (PLit (txt "'/'")) (ASym "MZN_DIV_QUOTED");
  (* 334 *) R CNorm (PLit (txt "^-1")) (ASym "MZN_POW_MINUS1");
  (* 335 *) R CNorm (PLit (txt "^")) (ASym "MZN_POW");
  (* 336 *) R CNorm (PLit (txt "'^'")) (ASym "MZN_POW_QUOTED");
  (* 337 *) R CNorm (PLit (txt "++")) (ASym "MZN_PLUSPLUS");
  (* 338 *) R CNorm (PLit (txt "'++'")) (ASym "MZN_PLUSPLUS_QUOTED");
  (* 339 *) R CNorm (PLit (txt "<>")) (ASym "MZN_ABSENT");
  (* 340 *) R CNorm (PLit (txt "<")) (ASym "MZN_LE");
  (* 341 *) R CNorm (PLit (txt "'<'")) (ASym "MZN_LE_QUOTED");
  (* 342 *) R CNorm (PLit (txt "<=")) (ASym "MZN_LQ");
  (* 343 *) R CNorm (PLit (txt "'<='")) (ASym "MZN_LQ_QUOTED");
  (* 344 *) R CNorm (PLit (txt ">")) (ASym "MZN_GR");
  (* 345 *) R CNorm (PLit (txt "'>'")) (ASym "MZN_GR_QUOTED");
  (* 346 *) R CNorm (PLit (txt ">=")) (ASym "MZN_GQ");
  (* 347 *) R CNorm (PLit (txt "'>='")) (ASym "MZN_GQ_QUOTED");
  (* 348 *) R CNorm (PLit (txt "==")) (ASym "MZN_EQ");
  (* 349 *) R CNorm (PLit (txt "'=='")) (ASym "MZN_EQ_QUOTED");
  (* 350 *) R CNorm (PLit (txt "=")) (ASym "MZN_EQ");
  (* 351 *) R CNorm (PLit (txt "'='")) (ASym "MZN_EQ_QUOTED");
  (* 352 *) R CNorm (PLit (txt "!=")) (ASym "MZN_NQ");
  (* 353 *) R CNorm (PLit (txt "'!='")) (ASym "MZN_NQ_QUOTED");
  (* 354 *) R CNorm (PLit (txt "->")) (ASym "MZN_IMPL");
  (* 355 *) R CNorm (PLit (txt "'->'")) (ASym "MZN_IMPL_QUOTED");
  (* 356 *) R CNorm (PLit (txt "<-")) (ASym "MZN_RIMPL");
  (* 357 *) R CNorm (PLit (txt "'<-'")) (ASym "MZN_RIMPL_QUOTED");
  (* 358 *) R CNorm (PLit (txt "<->")) (ASym "MZN_EQUIV");
  (* 359 *) R CNorm (PLit (txt "'<->'")) (ASym "MZN_EQUIV_QUOTED");
  (* 360 *) R CNorm (PLit (txt "\/")) (ASym "MZN_OR");
  (* 361 *) R CNorm (PLit (txt "'\/'")) (ASym "MZN_OR_QUOTED");
  (* 362 *) R CNorm (PLit (txt "/\")) (ASym "MZN_AND");
  (* 363 *) R CNorm (PLit (txt "'/\'")) (ASym "MZN_AND_QUOTED");
  (* 365 *) R CNorm (PLit (txt "~+")) (ASym "MZN_WEAK_PLUS");
  (* 366 *) R CNorm (PLit (txt "~*")) (ASym "MZN_WEAK_MULT");
  (* 367 *) R CNorm (PLit (txt "~=")) (ASym "MZN_WEAK_EQ");
  (* 368 *) R CNorm (PLit (txt "~!=")) (ASym "MZN_WEAK_NQ");
  (* 369 *) R CNorm (PLit (txt "~-")) (ASym "MZN_WEAK_MINUS");
  (* 370 *) R CNorm (PLit (txt "~/")) (ASym "MZN_WEAK_DIV");
  (* 371 *) R CNorm (PLit (txt "~div")) (ASym "MZN_WEAK_IDIV");
  (* 373 *) R CNorm (PRe (RSeq (chr 39) (RSeq (chr 126) (RSeq (cls [(43, 43); (42, 42); (61, 61); (47, 47); (45, 45)]) (chr 39))))) (AIdentInner);
  (* 378 *) R CNorm (PLit (txt "_objective")) (AIdent);
  (* 380 *) R CNorm (PRe ident) (AIdent);
  (* 382 *) R CNorm (PRe (RSeq (chr 39) (RSeq (plus (ncls [(39, 39); (10, 10); (13, 13); (0, 0)])) (chr 39)))) (AQuoted);
  (* 394 *) R CNorm (PLit [226; 136; 128]) (AName (txt "forall"));
  (* 395 *) R CNorm (PLit [226; 136; 131]) (AName (txt "exists"));
  (* 396 *) R CNorm (PLit [226; 136; 136]) (ASym "MZN_IN");
  (* 397 *) R CNorm (PLit [226; 138; 134]) (ASym "MZN_SUBSET");
  (* 398 *) R CNorm (PLit [226; 138; 135]) (ASym "MZN_SUPERSET");
  (* 399 *) R CNorm (PLit [226; 136; 158]) (ASym "MZN_INFINITY");
  (* 400 *) R CNorm (PLit [194; 172]) (ASym "MZN_NOT");
  (* 401 *) R CNorm (PLit [226; 134; 144]) (ASym "MZN_RIMPL");
  (* 402 *) R CNorm (PLit [226; 134; 146]) (ASym "MZN_IMPL");
  (* 403 *) R CNorm (PLit [226; 134; 148]) (ASym "MZN_EQUIV");
  (* 404 *) R CNorm (PLit [226; 136; 167]) (ASym "MZN_AND");
  (* 405 *) R CNorm (PLit [226; 136; 168]) (ASym "MZN_OR");
  (* 406 *) R CNorm (PLit [226; 137; 160]) (ASym "MZN_NQ");
  (* 407 *) R CNorm (PLit [226; 137; 164]) (ASym "MZN_LQ");
  (* 408 *) R CNorm (PLit [226; 137; 165]) (ASym "MZN_GQ");
  (* 409 *) R CNorm (PLit [226; 136; 170]) (ASym "MZN_UNION");
  (* 410 *) R CNorm (PLit [226; 136; 169]) (ASym "MZN_INTERSECT");
  (* 411 *) R CNorm (PLit [226; 129; 187; 194; 185]) (ASym "MZN_POW_MINUS1");
  (* 413 *) R CNorm (PRe (RSeq (chr 36) (RSeq (chr 36) (RSeq letter (RStar idchar))))) (ATiEnum);
  (* 416 *) R CNorm (PRe (RSeq (chr 36) (RSeq letter (RStar idchar)))) (ATi);
  (* 419 *) R CNorm (PLit (txt "(")) (APushChar BRACKET);
  (* 420 *) R (CIn [BRACKET]) (PLit (txt ")")) (APopChar);
  (* 421 *) R (CIn [QUOTED]) (PLit (txt ")")) (AQuotedEnd);
  (* 424 *) R CNorm (PLit (txt """")) (APushClear STRING);
  (* 425 *) R (CIn [STRING; STRING_QUOTE]) (PRe (RStar (ncls [(92, 92); (34, 34); (10, 10); (13, 13); (0, 0)]))) (AAppend);
  (* 426 *) R (CIn [STRING; STRING_QUOTE]) (PLit (txt "\n")) (AAppendChar 10);
  (* 427 *) R (CIn [STRING; STRING_QUOTE]) (PLit (txt "\t")) (AAppendChar 9);
  (* 428 *) R (CIn [STRING; STRING_QUOTE]) (PRe (RSeq (chr 92) (RSeq (chr 120) (RSeq hexd (opt hexd))))) (AHexChar);
  (* 436 *) R (CIn [STRING; STRING_QUOTE]) (PRe (RSeq (chr 92) (RSeq octd (RSeq (opt octd) (opt octd))))) (AOctChar);
  (* 445 *) R (CIn [STRING; STRING_QUOTE]) (PRe (RSeq (chr 92) (cls [(92, 92); (34, 34); (39, 39)]))) (AAppendSecond);
  (* 446 *) R (CIn [STRING]) (PLit (txt "\(")) (AQuoteStart);
  (* 448 *) R (CIn [STRING_QUOTE]) (PLit (txt "\(")) (AQuoteMid);
  (* 450 *) R (CIn [STRING]) (PLit (txt """")) (AStringEnd);
  (* 452 *) R (CIn [STRING_QUOTE]) (PLit (txt """")) (AQuoteEnd);
  (* 454 *) R (CIn [STRING; STRING_QUOTE]) (PRe (ncls [(10, 10)])) (AChar);
  (* 455 *) R (CIn [STRING; STRING_QUOTE]) (PRe (cls [(10, 10); (13, 13); (0, 0)])) (ASym "MZN_END_OF_LINE_IN_STRING");
  (* 458 *) R CNorm (PRe (RSeq (chr 96) (RSeq letter (RSeq (RStar idchar) (chr 96))))) (AInfix);
  (* 463 *) R CNorm (PRe (ncls [(10, 10)])) (AChar)
].
Local Close Scope string_scope.

(** ** Scanning *)
(** flex: the longest match, and the first rule among those with the longest match *)
Fixpoint best (s : sc) (rs : list rule) (text : str) : option (nat * action) :=
  match rs with
  | [] => None
  | r :: rs' =>
      let rest := best s rs' text in
      if active (r_cond r) s then
        match plen (r_pat r) text with
        | None => rest
        | Some n => match rest with Some (m, a) => if Nat.ltb n m then Some (m, a) else Some (n, r_act r) | None => Some (n, r_act r) end
        end
      else rest
  end.

(** the value of digits in some base, as std::istringstream reads them with std::hex or std::oct *)
Definition dig_val (c : Z) : Z := if c <=? 57 then c - 48 else if c <=? 70 then c - 55 else c - 87.
Definition based (b : Z) (l : str) : Z := fold_left (fun x c => b * x + dig_val c) l 0.
(** fast_strtointval, lexer.lxx:88-99: x = x * 10 + (c - '0') on IntVal, which throws when the result does not fit *)
Fixpoint fast_strtointval (x : IntVal) (s : str) : res Z :=
  match s with
  | [] => toInt x
  | c :: s' => do y <- iv_mul x (ofZ 10); do z <- iv_add y (ofZ (c - 48)); fast_strtointval z s'
  end.
(** the text without its first and last byte *)
Definition inner (m : str) : str := removelast (tl m).

(** yy_pop_state: a stack with nothing below the current condition is a fatal error *)
Definition pop (st : list sc) : res (list sc) := match st with _ :: ((_ :: _) as st') => Ok st' | _ => Err InternalError end.
(** a byte stored in a char *)
Definition to_char (v : Z) : Z := v mod 256.

(** the actions: the token returned, if any, the stack of start conditions (the current one first) and the string buffer.
    fz is ParserState::isFlatZinc. *)
Definition run (fz : bool) (a : action) (m : str) (st : list sc) (buf : str) : res (option token * list sc * str) :=
  match a with
  | ASkip => Ok (None, st, buf)
  | ASym n => Ok (Some (TSym n), st, buf)
  | ABool b => Ok (Some (TBool b), st, buf)
  | AIdent => Ok (Some (TIdent m), st, buf)
  | AIdentInner => Ok (Some (TIdent (inner m)), st, buf)
  | AQuoted => Ok (Some (if fz then TSym "QUOTED_IDENTIFIER" else TIdent (inner m)), st, buf)
  | AName s => Ok (Some (TIdent s), st, buf)
  | AInfix => Ok (Some (TInfix (inner m)), st, buf)
  | AInt =>
      match fast_strtointval (ofZ 0) m with
      | Ok v => Ok (Some (TInt v), st, buf)
      | Err ArithmeticError => Ok (Some (TSym "MZN_INVALID_INTEGER_LITERAL"), st, buf)
      | Err e => Err e
      | UB => UB
      end
  | AHex => let v := based 16 (tl (tl m)) in
            Ok (Some (if v <=? LLONG_MAX then TInt v else TSym "MZN_INVALID_INTEGER_LITERAL"), st, buf)
  | AOct => let v := based 8 (tl (tl m)) in
            Ok (Some (if v <=? LLONG_MAX then TInt v else TSym "MZN_INVALID_INTEGER_LITERAL"), st, buf)
  | AFloat => Ok (Some (TFloat m), st, buf)
  | AChar => Ok (Some (TChar (hd 0 m)), st, buf)
  | AFieldTail => Ok (Some (TFieldTail m), st, buf)
  | ATi => Ok (Some (TTi (tl m)), st, buf)
  | ATiEnum => Ok (Some (TTiEnum (tl m)), st, buf)
  | APush s => Ok (None, s :: st, buf)
  | APushClear s => Ok (None, s :: st, [])
  | APushChar s => Ok (Some (TChar (hd 0 m)), s :: st, buf)
  | APop => do st' <- pop st; Ok (None, st', buf)
  | APopChar => do st' <- pop st; Ok (Some (TChar (hd 0 m)), st', buf)
  | AAppend => Ok (None, st, buf ++ cstr m)
  | AAppendChar c => Ok (None, st, buf ++ [c])
  | AAppendSecond => Ok (None, st, buf ++ [hd 0 (tl m)])
  | AHexChar => Ok (None, st, buf ++ [to_char (based 16 (tl (tl m)))])
  | AOctChar => Ok (None, st, buf ++ [to_char (based 8 (tl m))])
  | ADoc => do st' <- pop st; Ok (Some (TDoc (cstr buf)), st', buf)
  | ADocFile => do st' <- pop st; Ok (Some (TDocFile (cstr buf)), st', buf)
  | AQuotedEnd => do st1 <- pop st; do st2 <- pop st1; Ok (None, STRING_QUOTE :: st2, [])
  | AQuoteStart => Ok (Some (TQuoteStart (cstr buf)), QUOTED :: st, buf)
  | AQuoteMid => Ok (Some (TQuoteMid (cstr buf)), QUOTED :: st, buf)
  | AStringEnd => do st' <- pop st; Ok (Some (TString (cstr buf)), st', buf)
  | AQuoteEnd => do st' <- pop st; Ok (Some (TQuoteEnd (cstr buf)), st', buf)
  end.

Definition emit (t : option token) (r : res (list token)) : res (list token) :=
  do l <- r; Ok (match t with Some t => t :: l | None => l end).

(** yylex called until the end of the text.  At the end of the text: lexer.lxx:456 in the string conditions, otherwise the end of the file *)
Fixpoint scan (fuel : nat) (fz : bool) (st : list sc) (buf : str) (text : str) : res (list token) :=
  match fuel with
  | O => Err OutOfFuel
  | S fuel' =>
      match text with
      | [] =>
          match st with
          | STRING :: _ | STRING_QUOTE :: _ => do st' <- pop st; emit (Some (TSym "MZN_UNTERMINATED_STRING")) (scan fuel' fz st' buf [])
          | _ => Ok []
          end
      | c :: text' =>
          match best (hd INITIAL st) rules text with
          | None => emit (Some (TEcho c)) (scan fuel' fz st buf text')
          | Some (n, a) =>
              do ' (t, st', buf') <- run fz a (firstn n text) st buf;
              emit t (scan fuel' fz st' buf' (skipn n text))
          end
      end
  end.
(** every step but the last consumes a byte (C67), so that this is enough *)
Definition lex (fz : bool) (text : str) : res (list token) := scan (S (S (List.length text))) fz [INITIAL] [] text.

(** ** Printer::quoteId, prettyprinter.hh:75-112 *)
Definition reserved : list str := map txt
  ["ann"; "annotation"; "any"; "array"; "bool"; "case"; "constraint"; "default"; "diff"; "div"; "else"; "elseif"; "endif"; "enum";
   "false"; "float"; "function"; "if"; "in"; "include"; "int"; "intersect"; "let"; "list"; "maximize"; "minimize"; "mod"; "not";
   "of"; "op"; "opt"; "output"; "par"; "predicate"; "record"; "satisfy"; "set"; "solve"; "string"; "subset"; "superset"; "symdiff";
   "test"; "then"; "true"; "tuple"; "type"; "union"; "var"; "where"; "xor"]%string.
Definition str_eqb (a b : str) : bool := if list_eq_dec Z.eq_dec a b then true else false.
(** strchr finds the terminator of the string, too *)
Definition strchr (l : str) (c : Z) : bool := (c =? 0) || existsb (Z.eqb c) l.
Definition idChars : str := txt "ABCDEFGHIJKLMNOPQRSTUVWXYZabcdefghijklmnopqrstuvwxyz0123456789_".
Definition idBegin : str := txt "ABCDEFGHIJKLMNOPQRSTUVWXYZabcdefghijklmnopqrstuvwxyz".
Definition quoteId (s : str) : str :=
  let t := cstr s in
  if nth 0 s 0 =? 39 then t
  else
    let offset := if nth 0 s 0 =? 95 then 1%nat else 0%nat in
    if existsb (str_eqb t) reserved || negb (strchr idBegin (nth offset s 0)) then 39 :: t ++ [39]
    else if forallb (strchr idChars) (skipn (1 + offset) s) then t else 39 :: t ++ [39].
