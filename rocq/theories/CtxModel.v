(** Model of Boolean flattening: reification contexts (lib/flatten.cpp:239-345), aggregation of conjunctions and disjunctions
    (lib/flatten/flatten_binop.cpp:356-438) and the translation of Boolean operators (flatten_binop.cpp:1790-2225,
    lib/flatten/flatten_unop.cpp:24-29). *)
Require Import ZArith List Bool.
From Verif Require Import Base.
Import ListNotations.
Open Scope Z_scope.

(** ** Contexts *)
(* include/minizinc/model.hh: BCtx *)
Inductive bctx := C_ROOT | C_POS | C_NEG | C_MIX.
Definition bctx_eqb (a b : bctx) : bool :=
  match a, b with C_ROOT, C_ROOT | C_POS, C_POS | C_NEG, C_NEG | C_MIX, C_MIX => true | _, _ => false end.
(* flatten.cpp:239-252 operator+ *)
Definition bplus (c : bctx) : bctx := match c with C_ROOT | C_POS => C_POS | C_NEG => C_NEG | C_MIX => C_MIX end.
(* flatten.cpp:254-267 operator- *)
Definition bminus (c : bctx) : bctx := match c with C_ROOT | C_POS => C_NEG | C_NEG => C_POS | C_MIX => C_MIX end.

(** annotations of a variable: a set, as a list; the four context annotations and others *)
Inductive ann := ACtx (c : bctx) | AOther (n : nat).
Definition ann_eqb (a b : ann) : bool :=
  match a, b with ACtx c, ACtx d => bctx_eqb c d | AOther m, AOther n => Nat.eqb m n | _, _ => false end.
(* Annotation::contains, remove, add: lib/ast.cpp, on an ExpressionSet *)
Definition acontains (l : list ann) (a : ann) : bool := existsb (ann_eqb a) l.
Definition aremove (l : list ann) (a : ann) : list ann := filter (fun x => negb (ann_eqb a x)) l.
Definition aadd (l : list ann) (a : ann) : list ann := if acontains l a then l else a :: l.

(* flatten.cpp:286-300 annToCtx; ctxToAnn (302-315) is ACtx *)
Definition annToCtx (l : list ann) : bctx * bool :=
  if acontains l (ACtx C_ROOT) then (C_ROOT, true)
  else if acontains l (ACtx C_MIX) then (C_MIX, true)
  else if acontains l (ACtx C_POS) then (C_POS, true)
  else if acontains l (ACtx C_NEG) then (C_NEG, true)
  else (C_MIX, false).

(* flatten.cpp:317-344 addCtxAnn *)
Definition addCtxAnn (l : list ann) (c : bctx) : list ann :=
  let '(nc, annotated) := annToCtx l in
  if annotated then
    if bctx_eqb nc c || bctx_eqb nc C_ROOT || (bctx_eqb nc C_MIX && negb (bctx_eqb c C_ROOT)) then l
    else
      let l := aremove l (ACtx nc) in
      let nc := if bctx_eqb c C_ROOT then C_ROOT else C_MIX in
      aadd l (ACtx nc)
  else aadd l (ACtx c).

(** ** Boolean expressions *)
(* the operators with Boolean operands, after the renaming of comparisons (flatten_binop.cpp:1798-1815) *)
Inductive bop := AND | OR | IMPL | RIMPL | EQUIV | XOR.
Definition bop_eqb (a b : bop) : bool :=
  match a, b with AND, AND | OR, OR | IMPL, IMPL | RIMPL, RIMPL | EQUIV, EQUIV | XOR, XOR => true | _, _ => false end.
(** builtin: decl() == nullptr or decl()->e() == nullptr, i.e. not overloaded by a function with a body *)
Inductive bexp :=
| BAtom (n : nat)
| BNot (builtin : bool) (e : bexp)
| BBin (builtin : bool) (op : bop) (l r : bexp).

(** a std::list with an iterator: the elements before the iterator (nearest first) and those from the iterator on *)
Definition cursor (A : Type) : Type := list A * list A.
Definition cur_next {A} (c : cursor A) : res (cursor A) :=
  match snd c with x :: r => Ok (x :: fst c, r) | [] => UB end.
Definition cur_prev {A} (c : cursor A) : res (cursor A) :=
  match fst c with x :: b => Ok (b, x :: snd c) | [] => UB end.
(** insert before the iterator, which keeps pointing to the same element *)
Definition cur_insert {A} (c : cursor A) (x : A) : cursor A := (x :: fst c, snd c).
Definition cur_set {A} (c : cursor A) (x : A) : res (cursor A) :=
  match snd c with _ :: r => Ok (fst c, x :: r) | [] => UB end.

Definition lit := (bexp * bool)%type.
Definition negop (b : bop) : bop := match b with AND => OR | _ => AND end.

(* flatten_binop.cpp:365-399; the loop is given fuel *)
Fixpoint agg_loop (fuel : nat) (bot : bop) (c : cursor lit) (pos neg : list bexp) : res (list bexp * list bexp) :=
  match fuel with
  | O => Err OutOfFuel
  | S fuel =>
      match snd c with
      | [] => Ok (pos, neg)
      | (e, positive) :: _ =>
          let out :=
            do c <- cur_next c;
            if positive then agg_loop fuel bot c (pos ++ [e]) neg else agg_loop fuel bot c pos (neg ++ [e]) in
          match e with
          | BBin true op l r =>
              if positive && bop_eqb op bot then
                do c <- cur_set c (l, positive);
                do c <- cur_next c;
                let c := cur_insert c (r, true) in
                do c <- cur_prev c; do c <- cur_prev c;
                agg_loop fuel bot c pos neg
              else if negb positive && bop_eqb op (negop bot) then
                do c <- cur_set c (l, positive);
                do c <- cur_next c;
                let c := cur_insert c (r, false) in
                do c <- cur_prev c; do c <- cur_prev c;
                agg_loop fuel bot c pos neg
              else out
          | BNot true e' =>
              if negb positive then
                do c <- cur_set c (e', true);
                agg_loop fuel bot c pos neg
              else if bop_eqb bot OR then
                do c <- cur_next c;
                agg_loop fuel bot c pos (neg ++ [e'])
              else out
          | _ => out
          end
      end
  end.

Inductive bcall := CForall (l : list bexp) | CExists (l : list bexp) | CClause (pos neg : list bexp).
Fixpoint bsize (e : bexp) : nat :=
  match e with BAtom _ => 1 | BNot _ e => S (bsize e) | BBin _ _ l r => S (bsize l + bsize r) end.

(* flatten_binop.cpp:356-438 aggregate_and_or_ops *)
Definition aggregate (l r : bexp) (negateArgs : bool) (bot : bop) : res bcall :=
  do ' (pos, neg) <- agg_loop (S (S (bsize l + bsize r))) bot ([], [(l, negb negateArgs); (r, negb negateArgs)]) [] [];
  match bot with
  | AND => Ok (CForall (pos ++ map (BNot true) neg))
  | _ => Ok (match neg with [] => CExists pos | _ => CClause pos neg end)
  end.

(** ** Operators *)
(* flatten_binop.cpp:1847-1869: the conjuncts posted for a conjunction that must hold; a stack, its top first *)
Fixpoint root_conjuncts (fuel : nat) (negArgs : bool) (todo : list bexp) : res (list (bool * bexp)) :=
  match fuel with
  | O => Err OutOfFuel
  | S fuel =>
      match todo with
      | [] => Ok []
      | e :: todo =>
          let out := do l <- root_conjuncts fuel negArgs todo; Ok ((negArgs, e) :: l) in
          match e with
          | BBin true op l r => if bop_eqb op (if negArgs then OR else AND) then root_conjuncts fuel negArgs (l :: r :: todo) else out
          | _ => out
          end
      end
  end.

(** what is flattened next: a call; an expression, possibly negated; several such; the operator itself (flatten_bool_op), where the
    result is negated if neg; the call of an overloaded operator (flatten_nonbool_op); or e1 (negated) with the variable of e0
    as its result *)
Inductive posted :=
| PCall (neg : bool) (c : bcall)
| PExp (neg : bool) (e : bexp)
| PAll (l : list (bool * bexp))
| PTrue
| POp (neg : bool) (op : bop) (e0 e1 : bexp)
| PUser (neg : bool) (op : bop) (e0 e1 : bexp)
| PDefine (neg : bool) (e0 e1 : bexp).

Section Translate.
(** istrue/isfalse of an expression, of its flattened form, and whether it is an identifier *)
Variable par flat : bexp -> option bool.
Variable isid : bexp -> bool.
Definition istrue (f : bexp -> option bool) (e : bexp) : bool := match f e with Some true => true | _ => false end.
Definition isfalse (f : bexp -> option bool) (e : bexp) : bool := match f e with Some false => true | _ => false end.
Definition ispar (e : bexp) : bool := match par e with Some _ => true | None => false end.

(** flatten_binop.cpp:1817-2145 for Boolean operators; operands are not optional where the code tests for it.
    root: the result is to be true (r == varTrue); for implications also ctx.b == C_ROOT. *)
Definition translate (builtin : bool) (op : bop) (e0 e1 : bexp) (b : bctx) (neg root : bool) : res (posted * bctx) :=
  (* 1817-1834 *)
  let '(b, neg, negArgs, bot) :=
    if neg then
      match op with
      | AND => (bminus b, false, true, OR)
      | OR => (bminus b, false, true, AND)
      | _ => (b, neg, false, op)
      end
    else (b, neg, false, op) in
  (* 1839-1849 *)
  let '(b, neg, bot) :=
    if neg then
      match bot with
      | EQUIV => (bminus b, false, XOR)
      | XOR => (bminus b, false, EQUIV)
      | _ => (b, neg, bot)
      end
    else (b, neg, bot) in
  match bot with
  | AND | OR =>
      if builtin then
        if root && bop_eqb bot AND then
          do l <- root_conjuncts (S (S (bsize e0 + bsize e1))) negArgs [e0; e1]; Ok (PAll l, b)
        else do c <- aggregate e0 e1 negArgs bot; Ok (PCall neg c, b)
      else Ok (PUser neg op e0 e1, b)          (* falls through to 1947 *)
  | IMPL | RIMPL =>
      let '(x, y) := match bot with RIMPL => (e1, e0) | _ => (e0, e1) end in
      if bctx_eqb b C_ROOT && root && ispar x then
        Ok (if istrue par x then PExp negArgs y else PTrue, if istrue par x then (if negArgs then C_NEG else C_ROOT) else b)
      else if bctx_eqb b C_ROOT && root && ispar y then
        Ok (if istrue par y then PTrue else PExp (negb negArgs) x, if istrue par y then b else (if negb negArgs then C_NEG else C_ROOT))
      else if neg then Ok (PCall false (CForall [x; BNot true y]), bminus b)
      else Ok (PCall false (CClause [y] [x]), b)
  | EQUIV =>
      if istrue par e0 then Ok (PExp neg e1, b)
      else if istrue par e1 then Ok (PExp neg e0, b)
      else if root then
        let '(x, y) := if ispar e1 || isid e1 then (e1, e0) else (e0, e1) in
        if isfalse par x then Ok (PExp true y, bminus b)
        else if istrue flat x then Ok (PExp false y, b)
        else if isfalse flat x then Ok (PExp true y, bminus b)
        else Ok (PDefine false x y, C_MIX)
      else Ok (POp neg EQUIV e0 e1, b)
  | XOR =>
      if isfalse par e0 then Ok (PExp neg e1, b)
      else if isfalse par e1 then Ok (PExp neg e0, b)
      else if root then
        let '(x, y) := if ispar e1 || isid e1 then (e1, e0) else (e0, e1) in
        if istrue par x then Ok (PExp true y, bminus b)
        else if isfalse flat x then Ok (PExp false y, b)
        else if istrue flat x then Ok (PExp true y, bminus b)
        else Ok (PDefine true x y, C_MIX)
      else Ok (POp neg XOR e0 e1, b)
  end.
End Translate.

(** ** Comparisons *)
Inductive cop := LE | LQ | GR | GQ | EQ | NQ.
(* flatten_binop.cpp:2146-2220: the operator that is flattened, and doubleNeg, when ctx.neg is set *)
Definition complement (op : cop) : cop :=
  match op with LE => GQ | LQ => GR | GR => LQ | GQ => LE | EQ => NQ | NQ => EQ end.
Definition compare_op (op : cop) (neg : bool) : cop * bool := if neg then (complement op, true) else (op, false).
(* the integer contexts of the operands, from the Boolean context of the comparison *)
Definition compare_ctx (op : cop) (b : bctx) : bctx * bctx :=
  match op with
  | LE | LQ => (bminus b, bplus b)
  | GR | GQ => (bplus b, bminus b)
  | EQ | NQ => (C_MIX, C_MIX)
  end.

(** ** Integer contexts of arithmetic *)
(* valid bounds of an operand, or None: compute_int_bounds *)
Definition bnds := option (Z * Z).
(* flatten_binop.cpp:1929-1946: contexts of both operands of a product *)
Definition mult_side (bo : bnds) (i : bctx) : bctx :=
  match bo with
  | Some (l, u) => if u <? 0 then bminus i else if 1 <=? u then bplus i else C_MIX
  | None => C_MIX
  end.
Definition mult_ctx (b0 b1 : bnds) (i : bctx) : bctx * bctx := (mult_side b1 i, mult_side b0 i).
(* 1948-1965: quotient *)
Definition idiv_ctx (b0 b1 : bnds) (i : bctx) : bctx * bctx :=
  (match b1 with Some (l, u) => if u <? 0 then bminus i else if 1 <? u then bplus i else C_MIX | None => C_MIX end,
   match b0 with Some (l, u) => if u <? 0 then bplus i else if 1 <? u then bminus i else C_MIX | None => C_MIX end).
(* flatten_call.cpp:565: arguments of a linear expression *)
Definition lin_ctx (coeff : Z) (i : bctx) : bctx := if coeff <? 0 then bminus i else bplus i.
(* flatten_call.cpp:426-434: bool2int, not negated; the Boolean context of the argument *)
Definition bool2int_ctx (i : bctx) : bctx := i.
(* flatten_call.cpp:752: the two arguments of clause *)
Definition clause_ctx (b : bctx) : bctx * bctx := (bplus b, bminus b).
(* flatten_call.cpp:434-447: a call of forall (true) or exists (false); the call that is made instead, whether its arguments are negated, and
   their context *)
Definition junct_call (isforall : bool) (b : bctx) (neg : bool) : bool * bool * bctx :=
  let b := bplus b in
  if neg then (negb isforall, true, b) else (isforall, false, b).
