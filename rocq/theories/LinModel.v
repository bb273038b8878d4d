(** Model of the construction and simplification of integer linear expressions:
    simplify_lin and CmpExpIdx (include/minizinc/flatten_internal.hh:612-631, 918-966),
    follow_id_to_decl (lib/eval_par.cpp), collect_linexps and mklinexp
    (lib/flatten/flatten_binop.cpp:220-354), flatten_linexp_call
    (lib/flatten/flatten_call.cpp:131-200), instantiated at Lit = IntLit. *)
Require Import ZArith List Bool Lia.
From Verif Require Import Base IntValModel SetModel.
Import ListNotations.
Open Scope Z_scope.

(** ** Terms *)
(* An identifier is introduced by the compiler (it has a number, Id::idn() >= 0) or named
   (idn() == -1).  Names are represented by their rank in the total order of ASTString. *)
Inductive ident : Type := Num (n : nat) | Name (rank : Z).
(* A term of a linear expression: a literal, an identifier or any other expression (calls,
   non-linear operators, ...).  Other expressions are represented by their rank in
   Expression::compare. *)
Inductive term : Type := TLit (v : IntVal) | TId (i : ident) | TExp (rank : Z).

(* the right hand side of a declaration *)
Inductive rhs : Type := RNone | RId (i : ident) | RLit (v : IntVal) | RExp (rank : Z).
Definition decls := ident -> rhs.

(* eval_par.cpp follow_id_to_decl: follow right hand sides that are identifiers.  An identifier and
   its declaration are the same thing here. *)
Fixpoint follow (fuel : nat) (ds : decls) (i : ident) : res ident :=
  match fuel with
  | O => Err OutOfFuel
  | S n => match ds i with RId j => follow n ds j | _ => Ok i end
  end.

(* flatten_internal.hh:922-934 first loop of simplify_lin *)
Definition resolve (fuel : nat) (ds : decls) (t : term) : res term :=
  match t with
  | TId i => do j <- follow fuel ds i; Ok (match ds j with RLit v => TLit v | _ => TId j end)
  | _ => Ok t
  end.
Fixpoint resolve_all (fuel : nat) (ds : decls) (l : list term) : res (list term) :=
  match l with
  | [] => Ok []
  | t :: l' => do t' <- resolve fuel ds t; do r <- resolve_all fuel ds l'; Ok (t' :: r)
  end.

(* Id::idn() *)
Definition idn (t : term) : Z := match t with TId (Num n) => Z.of_nat n | _ => -1 end.

(* ast.cpp:2069-2165 Expression::compare(a,b) < 0 on terms; E_INTLIT < E_ID < the other kinds of
   expressions that occur as terms (ast.hh:343-364) *)
Definition compare_lt (a b : term) : bool :=
  match a, b with
  | TLit v, TLit w => iv_lt v w
  | TLit _, _ => true
  | TId _, TLit _ => false
  | TId i, TId j =>
      match i, j with
      | Num n, Num m => Z.of_nat n <? Z.of_nat m
      | Name _, Num _ => true
      | Num _, Name _ => false
      | Name r, Name s => r <? s
      end
  | TId _, TExp _ => true
  | TExp r, TExp s => r <? s
  | TExp _, _ => false
  end.

(* flatten_internal.hh:612-631 CmpExpIdx::operator() *)
Definition cmp_term (a b : term) : bool :=
  let i_valid := negb (idn a =? -1) in
  let j_valid := negb (idn b =? -1) in
  if negb (Bool.eqb i_valid j_valid) then i_valid
  else if i_valid && j_valid then idn a <? idn b
  else compare_lt a b.

(* ast.cpp:2342- Expression::equal on terms *)
Definition ident_eqb (i j : ident) : bool :=
  match i, j with Num n, Num m => Nat.eqb n m | Name r, Name s => r =? s | _, _ => false end.
Definition term_eqb (a b : term) : bool :=
  match a, b with
  | TLit v, TLit w => iv_eq v w
  | TId i, TId j => ident_eqb i j
  | TExp r, TExp s => r =? s
  | _, _ => false
  end.

(** ** simplify_lin *)
Fixpoint upd {A} (l : list A) (i : nat) (v : A) : list A :=
  match l, i with
  | [], _ => []
  | _ :: l', O => v :: l'
  | x :: l', S i' => x :: upd l' i' v
  end.
Definition getc (c : list IntVal) (i : nat) : IntVal := nth i c (ofZ 0).
Definition getx (x : list term) (i : nat) : term := nth i x (TExp 0).

(* flatten_internal.hh:936-944: literals at the front; returns the not yet visited part of idx *)
Fixpoint lead_lits (idx : list nat) (c : list IntVal) (x : list term) (d : IntVal)
  : res (list IntVal * IntVal * list nat) :=
  match idx with
  | [] => Ok (c, d, [])
  | i :: idx' =>
      match getx x i with
      | TLit v =>
          do p <- iv_mul (getc c i) v;
          do d' <- add_assign d p;
          lead_lits idx' (upd c i (ofZ 0)) x d'
      | _ => Ok (c, d, idx)
      end
  end.

(* flatten_internal.hh:945-955: [cur] is idx[ci] *)
Fixpoint merge_terms (idx : list nat) (cur : nat) (c : list IntVal) (x : list term) (d : IntVal)
  : res (list IntVal * IntVal) :=
  match idx with
  | [] => Ok (c, d)
  | i :: idx' =>
      if term_eqb (getx x i) (getx x cur) then
        do s <- add_assign (getc c cur) (getc c i);
        merge_terms idx' cur (upd (upd c cur s) i (ofZ 0)) x d
      else
        match getx x i with
        | TLit v =>
            do p <- iv_mul (getc c i) v;
            do d' <- add_assign d p;
            merge_terms idx' cur (upd c i (ofZ 0)) x d'
        | _ => merge_terms idx' i c x d
        end
  end.

(* flatten_internal.hh:956-965: drop the terms with coefficient 0 *)
Fixpoint compact (c : list IntVal) (x : list term) : list IntVal * list term :=
  match c, x with
  | v :: c', t :: x' =>
      let '(c2, x2) := compact c' x' in
      if iv_ne v (ofZ 0) then (v :: c2, t :: x2) else (c2, x2)
  | _, _ => ([], [])
  end.

(* flatten_internal.hh:918-966.  [sort] is std::sort with CmpExpIdx: any function returning the
   indices in some order allowed by the comparator. *)
Definition simplify_lin (fuel : nat) (ds : decls) (sort : list term -> list nat)
    (c : list IntVal) (x0 : list term) (d : IntVal) : res (list IntVal * list term * IntVal) :=
  do x <- resolve_all fuel ds x0;
  do ' (c1, d1, rest) <- lead_lits (sort x) c x d;
  do ' (c2, d2) <- (match rest with [] => Ok (c1, d1) | cur :: idx' => merge_terms idx' cur c1 x d1 end);
  let '(c3, x3) := compact c2 x in
  Ok (c3, x3, d2).

(** ** collect_linexps *)
(* Integer expressions as collect_linexps sees them: an expression of par type (with the value
   eval_int gives it), an operator with a built-in meaning, or anything else (a term).  LOver is a
   binary operator with a user-defined body (bo->decl()->e() != nullptr). *)
Inductive lexp : Type :=
| LPar (v : IntVal)
| LTerm (t : term)
| LPlus (a b : lexp) | LMinus (a b : lexp) | LMult (a b : lexp) | LIDiv (a b : lexp)
| LOver (rank : Z).

(* flatten_binop.cpp:220-299.  [vars] entries are the collected (non-decomposed) expressions. *)
Definition is_par (e : lexp) : option IntVal :=
  match e with LPar v => Some v | LTerm (TLit v) => Some v | _ => None end.
Fixpoint collect (fuel : nat) (stack : list (lexp * IntVal)) (coeffs : list IntVal) (vars : list lexp) (k : IntVal)
  : res (list IntVal * list lexp * IntVal) :=
  match stack with
  | [] => Ok (coeffs, vars, k)
  | (e, c) :: st =>
      match fuel with
      | O => Err OutOfFuel
      | S n =>
          let push := collect n st (coeffs ++ [c]) (vars ++ [e]) k in
          match e with
          | LPar v | LTerm (TLit v) =>
              do p <- iv_mul c v; do k' <- add_assign k p; collect n st coeffs vars k'
          | LPlus a b => collect n ((b, c) :: (a, c) :: st) coeffs vars k
          | LMinus a b => do nc <- iv_neg c; collect n ((b, nc) :: (a, c) :: st) coeffs vars k
          | LMult a b =>
              match is_par a with
              | Some v => do c' <- iv_mul c v; collect n ((b, c') :: st) coeffs vars k
              | None =>
                  match is_par b with
                  | Some v => do c' <- iv_mul c v; collect n ((a, c') :: st) coeffs vars k
                  | None => push
                  end
              end
          | LIDiv a b =>
              match b with
              | LTerm (TLit v) | LPar v => (* isa<IntLit>(rhs) *)
                  if iv_eq v (ofZ 1) then collect n ((a, c) :: st) coeffs vars k else push
              | _ => push
              end
          | LTerm _ | LOver _ => push
          end
      end
  end.

Fixpoint lsize (e : lexp) : nat :=
  match e with
  | LPlus a b | LMinus a b | LMult a b | LIDiv a b => S (lsize a + lsize b)
  | _ => 1%nat
  end.
Definition collect_linexps (in_c : IntVal) (e : lexp) (coeffs : list IntVal) (vars : list lexp) (k : IntVal) :=
  collect (lsize e) [(e, in_c)] coeffs vars k.

(** ** mklinexp *)
Inductive linexp : Type :=
| MLit (v : IntVal)                                   (* an integer literal *)
| MTerm (t : term)                                    (* a single term *)
| MLin (c : list IntVal) (x : list term) (d : IntVal). (* lin_exp(c, x, d) *)

(* flatten_binop.cpp:300-354.  [enc] gives the term that a collected expression is. *)
Definition mklinexp (fuel : nat) (ds : decls) (sort : list term -> list nat) (enc : lexp -> term)
    (c0 c1 : IntVal) (e0 e1 : lexp) : res linexp :=
  do ' (co0, va0, k0) <- collect_linexps c0 e0 [] [] (ofZ 0);
  do ' (co1, va1, k1) <- collect_linexps c1 e1 co0 va0 k0;
  do ' (coeffs, vars, constval) <- simplify_lin fuel ds sort co1 (map enc va1) k1;
  match coeffs, vars with
  | [], _ => Ok (MLit constval)
  | c :: cs, v :: _ =>
      if Nat.eqb (length coeffs) 1 && iv_eq c (ofZ 1) && iv_eq constval (ofZ 0) then Ok (MTerm v)
      else if forallb isFinite coeffs then Ok (MLin coeffs vars constval)
      else Err EvalError (* FlatteningError *)
  | _ :: _, [] => Err InternalError
  end.

(** ** flatten_linexp_call *)
(* flatten_call.cpp:190, flatten_binop.cpp:562, 837: multiply coefficients by a constant *)
Fixpoint scale_all (sign : IntVal) (l : list IntVal) : res (list IntVal) :=
  match l with
  | [] => Ok []
  | v :: l' => do p <- iv_mul sign v; do r <- scale_all sign l'; Ok (p :: r)
  end.
(* flatten_call.cpp:161-196: inline the arguments that are defined by a linear expression.
   [lin_def t] is same_call(env, t, lin_exp): the definition of t, if it is a lin_exp call;
   [keep t] is the test at lines 164-179 that its declared domain is tighter than its definition. *)
Fixpoint inline_defs (lin_def : term -> option (list IntVal * list term * IntVal)) (keep : term -> bool)
    (cs : list IntVal) (ts : list term) (coeffv : list IntVal) (alv : list term) (d : IntVal)
  : res (list IntVal * list term * IntVal) :=
  match cs, ts with
  | cd :: cs', t :: ts' =>
      match (if keep t then None else lin_def t) with
      | Some (sc, sx, sd) =>
          do sc' <- scale_all cd sc;
          do p <- iv_mul cd sd;
          do d' <- add_assign d p;
          inline_defs lin_def keep cs' ts' (coeffv ++ sc') (alv ++ sx) d'
      | None => inline_defs lin_def keep cs' ts' (coeffv ++ [cd]) (alv ++ [t]) d
      end
  | _, _ => Ok (coeffv, alv, d)
  end.
(* flatten_call.cpp:131-208 *)
Definition flatten_linexp_call (fuel : nat) (ds : decls) (sort : list term -> list nat)
    (lin_def : term -> option (list IntVal * list term * IntVal)) (keep : term -> bool)
    (cs : list IntVal) (ts : list term) (d0 : IntVal) : res linexp :=
  do ' (coeffv, alv, d) <- inline_defs lin_def keep cs ts [] [] d0;
  do ' (c, x, d') <- simplify_lin fuel ds sort coeffv alv d;
  match c, x with
  | [], _ => Ok (MLit d')
  | [c1], [x1] => if iv_eq c1 (ofZ 1) && iv_eq d' (ofZ 0) then Ok (MTerm x1) else Ok (MLin c x d')
  | _, _ => Ok (MLin c x d')
  end.
(* flatten_call.cpp:146-152: sum(ts) has coefficients 1 and constant 0 *)
Definition flatten_sum (fuel : nat) ds sort lin_def keep (ts : list term) : res linexp :=
  flatten_linexp_call fuel ds sort lin_def keep (map (fun _ => ofZ 1) ts) ts (ofZ 0).

(** ** flatten_linexp_binop *)
(* One side of a comparison, as returned by get_linexp. *)
Inductive lside : Type :=
| SLit (v : IntVal)
| SId (i : ident)
| SLin (c : list IntVal) (x : list term) (d : IntVal)
| SOther.

Inductive linkind : Type := KLe | KEq | KNe.  (* int_lin_le, int_lin_eq, int_lin_ne *)
Inductive dom_update : Type :=
| NoUpdate | SetDom (i : ident) (s : iset) | NoSolution.
(* What the comparison is flattened to. *)
Inductive lin_out : Type :=
| OConst (b : bool)                             (* the value of the comparison is known *)
| ODom (i : ident) (s : iset)                   (* the domain of i is set to s, comparison is true *)
| OCmp (op : cmp_op) (a b : term)               (* a op b *)
| OBind (i j : ident)                           (* i becomes an alias of j *)
| OEqVars (a b : term)                          (* int_eq(a, b) *)
| OLin (k : linkind) (c : list IntVal) (x : list term) (d : IntVal) (u : dom_update).

(* flatten_binop.cpp:490-541: comparison with an infinite par operand on the left / right *)
Definition inf_left (bot : cmp_op) (v : IntVal) : bool :=
  match bot with
  | BOT_NQ => true
  | BOT_LE | BOT_LQ => isMinusInfinity v
  | BOT_GR | BOT_GQ => isPlusInfinity v
  | BOT_EQ => false
  end.
Definition inf_right (bot : cmp_op) (v : IntVal) : bool :=
  match bot with
  | BOT_NQ => true
  | BOT_LE | BOT_LQ => isPlusInfinity v
  | BOT_GR | BOT_GQ => isMinusInfinity v
  | BOT_EQ => false
  end.

(* an ArithmeticError caught and rethrown as an EvalError: flatten_binop.cpp:549-551, 565-567 *)
Definition catch_arith {A} (r : res A) : res A :=
  match r with Err ArithmeticError => Err EvalError | _ => r end.
(* flatten_binop.cpp:545-573: one iteration of the loop over the two sides *)
Definition add_side (sign : IntVal) (s : lside) (st : list IntVal * list term * IntVal)
  : res (list IntVal * list term * IntVal) :=
  let '(coeffv, alv, d) := st in
  match s with
  | SLit v => catch_arith (do p <- iv_mul sign v; do d' <- add_assign d p; Ok (coeffv, alv, d'))
  | SId i => Ok (coeffv ++ [sign], alv ++ [TId i], d)
  | SLin c x e =>
      catch_arith (do p <- iv_mul sign e; do d' <- add_assign d p;
                   do c' <- scale_all sign c; Ok (coeffv ++ c', alv ++ x, d'))
  | SOther => Err EvalError
  end.

(* flatten_binop.cpp:576-605 *)
Definition const_result (bot : cmp_op) (nd : IntVal) : bool :=
  match bot with
  | BOT_LE => iv_lt (ofZ 0) nd | BOT_LQ => iv_le (ofZ 0) nd
  | BOT_GR => iv_gt (ofZ 0) nd | BOT_GQ => iv_ge (ofZ 0) nd
  | BOT_EQ => iv_eq (ofZ 0) nd | BOT_NQ => iv_ne (ofZ 0) nd
  end.
(* flatten_binop.cpp:608-624 *)
Definition flip (bot : cmp_op) : cmp_op :=
  match bot with
  | BOT_LE => BOT_GR | BOT_LQ => BOT_GQ | BOT_GR => BOT_LE | BOT_GQ => BOT_LQ | b => b
  end.
(* flatten_binop.cpp:629-658 *)
Definition subsumed (bot : cmp_op) (l u d : IntVal) : bool :=
  match bot with
  | BOT_LE => iv_lt u d | BOT_LQ => iv_le u d | BOT_GR => iv_gt l d | BOT_GQ => iv_ge l d
  | BOT_EQ => iv_eq l d && iv_eq u d | BOT_NQ => iv_lt u d || iv_gt l d
  end.
Definition failed (bot : cmp_op) (l u d : IntVal) : bool :=
  match bot with
  | BOT_LE => iv_ge l d | BOT_LQ => iv_gt l d | BOT_GR => iv_le u d | BOT_GQ => iv_lt u d
  | BOT_EQ => iv_lt u d || iv_gt l d | BOT_NQ => iv_eq l d && iv_eq u d
  end.

(* flatten_internal.hh:649-681 constructLinBuiltin *)
Definition constructLinBuiltin (bot : cmp_op) (d : IntVal) : res (linkind * IntVal * IntVal) :=
  match bot with
  | BOT_LE => do d' <- add_assign d (ofZ 1); Ok (KLe, ofZ 1, d')
  | BOT_LQ => Ok (KLe, ofZ 1, d)
  | BOT_GR => do n <- iv_neg d; do d' <- iv_add n (ofZ 1); Ok (KLe, ofZ (-1), d')
  | BOT_GQ => do n <- iv_neg d; Ok (KLe, ofZ (-1), n)
  | BOT_EQ => Ok (KEq, ofZ 1, d)
  | BOT_NQ => Ok (KNe, ofZ 1, d)
  end.

Section LinBinop.
  Variable fuel : nat.
  Variable ds : decls.
  Variable sort : list term -> list nat.
  (* LinearTraits::computeBounds on a term; None when the result is not valid *)
  Variable bnd : term -> option (IntVal * IntVal).
  (* the declared domain of an identifier, evaluated *)
  Variable dom : ident -> option iset.
  (* EnvI::hasReverseMapper *)
  Variable revmap : ident -> bool.
  (* LinearTraits::floorDiv and ceilDiv *)
  Variables fdiv cdiv : IntVal -> IntVal -> res IntVal.
  (* ctx.b == C_ROOT, doubleNeg, r == varTrue *)
  Variables root doubleNeg rTrue : bool.
  (* the Id object on the left (right) side is the declaration's own Id object: alv[i]() == assignTo
     compares addresses *)
  Variable own_id : bool.

  (* flatten_binop.cpp:606-757: one term with coefficient +-1 *)
  Definition one_term (bot0 : cmp_op) (c : IntVal) (t : term) (d0 : IntVal) : res lin_out :=
    do ' (bot, d) <- (if iv_eq c (ofZ (-1)) then Ok (flip bot0, d0)
                      else do n <- iv_neg d0; Ok (bot0, n));
    let rest :=
      match t, bot, root with
      | TId i, BOT_EQ, true =>
          match dom i with
          | Some s =>
              if domainContains s d then
                if domainEquals_val s d then Ok (OConst true) else Ok (ODom i (set_interval d d))
              else Ok (OConst false)
          | None => Ok (ODom i (set_interval d d))
          end
      | _, _, _ =>
          do ' (op, a, b) <-
             match bot with
             | BOT_LE => do d' <- iv_decr d; Ok (BOT_LQ, t, TLit d')
             | BOT_GR => do d' <- iv_incr d; Ok (BOT_LQ, TLit d', t)
             | BOT_GQ => Ok (BOT_LQ, TLit d, t)
             | _ => Ok (bot, t, TLit d)
             end;
          match t, root with
          | TId i, true =>
              match (if revmap i then None else dom i) with
              | Some s =>
                  do nd <- limitDomain bot s d;
                  match nd with
                  | [] => Ok (OConst false)
                  | _ => if set_equal s nd then Ok (OConst true) (* ret.r is left unset, nothing is posted *)
                         else Ok (ODom i nd)
                  end
              | None => Ok (OCmp op a b)
              end
          | _, _ => Ok (OCmp op a b)
          end
      end in
    match bnd t with
    | Some (l, u) =>
        let su := if doubleNeg then failed bot l u d else subsumed bot l u d in
        let fa := if doubleNeg then subsumed bot l u d else failed bot l u d in
        if su then Ok (OConst true) else if fa then Ok (OConst false) else rest
    | None => rest
    end.

  (* flatten_binop.cpp:781-802: bounds of the part of the sum that does not involve assignTo, from the
     last term to the first.  Result: None when not valid. *)
  Fixpoint sum_bounds (target : option ident) (cx : list (IntVal * term)) (l u rc : IntVal)
    : res (option (IntVal * IntVal * IntVal)) :=
    match cx with
    | [] => Ok (Some (l, u, rc))
    | (c, t) :: cx' =>
        if (match target with Some i => own_id && term_eqb t (TId i) | None => false end)
        then sum_bounds target cx' l u c
        else
          match bnd t with
          | Some (bl, bu) =>
              if isFinite bl && isFinite bu then
                let '(x, y) := if iv_gt c (ofZ 0) then (bl, bu) else (bu, bl) in
                do p <- iv_mul c x; do l' <- add_assign l p;
                do q <- iv_mul c y; do u' <- add_assign u q;
                sum_bounds target cx' l' u' rc
              else Ok None
          | None => Ok None
          end
    end.

  (* flatten_binop.cpp:777-829 *)
  Definition assign_bounds (target : ident) (coeffv : list IntVal) (alv : list term) (d : IntVal)
    : res dom_update :=
    do sb <- sum_bounds (Some target) (rev (combine coeffv alv)) d d (ofZ 0);
    match sb with
    | None => Ok NoUpdate
    | Some (l, u, rc) =>
        if iv_ne rc (ofZ 0) then
          do nrc <- iv_neg rc;
          do ' (bl, bu) <- (if iv_lt rc (ofZ 0)
                            then do a <- fdiv l nrc; do b <- cdiv u nrc; Ok (a, b)
                            else do a <- cdiv u nrc; do b <- fdiv l nrc; Ok (a, b));
          match dom target with
          | Some s =>
              if domainIntersects s bl bu then
                do nd <- intersectDomain_range s bl bu;
                if set_equal s nd then Ok NoUpdate else Ok (SetDom target nd)
              else Ok NoSolution
          | None => Ok (SetDom target (set_interval bl bu))
          end
        else Ok NoUpdate
    end.

  (* flatten_binop.cpp:467-857 *)
  Definition linexp_binop (bot : cmp_op) (le0 le1 : lside) : res lin_out :=
    let is_eq := match bot with BOT_EQ => true | _ => false end in
    let assignTo := if is_eq && root
                    then match le0, le1 with SId i, _ => Some i | _, SId i => Some i | _, _ => None end
                    else None in
    let early :=
      if is_eq && root then None
      else match le0, le1 with
           | SLit v, _ => if isFinite v then None else Some (inf_left bot v)
           | _, SLit v => if isFinite v then None else Some (inf_right bot v)
           | _, _ => None
           end in
    match early with
    | Some b => Ok (OConst (xorb doubleNeg b))
    | None =>
        do st0 <- add_side (ofZ 1) le0 ([], [], ofZ 0);
        do ' (cv, xv, dv) <- add_side (ofZ (-1)) le1 st0;
        do ' (coeffv, alv, d) <- simplify_lin fuel ds sort cv xv dv;
        match coeffv, alv with
        | [], _ => do nd <- iv_neg d; Ok (OConst (xorb doubleNeg (const_result bot nd)))
        | c :: cs, t :: ts =>
            do one <- (match cs with [] => do a <- iv_abs c; Ok (iv_eq a (ofZ 1)) | _ => Ok false end);
            if one then one_term bot c t d
            else
              do opp <- (match bot, cs with
                         | BOT_EQ, [c1] => do n <- iv_neg c1; Ok (iv_eq c n && iv_eq d (ofZ 0))
                         | _, _ => Ok false
                         end);
              match opp, t, ts with
              | true, TId i0, [TId i1] =>
                  if root && rTrue then
                    match ds i0, ds i1 with
                    | RNone, _ => Ok (OBind i0 i1)
                    | _, RNone => Ok (OBind i1 i0)
                    | _, _ => Ok (OEqVars (TId i0) (TId i1))
                    end
                  else Ok (OEqVars (TId i0) (TId i1))
              | true, _, _ => UB (* Expression::cast<Id> of something else *)
              | false, _, _ =>
                  do u <- (match assignTo with
                           | Some i => assign_bounds i coeffv alv d
                           | None => Ok NoUpdate
                           end);
                  do ' (k, sign, d') <- constructLinBuiltin bot d;
                  do c' <- scale_all sign coeffv;
                  do nd <- iv_neg d';
                  Ok (OLin k c' alv nd u)
              end
        | _ :: _, [] => Err InternalError
        end
    end.
End LinBinop.
