(** Model of the bounds computation of lib/eval_par.cpp: ComputeIntBounds (2606-3055), compute_int_bounds (3057-3074),
    ComputeIntSetBounds (3527-3741) and compute_intset_bounds (3743-3757), run by BottomUpIterator
    (include/minizinc/astiterator.hh:91-258).
    The iterator with its explicit stack is modelled as recursion over the expression: it visits the children of a node in
    the order given below (the stack reverses the order of pushing) and then the node.  Assertions are not checked (release
    build); back() and pop_back() of an empty vector are UB. *)
Require Import ZArith List Bool Lia.
From Verif Require Import Base IntValModel ArrModel SetModel.
Import ListNotations.
Open Scope Z_scope.

(** ** Expressions as the visitors see them *)
(** type of an expression: int or bool of dimension 0, an array, anything else of dimension 0 *)
Inductive tyk : Type := TyInt | TyBool | TyArr | TyOther.
(** what eval_par makes of a par expression; PUndef: it throws ResultUndefinedError *)
Inductive pval : Type := PInt (v : IntVal) | PBool (b : bool) | PAbsent | POther | PUndef.
Inductive dmn : Type := DBool (b : bool) | DSet (s : iset).
(** a condition: par with its value (None: ResultUndefinedError) or var *)
Inductive cnd : Type := CPar (b : option bool) | CVar.
Inductive bop : Type := BPlus | BMinus | BMult | BIDiv | BMod | BPow.
Inductive uop : Type := UPlus | UMinus.

Inductive ex : Type :=
| EPar (t : tyk) (v : pval)                     (* any par expression, with its value *)
| EId (x : Z) (isb : bool) (dom : option dmn) (rhs : option ex)
    (* an identifier, with the domain and right hand side of its declaration (after following flat()) *)
| EIte (bs : list (cnd * ex)) (els : ex)        (* if-then-elseif-else of type int *)
| EAcc (idx : list ex) (x : option Z) (elems : option (list (list Z * ex))) (dom : option iset)
    (* array access: the identifier if the array is one, the elements of its right hand side by index tuple, its domain *)
| EBin (op : bop) (l r : ex)
| EUn (op : uop) (e : ex)
| ELin (coeff : list Z) (al : option (list ex)) (d : Z)   (* lin_exp; None: the array is opt or not a literal *)
| ESum (al : option (list ex))
| ETimes (a b : ex)                             (* call int_times *)
| EBool2Int (a : ex)
| EAbs (a : ex)
| EUniform (lo hi : ex)                         (* uniform_on_restart with two arguments *)
| ESol (a : ex)                                 (* sol, last_val *)
| ECallDom (args : list ex) (dom : iset)        (* any other call whose function declares a domain for its result *)
| EBoolX                                        (* Boolean expression that is not par, a literal or an identifier *)
| EInvalid (children : list ex)                 (* other expressions of type int: let, comprehension, field access, card, ... *)
| EOther (t : tyk).                             (* var expression of another type *)

Definition typ (e : ex) : tyk :=
  match e with
  | EPar t _ => t
  | EId _ isb _ _ => if isb then TyBool else TyInt
  | EBoolX => TyBool
  | EOther t => t
  | _ => TyInt
  end.
Definition is_par (e : ex) : bool := match e with EPar _ _ => true | _ => false end.
Definition is_int_ty (e : ex) : bool := match typ e with TyInt => true | _ => false end.
Definition is_bool_ty (e : ex) : bool := match typ e with TyBool => true | _ => false end.

(** ** The stack of bounds and the flag valid *)
Definition bnd : Type := (IntVal * IntVal)%type.
Definition bst : Type := (bool * list bnd)%type.
Definition push (b : bnd) (st : bst) : bst := (fst st, b :: snd st).
Definition pop (st : bst) : res (bnd * bst) :=
  match snd st with [] => UB | b :: r => Ok (b, (fst st, r)) end.
Fixpoint popn (n : nat) (st : bst) : res bst :=
  match n with O => Ok st | S n => do ' (_, st) <- pop st; popn n st end.
Definition invalidate (st : bst) : bst := (false, snd st).
(** valid = false; bounds.emplace_back(0, 0) *)
Definition zero_b : bnd := (ofZ 0, ofZ 0).
Definition bad (st : bst) : bst := push zero_b (invalidate st).
Definition b2i (b : bool) : IntVal := ofZ (if b then 1 else 0).
Definition minus_infinity : IntVal := mkIV (-1) true.

(** isv->min(0), isv->max(size-1), eval_par.cpp:2726-2731 *)
Definition set_min (s : iset) : IntVal := fst (hd zero_b s).
Definition set_max (s : iset) : IntVal := snd (last s zero_b).

(** enter on a par expression, eval_par.cpp:2622-2636; arrays are left before (2619-2621) *)
Definition enter_par (t : tyk) (v : pval) (st : bst) : res bst :=
  match t with
  | TyArr => Ok st
  | _ =>
      match v with
      | PUndef => Err EvalError
      | _ => match t, v with
             | TyBool, PBool b => Ok (push (b2i b, b2i b) st)
             | TyInt, PInt i => Ok (push (i, i) st)
             | TyBool, PAbsent | TyInt, PAbsent => Ok (invalidate st)
             | TyBool, _ | TyInt, _ => UB                    (* bad cast *)
             | _, _ => Ok (invalidate st)
             end
      end
  end.

(** the minimum and maximum of four products, 2835-2842, 2984-2990 *)
Definition min4 (a b c d : IntVal) : IntVal := iv_min a (iv_min b (iv_min c d)).
Definition max4 (a b c d : IntVal) : IntVal := iv_max a (iv_max b (iv_max c d)).
Definition corners (f : IntVal -> IntVal -> res IntVal) (a b c d : IntVal) : res bnd :=
  do x0 <- f a c; do x1 <- f a d; do x2 <- f b c; do x3 <- f b d;
  Ok (min4 x0 x1 x2 x3, max4 x0 x1 x2 x3).
(** b0.first == 0 ? 1 : b0.first and b0.second == 0 ? -1 : b0.second, 2846-2849 *)
Definition nz_first (x : IntVal) : IntVal := if iv_eq x (ofZ 0) then ofZ 1 else x.
Definition nz_second (x : IntVal) : IntVal := if iv_eq x (ofZ 0) then ofZ (-1) else x.
Definition finite4 (b0 b1 : bnd) : bool :=
  isFinite (fst b1) && isFinite (snd b1) && isFinite (fst b0) && isFinite (snd b0).

(** vBinOp, 2816-2895; b0 are the bounds of the left operand *)
Definition bin_bounds (op : bop) (b0 b1 : bnd) : res (option bnd) :=
  if negb (finite4 b0 b1) then Ok None
  else
    match op with
    | BPlus => do l <- iv_add (fst b0) (fst b1); do u <- iv_add (snd b0) (snd b1); Ok (Some (l, u))
    | BMinus => do l <- iv_sub (fst b0) (snd b1); do u <- iv_sub (snd b0) (fst b1); Ok (Some (l, u))
    | BMult => do b <- corners iv_mul (fst b0) (snd b0) (fst b1) (snd b1); Ok (Some b)
    | BIDiv => do b <- corners iv_div (nz_first (fst b0)) (nz_second (snd b0)) (nz_first (fst b1)) (nz_second (snd b1)); Ok (Some b)
    | BMod => do b <- corners iv_mod (nz_first (fst b0)) (nz_second (snd b0)) (nz_first (fst b1)) (nz_second (snd b1)); Ok (Some b)
    | BPow => Ok None
    end.

(** one term of lin_exp or sum, 2942-2973 *)
Definition lin_term (cv : IntVal) (b : bnd) (lb ub : IntVal) : res (IntVal * IntVal) :=
  let term (x acc : IntVal) (inf : res IntVal) : res IntVal :=
    if isFinite x then (if isFinite acc then do p <- iv_mul cv x; add_assign acc p else Ok acc) else inf in
  if iv_gt cv (ofZ 0) then
    do lb <- term (fst b) lb (Ok (fst b)); do ub <- term (snd b) ub (Ok (snd b)); Ok (lb, ub)
  else
    do lb <- term (snd b) lb (iv_neg (snd b)); do ub <- term (fst b) ub (iv_neg (fst b)); Ok (lb, ub).
(** the loop over the terms, 2938-2974: [cs] are the coefficients from element i on *)
Fixpoint lin_acc (n : nat) (cs : list Z) (lb ub : IntVal) (st : bst) : res bst :=
  match n with
  | O => Ok (push (lb, ub) st)
  | S n =>
      do ' (b, st) <- pop st;
      do c <- at_ cs 0;
      do ' (lb, ub) <- lin_term (ofZ c) b lb ub;
      lin_acc n (tl cs) lb ub st
  end.

(** abs, 2995-3003 *)
Definition abs_bounds (b : bnd) : res bnd :=
  if iv_lt (fst b) (ofZ 0) then
    if iv_lt (snd b) (ofZ 0) then do l <- iv_neg (snd b); do u <- iv_neg (fst b); Ok (l, u)
    else do n <- iv_neg (fst b); Ok (ofZ 0, iv_max n (snd b))
  else Ok b.

(** the index values of a par array access (eval_int of each index) *)
Fixpoint par_indices (idx : list ex) : res (list Z) :=
  match idx with
  | [] => Ok []
  | EPar _ v :: r =>
      do z <- match v with
              | PInt i => toInt i
              | PBool b => Ok (if b then 1 else 0)
              | PUndef => Err EvalError
              | _ => Err TypeError
              end;
      do zs <- par_indices r; Ok (z :: zs)
  | _ :: _ => Err TypeError
  end.
Fixpoint same_idx (a b : list Z) : bool :=
  match a, b with [], [] => true | x :: a, y :: b => (x =? y) && same_idx a b | _, _ => false end.

(** ** ComputeIntBounds *)
(** run_rev visits the last element first: arguments of calls and indices of array accesses are pushed in order onto the
    iterator's stack *)
Section loops.
  Variable run : ex -> bst -> res bst.
  Fixpoint run_rev (l : list ex) (st : bst) : res bst :=
    match l with [] => Ok st | e :: l => do st <- run_rev l st; run e st end.
  (** lin_exp and sum: the elements from the last to the first; stops when the bounds become invalid, popping the bounds of
      the later elements, 2923-2934 *)
  Fixpoint run_elems (l : list ex) (st : bst) : res (bst * bool) :=
    match l with
    | [] => Ok (st, false)
    | e :: l =>
        do ' (st, stop) <- run_elems l st;
        if stop then Ok (st, true)
        else do st <- run e st;
             if fst st then Ok (st, false) else do st <- popn (length l) st; Ok (st, true)
    end.
  (** back.first = min(itebounds.first, back.first), ... *)
  Definition join_top (acc : bnd) (st : bst) : res bst :=
    do ' (b, st) <- pop st; Ok (push (iv_min (fst acc) (fst b), iv_max (snd acc) (snd b)) st).
  (** the branches of an if-then-else, 2638-2667 *)
  Fixpoint run_ite (bs : list (cnd * ex)) (els : bst -> res bst) (acc : bnd) (st : bst) : res bst :=
    match bs with
    | [] => do st <- els st; join_top acc st
    | (CPar None, _) :: _ => Err EvalError
    | (CPar (Some true), e) :: _ => do st <- run e st; join_top acc st
    | (CPar (Some false), _) :: bs => run_ite bs els acc st
    | (CVar, e) :: bs =>
        do st <- run e st;
        do ' (b, st) <- pop st;
        run_ite bs els (iv_min (fst acc) (fst b), iv_max (snd acc) (snd b)) st
    end.
  (** the element of a par access to an array with a right hand side; None: the access fails, 2779-2786 *)
  Fixpoint run_elem (t : list (list Z * ex)) (is : list Z) (st : bst) : option (res bst) :=
    match t with
    | [] => None
    | (js, e) :: t => if same_idx js is then Some (run e st) else run_elem t is st
    end.
End loops.

Fixpoint run (e : ex) (st : bst) : res bst :=
  match e with
  | EPar t v => enter_par t v st
  | EId x isb dom rhs =>                                                             (* vId, 2715-2744 *)
      match dom with
      | Some (DBool b) => Ok (push (b2i b, b2i b) st)
      | Some (DSet []) => Ok (bad st)
      | Some (DSet s) => Ok (push (set_min s, set_max s) st)
      | None => match rhs with
                | Some e => run e st
                | None => Ok (push (if isb then (ofZ 0, ofZ 1) else (minus_infinity, iv_infinity)) st)
                end
      end
  | EIte bs els => run_ite run bs (run els) (iv_infinity, minus_infinity) st
  | EAcc idx x elems dom =>                                                          (* vArrayAccess, 2753-2796 *)
      do st <- run_rev run idx st;
      do st <- popn (length idx) st;
      match x with
      | None => Ok (bad st)
      | Some _ =>
          do r <- match elems with
                  | Some t => if forallb is_par idx then do is <- par_indices idx; Ok (run_elem run t is st) else Ok None
                  | None => Ok None
                  end;
          match r with
          | Some r => r
          | None => match dom with
                    | Some ((_ :: _) as s) => Ok (push (set_min s, set_max s) st)
                    | _ => Ok (bad st)
                    end
          end
      end
  | EBin op l r =>
      do st <- run l st; do st <- run r st;
      do ' (b1, st) <- pop st; do ' (b0, st) <- pop st;
      do ob <- bin_bounds op b0 b1;
      match ob with Some b => Ok (push b st) | None => Ok (bad st) end
  | EUn op e =>                                                                      (* vUnOp, 2897-2909 *)
      do st <- run e st;
      match op with
      | UPlus => Ok st
      | UMinus => do ' (b, st) <- pop st; do l <- iv_neg (fst b); do u <- iv_neg (snd b); Ok (push (u, l) st)
      end
  | ELin cs al d =>                                                                  (* vCall, 2911-2975 *)
      let st := push (ofZ d, ofZ d) st in
      match al with
      | None => Ok (bad st)
      | Some l =>
          do ' (_, st) <- pop st;
          do ' (st, stop) <- run_elems run l st;
          if stop then Ok st else lin_acc (length l) cs (ofZ d) (ofZ d) st
      end
  | ESum al =>
      match al with
      | None => Ok (bad st)
      | Some l =>
          do ' (st, stop) <- run_elems run l st;
          if stop then Ok st else lin_acc (length l) (repeat 1 (length l)) (ofZ 0) (ofZ 0) st
      end
  | ETimes a b =>                                                                    (* 2984-3001 *)
      do st <- run b st; do st <- run a st;
      do ' (b1, st) <- pop st; do ' (b0, st) <- pop st;
      if negb (finite4 b0 b1) then Ok (bad st)
      else do c <- corners iv_mul (fst b0) (snd b0) (fst b1) (snd b1); Ok (push c st)
  | EBool2Int a =>
      do st <- run a st;
      do ' (b, st) <- pop st; Ok (push (iv_max (ofZ 0) (fst b), iv_min (ofZ 1) (snd b)) st)
  | EAbs a =>
      do st <- run a st;
      do ' (b, st) <- pop st; do b <- abs_bounds b; Ok (push b st)
  | EUniform lo hi =>
      do st <- run hi st; do st <- run lo st;
      do ' (b0, st) <- pop st; do ' (b1, st) <- pop st;
      Ok (push (fst b0, fst b1) st)
  | ESol a => run a st
  | ECallDom args dom =>                                                             (* 3019-3032 *)
      do st <- run_rev run args st;
      do st <- popn (length (filter is_int_ty args)) st;
      match dom with
      | [] => Ok (push (ofZ 1, ofZ 0) st)
      | _ => Ok (push (set_min dom, set_max dom) st)
      end
  | EBoolX => Ok (push (ofZ 0, ofZ 1) st)
  | EInvalid l => do st <- run_rev run l st; Ok (bad st)
  | EOther t => match t with TyArr => Ok st | _ => Ok (invalidate st) end
  end.

(** compute_int_bounds, 3057-3074.  IntBounds(l, u, valid) *)
Definition compute_int_bounds (e : ex) : res (IntVal * IntVal * bool) :=
  match run e (true, []) with
  | Ok (true, b :: _) => Ok (fst b, snd b, true)
  | Ok (true, []) => UB
  | Ok (false, _) => match typ e with TyBool => Ok (ofZ 0, ofZ 1, true) | _ => Ok (ofZ 0, ofZ 0, false) end
  | Err EvalError => Ok (ofZ 0, ofZ 0, false)
  | Err x => Err x
  | UB => UB
  end.

(** ** ComputeIntSetBounds *)
Inductive sop : Type := SUnion | SInter | SDiff | SSymDiff.
Inductive sx : Type :=
| SPar (v : option iset)                                     (* par set expression and its value; None: ResultUndefinedError *)
| SId (x : Z) (dom : option iset) (rhs : option sx)
| SLit (l : list ex)                                         (* var set literal *)
| SRange (l u : ex)                                          (* l..u with var bounds *)
| SBin (op : sop) (a b : sx)
| SCall (op : sop) (a b : sx)                                (* set_union, set_intersect, set_diff, set_symdiff *)
| SCallDom (args : list sx) (dom : iset)                     (* call with declared domain; the arguments that are sets *)
| SAcc (x : option Z) (idx : option (list Z)) (elems : option (list (list Z * sx))) (dom : option iset)
    (* array access; idx: the values of the indices if all of them are par *)
| SField                                                     (* field access *)
| SInvalid (children : list sx).                             (* anything else *)

(** null pointers on the stack are None *)
Definition sst : Type := (bool * list (option iset))%type.
Definition spush (b : option iset) (st : sst) : sst := (fst st, b :: snd st).
Definition spop (st : sst) : res (option iset * sst) :=
  match snd st with [] => UB | b :: r => Ok (b, (fst st, r)) end.
Fixpoint spopn (n : nat) (st : sst) : res sst :=
  match n with O => Ok st | S n => do ' (_, st) <- spop st; spopn n st end.
Definition sbad (st : sst) : sst := (false, None :: snd st).
Definition deref (b : option iset) : res iset := match b with Some s => Ok s | None => UB end.

(** vSetLit, 3551-3570: the union of the bounds of the elements; None: not bounded *)
Fixpoint lit_bounds (l : list ex) (s : iset) : res (option iset) :=
  match l with
  | [] => Ok (Some s)
  | e :: l =>
      do ' (lo, hi, v) <- compute_int_bounds e;
      if negb v || negb (isFinite lo) || negb (isFinite hi) then Ok None
      else do s' <- set_union s (const_range lo hi); lit_bounds l s'
  end.
(** the set operators, 3640-3659 *)
Definition sop_bounds (op : sop) (b0 b1 : option iset) : res (option iset) :=
  match op with
  | SDiff => Ok b0
  | _ => do x <- deref b0; do y <- deref b1; do u <- set_union x y; Ok (Some u)
  end.
Section sloops.
  Variable srun : sx -> sst -> res sst.
  Fixpoint srun_rev (l : list sx) (st : sst) : res sst :=
    match l with [] => Ok st | e :: l => do st <- srun_rev l st; srun e st end.
  Fixpoint srun_elem (t : list (list Z * sx)) (is : list Z) (st : sst) : option (res sst) :=
    match t with
    | [] => None
    | (js, e) :: t => if same_idx js is then Some (srun e st) else srun_elem t is st
    end.
End sloops.
Fixpoint srun (e : sx) (st : sst) : res sst :=
  match e with
  | SPar None => Err EvalError
  | SPar (Some s) => Ok (spush (Some s) st)
  | SId x dom rhs =>                                                     (* vId, 3572-3585 *)
      match dom with
      | Some s => Ok (spush (Some s) st)
      | None => match rhs with Some e => srun e st | None => Ok (sbad st) end
      end
  | SLit l =>
      do b <- lit_bounds l [];
      match b with Some s => Ok (spush (Some s) st) | None => Ok (sbad st) end
  | SRange l u =>                                                        (* 3634-3638 *)
      do ' (ll, lu, lv) <- compute_int_bounds l;
      do ' (ul, uu, uv) <- compute_int_bounds u;
      Ok (spush (Some (set_interval ll uu)) (fst st && lv && uv, snd st))
  | SBin op a b =>                                                       (* 3639-3687 *)
      do st <- srun a st; do st <- srun b st;
      do ' (b1, st) <- spop st; do ' (b0, st) <- spop st;
      do u <- sop_bounds op b0 b1; Ok (spush u st)
  | SCall op a b =>                                                      (* vCall, 3695-3717; no domain declared *)
      do st <- srun b st; do st <- srun a st;
      if fst st then
        do ' (b0, st) <- spop st; do ' (b1, st) <- spop st;
        do u <- sop_bounds op b0 b1; Ok (spush u st)
      else Ok (sbad st)
  | SCallDom args dom =>                                                 (* 3718-3727 *)
      do st <- srun_rev srun args st;
      do st <- spopn (length args) st;
      Ok (spush (Some dom) st)
  | SAcc x idx elems dom =>                                              (* 3592-3619; the indices push no bounds *)
      match x with
      | None => Ok (sbad st)
      | Some _ =>
          match match idx, elems with Some is, Some t => srun_elem srun t is st | _, _ => None end with
          | Some r => r
          | None => match dom with Some s => Ok (spush (Some s) st) | None => Ok (sbad st) end
          end
      end
  | SField => Ok st                                                      (* EVisitor::vFieldAccess does nothing *)
  | SInvalid l => do st <- srun_rev srun l st; Ok (sbad st)
  end.
(** compute_intset_bounds, 3743-3757; None is the null pointer *)
Definition compute_intset_bounds (e : sx) : res (option iset) :=
  match srun e (true, []) with
  | Ok (true, b :: _) => Ok b
  | Ok (true, []) => UB
  | Ok (false, _) => Ok None
  | Err EvalError => Ok None
  | Err x => Err x
  | UB => UB
  end.
