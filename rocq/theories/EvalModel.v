(** Model of the evaluator of par (fixed) expressions, lib/eval_par.cpp, for integers, Booleans and sets of
    integers.

    Scope: literals, set literals, identifiers, if-then-else, operators without a user-defined body, calls of
    functions with a body, and let expressions.  Not modelled: arrays, tuples, comprehensions, floats, strings,
    annotations, option types, enums, calls of builtins, and operators that the standard library defines by a
    body.  The call stack that error messages print (CallStackItem) is left out. *)
Require Import ZArith List Bool.
From Verif Require Import Base IntValModel SetModel.
Import ListNotations.
Open Scope Z_scope.

(** include/minizinc/type.hh: the three base types used here *)
Inductive ty : Type := TInt | TBool | TSet.

(** include/minizinc/ast.hh: BinOpType and UnOpType, the operators on these types *)
Inductive binop : Type :=
| BPlus | BMinus | BMult | BPow | BDiv | BMod
| BLe | BLq | BGr | BGq | BEq | BNq
| BIn | BSubset | BSuperset
| BUnion | BDiff | BSymdiff | BIntersect | BDotDot
| BEquiv | BImpl | BRimpl | BOr | BAnd | BXor.
Inductive unop : Type := UNot | UPlus | UMinus.

(** include/minizinc/ast.hh: the expression classes.  [EInt]: IntLit; [EBool]: BoolLit; [ESet]: SetLit with
    isv() set; [ESetLit]: SetLit with elements; [EId]: Id, given by the number of its declaration (Id::decl());
    [ECall]: Call, given by the number of its function (Call::decl()). *)
Inductive expr : Type :=
| EInt (v : IntVal)
| EBool (b : bool)
| ESet (s : iset)
| ESetLit (l : list expr)
| EId (d : nat)
| EIte (cases : list (expr * expr)) (els : expr)
| EBin (o : binop) (a b : expr)
| EUn (o : unop) (a : expr)
| ECall (f : nat) (args : list expr)
| ELet (items : list item) (body : expr)
(** an item of a let: a declaration, with its right-hand side (Let::_letOrig), or a constraint *)
with item : Type :=
| LDecl (d : nat) (e : expr)
| LCon (e : expr).

(** include/minizinc/ast.hh: FunctionI: parameters, body, type and domain of the result *)
Record func : Type := mkFunc { f_params : list nat; f_body : expr; f_ty : ty; f_dom : option expr }.

(** What the declarations and functions of a program say: the type and the domain of a declaration
    (VarDecl::ti), the right-hand side of a toplevel declaration (None: not toplevel), the functions. *)
Record program : Type := mkProg {
  p_ty : nat -> ty;
  p_dom : nat -> option expr;
  p_top : nat -> option expr;
  p_fun : nat -> option func
}.

(** The mutable part: VarDecl::e() and VarDecl::evaluated() of each declaration *)
Record store : Type := mkSt { slot : nat -> option expr; evald : nat -> bool }.
Definition upd {A} (f : nat -> A) (d : nat) (x : A) : nat -> A := fun k => if Nat.eqb k d then x else f k.
Definition set_slot (d : nat) (x : option expr) (s : store) : store := mkSt (upd (slot s) d x) (evald s).

(** How a C++ function of the evaluator ends: it returns; throws ResultUndefinedError; throws another
    exception; has undefined behaviour; or ([Fuel]) the recursion bound of the model is exhausted. *)
Inductive out (A : Type) : Type :=
| Val (a : A) | Und | Fail | Crash | Fuel.
Arguments Val {A} a.
Arguments Und {A}.
Arguments Fail {A}.
Arguments Crash {A}.
Arguments Fuel {A}.

(** a computation changes the store also when it throws *)
Definition M (A : Type) : Type := store -> store * out A.
Definition ret {A} (a : A) : M A := fun s => (s, Val a).
Definition und {A} : M A := fun s => (s, Und).
Definition fail {A} : M A := fun s => (s, Fail).
Definition outoffuel {A} : M A := fun s => (s, Fuel).
Definition mbind {A B} (m : M A) (f : A -> M B) : M B := fun s =>
  match m s with
  | (s', Val a) => f a s'
  | (s', Und) => (s', Und)
  | (s', Fail) => (s', Fail)
  | (s', Crash) => (s', Crash)
  | (s', Fuel) => (s', Fuel)
  end.
Notation "'let*' x <- e1 ; e2" := (mbind e1 (fun x => e2))
  (at level 200, x name, e1 at level 100, e2 at level 200, right associativity).
(** an arithmetic or set operation: its exceptions (ArithmeticError, rethrown as EvalError by
    eval_int_internal 2078-2080) are not ResultUndefinedError *)
Definition lift {A} (r : res A) : M A := fun s =>
  match r with Ok a => (s, Val a) | Err _ => (s, Fail) | UB => (s, Crash) end.
(** try { m } catch (ResultUndefinedError&) { return x; } *)
Definition catch {A} (m : M A) (x : A) : M A := fun s =>
  match m s with (s', Und) => (s', Val x) | r => r end.
(** the loop "for each element: v.push_back(f(element))" *)
Fixpoint mapM {A B} (f : A -> M B) (l : list A) : M (list B) :=
  match l with
  | [] => ret []
  | x :: l' => let* y <- f x; let* ys <- mapM f l'; ret (y :: ys)
  end.
(** the same loop for its effect *)
Fixpoint iterM {A} (f : A -> M unit) (l : list A) : M unit :=
  match l with
  | [] => ret tt
  | x :: l' => let* _ <- f x; iterM f l'
  end.

(** Assign new values to the slots of some declarations, run [m], and restore the old values whether [m]
    returns or throws.  Let::pushbindings / popbindings (lib/ast.cpp:1090-1103, LetPushBindings in
    include/minizinc/ast.hh:1561, VarDecl::trail lib/ast.cpp:1049) and EvalCallCleanup
    (lib/eval_par.cpp:664-700).  Popping the trail undoes the assignments in reverse order; the destructor of
    EvalCallCleanup writes the saved values back.  VarDecl::evaluated is not restored. *)
Fixpoint assign (l : list (nat * option expr)) (s : store) : store :=
  match l with [] => s | (d, x) :: l' => assign l' (set_slot d x s) end.
Fixpoint restore (ds : list nat) (old new : store) : store :=
  match ds with [] => new | d :: ds' => set_slot d (slot old d) (restore ds' old new) end.
Definition bracket {A} (l : list (nat * option expr)) (m : M A) : M A := fun s =>
  let (s', r) := m (assign l s) in (restore (map fst l) s s', r).

Section Eval.
Variable P : program.

(** Expression::type(e), as the type checker left it *)
Fixpoint type_of (e : expr) : ty :=
  match e with
  | EInt _ => TInt
  | EBool _ => TBool
  | ESet _ | ESetLit _ => TSet
  | EId d => p_ty P d
  | EIte _ els => type_of els
  | EBin o _ _ =>
      match o with
      | BPlus | BMinus | BMult | BPow | BDiv | BMod => TInt
      | BUnion | BDiff | BSymdiff | BIntersect | BDotDot => TSet
      | _ => TBool
      end
  | EUn o _ => match o with UNot => TBool | _ => TInt end
  | ECall f _ => match p_fun P f with Some fn => f_ty fn | None => TInt end
  | ELet _ b => type_of b
  end.

Definition ty_eqb (a b : ty) : bool :=
  match a, b with TInt, TInt | TBool, TBool | TSet, TSet => true | _, _ => false end.

(** vd->e() of a declaration *)
Definition get_slot (d : nat) : M (option expr) := fun s => (s, Val (slot s d)).
Definition put_slot (d : nat) (e : expr) : M unit := fun s => (set_slot d (Some e) s, Val tt).
Definition is_top (d : nat) : bool := match p_top P d with Some _ => true | None => false end.

(** eval_id, 340-365: evaluate the right-hand side; a toplevel declaration keeps the result and is marked
    as evaluated.  The loop over flat() is left out: outside flattening a declaration is its own flat
    version.  The second disjunct of 357-358 concerns arrays. *)
Definition eval_id {A} (ev : expr -> M A) (lit : A -> expr) (d : nat) : M A :=
  let* x <- get_slot d;
  match x with
  | None => fail
  | Some e' =>
      let* r <- ev e';
      fun s => (if negb (evald s d) && is_top d
                then mkSt (upd (slot s) d (Some (lit r))) (upd (evald s) d true) else s, Val r)
  end.

(** the loop over the branches of an if-then-else: eval_int_internal 1979-1987, eval_bool 1402-1410,
    eval_intset 1086-1094 *)
Fixpoint eval_ite {A} (evb : expr -> M bool) (ev : expr -> M A) (cases : list (expr * expr)) (els : expr) : M A :=
  match cases with
  | [] => ev els
  | (c, t) :: cs => let* b <- evb c; if b then ev t else eval_ite evb ev cs els
  end.

(** eval_int_internal 1994-2020 *)
Definition int_bin (o : binop) (v0 v1 : IntVal) : M IntVal :=
  match o with
  | BPlus => lift (iv_add v0 v1)
  | BMinus => lift (iv_sub v0 v1)
  | BMult => lift (iv_mul v0 v1)
  | BPow => if iv_eq v0 (ofZ 0) && iv_lt v1 (ofZ 0) then und else lift (iv_pow v0 v1)
  | BDiv => if iv_eq v1 (ofZ 0) then und else lift (iv_div v0 v1)
  | BMod => if iv_eq v1 (ofZ 0) then und else lift (iv_mod v0 v1)
  | _ => fail
  end.
(** eval_int_internal 2027-2036 *)
Definition int_un (o : unop) (v0 : IntVal) : M IntVal :=
  match o with UPlus => ret v0 | UMinus => lift (iv_neg v0) | UNot => fail end.

(** eval_bool 1454-1480: comparison of integers *)
Definition cmp_int (o : binop) (v0 v1 : IntVal) : M bool :=
  match o with
  | BLe => ret (iv_lt v0 v1)
  | BLq => ret (iv_le v0 v1)
  | BGr => ret (iv_gt v0 v1)
  | BGq => ret (iv_ge v0 v1)
  | BEq => ret (iv_eq v0 v1)
  | BNq => ret (iv_ne v0 v1)
  | _ => fail
  end.
(** eval_bool 1527-1559: comparison of sets *)
Definition cmp_set (o : binop) (s0 s1 : iset) : M bool :=
  match o with
  | BLe => ret (set_less s0 s1)
  | BLq => ret (set_less_eq s0 s1)
  | BGr => ret (set_less s1 s0)
  | BGq => ret (set_less_eq s1 s0)
  | BEq => ret (set_equal s0 s1)
  | BNq => ret (negb (set_equal s0 s1))
  | BSubset => ret (set_subset s0 s1)
  | BSuperset => ret (set_subset s1 s0)
  | _ => fail
  end.
(** eval_bool 1417-1452: operators on Booleans; the operands are evaluated only as far as C++ does.  C++
    leaves the order of the two operands of a comparison open; the model takes left to right. *)
Definition bool_bin (ev : expr -> M bool) (o : binop) (a b : expr) : M bool :=
  match o with
  | BLe => let* x <- ev a; let* y <- ev b; ret (negb x && y)
  | BLq => let* x <- ev a; let* y <- ev b; ret (negb x || y)
  | BGr => let* x <- ev a; let* y <- ev b; ret (x && negb y)
  | BGq => let* x <- ev a; let* y <- ev b; ret (x || negb y)
  | BEq | BEquiv => let* x <- ev a; let* y <- ev b; ret (Bool.eqb x y)
  | BNq => let* x <- ev a; let* y <- ev b; ret (negb (Bool.eqb x y))
  | BXor => let* x <- ev a; let* y <- ev b; ret (xorb x y)
  | BImpl => let* x <- ev a; if negb x then ret true else ev b
  | BRimpl => let* y <- ev b; if negb y then ret true else ev a
  | BOr => let* x <- ev a; if x then ret true else ev b
  | BAnd => let* x <- ev a; if x then ev b else ret false
  | _ => fail
  end.

(** eval_intset 1104-1136: operators on sets.  The iterators are copied into the composed iterators, so the
    symmetric difference reads both operands twice. *)
Definition set_bin (o : binop) (s0 s1 : iset) : M iset :=
  match o with
  | BUnion => lift (set_union s0 s1)
  | BDiff => lift (set_diff s0 s1)
  | BSymdiff => lift (do u <- set_union s0 s1; do i <- set_inter s0 s1; set_diff u i)
  | BIntersect => lift (set_inter s0 s1)
  | _ => fail
  end.

(** check_par_domain 31-207 (with check_par_declaration 209-213), for a declaration of type int or set of
    int: evaluate the domain and test the value that the declaration now has.  Values of type bool are not
    tested.  The message is built from the same domain, evaluated again. *)
Definition check_dom (evi : expr -> M IntVal) (evs : expr -> M iset) (t : ty) (dom : option expr) (v : expr) : M unit :=
  match dom with
  | None => ret tt
  | Some de =>
      match t with
      | TInt => let* s <- evs de; let* x <- evi v; if set_contains s x then ret tt else und
      | TSet => let* s <- evs de; let* x <- evs v; if set_subset x s then ret tt else und
      | TBool => ret tt
      end
  end.

(** the declarations that a let binds, with their right-hand sides: Let::pushbindings, lib/ast.cpp:1090-1099 *)
Fixpoint let_binds (items : list item) : list (nat * option expr) :=
  match items with
  | [] => []
  | LDecl d e :: r => (d, Some e) :: let_binds r
  | LCon _ :: r => let_binds r
  end.

(** eval_call 702-721, from 709: bind the evaluated arguments, testing the domain of each parameter after it
    was set, evaluate the body, test the result (EvalIntVal / EvalIntSet / EvalBoolVal::checkRetVal).  The
    parameters were saved before (EvalCallCleanup) and are restored also on exceptions.  Here the saving is
    done by [bracket], which assigns to each parameter the value it already has. *)
Definition call_body {A} (chk : nat -> expr -> M unit) (ev : expr -> M A) (ckr : option expr -> A -> M unit)
  (fn : func) (vals : list expr) : M A := fun s =>
  bracket (map (fun d => (d, slot s d)) (f_params fn))
    (let* _ <- iterM (fun dv : nat * expr => let* _ <- put_slot (fst dv) (snd dv); chk (fst dv) (snd dv))
                     (combine (f_params fn) vals);
     let* r <- ev (f_body fn);
     let* _ <- ckr (f_dom fn) r;
     ret r) s.

(** eval_par(env, vdi->e()): the right-hand side is read from the slot.  A declaration without a right-hand
    side cannot occur in a par let; the model fails there. *)
Definition decl_value (evp : expr -> M expr) (d : nat) : M expr :=
  let* x <- get_slot d; match x with Some e => evp e | None => fail end.

(** the items of a let whose value is not Boolean: eval_int_internal 2058-2071, eval_intset 1175-1190 *)
Definition let_item (evp : expr -> M expr) (evb : expr -> M bool) (chk : nat -> expr -> M unit) (i : item) : M unit :=
  match i with
  | LDecl d _ => let* v <- decl_value evp d; let* _ <- put_slot d v; chk d v
  | LCon e => let* b <- evb e; if b then ret tt else und
  end.
(** the items of a Boolean let, eval_bool 1721-1762: a declaration outside its domain is remembered and the
    remaining items are still evaluated; a constraint that is false throws.  The annotation maybe_partial is
    left out. *)
Fixpoint let_items_bool (evp : expr -> M expr) (evb : expr -> M bool) (chk : nat -> expr -> M unit)
  (items : list item) : M bool :=
  match items with
  | [] => ret true
  | LDecl d _ :: r =>
      let* v <- decl_value evp d; let* _ <- put_slot d v;
      let* ok <- catch (let* _ <- chk d v; ret true) false;
      let* rest <- let_items_bool evp evb chk r;
      ret (ok && rest)
  | LCon e :: r =>
      let* b <- evb e; if b then let_items_bool evp evb chk r else und
  end.

(** the shortcut of eval_par for an integer whose domain is a literal with one element, 2412-2430 *)
Definition single_value (d : nat) : option IntVal :=
  match p_ty P d, p_dom P d with
  | TInt, Some (ESet [(a, b)]) => if iv_eq a b then Some a else None
  | _, _ => None
  end.

(** eval_int_internal 1941-2082, eval_bool 1370-1775, eval_intset 1037-1200, eval_par 2330-2530.  eval_int
    (1930-1939) calls eval_int_internal.  The numbers in the comments are lines of lib/eval_par.cpp. *)
Fixpoint eval_int (n : nat) (e : expr) : M IntVal :=
  match n with
  | O => outoffuel
  | S n =>
    if ty_eqb (type_of e) TBool then
      let* b <- eval_bool n e; ret (ofZ (if b then 1 else 0))       (* 1942-1944 *)
    else
    match e with
    | EInt v => ret v                                               (* 1945-1947 *)
    | EBool _ | ESet _ | ESetLit _ => fail                          (* 1951-1962 *)
    | EId d => eval_id (eval_int n) EInt d                          (* 1963-1966 *)
    | EIte cs els => eval_ite (eval_bool n) (eval_int n) cs els
    | EBin o a b => let* x <- eval_int n a; let* y <- eval_int n b; int_bin o x y
    | EUn o a => let* x <- eval_int n a; int_un o x
    | ECall f args =>                                               (* 2038-2056 *)
        match p_fun P f with
        | None => fail
        | Some fn =>
            let* vals <- mapM (eval_par n) args;                    (* 703-707 *)
            call_body (fun d v => check_dom (eval_int n) (eval_set n) (p_ty P d) (p_dom P d) v) (eval_int n)
              (fun dom r => check_dom (eval_int n) (eval_set n) TInt dom (EInt r)) fn vals
        end
    | ELet items body =>                                            (* 2057-2073 *)
        bracket (let_binds items)
          (let* _ <- iterM (let_item (eval_par n) (eval_bool n)
                 (fun d v => check_dom (eval_int n) (eval_set n) (p_ty P d) (p_dom P d) v)) items;
           eval_int n body)
    end
  end
with eval_bool (n : nat) (e : expr) : M bool :=
  match n with
  | O => outoffuel
  | S n =>
    catch                                                           (* 1372, 1768-1771 *)
    (match e with
    | EBool b => ret b
    | EInt _ | ESet _ | ESetLit _ => fail
    | EId d => eval_id (eval_bool n) EBool d
    | EIte cs els => eval_ite (eval_bool n) (eval_bool n) cs els
    | EBin o a b =>
        match type_of a, type_of b with
        | TBool, TBool => bool_bin (eval_bool n) o a b
        | TInt, TInt => let* x <- eval_int n a; let* y <- eval_int n b; cmp_int o x y
        | TInt, TSet => let* x <- eval_int n a; let* y <- eval_set n b;
                        match o with BIn => ret (set_contains y x) | _ => fail end   (* 1499-1512 *)
        | TSet, TSet => let* x <- eval_set n a; let* y <- eval_set n b; cmp_set o x y
        | _, _ => fail
        end
    | EUn o a => let* x <- eval_bool n a; match o with UNot => ret (negb x) | _ => fail end
    | ECall f args =>                                               (* 1682-1716 *)
        match p_fun P f with
        | None => fail
        | Some fn =>
            let* vals <- mapM (eval_par n) args;
            call_body (fun d v => check_dom (eval_int n) (eval_set n) (p_ty P d) (p_dom P d) v) (eval_bool n)
              (fun _ _ => ret tt) fn vals
        end
    | ELet items body =>                                            (* 1717-1764 *)
        bracket (let_binds items)
          (let* ok <- let_items_bool (eval_par n) (eval_bool n)
                 (fun d v => check_dom (eval_int n) (eval_set n) (p_ty P d) (p_dom P d) v) items;
           if ok then eval_bool n body else ret false)
    end) false
  end
with eval_set (n : nat) (e : expr) : M iset :=
  match n with
  | O => outoffuel
  | S n =>
    match e with
    | ESet s => ret s                                               (* 1038-1042 *)
    | ESetLit l =>                                                  (* 1045-1055 *)
        let* vals <- mapM (fun x => let* v <- eval_par n x; eval_int n v) l; lift (set_of_vector vals)
    | EInt _ | EBool _ => fail
    | EId d => eval_id (eval_set n) ESet d                          (* 1077-1080 *)
    | EIte cs els => eval_ite (eval_bool n) (eval_set n) cs els
    | EBin o a b =>                                                 (* 1095-1147 *)
        let* l <- eval_par n a; let* r <- eval_par n b;
        match type_of l, type_of r with
        | TSet, TSet => let* x <- eval_set n l; let* y <- eval_set n r; set_bin o x y
        | TInt, TInt =>
            match o with
            | BDotDot => let* x <- eval_int n l; let* y <- eval_int n r; ret (set_interval x y)
            | _ => fail
            end
        | _, _ => fail
        end
    | EUn _ _ => fail
    | ECall f args =>
        match p_fun P f with
        | None => fail
        | Some fn =>
            let* vals <- mapM (eval_par n) args;
            call_body (fun d v => check_dom (eval_int n) (eval_set n) (p_ty P d) (p_dom P d) v) (eval_set n)
              (fun dom r => check_dom (eval_int n) (eval_set n) TSet dom (ESet r)) fn vals
        end
    | ELet items body =>                                            (* 1173-1193 *)
        bracket (let_binds items)
          (let* _ <- iterM (let_item (eval_par n) (eval_bool n)
                 (fun d v => check_dom (eval_int n) (eval_set n) (p_ty P d) (p_dom P d) v)) items;
           eval_set n body)
    end
  end
with eval_par (n : nat) (e : expr) : M expr :=
  match n with
  | O => outoffuel
  | S n =>
    match e with
    | EId d =>                                                      (* 2402-2437 *)
        match single_value d with
        | Some v => ret (EInt v)
        | None =>
            let* x <- get_slot d;
            match x with
            | None => ret e
            | Some e' => eval_par n e'
            end
        end
    | _ =>
        match type_of e with
        | TInt => let* v <- eval_int n e; ret (EInt v)
        | TBool => let* v <- eval_bool n e; ret (EBool v)
        | TSet => let* v <- eval_set n e; ret (ESet v)
        end
    end
  end.

End Eval.
