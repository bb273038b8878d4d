(** Model of writing NL files (solvers/nl/nl_file.cpp, solvers/nl/nl_components.cpp).  Doubles are exact rationals. *)
Require Import List ZArith QArith Bool String.
Import ListNotations.
Open Scope Q_scope.

(* assert of include/minizinc/solvers/nl/nl_components.hh:87-113: an NLException (None) in builds with assertions, nothing
   otherwise *)
Definition check (dbg : bool) {A : Type} (cond : bool) (k : option A) : option A := if dbg && negb cond then None else k.

(** ** bounds *)

(* include/minizinc/solvers/nl/nl_components.hh:142-147 NLBound *)
Inductive btag : Type := LB_UB | UB | LB | NOB | EQB.
Record bound : Type := mkB { b_tag : btag; b_lb : Q; b_ub : Q }.

Definition Qlt_b (x y : Q) : bool := negb (Qle_bool y x).

(* nl_components.cpp:35 makeEqual, :29 makeUBBounded, :33 makeNoBound, :21-27 makeBounded *)
Definition make_equal (v : Q) : bound := mkB EQB v v.
Definition make_ub (u : Q) : bound := mkB UB 0 u.
Definition make_none : bound := mkB NOB 0 0.
Definition make_bounded (dbg : bool) (l u : Q) : option bound :=
  if Qeq_bool l u then Some (make_equal l) else check dbg (Qlt_b l u) (Some (mkB LB_UB l u)).

(* nl_components.cpp:38-74 NLBound::updateLB *)
Definition update_lb (dbg : bool) (b : bound) (l : Q) : option bound :=
  match b_tag b with
  | LB_UB => check dbg (Qle_bool l (b_ub b)) (Some (if Qlt_b (b_lb b) l then mkB LB_UB l (b_ub b) else b))
  | UB => check dbg (Qle_bool l (b_ub b)) (Some (mkB LB_UB l (b_ub b)))
  | LB => Some (if Qlt_b (b_lb b) l then mkB LB l (b_ub b) else b)
  | NOB => Some (mkB LB l (b_ub b))
  | EQB => None
  end.

(* nl_components.cpp:77-113 NLBound::updateUB *)
Definition update_ub (dbg : bool) (b : bound) (u : Q) : option bound :=
  match b_tag b with
  | LB_UB => check dbg (Qle_bool (b_lb b) u) (Some (if Qlt_b u (b_ub b) then mkB LB_UB (b_lb b) u else b))
  | UB => Some (if Qlt_b u (b_ub b) then mkB UB (b_lb b) u else b)
  | LB => check dbg (Qle_bool (b_lb b) u) (Some (mkB LB_UB (b_lb b) u))
  | NOB => Some (mkB UB (b_lb b) u)
  | EQB => None
  end.

(* nl_components.cpp:116-155 NLBound::updateEq *)
Definition update_eq (dbg : bool) (b : bound) (v : Q) : option bound :=
  match b_tag b with
  | LB_UB => check dbg (Qle_bool (b_lb b) v && Qle_bool v (b_ub b)) (Some (mkB EQB v v))
  | UB => check dbg (Qle_bool v (b_ub b)) (Some (mkB EQB v v))
  | LB => check dbg (Qle_bool (b_lb b) v) (Some (mkB EQB v v))
  | NOB => Some (mkB EQB v v)
  | EQB => check dbg (Qeq_bool (b_lb b) v) (Some b)
  end.

(** ** FlatZinc as the solver interface gets it *)

Inductive arg : Type := AC (q : Q) | AV (n : string).
Inductive binop : Type :=
  IPlus | ITimes | IDiv | IMod | IMax | IMin | FPlus | FMinus | FTimes | FDiv | FPow | FMax | FMin.
Inductive unop : Type :=
  IAbs | FAbs | FAcos | FAcosh | FAsin | FAsinh | FAtan | FAtanh | FCos | FCosh | FExp | FLn | FLog10 | FSqrt | FSin | FSinh
| FTan | FTanh.
(* the calls of nl_file.cpp:238-395 analyseConstraint; int_pow is not modelled.  The integer and float versions of the linear
   constraints and comparisons are translated alike and are one constructor here. *)
Inductive call : Type :=
| LinEq (cs : list Q) (vs : list string) (v : arg)
| LinLe (cs : list Q) (vs : list string) (v : arg)
| LinNe (cs : list Q) (vs : list string) (v : arg)
| LinLt (cs : list Q) (vs : list string) (v : arg)
| CEq (x y : arg) | CLe (x y : arg) | CNe (x y : arg) | CLt (x y : arg)
| Bin (o : binop) (x y z : arg)
| Un (o : unop) (x y : arg)
| Log2 (x y : arg)
| Int2Float (x y : string).

(* a variable declaration: name, integer or float, output_var, the ranges of its domain if it has one *)
Record decl : Type := mkD { d_name : string; d_int : bool; d_report : bool; d_dom : option (list (Q * Q)) }.

(** ** the NL data *)

Inductive opcode : Type :=
  OPPLUS | OPMINUS | OPMULT | OPDIV | OPREM | OPPOW | ABS | OLT | ONE | OP_tanh | OP_tan | OP_sqrt | OP_sinh | OP_sin
| OP_log10 | OP_log | OP_exp | OP_cosh | OP_cos | OP_atanh | OP_atan | OP_asinh | OP_asin | OP_acosh | OP_acos | OPintDIV.
Inductive mopcode : Type := MINLIST | MAXLIST | OPSUMLIST.
(* include/minizinc/solvers/nl/nl_components.hh:249-345 NLToken.  V is what refers to a variable: its name in memory, its
   index in the file. *)
Inductive token (V : Type) : Type := TN (q : Q) | TV (v : V) | TO (o : opcode) | TM (m : mopcode) (n : nat).
Arguments TN {V}. Arguments TV {V}. Arguments TO {V}. Arguments TM {V}.

(* NLVar: without the jacobian count, which is the number of occurrences in jacobians *)
Record nlvar : Type := mkV { v_int : bool; v_report : bool; v_bound : bound }.
(* NLAlgCons, nl_components.hh:385-407 *)
Record alg (V : Type) : Type := mkA { a_range : bound; a_graph : list (token V); a_jac : list (V * Q) }.
Arguments mkA {V}. Arguments a_range {V}. Arguments a_graph {V}. Arguments a_jac {V}.

(* NLFile before phase 2.  std::map<string, NLVar> is an association list in the order of declaration instead of the order
   of names; constraints are named by their address and never overwritten, so their map is a list. *)
Record nl : Type := mkNl { n_vars : list (string * nlvar); n_cons : list (alg string); n_log : list (list (token string)) }.

Fixpoint lookup (n : string) (vs : list (string * nlvar)) : option nlvar :=
  match vs with [] => None | (m, v) :: r => if String.eqb n m then Some v else lookup n r end.
Fixpoint store (n : string) (v : nlvar) (vs : list (string * nlvar)) : list (string * nlvar) :=
  match vs with [] => [(n, v)] | (m, w) :: r => if String.eqb n m then (m, v) :: r else (m, w) :: store n v r end.

(* nl_file.cpp:195-233 addVarDeclInteger, addVarDeclFloat *)
Definition add_decl (dbg : bool) (s : nl) (d : decl) : option nl :=
  match (match d_dom d with
         | None => Some make_none
         | Some [(l, u)] => make_bounded dbg l u
         | Some _ => None
         end) with
  | Some b => Some (mkNl (store (d_name d) (mkV (d_int d) (d_report d) b) (n_vars s)) (n_cons s) (n_log s))
  | None => None
  end.

(* nl_file.cpp:400-422 getTokenFromVarOrInt, getTokenFromVarOrFloat *)
Definition tok (a : arg) : token string := match a with AC q => TN q | AV n => TV n end.

Definition add_cons (s : nl) (c : alg string) : nl := mkNl (n_vars s) (n_cons s ++ [c]) (n_log s).
Definition add_log (s : nl) (g : list (token string)) : nl := mkNl (n_vars s) (n_cons s) (n_log s ++ [g]).

(* setJacobian, nl_components.cpp:432-440 *)
Definition jacobian (vs : list string) (cs : list Q) : list (string * Q) := combine vs cs.

(* nl_file.cpp:436-460 makeSigmaMult *)
Fixpoint sigma_terms (cs : list Q) (vs : list string) : list (token string) :=
  match cs, vs with
  | c :: cs', v :: vs' => (if Qeq_bool c 1 then [TV v] else [TO OPMULT; TN c; TV v]) ++ sigma_terms cs' vs'
  | _, _ => []
  end.
Definition sigma_mult (cs : list Q) (vs : list string) : list (token string) :=
  (if Nat.eqb (List.length cs) 2 then TO OPPLUS else TM OPSUMLIST (List.length cs)) :: sigma_terms cs vs.

(* nl_file.cpp:465-497 linconsEq, :500-532 linconsLe *)
Definition lincons (mk : Q -> bound) (cs : list Q) (vs : list string) (v : arg) : alg string :=
  match v with
  | AC q => mkA (mk q) [] (jacobian vs cs)
  | AV n => mkA (mk 0) [] (jacobian (vs ++ [n]) (cs ++ [-(1)]))
  end.

(* nl_file.cpp:539-560 linconsPredicate *)
Definition lincons_predicate (dbg : bool) (s : nl) (o : opcode) (cs : list Q) (vs : list string) (v : arg) : option nl :=
  check dbg (Nat.leb 2 (List.length cs)) (Some (add_log s ([TO o] ++ sigma_mult cs vs ++ [tok v]))).

(* v.bound.update...(value) on variables.at(n); at throws if there is no such variable *)
Definition update_var (s : nl) (n : string) (f : bound -> option bound) : option nl :=
  match lookup n (n_vars s) with
  | None => None
  | Some v => match f (v_bound v) with
              | None => None
              | Some b => Some (mkNl (store n (mkV (v_int v) (v_report v) b) (n_vars s)) (n_cons s) (n_log s))
              end
  end.

(* nl_file.cpp:573-607 nlconsEq *)
Definition nlcons_eq (dbg : bool) (s : nl) (x y : arg) : option nl :=
  match x, y with
  | AC q, AV n => update_var s n (fun b => update_eq dbg b q)
  | AV n, AC q => update_var s n (fun b => update_eq dbg b q)
  | AV n, AV m => if String.eqb n m then Some s else Some (add_cons s (mkA (make_equal 0) [] (jacobian [n; m] [1; -(1)])))
  | AC _, AC _ => Some s      (* the names of constants are empty and equal *)
  end.

(* nl_file.cpp:613-648 nlconsLe *)
Definition nlcons_le (dbg : bool) (s : nl) (x y : arg) : option nl :=
  match x, y with
  | AC q, AV n => update_var s n (fun b => update_lb dbg b q)
  | AV n, AC q => update_var s n (fun b => update_ub dbg b q)
  | AV n, AV m => if String.eqb n m then Some s else Some (add_cons s (mkA (make_ub 0) [] (jacobian [n; m] [1; -(1)])))
  | AC _, AC _ => Some s
  end.

Definition is_var (a : arg) : bool := match a with AV _ => true | AC _ => false end.
(* str of a token: empty for constants *)
Definition str (a : arg) : string := match a with AV n => n | AC _ => EmptyString end.
Definition zeroed (dbg : bool) (cond : bool) (x : arg) (z : string) : option (list (string * Q)) :=
  if cond then check dbg (negb (String.eqb (str x) z)) (Some [(str x, 0)]) else Some [].

(* nl_file.cpp:674-725, :730-781 nlconsOperatorBinary: the graph is the given operator applied to x and y *)
Definition operator_binary (dbg : bool) (s : nl) (o : token string) (x y z : arg) : option nl :=
  let g := [o; tok x; tok y] in
  match z with
  | AC q => Some (add_cons s (mkA (make_equal q) g []))
  | AV n =>
    match zeroed dbg (is_var x && negb (String.eqb (str x) (str y))) x n, zeroed dbg (is_var y) y n with
    | Some jx, Some jy => Some (add_cons s (mkA (make_equal 0) g (jx ++ jy ++ [(n, -(1))])))
    | _, _ => None
    end
  end.

(* nl_file.cpp:784-828 nlconsOperatorUnary, :831-876 nlconsOperatorUnaryLog2 *)
Definition operator_unary (dbg : bool) (s : nl) (g : list (token string)) (x y : arg) : option nl :=
  match y with
  | AC q => Some (add_cons s (mkA (make_equal q) g []))
  | AV n =>
    match zeroed dbg (is_var x) x n with
    | Some jx => Some (add_cons s (mkA (make_equal 0) g (jx ++ [(n, -(1))])))
    | None => None
    end
  end.

(* nl_file.cpp:938-983, :1072-1124: the operators used for the binary builtins *)
Definition op_of_bin (o : binop) : token string :=
  match o with
  | IPlus => TO OPPLUS | ITimes => TO OPMULT | IDiv => TO OPDIV | IMod => TO OPREM | IMax => TM MAXLIST 2
  | IMin => TM MINLIST 2 | FPlus => TO OPPLUS | FMinus => TO OPMINUS | FTimes => TO OPMULT | FDiv => TO OPDIV
  | FPow => TO OPPOW | FMax => TM MAXLIST 2 | FMin => TM MINLIST 2
  end.
(* nl_file.cpp:989-992, :1130-1251: and for the unary ones *)
Definition op_of_un (o : unop) : opcode :=
  match o with
  | IAbs => ABS | FAbs => ABS | FAcos => OP_acos | FAcosh => OP_acosh | FAsin => OP_asin | FAsinh => OP_asinh
  | FAtan => OP_atan | FAtanh => OP_atanh | FCos => OP_cos | FCosh => OP_cosh | FExp => OP_exp | FLn => OP_log
  | FLog10 => OP_log10 | FSqrt => OP_sqrt | FSin => OP_sin | FSinh => OP_sinh | FTan => OP_tan | FTanh => OP_tanh
  end.

(* nl_file.cpp:238-395 analyseConstraint *)
Definition analyse (dbg : bool) (s : nl) (c : call) : option nl :=
  match c with
  | LinEq cs vs v => check dbg (Nat.eqb (List.length vs) (List.length cs)) (Some (add_cons s (lincons make_equal cs vs v)))
  | LinLe cs vs v => check dbg (Nat.eqb (List.length vs) (List.length cs)) (Some (add_cons s (lincons make_ub cs vs v)))
  | LinNe cs vs v => check dbg (Nat.eqb (List.length vs) (List.length cs)) (lincons_predicate dbg s ONE cs vs v)
  | LinLt cs vs v => check dbg (Nat.eqb (List.length vs) (List.length cs)) (lincons_predicate dbg s OLT cs vs v)
  | CEq x y => nlcons_eq dbg s x y
  | CLe x y => nlcons_le dbg s x y
  | CNe x y => Some (add_log s [TO ONE; tok x; tok y])
  | CLt x y => Some (add_log s [TO OLT; tok x; tok y])
  | Bin o x y z => operator_binary dbg s (op_of_bin o) x y z
  | Un o x y => operator_unary dbg s [TO (op_of_un o); tok x] x y
  | Log2 x y => operator_unary dbg s [TO OPDIV; TO OP_log; tok x; TO OP_log; TN 2] x y
  | Int2Float x y => Some (add_cons s (lincons make_equal [1; -(1)] [x; y] (AC 0)))
  end.

Fixpoint fold_opt {A B : Type} (f : A -> B -> option A) (s : A) (l : list B) : option A :=
  match l with [] => Some s | x :: r => match f s x with Some s' => fold_opt f s' r | None => None end end.

(* nl_solverinstance.cpp:176-190: declarations, then constraints *)
Definition collect (dbg : bool) (ds : list decl) (cs : list call) : option nl :=
  match fold_opt (add_decl dbg) (mkNl [] [] []) ds with
  | Some s => fold_opt (analyse dbg) s cs
  | None => None
  end.

(** ** phase 2 and printing *)

Definition mentions (n : string) (t : token string) : bool := match t with TV m => String.eqb n m | _ => false end.
(* nl_file.cpp:1309-1324: isInNLConstraint *)
Definition nonlinear (s : nl) (n : string) : bool :=
  existsb (fun c => existsb (mentions n) (a_graph c)) (n_cons s) || existsb (existsb (mentions n)) (n_log s).

(* nl_file.cpp:1333-1399: the order of the variables.  The objective is a variable or absent, so no variable is nonlinear in
   it and only four of the groups can be non-empty. *)
Definition group (s : nl) (nonlin int : bool) : list string :=
  map fst (filter (fun p => Bool.eqb (nonlinear s (fst p)) nonlin && Bool.eqb (v_int (snd p)) int) (n_vars s)).
Definition vnames (s : nl) : list string := group s true false ++ group s true true ++ group s false false ++ group s false true.

Fixpoint index_of (n : string) (l : list string) : option nat :=
  match l with [] => None | m :: r => if String.eqb n m then Some 0%nat else option_map S (index_of n r) end.
(* variableIndexes.at(n) *)
Definition index (s : nl) (n : string) : option nat := index_of n (vnames s).

Fixpoint map_opt {A B : Type} (f : A -> option B) (l : list A) : option (list B) :=
  match l with
  | [] => Some []
  | x :: r => match f x, map_opt f r with Some y, Some r' => Some (y :: r') | _, _ => None end
  end.

(* nl_components.cpp:391-427 NLToken::printToStream *)
Definition out_token (s : nl) (t : token string) : option (token nat) :=
  match t with TN q => Some (TN q) | TV n => option_map TV (index s n) | TO o => Some (TO o) | TM m k => Some (TM m k) end.
(* nl_components.cpp:446-470 NLAlgCons::printToStream and its line in segment r *)
Definition out_alg (s : nl) (c : alg string) : option (alg nat) :=
  match map_opt (out_token s) (match a_graph c with [] => [TN 0] | g => g end),
        map_opt (fun p => option_map (fun i => (i, snd p)) (index s (fst p))) (a_jac c) with
  | Some g, Some j => Some (mkA (a_range c) g j)
  | _, _ => None
  end.

(** the contents of the file: counts of the header, segment b if present, segments r, C and J per constraint, segment L *)
Record file : Type := mkFile
  { f_vars : nat; f_nonlin : nat; f_linint : nat; f_nonlinint : nat;
    f_bounds : option (list bound); f_cons : list (alg nat); f_log : list (list (token nat)) }.

Definition is_linear (c : alg string) : bool := match a_graph c with [] => true | _ => false end.

(* nl_file.cpp:1492-1545 NLFile::printToStream, header of nl_components.cpp:490-573; constraints in the order of
   nl_file.cpp:1401-1435 *)
Definition print (s : nl) : option file :=
  let vs := vnames s in
  match map_opt (fun n => option_map v_bound (lookup n (n_vars s))) vs,
        map_opt (out_alg s) (filter (fun c => negb (is_linear c)) (n_cons s) ++ filter is_linear (n_cons s)),
        map_opt (map_opt (out_token s)) (n_log s) with
  | Some bs, Some cs, Some ls =>
      Some (mkFile (List.length (n_vars s)) (List.length (group s true false) + List.length (group s true true))
                   (List.length (group s false true)) (List.length (group s true true))
                   (if Nat.ltb 1 (List.length (n_vars s)) then Some bs else None) cs ls)
  | _, _, _ => None
  end.

(* NLSolverInstance::solve up to the start of the solver, nl_solverinstance.cpp:173-196: the variables in their order and
   the file *)
Definition translate (dbg : bool) (ds : list decl) (cs : list call) : option (list string * file) :=
  match collect dbg ds cs with
  | Some s => match print s with Some f => Some (vnames s, f) | None => None end
  | None => None
  end.
