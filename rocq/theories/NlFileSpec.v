(** Specification: what FlatZinc constraints mean and what NL files mean, over the same values. *)
From Verif Require Import NlFileModel.
Require Import List ZArith QArith Qabs Bool String.
Import ListNotations.
Open Scope Q_scope.

(** integer part towards zero *)
Definition truncate (q : Q) : Q := inject_Z (Z.quot (Qnum q) (Zpos (Qden q))).
Definition qmax (x y : Q) : Q := if Qle_bool x y then y else x.
Definition qmin (x y : Q) : Q := if Qle_bool x y then x else y.

Section Meaning.
(** the mathematical functions and the power of floats, by name; nothing is assumed about them *)
Variable F : string -> Q -> Q.
Variable power : Q -> Q -> Q.

(** ** FlatZinc *)
Section FlatZinc.
Variable env : string -> Q.

Definition val (a : arg) : Q := match a with AC q => q | AV n => env n end.
Fixpoint linear (cs : list Q) (vs : list string) : Q :=
  match cs, vs with c :: cs', v :: vs' => c * env v + linear cs' vs' | _, _ => 0 end.

Definition fun_name (o : unop) : string :=
  match o with
  | IAbs => "abs" | FAbs => "abs" | FAcos => "acos" | FAcosh => "acosh" | FAsin => "asin" | FAsinh => "asinh"
  | FAtan => "atan" | FAtanh => "atanh" | FCos => "cos" | FCosh => "cosh" | FExp => "exp" | FLn => "ln"
  | FLog10 => "log10" | FSqrt => "sqrt" | FSin => "sin" | FSinh => "sinh" | FTan => "tan" | FTanh => "tanh"
  end%string.

(** z is the result of the operation on x and y *)
Definition bin_holds (o : binop) (x y z : Q) : Prop :=
  match o with
  | IPlus | FPlus => z == x + y
  | FMinus => z == x - y
  | ITimes | FTimes => z == x * y
  | IDiv => ~ y == 0 /\ z == truncate (x / y)
  | IMod => ~ y == 0 /\ z == x - y * truncate (x / y)
  | FDiv => ~ y == 0 /\ z == x / y
  | FPow => z == power x y
  | IMax | FMax => z == qmax x y
  | IMin | FMin => z == qmin x y
  end.

Definition holds (c : call) : Prop :=
  match c with
  | LinEq cs vs v => linear cs vs == val v
  | LinLe cs vs v => linear cs vs <= val v
  | LinNe cs vs v => ~ linear cs vs == val v
  | LinLt cs vs v => linear cs vs < val v
  | CEq x y => val x == val y
  | CLe x y => val x <= val y
  | CNe x y => ~ val x == val y
  | CLt x y => val x < val y
  | Bin o x y z => bin_holds o (val x) (val y) (val z)
  | Un o x y => val y == F (fun_name o) (val x)
  | Log2 x y => ~ F "ln"%string 2 == 0 /\ val y == F "ln"%string (val x) / F "ln"%string 2
  | Int2Float x y => env x == env y
  end.

Definition in_domain (d : decl) : Prop :=
  match d_dom d with None => True | Some rs => exists l u, In (l, u) rs /\ l <= env (d_name d) /\ env (d_name d) <= u end.

Definition fzn_solution (ds : list decl) (cs : list call) : Prop :=
  (forall d, In d ds -> in_domain d) /\ (forall c, In c cs -> holds c).
End FlatZinc.

(** ** NL files *)
Section NL.
Context {V : Type}.
Variable env : V -> Q.

Definition within (b : bound) (q : Q) : Prop :=
  match b_tag b with
  | LB_UB => b_lb b <= q /\ q <= b_ub b
  | UB => q <= b_ub b
  | LB => b_lb b <= q
  | NOB => True
  | EQB => q == b_lb b
  end.

(** the mathematical function of a unary operator *)
Definition nl_fun (o : opcode) : option string :=
  match o with
  | ABS => Some "abs" | OP_tanh => Some "tanh" | OP_tan => Some "tan" | OP_sqrt => Some "sqrt" | OP_sinh => Some "sinh"
  | OP_sin => Some "sin" | OP_log10 => Some "log10" | OP_log => Some "ln" | OP_exp => Some "exp" | OP_cosh => Some "cosh"
  | OP_cos => Some "cos" | OP_atanh => Some "atanh" | OP_atan => Some "atan" | OP_asinh => Some "asinh"
  | OP_asin => Some "asin" | OP_acosh => Some "acosh" | OP_acos => Some "acos" | _ => None
  end%string.

Definition truth (b : bool) : Q := if b then 1 else 0.
(** binary operators; None where the result is undefined *)
Definition nl_bin (o : opcode) (x y : Q) : option Q :=
  match o with
  | OPPLUS => Some (x + y) | OPMINUS => Some (x - y) | OPMULT => Some (x * y)
  | OPDIV => if Qeq_bool y 0 then None else Some (x / y)
  | OPREM => if Qeq_bool y 0 then None else Some (x - y * truncate (x / y))
  | OPintDIV => if Qeq_bool y 0 then None else Some (truncate (x / y))
  | OPPOW => Some (power x y)
  | OLT => Some (truth (negb (Qle_bool y x)))
  | ONE => Some (truth (negb (Qeq_bool x y)))
  | _ => None
  end.
Definition nl_many (m : mopcode) (xs : list Q) : option Q :=
  match m, xs with
  | OPSUMLIST, _ => Some (fold_right Qplus 0 xs)
  | MINLIST, x :: r => Some (fold_left qmin r x)
  | MAXLIST, x :: r => Some (fold_left qmax r x)
  | _, [] => None
  end.

(** Expressions in prefix notation: [reads g q r] if g starts with an expression of value q, followed by r. *)
Inductive reads : list (token V) -> Q -> list (token V) -> Prop :=
| R_num q r : reads (TN q :: r) q r
| R_var v r : reads (TV v :: r) (env v) r
| R_un o f g x r : nl_fun o = Some f -> reads g x r -> reads (TO o :: g) (F f x) r
| R_bin o g x g' y r q : nl_fun o = None -> reads g x g' -> reads g' y r -> nl_bin o x y = Some q -> reads (TO o :: g) q r
| R_many m n g xs r q : reads_many n g xs r -> nl_many m xs = Some q -> reads (TM m n :: g) q r
with reads_many : nat -> list (token V) -> list Q -> list (token V) -> Prop :=
| R_nil g : reads_many 0 g [] g
| R_cons n g x g' xs r : reads g x g' -> reads_many n g' xs r -> reads_many (S n) g (x :: xs) r.

Fixpoint jac_value (j : list (V * Q)) : Q := match j with [] => 0 | (v, c) :: r => c * env v + jac_value r end.

(** the body is the expression plus the linear part *)
Definition alg_holds (c : alg V) : Prop :=
  exists q, reads (a_graph c) q [] /\ within (a_range c) (q + jac_value (a_jac c)).
Definition log_holds (g : list (token V)) : Prop := exists q, reads g q [] /\ ~ q == 0.
End NL.

(** the values are a solution of the file: one per variable, in order *)
Definition nl_solution (f : file) (vals : list Q) : Prop :=
  List.length vals = f_vars f /\
  match f_bounds f with None => True | Some bs => Forall2 within bs vals end /\
  (forall c, In c (f_cons f) -> alg_holds (fun i => nth i vals 0) c) /\
  (forall g, In g (f_log f) -> log_holds (fun i => nth i vals 0) g).
End Meaning.

(** what the FlatZinc compiler guarantees: names are declared once and before use, lists have equal lengths, constraints on
    constants only are evaluated away *)
Definition args (c : call) : list arg :=
  match c with
  | LinEq _ vs v | LinLe _ vs v | LinNe _ vs v | LinLt _ vs v => v :: map AV vs
  | CEq x y | CLe x y | CNe x y | CLt x y | Un _ x y | Log2 x y => [x; y]
  | Bin _ x y z => [x; y; z]
  | Int2Float x y => [AV x; AV y]
  end.
Definition well_formed (ds : list decl) (cs : list call) : Prop :=
  NoDup (map d_name ds) /\
  (forall c n, In c cs -> In (AV n) (args c) -> In n (map d_name ds)) /\
  (forall c, In c cs -> match c with
                        | LinEq k vs _ | LinLe k vs _ | LinNe k vs _ | LinLt k vs _ => List.length k = List.length vs
                        | CEq (AC _) (AC _) | CLe (AC _) (AC _) => False
                        | _ => True
                        end).

(** the value of the variable with the given name in a list of values *)
Fixpoint assoc (n : string) (names : list string) (vals : list Q) : Q :=
  match names, vals with m :: ns, v :: vs => if String.eqb n m then v else assoc n ns vs | _, _ => 0 end.

(** which columns a reader of the file takes for integer variables, from the counts in the header: the last ones of the
    nonlinear variables and the last ones of all *)
Definition integer_column (f : file) (i : nat) : bool :=
  (Nat.leb (f_nonlin f - f_nonlinint f) i && Nat.ltb i (f_nonlin f)) || Nat.leb (f_vars f - f_linint f) i.
