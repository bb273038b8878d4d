(** What a par expression means: the relational semantics of MiniZinc for integers, Booleans and sets of
    integers, written without the evaluator.  An expression has a value or is undefined; a Boolean expression is
    never undefined, because an undefined part makes the smallest enclosing Boolean expression false. *)
Require Import ZArith List Bool.
From Verif Require Import Base IntValModel IntValSpec SetModel SetSpec EvalModel.
Import ListNotations.
Open Scope Z_scope.

(** mathematical values; a set is the increasing list of its elements *)
Inductive sval : Type := SInt (z : Z) | SBool (b : bool) | SSet (l : list Z).
(** [None]: undefined *)
Definition sout : Type := option sval.

Definition sval_ty (v : sval) : ty := match v with SInt _ => TInt | SBool _ => TBool | SSet _ => TSet end.

(** the integers the theorem speaks about: the 64-bit range without its two end points *)
Definition safe (z : Z) : Prop := LLONG_MIN < z < LLONG_MAX.
Definition safe_val (v : sval) : Prop :=
  match v with SInt z => safe z | SBool _ => True | SSet l => increasing l /\ Forall safe l end.

(** undefinedness stops at Boolean expressions *)
Definition close (t : ty) (o : sout) : sout :=
  match t, o with TBool, None => Some (SBool false) | _, _ => o end.

(** [b] says whether [Q] holds *)
Definition decides (b : bool) (Q : Prop) : Prop := b = true <-> Q.
Definition lex_le (l m : list Z) : Prop := lex_lt l m \/ l = m.
Definition b2z (b : bool) : Z := if b then 1 else 0.

(** comparison operators through "less than" and "equal" *)
Definition compares (o : binop) (lt gt eq : Prop) (b : bool) : Prop :=
  match o with
  | BLe => decides b lt
  | BLq => decides b (lt \/ eq)
  | BGr => decides b gt
  | BGq => decides b (gt \/ eq)
  | BEq => decides b eq
  | BNq => decides b (~ eq)
  | _ => False
  end.

(** the operators that need both operands, on defined operands *)
Definition op_means (o : binop) (v w : sval) (r : sout) : Prop :=
  match v, w with
  | SInt x, SInt y =>
      match o with
      | BPlus => r = Some (SInt (x + y))
      | BMinus => r = Some (SInt (x - y))
      | BMult => r = Some (SInt (x * y))
      | BPow =>
          (0 <= y <= INT_MAX /\ r = Some (SInt (x ^ y))) \/
          (y < 0 /\ x <> 0 /\ r = Some (SInt (Z.quot 1 (x ^ (- y))))) \/
          (y < 0 /\ x = 0 /\ r = None)
      | BDiv => (y = 0 /\ r = None) \/ (y <> 0 /\ r = Some (SInt (Z.quot x y)))
      | BMod => (y = 0 /\ r = None) \/ (y <> 0 /\ r = Some (SInt (Z.rem x y)))
      | BDotDot => exists l, r = Some (SSet l) /\ increasing l /\ forall z, In z l <-> x <= z <= y
      | _ => exists b, r = Some (SBool b) /\ compares o (x < y) (x > y) (x = y) b
      end
  | SBool x, SBool y =>
      exists b, r = Some (SBool b) /\
        match o with
        | BEquiv => decides b (x = y)
        | BXor => decides b (x <> y)
        | _ => compares o (b2z x < b2z y) (b2z x > b2z y) (x = y) b
        end
  | SInt x, SSet m => o = BIn /\ exists b, r = Some (SBool b) /\ decides b (In x m)
  | SSet l, SSet m =>
      match o with
      | BUnion => exists k, r = Some (SSet k) /\ increasing k /\ forall z, In z k <-> In z l \/ In z m
      | BIntersect => exists k, r = Some (SSet k) /\ increasing k /\ forall z, In z k <-> In z l /\ In z m
      | BDiff => exists k, r = Some (SSet k) /\ increasing k /\ forall z, In z k <-> In z l /\ ~ In z m
      | BSymdiff => exists k, r = Some (SSet k) /\ increasing k /\
                      forall z, In z k <-> (In z l /\ ~ In z m) \/ (In z m /\ ~ In z l)
      | BSubset => exists b, r = Some (SBool b) /\ decides b (forall z, In z l -> In z m)
      | BSuperset => exists b, r = Some (SBool b) /\ decides b (forall z, In z m -> In z l)
      | _ => exists b, r = Some (SBool b) /\ compares o (lex_lt l m) (lex_lt m l) (l = m) b
      end
  | _, _ => False
  end.

Definition un_means (o : unop) (v : sval) (r : sval) : Prop :=
  match o, v with
  | UNot, SBool b => r = SBool (negb b)
  | UPlus, SInt z => r = SInt z
  | UMinus, SInt z => r = SInt (- z)
  | _, _ => False
  end.

(** the operators that may look at one operand only *)
Definition lazy_op (o : binop) : bool :=
  match o with BOr | BAnd | BImpl | BRimpl => true | _ => false end.

(** environments: the values of the local variables in scope *)
Definition env : Type := nat -> option sval.
Definition no_env : env := fun _ => None.
Fixpoint params_env (ds : list nat) (vs : list sval) : env :=
  match ds, vs with
  | d :: ds', v :: vs' => upd (params_env ds' vs') d (Some v)
  | _, _ => no_env
  end.

(** the value is within a domain with these elements *)
Definition within (v : sval) (l : list Z) : Prop :=
  match v with SInt z => In z l | SSet m => forall z, In z m -> In z l | SBool _ => True end.

(** variables that the items of a let declare *)
Fixpoint declared (items : list item) : list nat :=
  match items with [] => [] | LDecl d _ :: r => d :: declared r | LCon _ :: r => declared r end.

(** the domain of d is a literal with one element *)
Definition one_value_dom (P : program) (d : nat) : Prop := exists a, p_dom P d = Some (ESet [(a, a)]).

Section Meaning.
Variable P : program.

(** [means r e o]: in environment r, expression e means o, and no integer outside the safe range occurs on the
    way.  [means_all]: the same for a list, left to right, [None] as soon as one is undefined.  [means_ite]: a chain
    of conditions.  [means_dom r dom v b]: [Some true]: value v is within domain dom; [Some false]: it is not;
    [None]: the domain is undefined.  [means_items t r items x]: the items of a let whose body has type t lead to
    the environment x ([None]: a declaration or constraint is undefined, outside its domain, or false).
    [means_params ds vs b]: the values satisfy the domains of the parameters. *)
Inductive means : env -> expr -> sout -> Prop :=
| m_int : forall r v z, is_int v z -> safe z -> means r (EInt v) (Some (SInt z))
| m_bool : forall r b, means r (EBool b) (Some (SBool b))
| m_set : forall r s l, nf s -> enumerates l s -> Forall safe l -> means r (ESet s) (Some (SSet l))
| m_setlit : forall r es vs l zs, means_all r es (Some vs) -> vs = map SInt zs ->
    increasing l -> (forall z, In z l <-> In z zs) -> means r (ESetLit es) (Some (SSet l))
| m_setlit_undef : forall r es, means_all r es None -> means r (ESetLit es) None
| m_local : forall r d v, r d = Some v -> means r (EId d) (Some v)
| m_top : forall r d e o, r d = None -> p_top P d = Some e -> means no_env e o -> means r (EId d) o
| m_ite : forall r cs els o, means_ite r cs els o -> means r (EIte cs els) o
| m_bin : forall r o a b v w x, lazy_op o = false -> means r a (Some v) -> means r b (Some w) ->
    op_means o v w x -> (forall y, x = Some y -> safe_val y) -> means r (EBin o a b) (close (type_of P (EBin o a b)) x)
| m_bin_undef_l : forall r o a b, lazy_op o = false -> means r a None ->
    means r (EBin o a b) (close (type_of P (EBin o a b)) None)
| m_bin_undef_r : forall r o a b v, lazy_op o = false -> means r a (Some v) -> means r b None ->
    means r (EBin o a b) (close (type_of P (EBin o a b)) None)
| m_or_true : forall r a b, means r a (Some (SBool true)) -> means r (EBin BOr a b) (Some (SBool true))
| m_or : forall r a b o, means r a (Some (SBool false)) -> means r b o -> means r (EBin BOr a b) o
| m_and_false : forall r a b, means r a (Some (SBool false)) -> means r (EBin BAnd a b) (Some (SBool false))
| m_and : forall r a b o, means r a (Some (SBool true)) -> means r b o -> means r (EBin BAnd a b) o
| m_impl_false : forall r a b, means r a (Some (SBool false)) -> means r (EBin BImpl a b) (Some (SBool true))
| m_impl : forall r a b o, means r a (Some (SBool true)) -> means r b o -> means r (EBin BImpl a b) o
| m_rimpl_false : forall r a b, means r b (Some (SBool false)) -> means r (EBin BRimpl a b) (Some (SBool true))
| m_rimpl : forall r a b o, means r b (Some (SBool true)) -> means r a o -> means r (EBin BRimpl a b) o
| m_un : forall r o a v x, means r a (Some v) -> un_means o v x -> safe_val x -> means r (EUn o a) (Some x)
| m_un_undef : forall r o a, means r a None -> means r (EUn o a) None
| m_call : forall r f fn args vs v,
    p_fun P f = Some fn -> means_all r args (Some vs) -> means_params (f_params fn) vs (Some true) ->
    means (params_env (f_params fn) vs) (f_body fn) (Some v) -> means_dom no_env (f_dom fn) v (Some true) ->
    means r (ECall f args) (Some v)
| m_call_undef : forall r f fn args vs,
    p_fun P f = Some fn -> means_all r args (Some vs) -> means_params (f_params fn) vs (Some true) ->
    means (params_env (f_params fn) vs) (f_body fn) None -> means r (ECall f args) None
| m_call_bad_result : forall r f fn args vs v b,
    p_fun P f = Some fn -> means_all r args (Some vs) -> means_params (f_params fn) vs (Some true) ->
    means (params_env (f_params fn) vs) (f_body fn) (Some v) -> means_dom no_env (f_dom fn) v b -> b <> Some true ->
    means r (ECall f args) None
| m_call_undef_arg : forall r f fn args, p_fun P f = Some fn -> means_all r args None ->
    means r (ECall f args) (close (f_ty fn) None)
| m_call_bad_arg : forall r f fn args vs b, p_fun P f = Some fn -> means_all r args (Some vs) ->
    means_params (f_params fn) vs b -> b <> Some true -> means r (ECall f args) (close (f_ty fn) None)
| m_let : forall r items body r' o,
    (forall d, In d (declared items) -> r d = None /\ p_top P d = None) -> NoDup (declared items) ->
    means_items (type_of P body) r items (Some r') -> means r' body o -> means r (ELet items body) o
| m_let_undef : forall r items body,
    (forall d, In d (declared items) -> r d = None /\ p_top P d = None) -> NoDup (declared items) ->
    means_items (type_of P body) r items None -> means r (ELet items body) (close (type_of P body) None)
with means_all : env -> list expr -> option (list sval) -> Prop :=
| ma_nil : forall r, means_all r [] (Some [])
| ma_cons : forall r e es v vs, means r e (Some v) -> means_all r es (Some vs) -> means_all r (e :: es) (Some (v :: vs))
| ma_undef : forall r e es, means r e None -> means_all r (e :: es) None
| ma_later : forall r e es v, means r e (Some v) -> means_all r es None -> means_all r (e :: es) None
with means_ite : env -> list (expr * expr) -> expr -> sout -> Prop :=
| mi_else : forall r els o, means r els o -> means_ite r [] els o
| mi_true : forall r c t cs els o, means r c (Some (SBool true)) -> means r t o -> means_ite r ((c, t) :: cs) els o
| mi_false : forall r c t cs els o, means r c (Some (SBool false)) -> means_ite r cs els o ->
    means_ite r ((c, t) :: cs) els o
with means_dom : env -> option expr -> sval -> option bool -> Prop :=
| md_none : forall r v, means_dom r None v (Some true)
| md_bool : forall r de b, means_dom r (Some de) (SBool b) (Some true)
| md_some : forall r de v l b, sval_ty v <> TBool -> means r de (Some (SSet l)) -> decides b (within v l) ->
    means_dom r (Some de) v (Some b)
| md_undef : forall r de v, sval_ty v <> TBool -> means r de None -> means_dom r (Some de) v None
with means_items : ty -> env -> list item -> option env -> Prop :=
| mt_nil : forall t r, means_items t r [] (Some r)
| mt_decl : forall t r d e v items x, means r e (Some v) -> means_dom r (p_dom P d) v (Some true) ->
    means_items t (upd r d (Some v)) items x -> means_items t r (LDecl d e :: items) x
| mt_decl_undef : forall t r d e items, means r e None -> means_items t r (LDecl d e :: items) None
| mt_decl_out : forall t r d e v items b, means r e (Some v) -> means_dom r (p_dom P d) v b -> b <> Some true ->
    t <> TBool -> means_items t r (LDecl d e :: items) None
    (** a Boolean let goes on with the other items, so they must have a meaning too *)
| mt_decl_out_bool : forall r d e v items b x, means r e (Some v) -> means_dom r (p_dom P d) v b -> b <> Some true ->
    ~ one_value_dom P d -> means_items TBool (upd r d (Some v)) items x ->
    means_items TBool r (LDecl d e :: items) None
| mt_con : forall t r e items x, means r e (Some (SBool true)) -> means_items t r items x ->
    means_items t r (LCon e :: items) x
| mt_con_false : forall t r e items, means r e (Some (SBool false)) -> means_items t r (LCon e :: items) None
with means_params : list nat -> list sval -> option bool -> Prop :=
| mp_nil : means_params [] [] (Some true)
| mp_cons : forall d ds v vs b, means_dom no_env (p_dom P d) v (Some true) -> means_params ds vs b ->
    means_params (d :: ds) (v :: vs) b
| mp_out : forall d ds v vs b, length ds = length vs -> means_dom no_env (p_dom P d) v b -> b <> Some true ->
    means_params (d :: ds) (v :: vs) b.

(** the operators on operands of these types *)
Definition op_types (o : binop) (t u : ty) : bool :=
  match o, t, u with
  | (BPlus | BMinus | BMult | BPow | BDiv | BMod | BDotDot), TInt, TInt => true
  | (BLe | BLq | BGr | BGq | BEq | BNq), (TInt | TSet | TBool), (TInt | TSet | TBool) => ty_eqb t u
  | BIn, TInt, TSet => true
  | (BSubset | BSuperset | BUnion | BDiff | BSymdiff | BIntersect), TSet, TSet => true
  | (BEquiv | BImpl | BRimpl | BOr | BAnd | BXor), TBool, TBool => true
  | _, _, _ => false
  end.
Definition un_type (o : unop) (t : ty) : bool :=
  match o, t with UNot, TBool | UPlus, TInt | UMinus, TInt => true | _, _ => false end.

(** the expression is well typed, without implicit coercions *)
Inductive wt : expr -> Prop :=
| wt_int : forall v, wt (EInt v)
| wt_bool : forall b, wt (EBool b)
| wt_set : forall s, wt (ESet s)
| wt_setlit : forall l, (forall e, In e l -> wt e /\ type_of P e = TInt) -> wt (ESetLit l)
| wt_id : forall d, wt (EId d)
| wt_ite : forall cs els, wt els ->
    (forall c t, In (c, t) cs -> wt c /\ type_of P c = TBool /\ wt t /\ type_of P t = type_of P els) -> wt (EIte cs els)
| wt_bin : forall o a b, wt a -> wt b -> op_types o (type_of P a) (type_of P b) = true -> wt (EBin o a b)
| wt_un : forall o a, wt a -> un_type o (type_of P a) = true -> wt (EUn o a)
| wt_call : forall f fn args, p_fun P f = Some fn -> (forall a, In a args -> wt a) ->
    map (type_of P) args = map (p_ty P) (f_params fn) -> wt (ECall f args)
| wt_let : forall items body, wt body ->
    (forall d e, In (LDecl d e) items -> wt e /\ type_of P e = p_ty P d) ->
    (forall e, In (LCon e) items -> wt e /\ type_of P e = TBool) -> wt (ELet items body).

(** The program is well typed.  Toplevel declarations have no domain here: flattening checks those. *)
Definition wt_prog : Prop :=
  (forall d e, p_top P d = Some e -> wt e /\ type_of P e = p_ty P d /\ p_dom P d = None) /\
  (forall d de, p_dom P d = Some de -> wt de /\ type_of P de = TSet) /\
  (forall f fn, p_fun P f = Some fn ->
     NoDup (f_params fn) /\ (forall d, In d (f_params fn) -> p_top P d = None) /\
     wt (f_body fn) /\ type_of P (f_body fn) = f_ty fn /\
     (forall de, f_dom fn = Some de -> wt de /\ type_of P de = TSet)).

(** the literal stands for the value *)
Definition literal (e : expr) (v : sval) : Prop :=
  match e, v with
  | EInt x, SInt z => is_int x z
  | EBool b, SBool c => b = c
  | ESet s, SSet l => nf s /\ enumerates l s
  | _, _ => False
  end.

(** a local variable in scope holds a literal of its value; a declaration whose domain is a one-element literal
    has that value *)
Definition holds_env (r : env) (s : store) : Prop := forall d v, r d = Some v ->
  p_top P d = None /\ sval_ty v = p_ty P d /\ safe_val v /\
  (exists lit, slot s d = Some lit /\ literal lit v) /\
  (forall a, p_ty P d = TInt -> p_dom P d = Some (ESet [(a, a)]) -> literal (EInt a) v).
(** a toplevel declaration holds its right-hand side, or, once evaluated, a literal of its value *)
Definition holds_top (s : store) : Prop := forall d e, p_top P d = Some e ->
  (slot s d = Some e /\ evald s d = false) \/
  (exists lit v, slot s d = Some lit /\ evald s d = true /\ literal lit v /\
                 sval_ty v = p_ty P d /\ safe_val v /\ means no_env e (Some v)).
Definition store_ok (r : env) (s : store) : Prop := holds_env r s /\ holds_top s.
(** evaluation leaves no trace, except that toplevel declarations may now hold their value *)
Definition store_kept (s s' : store) : Prop :=
  (forall d, p_top P d = None -> slot s' d = slot s d) /\ holds_top s'.
End Meaning.

(** the program as it was read: toplevel declarations hold their right-hand sides *)
Definition start (P : program) : store := mkSt (p_top P) (fun _ => false).

(** evaluate expressions one after the other *)
Fixpoint eval_all (P : program) (k : nat) (es : list expr) (s : store) : list (out expr) :=
  match es with
  | [] => []
  | e :: r => let (s', x) := eval_par P k e s in x :: eval_all P k r s'
  end.
(** an outcome that agrees with a meaning *)
Definition answers (x : out expr) (o : sout) : Prop :=
  match o with Some v => exists lit, x = Val lit /\ literal lit v | None => x = Und end.
