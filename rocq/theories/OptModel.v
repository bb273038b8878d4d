(** Model of the constraint optimisers of lib/optimize_constraints.cpp. *)
Require Import ZArith List Bool Lia.
From Verif Require Import Base IntValModel SetModel LinModel DoubleModel.
Import ListNotations.
Open Scope Z_scope.

(** ** FlatZinc constraints *)
(* A Boolean argument is a literal (par), an identifier or some other expression.  Integer arguments
   are terms (LinModel); Expression::type(e).isPar() holds exactly for literals. *)
Inductive barg : Type := BLit (b : bool) | BId (i : ident) | BExp (rank : Z).
Inductive linkind : Type := LinEq | LinLe | LinNe.
Inductive fcon : Type :=
| FLin (k : linkind) (c : list IntVal) (x : list term) (d : IntVal)  (* int_lin_eq, int_lin_le, int_lin_ne *)
| FIntEq (a b : term) | FIntLe (a b : term) | FIntNe (a b : term)
| FDiv (a b r : term) | FTimes (a b r : term)                         (* int_div, int_times *)
| FElement (i : term) (l : list term) (r : term)                     (* array_(var_)int_element *)
| FSetIn (a : term) (s : iset)                                       (* set_in with a literal set *)
| FClause (pos neg : list barg) | FForall (l : list barg) | FExists (l : list barg)
| FNot (a b : barg) | FBoolEq (a b : barg).
(* functional calls: lin_exp(c, x, d), int_times(a, b) and what they are rewritten to *)
Inductive fexp : Type := XLin (c : list IntVal) (x : list term) (d : IntVal) | XTimes (a b : term) | XTerm (t : term).

(* optimize_constraints.hh ConstraintStatus (CS_NONE, no optimiser registered, is SOk here) *)
Inductive status (A : Type) : Type := SOk | SFailed | SEntailed | SRewrite (c : A).
Arguments SOk {A}. Arguments SFailed {A}. Arguments SEntailed {A}. Arguments SRewrite {A} c.

(* values.hh:604-613 IntSetVal::min/max: undefined for the empty set (asserts are off) *)
Definition set_min (s : iset) : res IntVal := match s with [] => UB | (a, _) :: _ => Ok a end.
Definition set_max (s : iset) : res IntVal := match s with [] => UB | r :: _ => Ok (snd (last s r)) end.

(* optimize_constraints.cpp:97-107: floor and ceiling of a double quotient *)
Definition dquot_floor (a b : Z) : res Z := cast_ll (dfloor (ddiv (dbl a) (dbl b))).
Definition dquot_ceil (a b : Z) : res Z := cast_ll (dceil (ddiv (dbl a) (dbl b))).

Section Opt.
Variable fuel : nat.
Variable ds : decls.
Variable sort : list term -> list nat.
Variable dom : ident -> option iset.      (* decl()->ti()->domain() of integer variables *)
Variable bdom : ident -> option bool.     (* the same for Boolean variables: fixed or unset *)
Variable qfloor qceil : Z -> Z -> res Z.  (* dquot_floor, dquot_ceil *)
Variable vsort : list ident -> list ident. (* std::sort on VarDecl pointers *)

(* optimize_constraints.cpp:90-108 the bound on the variable of a single-variable int_lin_le *)
Definition le_bound (c0 rd : IntVal) : res IntVal :=
  do ac <- iv_abs c0;
  do ad <- iv_abs rd;
  do m <- iv_mod ad ac;
  if iv_eq m (ofZ 0) then iv_div rd c0
  else
    do a <- toInt ad; do b <- toInt ac;
    if iv_ge c0 (ofZ 0) && iv_ge rd (ofZ 0) then do q <- qfloor a b; Ok (ofZ q)
    else if iv_ge rd (ofZ 0) then do q <- qfloor a b; do n <- ll (- q); Ok (ofZ n)
    else if iv_ge c0 (ofZ 0) then do q <- qceil a b; do n <- ll (- q); Ok (ofZ n)
    else do q <- qceil a b; Ok (ofZ q).

(* optimize_constraints.cpp:147-171: the shortened constraint, if simplification removed terms *)
Definition shortened (k : linkind) (n0 : nat) (c : list IntVal) (x : list term) (rhs d : IntVal) : res (status fcon) :=
  if Nat.ltb (length c) n0 then do r <- iv_sub rhs d; Ok (SRewrite (FLin k c x r)) else Ok SOk.

(* optimize_constraints.cpp:39-173 o_linear.  [toplevel]: the item is a constraint item, or a
   variable declaration whose domain is true. *)
Definition o_linear (toplevel : bool) (k : linkind) (c0 : list IntVal) (x0 : list term) (rhs : IntVal)
  : res (status fcon) :=
  do ' (c, x, d) <- simplify_lin fuel ds sort c0 x0 (ofZ 0);
  match c, x with
  | [], _ =>
      let failed := match k with LinLe => iv_gt d rhs | LinEq => iv_ne d rhs | LinNe => iv_eq d rhs end in
      Ok (if failed then SFailed else SEntailed)
  | [a], [t] =>
      if toplevel then
        match t with
        | TId i =>
            match k with
            | LinEq =>
                do rd <- iv_sub rhs d;
                do m <- iv_mod rd a;
                if iv_eq m (ofZ 0) then
                  do nd <- iv_div rd a;
                  match dom i with
                  | Some s => if set_contains s nd then Ok (SRewrite (FIntEq t (TLit nd))) else Ok SFailed
                  | None => Ok (SRewrite (FIntEq t (TLit nd)))
                  end
                else Ok SFailed
            | LinLe =>
                do rd <- iv_sub rhs d;
                do nd <- le_bound a rd;
                let swapSign := iv_lt a (ofZ 0) in
                match dom i with
                | Some s =>
                    do mx <- set_max s; do mn <- set_min s;
                    if swapSign then
                      if iv_lt mx nd then Ok SFailed
                      else if iv_ge mn nd then Ok SEntailed
                      else Ok (SRewrite (FIntLe (TLit nd) t))
                    else
                      if iv_gt mn nd then Ok SFailed
                      else if iv_le mx nd then Ok SEntailed
                      else Ok (SRewrite (FIntLe t (TLit nd)))
                | None => shortened k (length c0) c x rhs d
                end
            | LinNe => shortened k (length c0) c x rhs d
            end
        | _ => UB (* Expression::cast<Id> of something else *)
        end
      else shortened k (length c0) c x rhs d
  | [a; b], [t; u] =>
      match k with
      | LinEq =>
          do rd <- iv_sub rhs d;
          if (iv_eq a (ofZ 1) && iv_eq b (ofZ (-1)) || iv_eq b (ofZ 1) && iv_eq a (ofZ (-1))) && iv_eq rd (ofZ 0)
          then Ok (SRewrite (FIntEq t u))
          else shortened k (length c0) c x rhs d
      | _ => shortened k (length c0) c x rhs d
      end
  | _, _ => shortened k (length c0) c x rhs d
  end.

(* optimize_constraints.cpp:175-225 o_lin_exp *)
Definition o_lin_exp (c0 : list IntVal) (x0 : list term) (d0 : IntVal) : res (status fexp) :=
  do ' (c, x, d) <- simplify_lin fuel ds sort c0 x0 d0;
  match c, x with
  | [], _ => Ok (SRewrite (XTerm (TLit d)))
  | a :: _, t :: _ =>
      if Nat.ltb (length c) (length c0) then
        if Nat.eqb (length c) 1 && iv_eq a (ofZ 1) && iv_eq d (ofZ 0) then Ok (SRewrite (XTerm t))
        else Ok (SRewrite (XLin c x d))
      else Ok SOk
  | _ :: _, [] => UB
  end.

(* optimize_constraints.cpp:227-243 o_element *)
Definition o_element (i : term) (l : list term) (r : term) : res (status fcon) :=
  match i with
  | TLit idx =>
      if iv_lt idx (ofZ 1) || iv_gt idx (ofZ (Z.of_nat (length l))) then Ok SFailed
      else
        do z <- toInt idx;
        match nth_error l (Z.to_nat (z - 1)) with
        | Some e => Ok (SRewrite (FIntEq e r))
        | None => UB
        end
  | _ => Ok SOk
  end.

(* optimize_constraints.cpp:245-289 o_clause *)
Definition unfixed (l : list barg) : list ident :=
  flat_map (fun b => match b with BId i => match bdom i with None => [i] | Some _ => [] end | _ => [] end) l.
(* optimize_constraints.cpp:268-284; [lt] is < on the addresses of the declarations *)
Variable lt : ident -> ident -> bool.
Fixpoint merge_common (p : list ident) : list ident -> bool :=
  fix go (n : list ident) : bool :=
    match p, n with
    | a :: p', b :: n' =>
        if ident_eqb a b then true
        else if lt a b then merge_common p' n else go n'
    | _, _ => false
    end.
Definition o_clause (pos neg : list barg) : status fcon :=
  if merge_common (vsort (unfixed pos)) (vsort (unfixed neg)) then SEntailed else SOk.

(* optimize_constraints.cpp:291-315 o_forall; [subsumed] is the loop variable *)
Fixpoint forall_loop (l : list barg) (subsumed : bool) : status fcon :=
  match l with
  | [] => if subsumed then SEntailed else SOk
  | BLit b :: l' => if b then forall_loop l' subsumed else SFailed
  | BId i :: l' =>
      match bdom i with
      | Some false => SFailed
      | Some true => forall_loop l' subsumed
      | None => forall_loop l' false
      end
  | BExp _ :: l' => forall_loop l' false
  end.
Definition o_forall (l : list barg) : status fcon := forall_loop l true.

(* optimize_constraints.cpp:317-341 o_exists *)
Fixpoint exists_loop (l : list barg) (failed : bool) : status fcon :=
  match l with
  | [] => if failed then SFailed else SOk
  | BLit b :: l' => if b then SEntailed else exists_loop l' failed
  | BId i :: l' =>
      match bdom i with
      | Some true => SEntailed
      | Some false => exists_loop l' failed
      | None => exists_loop l' false
      end
  | BExp _ :: l' => exists_loop l' false
  end.
Definition o_exists (l : list barg) : status fcon := exists_loop l true.

(* optimize_constraints.cpp:343-362 o_not *)
Definition o_not (e0 e1 : barg) : status fcon :=
  match e0, e1 with
  | BLit a, BLit b => if Bool.eqb a b then SFailed else SEntailed
  | _, BLit b => SRewrite (FBoolEq e0 (BLit (negb b)))
  | BLit a, _ => SRewrite (FBoolEq e1 (BLit (negb a)))
  | _, _ => SOk
  end.

(* optimize_constraints.cpp:364-375 o_div *)
Definition o_div (a b r : term) : res (status fcon) :=
  match a, b, r with
  | TLit x, TLit y, TLit z => do q <- iv_div x y; Ok (if iv_eq q z then SEntailed else SFailed)
  | _, _, _ => Ok SOk
  end.

(* optimize_constraints.cpp:377-413 o_times: the result, if it is known *)
Definition times_result (a b : term) : res (option term) :=
  match a, b with
  | TLit x, TLit y => do p <- iv_mul x y; Ok (Some (TLit p))
  | TLit x, _ => Ok (if iv_eq x (ofZ 0) then Some (TLit (ofZ 0)) else if iv_eq x (ofZ 1) then Some b else None)
  | _, TLit y =>
      let r := if iv_eq y (ofZ 0) then Some (TLit (ofZ 0)) else None in
      Ok (if iv_eq y (ofZ 1) then Some a else r)
  | _, _ => Ok None
  end.
Definition o_times (a b r : term) : res (status fcon) :=
  do o <- times_result a b;
  Ok (match o with Some t => SRewrite (FIntEq r t) | None => SOk end).
Definition o_times_fn (a b : term) : res (status fexp) :=
  do o <- times_result a b;
  Ok (match o with Some t => SRewrite (XTerm t) | None => SOk end).

(* optimize_constraints.cpp:415-452 o_set_in *)
Definition o_set_in (a : term) (s : iset) : res (status fcon) :=
  match a with
  | TLit v => Ok (if set_contains s v then SEntailed else SFailed)
  | TId i =>
      match dom i with
      | Some d => if set_subset d s then Ok SEntailed else if set_disjoint d s then Ok SFailed else Ok SOk
      | None =>
          do mn <- set_min s; do mx <- set_max s;
          if iv_eq mn mx then Ok (SRewrite (FIntEq a (TLit mn))) else Ok SOk
      end
  | TExp _ => Ok SOk
  end.

(* optimize_constraints.cpp:454-480 o_int_ne *)
Definition o_int_ne (a b : term) : res (status fcon) :=
  match a, b with
  | TLit x, TLit y => Ok (if iv_ne x y then SEntailed else SFailed)
  | _, _ =>
      let '(e0, e1) := match b with TId _ => (b, a) | _ => (a, b) end in
      match e0, e1 with
      | TId i, TLit v =>
          match dom i with
          | Some s =>
              if negb (set_contains s v) then Ok SEntailed
              else
                do mn <- set_min s; do mx <- set_max s;
                if iv_eq v mn && iv_eq v mx then Ok SFailed else Ok SOk
          | None => Ok SOk
          end
      | _, _ => Ok SOk
      end
  end.

(* optimize_constraints.cpp:482-519 o_int_le *)
Definition o_int_le (a b : term) : res (status fcon) :=
  match a, b with
  | TLit x, TLit y => Ok (if iv_le x y then SEntailed else SFailed)
  | _, _ =>
      let '(e0, e1, swapped) := match b with TId _ => (b, a, true) | _ => (a, b, false) end in
      match e0, e1 with
      | TId i, TLit v =>
          match dom i with
          | Some s =>
              do mx <- set_max s; do mn <- set_min s;
              if swapped : bool then
                if iv_le v mn then Ok SEntailed else if iv_gt v mx then Ok SFailed else Ok SOk
              else
                if iv_le mx v then Ok SEntailed else if iv_gt mn v then Ok SFailed else Ok SOk
          | None => Ok SOk
          end
      | _, _ => Ok SOk
      end
  end.

(* optimize_constraints.cpp:22-30 OptimizeRegistry::process with the registrations of 521-553 *)
Definition process (toplevel : bool) (c : fcon) : res (status fcon) :=
  match c with
  | FLin k cs xs d => o_linear toplevel k cs xs d
  | FIntEq _ _ | FBoolEq _ _ => Ok SOk (* CS_NONE *)
  | FIntLe a b => o_int_le a b
  | FIntNe a b => o_int_ne a b
  | FDiv a b r => o_div a b r
  | FTimes a b r => o_times a b r
  | FElement i l r => o_element i l r
  | FSetIn a s => o_set_in a s
  | FClause p n => Ok (o_clause p n)
  | FForall l => Ok (o_forall l)
  | FExists l => Ok (o_exists l)
  | FNot a b => Ok (o_not a b)
  end.
Definition process_exp (e : fexp) : res (status fexp) :=
  match e with
  | XLin c x d => o_lin_exp c x d
  | XTimes a b => o_times_fn a b
  | XTerm _ => Ok SOk
  end.
End Opt.
