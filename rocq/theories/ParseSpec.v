(** Specification for C36 and C39: the expressions whose printed form is read back. *)
Require Import ZArith List Bool String.
From Verif Require Import Base IntValModel StrModel LexModel LexSpec ParseModel.
Import ListNotations.
Open Scope Z_scope.

(** ** Leaves *)
(** a 64-bit integer, or one of the infinities *)
Definition int_ok (v : IntVal) : Prop := (iv_inf v = false /\ LLONG_MIN <= iv_v v <= LLONG_MAX) \/ v = mkIV 1 true \/ v = mkIV (-1) true.
(** see C37 and C38 for what is left out *)
Definition str_ok (s : str) : Prop := is_bytes s /\ ~ In 0 s /\ ~ In 13 s.
Definition name_ok (s : str) : Prop := admitted s /\ s <> txt "infinity" /\ s <> txt "variant_record" /\ s <> txt "_".
Definition is_lit (e : ex) : Prop := match e with EInt _ => True | _ => False end.

(** ** The plain expressions: no ^, ++ or intersect, no unary plus, no literal ranges next to arithmetic, and nothing that the parser folds *)
Definition plain_op (o : bot) : Prop := o <> OPow /\ o <> OPlusplus /\ o <> OIntersect.
Definition is_range (e : ex) : Prop := match e with ESet _ _ => True | _ => False end.
(** the operators that bind more loosely than .. *)
Definition loose (o : bot) : Prop := o <> ODotdot /\ o <> OPlus /\ o <> OMinus /\ o <> OMult /\ o <> ODiv /\ o <> OIdiv /\ o <> OMod.
Inductive plain : ex -> Prop :=
| P_int v : int_ok v -> plain (EInt v)
| P_bool b : plain (EBool b)
| P_str s : str_ok s -> plain (EStr s)
| P_id s : name_ok s -> plain (EId s)
| P_set l u : int_ok l -> int_ok u -> iv_lt u l = false -> plain (ESet l u)
| P_bin o a b : plain a -> plain b -> plain_op o -> (is_range a \/ is_range b -> loose o) -> (o = ODotdot -> ~ (is_lit a /\ is_lit b)) -> plain (EBin o a b)
| P_not a : plain a -> ~ is_range a -> plain (EUn UNot a)
| P_minus a : plain a -> ~ is_range a -> ~ is_lit a -> plain (EUn UMinus a)
| P_call f args : name_ok f -> Forall plain args -> plain (ECall f args)
| P_arr l : Forall plain l -> plain (EArr l)
| P_acc a idx : plain a -> idx <> [] -> Forall plain idx -> plain (EAcc a idx)
| P_ite bs els : bs <> [] -> Forall (fun x => plain (fst x) /\ plain (snd x)) bs -> (forall e, els = Some e -> plain e) -> plain (EIte bs els).

(** ** All the expressions that are read back *)
(** the precedences, in the grammar, of the infix operators on the left edge of the printed form, and of the rules that end with it, the
    innermost first *)
Definition neg_lit (v : IntVal) : bool := (iv_v v <? 0) && negb (negb (iv_inf v) && (iv_v v =? LLONG_MIN)).
Definition is_m1 (e : ex) : bool := match e with EInt v => negb (iv_inf v) && (iv_v v =? -1) | _ => false end.
Definition is_pow (o : bot) : bool := match o with OPow => true | _ => false end.
(** x^-1 is one token after x *)
Definition inverse (o : bot) (b : ex) : bool := is_pow o && is_m1 b.
Fixpoint lefts (e : ex) : list nat :=
  match e with
  | EBin o a b => if inverse o b then [] else (if paren_left o a then [] else lefts a) ++ [bot_level o]
  | ESet _ _ => [bot_level ODotdot]
  | _ => []
  end.
Fixpoint rights (e : ex) : list nat :=
  match e with
  | EInt v => if neg_lit v then [un_level UMinus] else []
  | EBin o a b => if inverse o b then [] else (if paren_right o b then [] else rights b) ++ [bot_level o]
  | ESet _ u => (if neg_lit u then [un_level UMinus] else []) ++ [bot_level ODotdot]
  | EUn o a => (if paren_un a then [] else rights a) ++ [un_level o]
  | _ => []
  end.
(** the grammar ends every rule that the left operand leaves open before it goes on with the operator *)
Definition left_closes (o : bot) (a : ex) : Prop :=
  paren_left o a = true \/ Forall (fun r => decide r (Some (bot_level o)) = Reduce) (rights a).
(** and takes the operators of the right operand into it *)
Definition right_opens (o : bot) (b : ex) : Prop :=
  paren_right o b = true \/ Forall (fun l => decide (bot_level o) (Some l) = Shift) (lefts b).
(** no other token starts with the operator *)
Definition no_clash (o : bot) (b : ex) : Prop :=
  let r := paren (paren_right o b) (print b) in (o = OPlus -> firstn 1 r <> txt "+") /\ (o = OPow -> firstn 2 r <> txt "-1").
(** the expressions after which the token ^-1 is read as the power: neither strings, calls, accesses to calls, nor what needs parentheses and
    does not get them *)
Definition is_default (f : str) (args : list ex) : bool := match args with [_; _] => str_eqb f k_default | _ => false end.
Definition invertible (a : ex) : bool :=
  match a with
  | EInt v => 0 <=? iv_v v
  | EBool _ | EId _ | EArr _ | EIte _ _ => true
  | ECall f args => is_default f args
  | EAcc (ECall f args) _ => is_default f args
  | EAcc _ _ => true
  | EBin _ _ _ => paren_left OPow a
  | EStr _ | ESet _ _ | EUn _ _ => false
  end.
Inductive readable : ex -> Prop :=
| R_int v : int_ok v -> readable (EInt v)
| R_bool b : readable (EBool b)
| R_str s : str_ok s -> readable (EStr s)
| R_id s : name_ok s -> readable (EId s)
| R_set l u : int_ok l -> int_ok u -> iv_lt u l = false -> readable (ESet l u)
| R_inv a : readable a -> invertible a = true -> readable (EBin OPow a (EInt iv_minus1))
| R_bin o a b : readable a -> readable b -> left_closes o a -> right_opens o b -> no_clash o b -> (o = ODotdot -> ~ (is_lit a /\ is_lit b)) -> readable (EBin o a b)
| R_un o a : readable a -> paren_un a = true \/ Forall (fun l => decide (un_level o) (Some l) = Shift) (lefts a) -> (o <> UNot -> ~ is_lit a) -> readable (EUn o a)
| R_call f args : name_ok f -> Forall readable args -> readable (ECall f args)
| R_arr l : Forall readable l -> readable (EArr l)
| R_acc a idx : readable a -> idx <> [] -> Forall readable idx -> readable (EAcc a idx)
| R_ite bs els : bs <> [] -> Forall (fun x => readable (fst x) /\ readable (snd x)) bs -> (forall e, els = Some e -> readable e) -> readable (EIte bs els).
