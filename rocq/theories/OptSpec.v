(** Independent specification of FlatZinc constraints. *)
Require Import ZArith List.
From Verif Require Import Base IntValModel IntValSpec SetModel SetSpec LinModel LinSpec DoubleSpec OptModel.
Import ListNotations.
Open Scope Z_scope.

(** values of the Boolean variables *)
Record bvaluation : Type := { bvid : ident -> bool; bvexp : Z -> bool }.
Definition bval (t : bvaluation) (b : barg) : bool :=
  match b with BLit v => v | BId i => bvid t i | BExp r => bvexp t r end.

(** what a constraint says about an assignment *)
Definition sat (s : valuation) (t : bvaluation) (c : fcon) : Prop :=
  match c with
  | FLin k cs xs d =>
      let v := dot (map iv_v cs) (map (tval s) xs) in
      match k with LinLe => v <= iv_v d | LinEq => v = iv_v d | LinNe => v <> iv_v d end
  | FIntEq a b => tval s a = tval s b
  | FIntLe a b => tval s a <= tval s b
  | FIntNe a b => tval s a <> tval s b
  | FDiv a b r => tval s b <> 0 /\ Z.quot (tval s a) (tval s b) = tval s r
  | FTimes a b r => tval s a * tval s b = tval s r
  | FElement i l r =>
      exists n e, tval s i = Z.of_nat n + 1 /\ nth_error l n = Some e /\ tval s e = tval s r
  | FSetIn a d => elem (tval s a) d
  | FClause pos neg => (exists b, In b pos /\ bval t b = true) \/ (exists b, In b neg /\ bval t b = false)
  | FForall l => forall b, In b l -> bval t b = true
  | FExists l => exists b, In b l /\ bval t b = true
  | FNot a b => bval t a <> bval t b
  | FBoolEq a b => bval t a = bval t b
  end.
Definition exp_value (s : valuation) (e : fexp) : Z :=
  match e with
  | XLin c x d => lin_value s c x d
  | XTimes a b => tval s a * tval s b
  | XTerm u => tval s u
  end.

(** literals are finite integers, sets are in normal form and arrays have matching lengths *)
Definition con_ok (c : fcon) : Prop :=
  match c with
  | FLin _ cs xs d => Forall fin cs /\ Forall fin_term xs /\ fin d /\ length cs = length xs
  | FIntEq a b | FIntLe a b | FIntNe a b => fin_term a /\ fin_term b
  | FDiv a b r | FTimes a b r => fin_term a /\ fin_term b /\ fin_term r
  | FElement i l r => fin_term i /\ Forall fin_term l /\ fin_term r /\ fits64 (Z.of_nat (length l))
  | FSetIn a s => fin_term a /\ nf s
  | _ => True
  end.
Definition exp_ok (e : fexp) : Prop :=
  match e with
  | XLin c x d => Forall fin c /\ Forall fin_term x /\ fin d /\ length c = length x
  | XTimes a b => fin_term a /\ fin_term b
  | XTerm u => fin_term u
  end.

(** the assignment respects the Boolean domains *)
Definition in_bdomains (t : bvaluation) (bdom : ident -> option bool) : Prop :=
  forall i b, bdom i = Some b -> bvid t i = b.

(** what each classification must mean for every assignment within the domains *)
Definition right_status (s : valuation) (t : bvaluation) (c : fcon) (st : status fcon) : Prop :=
  match st with
  | SOk => True
  | SFailed => ~ sat s t c
  | SEntailed => sat s t c
  | SRewrite c' => sat s t c' <-> sat s t c
  end.

(** a rounded quotient of doubles, used only on operands that doubles represent exactly *)
Definition guard53 (f : Z -> Z -> res Z) (a b : Z) : res Z :=
  if andb (Z.abs a <? 2 ^ 53) (Z.abs b <? 2 ^ 53) then f a b else Err ArithmeticError.
