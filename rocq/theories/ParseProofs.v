(** The parser reads the tokens of a readable expression as that expression. *)
Require Import ZArith List Bool String Lia ZifyBool.
From Verif Require Import Base IntValModel IntValSpec IntValProofs StrModel LexModel LexSpec LexProofs LexProofs2 LexProofs3 LexProofs4 ParseModel ParseSpec.
Import ListNotations.
Open Scope Z_scope.

(** ** Induction over expressions *)
Section Induct.
  Variable P : ex -> Prop.
  Hypothesis HInt : forall v, P (EInt v).
  Hypothesis HBool : forall b, P (EBool b).
  Hypothesis HStr : forall s, P (EStr s).
  Hypothesis HId : forall s, P (EId s).
  Hypothesis HSet : forall l u, P (ESet l u).
  Hypothesis HBin : forall o a b, P a -> P b -> P (EBin o a b).
  Hypothesis HUn : forall o a, P a -> P (EUn o a).
  Hypothesis HCall : forall f args, Forall P args -> P (ECall f args).
  Hypothesis HArr : forall l, Forall P l -> P (EArr l).
  Hypothesis HAcc : forall a idx, P a -> Forall P idx -> P (EAcc a idx).
  Hypothesis HIte : forall bs els, Forall (fun x => P (fst x) /\ P (snd x)) bs -> (forall e, els = Some e -> P e) -> P (EIte bs els).
  Fixpoint ex_induct (e : ex) : P e.
  Proof.
    assert (L : forall l, Forall P l) by (fix L 1; intros [|x l]; [constructor|constructor; [apply ex_induct|apply L]]).
    destruct e.
    - apply HInt.
    - apply HBool.
    - apply HStr.
    - apply HId.
    - apply HSet.
    - apply HBin; apply ex_induct.
    - apply HUn; apply ex_induct.
    - apply HCall. clear -L args. exact (L args).
    - apply HArr. exact (L l).
    - apply HAcc; [apply ex_induct|exact (L idx)].
    - apply HIte.
      + revert bs. fix M 1. intros [|[x y] bs]; [constructor|constructor; [split; apply ex_induct|apply M]].
      + destruct els as [e|]; intros e' E; [|discriminate]. injection E as <-. apply ex_induct.
  Qed.
End Induct.

(** ** The tokens of the printed form *)
Definition op_sym (o : bot) : string :=
  match o with
  | OPlus => "MZN_PLUS" | OMinus => "MZN_MINUS" | OMult => "MZN_MULT" | OPow => "MZN_POW" | ODiv => "MZN_DIV" | OIdiv => "MZN_IDIV" | OMod => "MZN_MOD"
  | OLe => "MZN_LE" | OLq => "MZN_LQ" | OGr => "MZN_GR" | OGq => "MZN_GQ" | OEq => "MZN_EQ" | ONq => "MZN_NQ" | OIn => "MZN_IN"
  | OSubset => "MZN_SUBSET" | OSuperset => "MZN_SUPERSET" | OUnion => "MZN_UNION" | ODiff => "MZN_DIFF" | OSymdiff => "MZN_SYMDIFF"
  | OIntersect => "MZN_INTERSECT" | OPlusplus => "MZN_PLUSPLUS" | OEquiv => "MZN_EQUIV" | OImpl => "MZN_IMPL" | ORimpl => "MZN_RIMPL"
  | OOr => "MZN_OR" | OAnd => "MZN_AND" | OXor => "MZN_XOR" | ODotdot => "MZN_DOTDOT"
  end.
Definition un_sym (o : uot) : string := match o with UNot => "MZN_NOT" | UPlus => "MZN_PLUS" | UMinus => "MZN_MINUS" end.
Definition t_open := TChar 40.
Definition t_close := TChar 41.
Definition t_comma := TChar 44.
Definition t_lb := TSym "MZN_LEFT_BRACKET".
Definition t_rb := TSym "MZN_RIGHT_BRACKET".
Definition abs_tok (n : Z) : token := if n <=? LLONG_MAX then TInt n else TSym "MZN_MAX_NEGATIVE_INTEGER_LITERAL".
Definition int_toks (v : IntVal) : list token :=
  if isMinusInfinity v then [TSym "MZN_MINUS"; TSym "MZN_INFINITY"] else if isPlusInfinity v then [TSym "MZN_INFINITY"]
  else if iv_v v <? 0 then [TSym "MZN_MINUS"; abs_tok (- iv_v v)] else [TInt (iv_v v)].
Definition tparen (b : bool) (l : list token) : list token := if b then t_open :: l ++ [t_close] else l.
Fixpoint toks (e : ex) : list token :=
  match e with
  | EInt v => int_toks v
  | EBool b => [TBool b]
  | EStr s => [TString s]
  | EId s => [TIdent s]
  | ESet l u => int_toks l ++ TSym "MZN_DOTDOT" :: int_toks u
  | EBin o a b =>
      if inverse o b then tparen (paren_left o a) (toks a) ++ [TSym "MZN_POW_MINUS1"]
      else tparen (paren_left o a) (toks a) ++ TSym (op_sym o) :: tparen (paren_right o b) (toks b)
  | EUn o a => TSym (un_sym o) :: tparen (paren_un a) (toks a)
  | ECall f args =>
      match args with
      | [x; y] => if str_eqb f k_default then tparen true (tparen true (toks x) ++ TSym "MZN_DEFAULT" :: tparen true (toks y))
                  else TIdent f :: t_open :: toks x ++ t_comma :: toks y ++ [t_close]
      | _ => TIdent f :: t_open :: sep [t_comma] (map toks args) ++ [t_close]
      end
  | EArr l => t_lb :: sep [t_comma] (map toks l) ++ [t_rb]
  | EAcc a idx => tparen (paren_acc a) (toks a) ++ t_lb :: sep [t_comma] (map toks idx) ++ [t_rb]
  | EIte bs els =>
      TSym "MZN_IF" :: sep [TSym "MZN_ELSEIF"] (map (fun x => toks (fst x) ++ TSym "MZN_THEN" :: toks (snd x)) bs) ++
      match els with Some e' => TSym "MZN_ELSE" :: toks e' | None => [] end ++ [TSym "MZN_ENDIF"]
  end.

(** ** Reducing *)
Definition shifts (r : nat) (l : list nat) : Prop := Forall (fun l => decide r (Some l) = Shift) l.
Definition opens (F : list frame) (l : list nat) : Prop :=
  match F with FBin _ r _ :: _ => shifts r l | FUn o :: _ => shifts (un_level o) l | _ => True end.
Definition reduces (r : list nat) (l : option nat) : Prop := Forall (fun r => decide r l = Reduce) r.
Definition bracket (F : list frame) : Prop := match F with FBin _ _ _ :: _ | FUn _ :: _ => False | _ => True end.
Lemma opens_bracket F l : bracket F -> opens F l.
Proof. destruct F as [|[] F]; cbn; tauto. Qed.
Lemma opens_app F a b : opens F (a ++ b) <-> opens F a /\ opens F b.
Proof. unfold opens, shifts. destruct F as [|[] F]; try tauto; apply Forall_app. Qed.
Lemma opens_nil F : opens F [].
Proof. destruct F as [|[] F]; cbn; try exact I; constructor. Qed.
Lemma reduce_stop F e l : opens F [l] -> reduce F e (Some l) = Ok (F, e).
Proof. destruct F as [|[] F]; cbn [opens reduce]; intros H; try reflexivity; inversion H as [|? ? E _]; subst; rewrite E; reflexivity. Qed.
Lemma reduce_bracket F e l : bracket F -> reduce F e l = Ok (F, e).
Proof. destruct F as [|[] F]; cbn; tauto. Qed.
Lemma reduces_none l : reduces l None.
Proof. apply Forall_forall. reflexivity. Qed.

(** ** Steps *)
Lemma parse_cons F m t k : parse F m (t :: k) = do ' (F', m') <- step F m t; parse F' m' k.
Proof. reflexivity. Qed.
Lemma have_op o F x kd : have F x kd (TSym (op_sym o)) = do ' (F', e') <- reduce F x (Some (bot_level o)); Ok (FBin (IOp o) (bot_level o) e' :: F', Need).
Proof. destruct o; reflexivity. Qed.
Lemma need_un o F : need F (TSym (un_sym o)) = Ok (FUn o :: F, Need).
Proof. destruct o; reflexivity. Qed.
Definition ahead (k : list token) : Prop := match k with TChar 40 :: _ => False | _ => True end.
Lemma parse_name F s k : ahead k -> parse F (Name s) k = parse F (Have (EId s) KAtom) k.
Proof.
  destruct k as [|t k]; [reflexivity|]. intros H. cbn [parse]. f_equal. cbn [step]. destruct t; try reflexivity.
  destruct c as [|p|p]; try reflexivity. do 6 (try (destruct p as [p|p|]; try reflexivity)). contradiction.
Qed.

(** what reading an expression comes to: some started rules and a last expression, which end as the whole expression *)
Definition here (e : ex) : bool := match e with EBin _ _ _ => false | _ => invertible e end.
Definition reads (e : ex) : Prop := forall F k, opens F (lefts e) -> ahead k ->
  exists Q x kd, parse F Need (toks e ++ k) = parse (Q ++ F) (Have x kd) k /\
    (forall l, reduces (rights e) l -> reduce (Q ++ F) x l = reduce F e l) /\
    (here e = true -> Q = [] /\ x = e /\ (kd = KLit \/ kd = KAtom)) /\
    (paren_acc e = false -> Q = [] /\ x = e /\ kd = match e with ECall f args => if is_default f args then KAtom else KCall | _ => KAtom end).

Lemma reads_closed e : reads e -> forall F k, bracket F -> ahead k -> exists Q x kd, parse F Need (toks e ++ k) = parse (Q ++ F) (Have x kd) k /\ reduce (Q ++ F) x None = Ok (F, e).
Proof.
  intros R F k HF Hk. destruct (R F k (opens_bracket _ _ HF) Hk) as (Q & x & kd & E & H & _). exists Q, x, kd. split; [exact E|].
  rewrite (H None (reduces_none _)). apply reduce_bracket. exact HF.
Qed.
Lemma reads_paren e F k : reads e -> parse F Need (tparen true (toks e) ++ k) = parse F (Have e KAtom) k.
Proof.
  intros R. unfold tparen. cbn [app]. rewrite parse_cons. cbn [step need t_open bind]. rewrite <- app_assoc. cbn [app].
  destruct (reads_closed e R (FParen :: F) (t_close :: k)) as (Q & x & kd & E & H); [exact I|exact I|]. rewrite E, parse_cons. cbn [step have t_close]. rewrite H. reflexivity.
Qed.

Lemma iv_neg_abs n : 0 <= n <= LLONG_MAX -> iv_neg (ofZ n) = Ok (ofZ (- n)).
Proof. intros H. unfold iv_neg. assert (safeMinus 0 n = Ok (- n)) as E; [|cbn [ofZ iv_v iv_inf]; rewrite E; reflexivity]. unfold safeMinus. change (0 <? 0) with false. cbv iota. rewrite ll_ok by (unfold fits64, LLONG_MAX, LLONG_MIN in *; lia). cbn [bind]. destruct (n <? _) eqn:X; [unfold LLONG_MAX in *; lia|]. rewrite ll_ok by (unfold fits64, LLONG_MAX, LLONG_MIN in *; lia). reflexivity. Qed.
Lemma step_need_int F n k : 0 <= n <= LLONG_MAX -> parse F Need (TInt n :: k) = parse F (Have (EInt (ofZ n)) KLit) k.
Proof. reflexivity. Qed.

(** ** Leaves *)
Lemma int_cases v : int_ok v -> (exists n, v = ofZ n /\ 0 <= n <= LLONG_MAX) \/ (exists n, v = ofZ (- n) /\ 0 < n <= LLONG_MAX) \/ v = ofZ LLONG_MIN \/ v = iv_infinity \/ v = mkIV (-1) true.
Proof.
  intros [(Hi & H)|[->| ->]]; [|tauto|tauto]. destruct v as [n i]. cbn [iv_inf iv_v] in *. subst i. unfold ofZ. destruct (Z_lt_le_dec n 0) as [L|L].
  - destruct (Z.eq_dec n LLONG_MIN) as [->|N]; [tauto|]. right. left. exists (- n). split; [f_equal; lia|]. unfold LLONG_MIN, LLONG_MAX in *. lia.
  - left. exists n. split; [reflexivity|lia].
Qed.
Lemma reads_int_gen v : int_ok v -> forall F k,
  exists Q x kd, parse F Need (int_toks v ++ k) = parse (Q ++ F) (Have x kd) k /\
    (forall l, reduces (if neg_lit v then [un_level UMinus] else []) l -> reduce (Q ++ F) x l = reduce F (EInt v) l) /\
    (0 <= iv_v v -> Q = [] /\ x = EInt v /\ kd = KLit).
Proof.
  intros H F k. destruct (int_cases v H) as [(n & -> & Hn)|[(n & -> & Hn)|[->|[->| ->]]]].
  - exists [], (EInt (ofZ n)), KLit. unfold int_toks, isMinusInfinity, isPlusInfinity. cbn [ofZ iv_inf iv_v andb]. destruct (n <? 0) eqn:E; [lia|]. split; [reflexivity|]. split; [intros; reflexivity|auto].
  - exists [FUn UMinus], (EInt (ofZ n)), KLit. unfold int_toks, isMinusInfinity, isPlusInfinity. cbn [ofZ iv_inf iv_v andb]. destruct (- n <? 0) eqn:E; [|lia]. rewrite Z.opp_involutive. unfold abs_tok. destruct (n <=? LLONG_MAX) eqn:E2; [|lia].
    split; [reflexivity|]. split; [|lia]. intros l R. unfold neg_lit in R. cbn [ofZ iv_v iv_inf negb andb] in R. rewrite E in R. destruct (- n =? LLONG_MIN) eqn:E3; [unfold LLONG_MIN, LLONG_MAX in *; lia|]. cbn [negb andb] in R. inversion R as [|? ? R1 _]; subst.
    cbn [app reduce un_level] in *. rewrite R1. cbn [act_un]. fold (ofZ n). rewrite iv_neg_abs by lia. reflexivity.
  - exists [], (EInt (ofZ LLONG_MIN)), KDone. split; [reflexivity|]. split; [intros; reflexivity|]. cbn. unfold LLONG_MIN. lia.
  - exists [], (EInt iv_infinity), KLit. split; [reflexivity|]. split; [intros; reflexivity|auto].
  - exists [FUn UMinus], (EInt iv_infinity), KLit. split; [reflexivity|]. split; [|cbn; lia]. intros l R. cbn in R. inversion R as [|? ? R1 _]; subst. cbn [app reduce un_level] in *. rewrite R1. reflexivity.
Qed.
Lemma reads_int v : int_ok v -> reads (EInt v).
Proof.
  intros H F k _ _. destruct (reads_int_gen v H F k) as (Q & x & kd & E & R & Z0). exists Q, x, kd. split; [exact E|]. split; [exact R|]. split; [|discriminate].
  cbn [here invertible]. intros L. apply Z.leb_le in L. destruct (Z0 L) as (-> & -> & ->). auto.
Qed.
Lemma reduces_app a b l : reduces (a ++ b) l <-> reduces a l /\ reduces b l.
Proof. apply Forall_app. Qed.
Lemma reads_set l u : int_ok l -> int_ok u -> reads (ESet l u).
Proof.
  intros Hl Hu F k Ho Hk. cbn [toks lefts] in *. rewrite <- app_assoc. cbn [app].
  destruct (reads_int_gen l Hl F (TSym "MZN_DOTDOT" :: int_toks u ++ k)) as (Q & x & kd & -> & R & _). rewrite parse_cons. cbn [step].
  change (TSym "MZN_DOTDOT") with (TSym (op_sym ODotdot)). rewrite have_op, R, reduce_stop.
  - cbn [bind]. destruct (reads_int_gen u Hu (FBin (IOp ODotdot) (bot_level ODotdot) (EInt l) :: F) k) as (Q2 & x2 & kd2 & -> & R2 & _).
    exists (Q2 ++ [FBin (IOp ODotdot) (bot_level ODotdot) (EInt l)]), x2, kd2. rewrite <- app_assoc. split; [reflexivity|]. split; [|split; discriminate].
    cbn [rights]. intros lk H. apply reduces_app in H as [H1 H2]. cbn [app]. rewrite R2 by exact H1. cbn [reduce bot_level] in *. inversion H2 as [|? ? H3 _]; subst. rewrite H3. reflexivity.
  - exact Ho.
  - destruct (neg_lit l); repeat constructor.
Qed.

(** an operand, in parentheses or not *)
Lemma reads_operand b e F k : reads e -> (b = false -> opens F (lefts e)) -> ahead k ->
  exists Q x kd, parse F Need (tparen b (toks e) ++ k) = parse (Q ++ F) (Have x kd) k /\ (forall l, reduces (if b then [] else rights e) l -> reduce (Q ++ F) x l = reduce F e l).
Proof.
  intros R Ho Hk. destruct b.
  - exists [], e, KAtom. split; [apply reads_paren; exact R|]. reflexivity.
  - destruct (R F k (Ho eq_refl) Hk) as (Q & x & kd & E & H & _). exists Q, x, kd. split; [exact E|exact H].
Qed.
Lemma reads_bin o a b : reads a -> reads b -> inverse o b = false -> left_closes o a -> right_opens o b -> (o = ODotdot -> ~ (is_lit a /\ is_lit b)) -> reads (EBin o a b).
Proof.
  intros Ra Rb Hi Hl Hr Hd F k Ho Hk. cbn [toks lefts rights here paren_acc] in *. rewrite Hi in *. apply opens_app in Ho as [Ho1 Ho2]. rewrite <- app_assoc. cbn [app].
  destruct (reads_operand (paren_left o a) a F (TSym (op_sym o) :: tparen (paren_right o b) (toks b) ++ k) Ra) as (Q & x & kd & -> & R); [intros E; rewrite E in Ho1; exact Ho1|exact I|].
  rewrite parse_cons. cbn [step]. rewrite have_op, R, reduce_stop; [|exact Ho2|].
  2:{ destruct (paren_left o a) eqn:E; [constructor|]. destruct Hl as [Hl|Hl]; [congruence|exact Hl]. }
  cbn [bind]. destruct (reads_operand (paren_right o b) b (FBin (IOp o) (bot_level o) a :: F) k Rb) as (Q2 & x2 & kd2 & -> & R2); [|exact Hk|].
  { intros E. destruct Hr as [Hr|Hr]; [congruence|exact Hr]. }
  exists (Q2 ++ [FBin (IOp o) (bot_level o) a]), x2, kd2. rewrite <- app_assoc. split; [reflexivity|]. split; [|split; discriminate].
  intros lk H. apply reduces_app in H as [H1 H2]. cbn [app]. rewrite R2 by exact H1. cbn [reduce]. inversion H2 as [|? ? H3 _]; subst. rewrite H3. f_equal.
  destruct o; try reflexivity. specialize (Hd eq_refl). cbn [act_bin]. destruct a; try reflexivity. destruct b; try reflexivity. cbn [is_lit] in Hd. tauto.
Qed.
Lemma reads_un o a : reads a -> paren_un a = true \/ shifts (un_level o) (lefts a) -> (o <> UNot -> ~ is_lit a) -> reads (EUn o a).
Proof.
  intros Ra Hs Hd F k Ho Hk. cbn [toks lefts rights here paren_acc invertible] in *. cbn [app]. rewrite parse_cons. cbn [step]. rewrite need_un. cbn [bind].
  destruct (reads_operand (paren_un a) a (FUn o :: F) k Ra) as (Q & x & kd & -> & R); [|exact Hk|].
  { intros E. destruct Hs as [Hs|Hs]; [congruence|exact Hs]. }
  exists (Q ++ [FUn o]), x, kd. rewrite <- app_assoc. split; [reflexivity|]. split; [|split; discriminate].
  intros lk H. apply reduces_app in H as [H1 H2]. cbn [app]. rewrite R by exact H1. cbn [reduce]. inversion H2 as [|? ? H3 _]; subst. rewrite H3.
  assert (E : act_un o a = Ok (EUn o a)) by (destruct o; [reflexivity| |]; specialize (Hd ltac:(discriminate)); destruct a; try reflexivity; cbn [is_lit] in Hd; tauto).
  rewrite E. reflexivity.
Qed.
Lemma reads_inv a : reads a -> invertible a = true -> reads (EBin OPow a (EInt iv_minus1)).
Proof.
  intros Ra Hi F k Ho Hk. cbn [toks lefts rights here paren_acc inverse is_pow is_m1 iv_minus1 ofZ iv_inf iv_v negb andb Z.eqb] in *. cbn in Ho.
  assert (E : exists kd, parse F Need (tparen (paren_left OPow a) (toks a) ++ TSym "MZN_POW_MINUS1" :: k) = parse F (Have a kd) (TSym "MZN_POW_MINUS1" :: k) /\ (kd = KLit \/ kd = KAtom)).
  { destruct (paren_left OPow a) eqn:Ep; [exists KAtom; split; [apply reads_paren; exact Ra|tauto]|].
    assert (Hh : here a = true) by (destruct a; cbn [here]; try exact Hi; cbn [invertible] in Hi; congruence).
    assert (Ho' : opens F (lefts a)) by (destruct a; try apply opens_nil; cbn [here invertible] in Hh; discriminate).
    destruct (Ra F (TSym "MZN_POW_MINUS1" :: k) Ho' I) as (Q & x & kd & E & _ & H & _). destruct (H Hh) as (-> & -> & Hkd). exists kd. split; [exact E|exact Hkd]. }
  destruct E as (kd & E & Hkd). exists [], (EBin OPow a (EInt iv_minus1)), KDone. split; [|split; [reflexivity|split; discriminate]].
  change ((1 =? 1)%positive) with true. cbv iota. rewrite <- app_assoc. cbn [app]. rewrite E, parse_cons. destruct Hkd as [-> | ->]; reflexivity.
Qed.

(** ** Lists *)
Definition closes (b : brackets) : token := match b with BCall _ => t_close | _ => t_rb end.
Lemma sep_cons {A} (c : list A) x y l : sep c (x :: y :: l) = x ++ c ++ sep c (y :: l).
Proof. reflexivity. Qed.
Lemma have_close F b acc e Q x kd : reduce (Q ++ FList b acc :: F) x None = Ok (FList b acc :: F, e) -> have (Q ++ FList b acc :: F) x kd (closes b) = Ok (F, finish_list b (rev (e :: acc))).
Proof. intros H. destruct b; cbn [closes have t_close t_rb]; rewrite H; reflexivity. Qed.
Lemma reads_list b F k : forall l acc, l <> [] -> Forall reads l -> parse (FList b acc :: F) Need (sep [t_comma] (map toks l) ++ closes b :: k) = parse F (finish_list b (rev acc ++ l)) k.
Proof.
  induction l as [|e l IH]; intros acc Hl HF; [congruence|]. inversion HF as [|? ? He Hl']; subst. destruct l as [|e2 l].
  - cbn [map sep]. destruct (reads_closed e He (FList b acc :: F) (closes b :: k)) as (Q & x & kd & -> & R); [exact I|destruct b; exact I|].
    rewrite parse_cons. cbn [step]. rewrite (have_close _ _ _ _ _ _ _ R). reflexivity.
  - cbn [map]. rewrite sep_cons, <- app_assoc, <- app_assoc. cbn [app]. destruct (reads_closed e He (FList b acc :: F) (t_comma :: sep [t_comma] (map toks (e2 :: l)) ++ closes b :: k)) as (Q & x & kd & E & R); [exact I|exact I|].
    cbn [map] in E. rewrite E, parse_cons. cbn [step have t_comma]. rewrite R. cbn [bind]. specialize (IH (e :: acc) ltac:(discriminate) Hl'). cbn [map] in IH. rewrite IH. cbn [rev]. rewrite <- app_assoc. reflexivity.
Qed.
Lemma reads_id s : reads (EId s).
Proof.
  intros F k _ Hk. exists [], (EId s), KAtom. split; [|split; [reflexivity|split; intros; auto]]. cbn [toks app]. rewrite parse_cons. cbn [step need bind]. apply parse_name. exact Hk.
Qed.
Lemma reads_call f args : Forall reads args -> reads (ECall f args).
Proof.
  intros HF F k _ Hk. exists [], (ECall f args), (if is_default f args then KAtom else KCall). cbn [app]. split.
  2:{ split; [reflexivity|]. cbn [here invertible paren_acc]. split; [intros ->; auto|auto]. }
  assert (G : parse F Need ((TIdent f :: t_open :: sep [t_comma] (map toks args) ++ [t_close]) ++ k) = parse F (Have (ECall f args) KCall) k).
  { cbn [app]. rewrite parse_cons. cbn [step need bind]. rewrite parse_cons. cbn [step t_open bind]. rewrite <- app_assoc. cbn [app].
    destruct args as [|x l]; [reflexivity|]. change t_close with (closes (BCall f)). rewrite reads_list; [reflexivity|discriminate|exact HF]. }
  destruct args as [|x [|y [|z l]]]; try exact G. cbn [toks is_default]. destruct (str_eqb f k_default) eqn:E.
  - inversion HF as [|? ? Hx HF']; subst. inversion HF' as [|? ? Hy _]; subst.
    change (tparen true (tparen true (toks x) ++ TSym "MZN_DEFAULT" :: tparen true (toks y)) ++ k) with (t_open :: ((tparen true (toks x) ++ TSym "MZN_DEFAULT" :: tparen true (toks y)) ++ [t_close]) ++ k).
    rewrite <- !app_assoc. rewrite parse_cons. cbn [step need t_open bind]. rewrite reads_paren by exact Hx. cbn [app]. rewrite parse_cons. cbn [step].
    change (have (FParen :: F) x KAtom (TSym "MZN_DEFAULT")) with (Ok (FBin (IFun (txt "default")) lev_default x :: FParen :: F, Need)). cbn [bind].
    change (tparen true (toks y) ++ [t_close] ++ k) with (tparen true (toks y) ++ t_close :: k).
    rewrite reads_paren by exact Hy. rewrite parse_cons. cbn [step have t_close reduce decide bind act_bin].
    apply str_eqb_ok in E. rewrite E. reflexivity.
  - cbn [map sep app] in G. cbn [app]. repeat (rewrite <- app_assoc; cbn [app]). repeat (rewrite <- app_assoc in G; cbn [app] in G). exact G.
Qed.
Lemma reads_arr l : Forall reads l -> reads (EArr l).
Proof.
  intros HF F k _ Hk. exists [], (EArr l), KAtom. split; [|split; [reflexivity|split; intros; auto]]. cbn [toks app]. rewrite parse_cons. cbn [step need t_lb bind]. rewrite <- app_assoc. cbn [app].
  destruct l as [|x l]; [reflexivity|]. change t_rb with (closes BArr). rewrite reads_list; [reflexivity|discriminate|exact HF].
Qed.
Lemma reads_acc a idx : reads a -> idx <> [] -> Forall reads idx -> reads (EAcc a idx).
Proof.
  intros Ra Hn HF F k _ Hk.
  set (c := match a with ECall f args => negb (is_default f args) | _ => false end).
  assert (E : parse F Need (tparen (paren_acc a) (toks a) ++ t_lb :: sep [t_comma] (map toks idx) ++ t_rb :: k) = parse (FList (BAcc a c) [] :: F) Need (sep [t_comma] (map toks idx) ++ t_rb :: k)).
  { destruct (paren_acc a) eqn:Ep.
    - rewrite reads_paren by exact Ra. rewrite parse_cons. assert (c = false) as -> by (destruct a; try reflexivity; discriminate). reflexivity.
    - assert (Ho : opens F (lefts a)) by (destruct a; try apply opens_nil; discriminate).
      destruct (Ra F (t_lb :: sep [t_comma] (map toks idx) ++ t_rb :: k) Ho I) as (Q & x & kd & E & _ & _ & H). destruct (H Ep) as (-> & -> & ->). cbn [tparen]. rewrite E, parse_cons.
      destruct a; try discriminate; try reflexivity. subst c. destruct (is_default f args); reflexivity. }
  exists [], (EAcc a idx), (if c then KCall else KAtom). cbn [toks app]. split.
  - rewrite <- app_assoc. cbn [app]. rewrite <- app_assoc. cbn [app]. rewrite E. change t_rb with (closes (BAcc a c)). rewrite reads_list by assumption. reflexivity.
  - split; [reflexivity|]. split; [|discriminate]. cbn [here invertible]. intros Hi. split; [reflexivity|]. split; [reflexivity|]. right. subst c. destruct a; try reflexivity. rewrite Hi. reflexivity.
Qed.
Lemma reads_branches F k els : (forall e, els = Some e -> reads e) -> forall bs d, bs <> [] -> Forall (fun x => reads (fst x) /\ reads (snd x)) bs ->
  parse (FIf d :: F) Need (sep [TSym "MZN_ELSEIF"] (map (fun x => toks (fst x) ++ TSym "MZN_THEN" :: toks (snd x)) bs) ++
      match els with Some e' => TSym "MZN_ELSE" :: toks e' | None => [] end ++ TSym "MZN_ENDIF" :: k) = parse F (Have (EIte (d ++ bs) els) KAtom) k.
Proof.
  intros He. induction bs as [|[c t] bs IH]; intros d Hn HF; [congruence|]. inversion HF as [|? ? [Hc Ht] HF']; subst. cbn [fst snd] in *.
  assert (T : forall k', ahead k' -> exists Q x kd, parse (FIf d :: F) Need ((toks c ++ TSym "MZN_THEN" :: toks t) ++ k') = parse (Q ++ FThen d c :: F) (Have x kd) k' /\ reduce (Q ++ FThen d c :: F) x None = Ok (FThen d c :: F, t)).
  { intros k' Hk'. rewrite <- app_assoc. cbn [app]. destruct (reads_closed c Hc (FIf d :: F) (TSym "MZN_THEN" :: toks t ++ k')) as (Q & x & kd & E & R); [exact I|exact I|].
    rewrite E, parse_cons. cbn [step have]. rewrite R. cbn [bind]. apply reads_closed; [exact Ht|exact I|exact Hk']. }
  destruct bs as [|b2 bs].
  - cbn [map sep fst snd]. destruct els as [e|].
    + cbn [app]. destruct (T (TSym "MZN_ELSE" :: toks e ++ TSym "MZN_ENDIF" :: k) I) as (Q & x & kd & -> & R). rewrite parse_cons. cbn [step have]. rewrite R. cbn [bind].
      destruct (reads_closed e (He e eq_refl) (FElse (d ++ [(c, t)]) :: F) (TSym "MZN_ENDIF" :: k)) as (Q2 & x2 & kd2 & -> & R2); [exact I|exact I|]. rewrite parse_cons. cbn [step have]. rewrite R2. reflexivity.
    + cbn [app]. destruct (T (TSym "MZN_ENDIF" :: k) I) as (Q & x & kd & -> & R). rewrite parse_cons. cbn [step have]. rewrite R. reflexivity.
  - cbn [map]. rewrite sep_cons. cbn [fst snd]. rewrite <- app_assoc. set (tl := ([TSym "MZN_ELSEIF"] ++ _) ++ _). assert (tl = TSym "MZN_ELSEIF" :: tail tl) as -> by reflexivity. destruct (T (TSym "MZN_ELSEIF" :: tail tl) I) as (Q & x & kd & -> & R). rewrite parse_cons. cbn [step have]. rewrite R. cbn [bind].
    specialize (IH (d ++ [(c, t)]) ltac:(discriminate) HF'). rewrite <- app_assoc in IH. cbn [app] in IH. rewrite <- IH. subst tl. reflexivity.
Qed.
Lemma reads_ite bs els : bs <> [] -> Forall (fun x => reads (fst x) /\ reads (snd x)) bs -> (forall e, els = Some e -> reads e) -> reads (EIte bs els).
Proof.
  intros Hn HF He F k _ Hk. exists [], (EIte bs els), KAtom. split; [|split; [reflexivity|split; [auto|discriminate]]]. cbn [toks app]. rewrite parse_cons. cbn [step need bind].
  repeat rewrite <- app_assoc. cbn [app]. apply (reads_branches F k els He bs []); assumption.
Qed.

Lemma inverse_clash o b : no_clash o b -> inverse o b = false.
Proof.
  intros [_ H]. destruct o; try reflexivity. specialize (H eq_refl). destruct b as [v| | | | | | | | | |]; try reflexivity. cbn [inverse is_pow is_m1 andb]. destruct v as [n i]. cbn [iv_inf iv_v]. destruct i; [reflexivity|].
  destruct (n =? -1) eqn:E; [|reflexivity]. apply Z.eqb_eq in E. subst n. exfalso. apply H. reflexivity.
Qed.
Lemma Forall_mp {A} (P Q : A -> Prop) l : Forall (fun x => P x -> Q x) l -> Forall P l -> Forall Q l.
Proof. induction 1; intros H'; inversion H'; subst; constructor; auto. Qed.
Lemma readable_reads e : readable e -> reads e.
Proof.
  induction e using ex_induct; intros HR; inversion HR; subst.
  - apply reads_int. assumption.
  - intros F k _ _. exists [], (EBool b), KLit. split; [reflexivity|]. split; [reflexivity|]. split; [auto|discriminate].
  - intros F k _ _. exists [], (EStr s), KDone. split; [reflexivity|]. split; [reflexivity|]. split; discriminate.
  - apply reads_id.
  - apply reads_set; assumption.
  - apply reads_inv; auto.
  - apply reads_bin; auto. apply inverse_clash. assumption.
  - apply reads_un; auto.
  - apply reads_call. eapply Forall_mp; eassumption.
  - apply reads_arr. eapply Forall_mp; eassumption.
  - apply reads_acc; auto. eapply Forall_mp; eassumption.
  - apply reads_ite; [assumption| |].
    + eapply Forall_mp; [|eassumption]. eapply Forall_impl; [|exact H]. cbv beta. tauto.
    + intros e E. auto.
Qed.
Lemma parse_toks e : readable e -> parse [] Need (toks e) = Ok e.
Proof.
  intros H. destruct (reads_closed e (readable_reads e H) [] [] I I) as (Q & x & kd & E & R). rewrite app_nil_r in E. rewrite E. cbn [parse]. rewrite R. reflexivity.
Qed.
