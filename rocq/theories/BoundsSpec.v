(** Independent specification of the values of expressions, for the bounds computation. *)
Require Import ZArith List Bool.
From Verif Require Import Base IntValModel IntValSpec SetModel SetSpec BoundsModel.
Import ListNotations.
Open Scope Z_scope.

(** values of the variables (false is 0, true is 1) and of the elements of arrays without right hand side *)
Record asg : Type := mkAsg { a_var : Z -> Z; a_arr : Z -> list Z -> Z }.

Definition in_dmn (d : option dmn) (v : Z) : Prop :=
  match d with
  | None => True
  | Some (DBool b) => v = if b then 1 else 0
  | Some (DSet s) => elem v s
  end.
Definition in_dom (d : option iset) (v : Z) : Prop := match d with None => True | Some s => elem v s end.
Fixpoint dot (cs vs : list Z) : Z :=
  match cs, vs with c :: cs, v :: vs => c * v + dot cs vs | _, _ => 0 end.

(** [ev s e v]: under the assignment s the expression e is defined, all variables in it respect their declarations, and its
    value is v.  The values of sol(x) come from another assignment. *)
Inductive ev (s : asg) : ex -> Z -> Prop :=
| ev_int : forall t i v, is_int i v -> ev s (EPar t (PInt i)) v
| ev_bool : forall t b, ev s (EPar t (PBool b)) (if b then 1 else 0)
| ev_id : forall x isb dom rhs, (isb = true -> a_var s x = 0 \/ a_var s x = 1) -> in_dmn dom (a_var s x) ->
    (forall e, rhs = Some e -> ev s e (a_var s x)) -> ev s (EId x isb dom rhs) (a_var s x)
| ev_else : forall els v, ev s els v -> ev s (EIte [] els) v
| ev_then : forall e bs els v, ev s e v -> ev s (EIte ((CPar (Some true), e) :: bs) els) v
| ev_skip : forall e bs els v, ev s (EIte bs els) v -> ev s (EIte ((CPar (Some false), e) :: bs) els) v
| ev_var_then : forall e bs els v, ev s e v -> ev s (EIte ((CVar, e) :: bs) els) v
| ev_var_skip : forall e bs els v, ev s (EIte bs els) v -> ev s (EIte ((CVar, e) :: bs) els) v
| ev_acc_var : forall idx x dom is, Forall2 (ev s) idx is -> in_dom dom (a_arr s x is) ->
    ev s (EAcc idx (Some x) None dom) (a_arr s x is)
| ev_acc : forall idx x t dom is e v, Forall2 (ev s) idx is -> In (is, e) t -> ev s e v -> in_dom dom v ->
    ev s (EAcc idx x (Some t) dom) v
| ev_plus : forall a b x y, ev s a x -> ev s b y -> ev s (EBin BPlus a b) (x + y)
| ev_minus : forall a b x y, ev s a x -> ev s b y -> ev s (EBin BMinus a b) (x - y)
| ev_mult : forall a b x y, ev s a x -> ev s b y -> ev s (EBin BMult a b) (x * y)
| ev_div : forall a b x y, ev s a x -> ev s b y -> y <> 0 -> ev s (EBin BIDiv a b) (Z.quot x y)
| ev_mod : forall a b x y, ev s a x -> ev s b y -> y <> 0 -> ev s (EBin BMod a b) (Z.rem x y)
| ev_pow : forall a b x y, ev s a x -> ev s b y -> 0 <= y -> ev s (EBin BPow a b) (x ^ y)
| ev_uplus : forall a x, ev s a x -> ev s (EUn UPlus a) x
| ev_uminus : forall a x, ev s a x -> ev s (EUn UMinus a) (- x)
| ev_lin : forall cs l d vs, Forall2 (ev s) l vs -> length cs = length l -> ev s (ELin cs (Some l) d) (dot cs vs + d)
| ev_lin_any : forall cs d v, ev s (ELin cs None d) v
| ev_sum : forall l vs, Forall2 (ev s) l vs -> ev s (ESum (Some l)) (fold_right Z.add 0 vs)
| ev_sum_any : forall v, ev s (ESum None) v
| ev_times : forall a b x y, ev s a x -> ev s b y -> ev s (ETimes a b) (x * y)
| ev_b2i : forall a x, ev s a x -> x = 0 \/ x = 1 -> ev s (EBool2Int a) x
| ev_abs : forall a x, ev s a x -> ev s (EAbs a) (Z.abs x)
| ev_uniform : forall lo hi l h v, ev s lo l -> ev s hi h -> l <= v <= h -> ev s (EUniform lo hi) v
| ev_sol : forall s' a x, ev s' a x -> ev s (ESol a) x
| ev_call : forall args dom v, elem v dom -> ev s (ECallDom args dom) v
| ev_boolx : forall v, v = 0 \/ v = 1 -> ev s EBoolX v
| ev_any : forall l v, ev s (EInvalid l) v.

(** well-formed expressions: operands of type int or bool, sets in normal form, integers of 64 bit, one element per index tuple *)
Definition nf_opt (d : option iset) : Prop := match d with None => True | Some s => nf s end.
Definition scalar (e : ex) : Prop := typ e = TyInt \/ typ e = TyBool.
Inductive wfe : ex -> Prop :=
| w_par : forall t v, (forall i, v = PInt i -> exists z, is_int i z) -> wfe (EPar t v)
| w_id : forall x isb dom rhs, (forall s, dom = Some (DSet s) -> nf s) -> (forall e, rhs = Some e -> wfe e /\ scalar e) -> wfe (EId x isb dom rhs)
| w_ite : forall bs els, Forall (fun p => wfe (snd p) /\ scalar (snd p)) bs -> wfe els -> scalar els -> wfe (EIte bs els)
| w_acc : forall idx x elems dom, Forall (fun e => wfe e /\ scalar e) idx ->
    (forall t, elems = Some t -> NoDup (map fst t) /\ Forall (fun p => wfe (snd p) /\ scalar (snd p)) t) -> nf_opt dom -> wfe (EAcc idx x elems dom)
| w_bin : forall op a b, wfe a -> wfe b -> scalar a -> scalar b -> wfe (EBin op a b)
| w_un : forall op a, wfe a -> scalar a -> wfe (EUn op a)
| w_lin : forall cs al d, Forall fits64 cs -> fits64 d -> (forall l, al = Some l -> Forall (fun e => wfe e /\ scalar e) l) -> wfe (ELin cs al d)
| w_sum : forall al, (forall l, al = Some l -> Forall (fun e => wfe e /\ scalar e) l) -> wfe (ESum al)
| w_times : forall a b, wfe a -> wfe b -> scalar a -> scalar b -> wfe (ETimes a b)
| w_b2i : forall a, wfe a -> scalar a -> wfe (EBool2Int a)
| w_abs : forall a, wfe a -> scalar a -> wfe (EAbs a)
| w_uniform : forall v1 v2, wfe (EPar TyInt v1) -> wfe (EPar TyInt v2) -> wfe (EUniform (EPar TyInt v1) (EPar TyInt v2))
| w_sol : forall a, wfe a -> scalar a -> wfe (ESol a)
| w_call : forall args dom, Forall wfe args -> nf dom -> wfe (ECallDom args dom)
| w_boolx : wfe EBoolX
| w_invalid : forall l, wfe (EInvalid l)
| w_other : forall t, t = TyArr \/ t = TyOther -> wfe (EOther t).

(** The expressions for which the computation is right: no mod; a divisor whose bounds do not have 0 strictly inside and a
    dividend whose bounds do not end in 0; no Boolean arguments in calls of functions that declare a domain. *)
Inductive regular : ex -> Prop :=
| g_par : forall t v, regular (EPar t v)
| g_id : forall x isb dom rhs, (forall e, rhs = Some e -> regular e) -> regular (EId x isb dom rhs)
| g_ite : forall bs els, Forall (fun p => regular (snd p)) bs -> regular els -> regular (EIte bs els)
| g_acc : forall idx x elems dom, Forall regular idx -> (forall t, elems = Some t -> Forall (fun p => regular (snd p)) t) -> regular (EAcc idx x elems dom)
| g_bin : forall op a b, op <> BMod -> op <> BIDiv -> regular a -> regular b -> regular (EBin op a b)
| g_div : forall a b l0 u0 l1 u1, regular a -> regular b ->
    compute_int_bounds a = Ok (ofZ l0, ofZ u0, true) -> compute_int_bounds b = Ok (ofZ l1, ofZ u1, true) ->
    l0 <> 0 -> u0 <> 0 -> 0 <= l1 \/ u1 <= 0 -> regular (EBin BIDiv a b)
| g_un : forall op a, regular a -> regular (EUn op a)
| g_lin : forall cs al d, (forall l, al = Some l -> Forall regular l) -> regular (ELin cs al d)
| g_sum : forall al, (forall l, al = Some l -> Forall regular l) -> regular (ESum al)
| g_times : forall a b, regular a -> regular b -> regular (ETimes a b)
| g_b2i : forall a, regular a -> regular (EBool2Int a)
| g_abs : forall a, regular a -> regular (EAbs a)
| g_uniform : forall a b, regular a -> regular b -> regular (EUniform a b)
| g_sol : forall a, regular a -> regular (ESol a)
| g_call : forall args dom, Forall regular args -> Forall (fun e => typ e <> TyBool) args -> regular (ECallDom args dom)
| g_boolx : regular EBoolX
| g_invalid : forall l, regular (EInvalid l)
| g_other : forall t, regular (EOther t).

(** values of set variables and of the elements of arrays of sets *)
Record sasg : Type := mkSA { sa_int : asg; sa_set : Z -> Z -> Prop; sa_arr : Z -> list Z -> Z -> Prop }.
Definition sub_dom (V : Z -> Prop) (d : option iset) : Prop := match d with None => True | Some s => forall z, V z -> elem z s end.
Definition sop_val (op : sop) (A B : Z -> Prop) (z : Z) : Prop :=
  match op with
  | SUnion => A z \/ B z
  | SInter => A z /\ B z
  | SDiff => A z /\ ~ B z
  | SSymDiff => (A z /\ ~ B z) \/ (B z /\ ~ A z)
  end.
(** [sev s e V]: the value of the set expression is the set V *)
Inductive sev (s : sasg) : sx -> (Z -> Prop) -> Prop :=
| sev_par : forall v, sev s (SPar (Some v)) (fun z => elem z v)
| sev_id : forall x dom rhs, sub_dom (sa_set s x) dom -> (forall e, rhs = Some e -> sev s e (sa_set s x)) -> sev s (SId x dom rhs) (sa_set s x)
| sev_lit : forall l vs, Forall2 (ev (sa_int s)) l vs -> sev s (SLit l) (fun z => In z vs)
| sev_range : forall l u a b, ev (sa_int s) l a -> ev (sa_int s) u b -> sev s (SRange l u) (fun z => a <= z <= b)
| sev_bin : forall op a b A B, sev s a A -> sev s b B -> sev s (SBin op a b) (sop_val op A B)
| sev_call : forall op a b A B, sev s a A -> sev s b B -> sev s (SCall op a b) (sop_val op A B)
| sev_calldom : forall args dom V, sub_dom V (Some dom) -> sev s (SCallDom args dom) V
| sev_acc_var : forall x is dom idx, (forall js, idx = Some js -> js = is) -> sub_dom (sa_arr s x is) dom ->
    sev s (SAcc (Some x) idx None dom) (sa_arr s x is)
| sev_acc : forall x idx t dom is e V, (forall js, idx = Some js -> js = is) -> In (is, e) t -> sev s e V -> sub_dom V dom ->
    sev s (SAcc x idx (Some t) dom) V
| sev_any : forall l V, sev s (SInvalid l) V
| sev_field : forall V, sev s SField V.
Inductive wfs : sx -> Prop :=
| ws_par : forall v, nf_opt v -> wfs (SPar v)
| ws_id : forall x dom rhs, nf_opt dom -> (forall e, rhs = Some e -> wfs e) -> wfs (SId x dom rhs)
| ws_lit : forall l, Forall (fun e => wfe e /\ regular e /\ scalar e) l -> wfs (SLit l)
| ws_range : forall l u, wfe l -> regular l -> wfe u -> regular u -> scalar l -> scalar u -> wfs (SRange l u)
| ws_bin : forall op a b, wfs a -> wfs b -> wfs (SBin op a b)
| ws_call : forall op a b, wfs a -> wfs b -> wfs (SCall op a b)
| ws_calldom : forall args dom, Forall wfs args -> nf dom -> wfs (SCallDom args dom)
| ws_acc : forall x idx elems dom, (forall t, elems = Some t -> NoDup (map fst t) /\ Forall (fun p => wfs (snd p)) t) -> nf_opt dom -> wfs (SAcc x idx elems dom)
| ws_any : forall l, Forall wfs l -> wfs (SInvalid l).
