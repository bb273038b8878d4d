(** Model of the optimiser of flat models, restricted to Boolean variables: lib/optimize.cpp.

    What is left out: variables of other types; arguments given by the name of an array (every array argument
    is a literal); annotations; the chain compression (phase 5, see ChainModel and LeModel); the constraints
    handled by the registry of optimisers other than forall, exists and clause (see OptModel); bool2int.
    Any other constraint is [EOther], which the modelled code leaves alone.
    The two queues are sets: the code takes their elements in the order of arrival, the model in any order.
    The list deletedVarDecls only says which variables phase 6 tries to remove: the model lets it try any. *)
From Coq Require Import List Bool Arith Lia.
Import ListNotations.

(** An argument of a constraint: a literal or the name of a variable. *)
Inductive arg : Type := Lit (b : bool) | Ident (x : nat).

(** Right hand sides and constraints.  [EClause p n]: some p is true or some n is false. *)
Inductive expr : Type :=
| ELit (b : bool)
| EId (x : nat)
| EForall (l : list arg)
| EExists (l : list arg)
| EClause (p n : list arg)
| EEq (a b : arg)
| EOther (f : nat) (l : list arg).

(** A declaration "var dom: v = rhs" (ast.hh VarDecl, TypeInst): [computed] is the flag of ast.hh:1628,
    [vgone] that of Item::remove. *)
Record decl : Type := mkD { dom : option bool; computed : bool; rhs : option expr; vgone : bool }.

(** Items: the declaration of a variable, a constraint, the solve item. *)
Inductive item : Type := IV (v : nat) | IC (c : nat) | IS.

Definition item_eq_dec (i j : item) : {i = j} + {i <> j}.
Proof. decide equality; apply Nat.eq_dec. Defined.

(** The right hand side of an output variable in the output model. *)
Inductive outv : Type := OVar | OFix (b : bool) | OAlias (w : nat).

(** [cons c] is the constraint of item [c], None once it is removed.  [rd x] is the declaration the name [x]
    leads to (Id::redirect, Id::decl).  [occ] is EnvI::varOccurrences.itemMap.
    [vq], [cq] are the queues of variables and of constraints (optimize.cpp:483-486). *)
Record state : Type := mkS {
  decls : nat -> decl;
  cons : nat -> option expr;
  rd : nat -> nat;
  occ : nat -> list item;
  out : nat -> outv;
  vq : list nat;
  cq : list item
}.

Definition upd {A : Type} (f : nat -> A) (k : nat) (a : A) : nat -> A :=
  fun n => if n =? k then a else f n.

Definition with_decls (s : state) d := mkS d (cons s) (rd s) (occ s) (out s) (vq s) (cq s).
Definition with_cons (s : state) c := mkS (decls s) c (rd s) (occ s) (out s) (vq s) (cq s).
Definition with_rd (s : state) r := mkS (decls s) (cons s) r (occ s) (out s) (vq s) (cq s).
Definition with_occ (s : state) o := mkS (decls s) (cons s) (rd s) o (out s) (vq s) (cq s).
Definition with_out (s : state) o := mkS (decls s) (cons s) (rd s) (occ s) o (vq s) (cq s).
Definition with_vq (s : state) q := mkS (decls s) (cons s) (rd s) (occ s) (out s) q (cq s).
Definition with_cq (s : state) q := mkS (decls s) (cons s) (rd s) (occ s) (out s) (vq s) q.

Definition dm (s : state) (v : nat) : option bool := dom (decls s v).
Definition rh (s : state) (v : nat) : option expr := rhs (decls s v).
Definition gone (s : state) (v : nat) : bool := vgone (decls s v).
Definition cmp (s : state) (v : nat) : bool := computed (decls s v).

(** vd->ti()->domain(boollit(b)) *)
Definition set_dom (s : state) (v : nat) (b : bool) : state :=
  let d := decls s v in with_decls s (upd (decls s) v (mkD (Some b) (computed d) (rhs d) (vgone d))).
(** vd->ti()->setComputedDomain(b) *)
Definition set_computed (s : state) (v : nat) (b : bool) : state :=
  let d := decls s v in with_decls s (upd (decls s) v (mkD (dom d) b (rhs d) (vgone d))).
(** vd->e(e) *)
Definition set_rhs (s : state) (v : nat) (e : option expr) : state :=
  let d := decls s v in with_decls s (upd (decls s) v (mkD (dom d) (computed d) e (vgone d))).
(** vdi->remove() *)
Definition set_gone (s : state) (v : nat) : state :=
  let d := decls s v in with_decls s (upd (decls s) v (mkD (dom d) (computed d) (rhs d) true)).
(** ci->remove() *)
Definition drop_con (s : state) (c : nat) : state := with_cons s (upd (cons s) c None).

(** The names in an expression. *)
Definition arg_ids (a : arg) : list nat := match a with Lit _ => [] | Ident x => [x] end.
Definition args_ids (l : list arg) : list nat := flat_map arg_ids l.
Definition ids (e : expr) : list nat :=
  match e with
  | ELit _ => []
  | EId x => [x]
  | EForall l | EExists l | EOther _ l => args_ids l
  | EClause p n => args_ids p ++ args_ids n
  | EEq a b => arg_ids a ++ arg_ids b
  end.

Definition is_call (e : expr) : bool := match e with ELit _ | EId _ => false | _ => true end.

(** optimize.cpp:40-48 VarOccurrences::add and 50-55 remove; the set is a list. *)
Definition occ_add (i : item) (s : state) (x : nat) : state :=
  let v := rd s x in
  if in_dec item_eq_dec i (occ s v) then s else with_occ s (upd (occ s) v (i :: occ s v)).
Definition occ_del (i : item) (s : state) (x : nat) : state :=
  let v := rd s x in with_occ s (upd (occ s) v (remove item_eq_dec i (occ s v))).

(** optimize.cpp:128-140 CollectOccurrencesE on every name of [e] *)
Definition collect_occ (s : state) (i : item) (e : expr) : state := fold_left (occ_add i) (ids e) s.
(** optimize.cpp:162-176 CollectDecls on every name of [e] (without the list of deleted variables) *)
Definition collect_decls (s : state) (i : item) (e : expr) : state := fold_left (occ_del i) (ids e) s.

(** optimize.cpp:403-411 push_vardecl; the flag of an item says that it is in the queue. *)
Definition push_var (s : state) (v : nat) : state :=
  if gone s v then s else if in_dec Nat.eq_dec v (vq s) then s else with_vq s (vq s ++ [v]).
(** vardeclQueue.push_back *)
Definition append_var (s : state) (v : nat) : state := with_vq s (vq s ++ [v]).
Definition push_item (s : state) (i : item) : state :=
  if in_dec item_eq_dec i (cq s) then s else with_cq s (cq s ++ [i]).

(** optimize.cpp:413-433 push_dependent_constraints: one item *)
Definition push_dep1 (s : state) (i : item) : state :=
  match i with
  | IC c => match cons s c with Some _ => push_item s (IC c) | None => s end
  | IV w =>
      let v := rd s w in
      if gone s v then s
      else match rh s v with Some _ => push_item s (IV v) | None => s end
  | IS => s
  end.
Definition push_dep (s : state) (x : nat) : state := fold_left push_dep1 (occ s (rd s x)) s.

Section Optimise.
(** The variables with annotation output_var (optimize.cpp:177-193 is_output). *)
Variable output : nat -> bool.

(** optimize.cpp:243-389 unify.  The result None is EnvI::fail, which empties the model and throws. *)
Definition alias_of (s : state) (v v0 v1 : nat) : bool :=
  match rh s v with
  | Some (EId z) => (rd s z =? v0) || (rd s z =? v1)
  | _ => false
  end.
Definition unify_rhs (s : state) (v0 v1 : nat) : state :=
  (* 249-257: an alias from id0 to id1 is dropped *)
  let s := if alias_of s v0 v0 v1 then set_rhs s v0 None else s in
  (* 258-271: the right hand side moves to id1 *)
  let s := match rh s v0 with
           | Some e => collect_decls (set_rhs (set_rhs (collect_occ s (IV v1) e) v1 (Some e)) v0 None) (IV v0) e
           | None => s
           end in
  (* 272-292: an alias from id1 to id0 is dropped *)
  if alias_of s v1 v0 v1
  then match rh s v1 with
       | Some e => collect_decls (set_rhs s v1 None) (IV v1) e
       | None => s
       end
  else s.
(** 293-361, Boolean case: the intersection of the domains *)
Definition unify_dom (s : state) (v0 v1 : nat) : option state :=
  match dm s v0 with
  | None => Some s
  | Some b0 =>
      match dm s v1 with
      | None => Some (set_dom s v1 b0)
      | Some b1 => if Bool.eqb b0 b1 then Some s else None
      end
  end.
(** 363-375: both variables are output variables *)
Definition unify_out (s : state) (v0 v1 : nat) : state :=
  if output v0
  then match out s v0 with OVar => with_out s (upd (out s) v0 (OAlias v1)) | _ => s end
  else s.
(** 63-91 VarOccurrences::unify *)
Definition unify_redirect (s : state) (v0 v1 : nat) : state :=
  let s := set_gone s v0 in
  let o0 := occ s v0 in
  let s := with_occ s (upd (upd (occ s) v1 (o0 ++ occ s v1)) v0 []) in
  with_rd s (fun x => if rd s x =? v0 then v1 else rd s x).
Definition unify (s : state) (x y : nat) : option state :=
  let a := rd s x in
  let b := rd s y in
  if a =? b then Some s
  else
    let v0 := if output a then b else a in
    let v1 := if output a then a else b in
    match unify_dom (unify_rhs s v0 v1) v0 v1 with
    | None => None
    | Some s => Some (unify_redirect (unify_out s v0 v1) v0 v1)
    end.

Definition is_none {A : Type} (o : option A) : bool := match o with None => true | Some _ => false end.

(** ** Phase 1 (optimize.cpp:507-708) *)
Record p1state : Type := mkP1 { st : state; to_assign : list nat; to_remove : list nat; bools : list item }.

(** 609-624: the conjuncts of a conjunction, last one first *)
Fixpoint conjuncts (s : state) (l : list arg) (acc : list nat) : option (list nat) :=
  match l with
  | [] => Some acc
  | Lit _ :: l => conjuncts s l acc
  | Ident x :: l =>
      match dm s (rd s x) with
      | None => conjuncts s l (acc ++ [rd s x])
      | Some true => conjuncts s l acc
      | Some false => None
      end
  end.

(** 521-571, 609-642: one constraint *)
Definition phase1_con (p : p1state) (c : nat) : option p1state :=
  let s := st p in
  match cons s c with
  | Some (EEq (Ident x) (Ident y) as e) =>
      if is_none (rh s (rd s x)) || is_none (rh s (rd s y))
      then match unify s x y with
           | None => None
           | Some s =>
               let s := push_dep (push_var s (rd s x)) x in
               Some (mkP1 (drop_con (collect_decls s (IC c) e) c) (to_assign p) (to_remove p) (bools p))
           end
      else Some p
  | Some (EEq (Ident x) (Lit _)) | Some (EEq (Lit _) (Ident x)) =>
      if is_none (rh s (rd s x))
      then Some (mkP1 (push_dep (push_var s (rd s x)) x) (to_assign p) (to_remove p) (bools p))
      else Some p
  | Some (EForall l) =>
      match conjuncts s (rev l) [] with
      | None => None
      | Some a => Some (mkP1 s (to_assign p ++ a) (to_remove p ++ [c]) (bools p))
      end
  | Some (EExists _) | Some (EClause _ _) => Some (mkP1 s (to_assign p) (to_remove p) (bools p ++ [IC c]))
  | Some (EId x) =>
      match dm s (rd s x) with
      | Some false => None
      | Some true => Some (mkP1 s (to_assign p) (to_remove p ++ [c]) (bools p))
      | None => Some (mkP1 s (to_assign p ++ [rd s x]) (to_remove p ++ [c]) (bools p))
      end
  | _ => Some p
  end.

(** 643-675: one declaration; 645-660 *)
Definition phase1_alias (s : state) (v : nat) : option state :=
  match rh s v with
  | Some (EId x) =>
      match unify (set_rhs s v None) v x with
      | None => None
      | Some s => Some (push_dep s x)
      end
  | _ => Some s
  end.
Definition is_bool_call (e : expr) : bool :=
  match e with EForall _ | EExists _ | EClause _ _ => true | _ => false end.
Definition phase1_var (p : p1state) (v : nat) : option p1state :=
  if gone (st p) v then Some p
  else
    match phase1_alias (st p) v with
    | None => None
    | Some s =>
        let fixed := negb (is_none (dm s v)) ||
                     match rh s v with Some (ELit _) => true | _ => false end in
        let s := if fixed then push_dep (push_var s v) v else s in
        let bs := match rh s v with
                  | Some e => if is_bool_call e then bools p ++ [IV v] else bools p
                  | None => bools p
                  end in
        Some (mkP1 s (to_assign p) (to_remove p) bs)
    end.
Definition phase1_item (p : p1state) (i : item) : option p1state :=
  match i with
  | IC c => phase1_con p c
  | IV v => phase1_var p v
  | IS => Some p
  end.
Fixpoint phase1 (p : p1state) (l : list item) : option p1state :=
  match l with
  | [] => Some p
  | i :: l => match phase1_item p i with None => None | Some p => phase1 p l end
  end.

(** ** Phase 2 (optimize.cpp:710-845) *)
Definition item_expr (s : state) (i : item) : option expr :=
  match i with
  | IC c => cons s c
  | IV v => if gone s v then None else rh s v
  | IS => None
  end.

(** The arguments of a Boolean constraint, with a mark on those of the second array *)
Definition call_args (e : expr) : list (arg * bool) :=
  match e with
  | EForall l | EExists l => map (fun a => (a, false)) l
  | EClause p n => map (fun a => (a, false)) p ++ map (fun a => (a, true)) n
  | _ => []
  end.
Definition conjunctive (e : expr) : bool := match e with EForall _ => true | _ => false end.
(** 739: bool unit = (j == 0 ? isConjunction : !isConjunction) *)
Definition unit_of (e : expr) (neg : bool) : bool := if neg then negb (conjunctive e) else conjunctive e.

(** 742-768: a fixed argument *)
Definition p2_value (s : state) (a : arg) : option bool :=
  match a with
  | Lit b => Some b
  | Ident x =>
      match dm s (rd s x) with
      | Some b => Some b
      | None => match rh s (rd s x) with Some (ELit b) => Some b | _ => None end
      end
  end.
Definition p2_subsumes (s : state) (e : expr) (a : arg * bool) : bool :=
  match p2_value s (fst a) with
  | Some b => negb (Bool.eqb b (unit_of e (snd a)))
  | None => false
  end.
Definition p2_open (s : state) (e : expr) : list (arg * bool) :=
  filter (fun a => is_none (p2_value s (fst a))) (call_args e).
Definition open_decls (s : state) (neg : bool) (l : list (arg * bool)) : list nat :=
  flat_map (fun a => if Bool.eqb (snd a) neg then map (rd s) (arg_ids (fst a)) else []) l.
(** 770-789: a variable on both sides; the code sorts and merges the addresses *)
Definition common (p n : list nat) : bool := existsb (fun v => existsb (Nat.eqb v) n) p.
Definition p2_subsumed (s : state) (e : expr) : bool :=
  existsb (p2_subsumes s e) (call_args e) ||
  common (open_decls s false (p2_open s e)) (open_decls s true (p2_open s e)).

(** 802-808, 822-828 *)
Definition p2_fix_item (s : state) (v : nat) (e : expr) (b : bool) : state :=
  let s := collect_decls s (IV v) e in
  let s := set_rhs (set_computed (set_dom s v b) v true) v (Some (ELit b)) in
  push_dep (push_var s v) v.
(** 791-844 *)
Definition phase2_item (s : state) (i : item) : option state :=
  match item_expr s i with
  | None => Some s
  | Some e =>
      if negb (is_bool_call e) then Some s else
      if p2_subsumed s e then
        match i with
        | IC c => if conjunctive e then None else Some (drop_con (collect_decls s (IC c) e) c)
        | IV v =>
            match dm s v with
            | Some b => if Bool.eqb b (conjunctive e) then None else Some s
            | None => Some (p2_fix_item s v e (negb (conjunctive e)))
            end
        | IS => Some s
        end
      else
        match i, p2_open s e with
        | IC c, [(Ident x, neg)] =>
            let v := rd s x in
            let s1 := set_dom s v (negb neg) in
            let s1 := match rh s1 v with None => set_rhs s1 v (Some (ELit (negb neg))) | Some _ => s1 end in
            let s1 := drop_con (collect_decls s1 (IC c) e) c in
            Some (push_dep (push_var s1 v) x)
        | _, _ => Some s
        end
  end.
Fixpoint phase2 (s : state) (l : list item) : option state :=
  match l with
  | [] => Some s
  | i :: l => match phase2_item s i with None => None | Some s => phase2 s l end
  end.

(** 847-858: the conjuncts of phase 1 become true *)
Definition assign1 (s : state) (v : nat) : state :=
  if gone s v then s
  else match dm s v with
       | None => push_dep (push_var (set_dom s v true) v) v
       | Some _ => s
       end.
Definition assign (s : state) (l : list nat) : state := fold_left assign1 l s.

(** ** simplify_constraint (optimize.cpp:1310-1787), Boolean cases *)
Inductive status : Type := SOk | SFailed | SEntailed.
(** optimize_constraints.cpp:245-341 o_clause, o_forall, o_exists *)
Definition o_fixed (s : state) (a : arg) : option bool :=
  match a with Lit b => Some b | Ident x => dm s (rd s x) end.
Fixpoint o_forall (s : state) (l : list arg) (subsumed : bool) : status :=
  match l with
  | [] => if subsumed then SEntailed else SOk
  | a :: l => match o_fixed s a with
              | Some true => o_forall s l subsumed
              | Some false => SFailed
              | None => o_forall s l false
              end
  end.
Fixpoint o_exists (s : state) (l : list arg) (failed : bool) : status :=
  match l with
  | [] => if failed then SFailed else SOk
  | a :: l => match o_fixed s a with
              | Some true => SEntailed
              | Some false => o_exists s l failed
              | None => o_exists s l false
              end
  end.
Definition o_open (s : state) (l : list arg) : list nat :=
  flat_map (fun a => match a with
                     | Ident x => match dm s (rd s x) with None => [rd s x] | Some _ => [] end
                     | Lit _ => []
                     end) l.
Definition o_clause (s : state) (p n : list arg) : status :=
  if common (o_open s p) (o_open s n) then SEntailed else SOk.
Definition registry (s : state) (e : expr) : status :=
  match e with
  | EForall l => o_forall s l true
  | EExists l => o_exists s l true
  | EClause p n => o_clause s p n
  | _ => SOk
  end.

(** The constraint is removed, or the right hand side becomes a literal *)
Definition settle (s : state) (i : item) : state :=
  match i with
  | IC c => drop_con s c
  | IV v => set_rhs s v (Some (ELit true))
  | IS => s
  end.
(** 1379-1510: bool_eq(id, literal) in an item that is true *)
Definition eq_fixed (s : state) (i : item) (e : expr) (x : nat) (p : bool) : option state :=
  let v := rd s x in
  match (match dm s v with
         | None => Some (set_computed (set_dom s v p) v false)
         | Some q => if Bool.eqb q p then Some s else None
         end) with
  | None => None
  | Some s =>
      let s := match rh s v with
               | None => set_computed (set_rhs s v (Some (ELit p))) v true
               | Some _ => s
               end in
      let s := match rh s v with
               | Some e' => if is_call e' then with_cq s (cq s ++ [IV v]) else s
               | None => s
               end in
      let s := push_dep s x in
      let s := collect_decls s i e in
      match i with
      | IV w =>
          match occ s (rd s w) with
          | [] => let s := if output w then with_out s (upd (out s) w (OFix true)) else s in Some (set_gone s w)
          | _ :: _ => Some (settle s i)
          end
      | _ => Some (settle s i)
      end
  end.
(** The value the item must have: true for a constraint, the domain for a variable (1316-1328) *)
Definition target (s : state) (i : item) : option bool :=
  match i with IV v => dm s v | _ => Some true end.
(** The expression of an item, removed or not: a variable may be removed while it waits in the queue, and the
    code does not look again *)
Definition raw_expr (s : state) (i : item) : option expr :=
  match i with IC c => cons s c | IV v => rh s v | IS => None end.
Definition simplify_con (s : state) (i : item) : option state :=
  match raw_expr s i with
  | Some (EEq (Ident x) (Ident y) as e) =>
      match target s i with
      | Some true =>
          if is_none (rh s (rd s x)) || is_none (rh s (rd s y))
          then match unify s x y with
               | None => None
               | Some s => Some (settle (collect_decls (push_dep s x) i e) i)
               end
          else Some s
      | _ => Some s
      end
  | Some (EEq (Lit p) (Lit q)) =>
      match target s i with
      | Some t =>
          if Bool.eqb t (Bool.eqb p q)
          then Some (match i with IC c => drop_con s c | _ => s end)
          else None
      | None =>
          match i with
          | IV v =>
              let b := Bool.eqb p q in
              let s := set_computed (set_dom (set_rhs s v (Some (ELit b))) v b) v true in
              Some (push_dep (push_var s v) v)
          | _ => Some s
          end
      end
  | Some (EEq (Ident x) (Lit p) as e) | Some (EEq (Lit p) (Ident x) as e) =>
      match target s i with
      | Some true => eq_fixed s i e x p
      | _ => Some s
      end
  | Some e =>
      let fix_item (b : bool) :=
        match i with
        | IV v => Some (push_var (set_rhs (collect_decls (set_dom s v b) i e) v (Some (ELit b))) v)
        | _ => Some s
        end in
      match registry s e with
      | SOk => Some s
      | SFailed =>
          match target s i with
          | Some true => None
          | Some false => Some s
          | None => fix_item false
          end
      | SEntailed =>
          match target s i with
          | Some true => Some (match i with IC c => drop_con (collect_decls s i e) c | _ => s end)
          | Some false => None
          | None => fix_item true
          end
      end
  | None => Some s
  end.

(** ** substitute_fixed_vars (optimize.cpp:1191-1308) *)
(** 1209-1237 subst: the value of a fixed name.  follow_id_to_decl also follows right hand sides that are
    names; after phase 1 there are none. *)
Definition subst_value (s : state) (x : nat) : option bool :=
  match rh s (rd s x) with
  | Some (ELit b) => Some b
  | _ => dm s (rd s x)
  end.
Definition subst_arg (s : state) (a : arg) : arg :=
  match a with
  | Ident x => match subst_value s x with Some b => Lit b | None => a end
  | Lit _ => a
  end.
Definition subst_expr (s : state) (e : expr) : expr :=
  match e with
  | ELit _ | EId _ => e
  | EForall l => EForall (map (subst_arg s) l)
  | EExists l => EExists (map (subst_arg s) l)
  | EClause p n => EClause (map (subst_arg s) p) (map (subst_arg s) n)
  | EEq a b => EEq (subst_arg s a) (subst_arg s b)
  | EOther f l => EOther f (map (subst_arg s) l)
  end.
(** The names that are replaced (the array _removed) *)
Definition subst_ids (s : state) (e : expr) : list nat :=
  if is_call e then filter (fun x => negb (is_none (subst_value s x))) (ids e) else [].
Definition set_expr (s : state) (i : item) (e : expr) : state :=
  match i with
  | IC c => with_cons s (upd (cons s) c (Some e))
  | IV v => set_rhs s v (Some e)
  | IS => s
  end.
Definition substitute (s : state) (i : item) : state :=
  match item_expr s i with
  | None => s
  | Some e => fold_left (occ_del i) (subst_ids s e) (set_expr s i (subst_expr s e))
  end.

(** ** simplify_bool_constraint (optimize.cpp:1826-2158) *)
(** 1848-1872: the variable occurs in the arguments *)
Definition found (s : state) (e : expr) (v : nat) : bool :=
  match e with
  | EEq a b => existsb (Nat.eqb v) (arg_ids a ++ arg_ids b)
  | ELit _ | EId _ => true
  | EForall _ | EExists _ | EClause _ _ | EOther _ _ => existsb (fun x => rd s x =? rd s v) (ids e)
  end.
(** 1789-1798 bool_state *)
Definition bool_state (s : state) (a : arg) : option bool :=
  match a with Lit b => Some b | Ident x => dm s (rd s x) end.

(** The state, and the items to remove *)
Definition sbc_result : Type := option (state * list item).
Definition ret (s : state) : sbc_result := Some (s, []).

(** An item gets the value b: a constraint with that value is removed, or the model is inconsistent
    (1965-1989, 2029-2063, 2137-2148) *)
Definition item_value (s : state) (i : item) (b : bool) (also : list item) : sbc_result :=
  match i with
  | IC c => if b then Some (s, [IC c]) else None
  | IV v =>
      match dm s v with
      | None => Some (append_var (set_dom s v b) v, also)
      | Some d => if Bool.eqb d b then Some (s, also) else None
      end
  | IS => ret s
  end.

(** 1914-1962 bool_eq *)
Definition sbc_eq (s : state) (i : item) (a b : arg) : sbc_result :=
  let '(b0, b1) := match bool_state s a with None => (b, a) | Some _ => (a, b) end in
  match bool_state s b0 with
  | None => ret s
  | Some v0 =>
      match target s i with
      | Some t =>
          match bool_state s b1 with
          | None =>
              match b1 with
              | Ident y =>
                  let s := append_var (set_dom s (rd s y) (Bool.eqb v0 t)) (rd s y) in
                  Some (s, match i with IC c => [IC c] | _ => [] end)
              | Lit _ => ret s
              end
          | Some v1 =>
              if Bool.eqb t (Bool.eqb v0 v1)
              then Some (s, match i with IC c => [IC c] | _ => [] end)
              else None
          end
      | None => ret s
      end
  end.

(** 1995-2027: an argument that decides the constraint, and the arguments that are not fixed *)
Definition sbc_subsumed (s : state) (e : expr) : bool :=
  existsb (fun a => match o_fixed s (fst a) with
                    | Some b => negb (Bool.eqb b (unit_of e (snd a)))
                    | None => false
                    end) (call_args e).
Definition sbc_open (s : state) (e : expr) : list (arg * bool) :=
  filter (fun a => is_none (o_fixed s (fst a))) (call_args e).

(** 2064-2098: one argument is not fixed *)
Definition sbc_unit (s : state) (i : item) (x : nat) (neg : bool) : sbc_result :=
  match target s i with
  | Some t =>
      let s := set_dom s (rd s x) (Bool.eqb (negb neg) t) in
      ret (append_var s (rd s x))
  | None =>
      match i with
      | IV w =>
          if neg then ret s
          else match unify (set_rhs s w None) w x with
               | None => None
               | Some s => ret (push_dep s x)
               end
      | _ => ret s
      end
  end.

(** 2103-2153: a clause with more than one argument that is not fixed.  [v] is the fixed variable, [t] its value;
    the comparison of the addresses of names is the comparison of names *)
Definition is_name (v : nat) (a : arg) : bool := match a with Ident x => x =? v | Lit _ => false end.
Definition sbc_clause (s : state) (i : item) (p n : list arg) (v : nat) (t : bool) : sbc_result :=
  let al := if t then p else n in
  let other := if t then n else p in
  match i, al, other with
  | IC c, [a], [_] =>
      if negb (is_name v a) then
        match a with
        | Lit b => if Bool.eqb b t then Some (s, [IC c]) else None
        | Ident x =>
            match dm s (rd s x) with
            | None => ret (append_var (set_dom s (rd s x) t) (rd s x))
            | Some d => if Bool.eqb d t then Some (s, [IC c]) else None
            end
        end
      else if existsb (is_name v) al then item_value s i true [] else ret s
  | _, _, _ => if existsb (is_name v) al then item_value s i true [] else ret s
  end.

(** [few]: the counter of unfixed arguments (1800-1824) is at most one.  The counter is not modelled: it is
    any function, since the code counts again before it acts. *)
Definition sbc (s : state) (i : item) (v : nat) (t : bool) (few : bool) : sbc_result :=
  match item_expr s i with
  | None => ret s
  | Some e =>
      if negb (found s e v) then ret s else
      match e with
      | EId x =>
          match i with
          | IV w =>
              match dm s w with
              | None => ret (append_var (set_dom s w t) w)
              | Some _ => if match dm s (rd s x) with Some d => Bool.eqb d (negb t) | None => false end
                          then None else ret s
              end
          | _ => ret s
          end
      | ELit b => Some (s, match i with IC c => if b then [IC c] else [] | _ => [] end)
      | EEq a b => sbc_eq s i a b
      | EOther _ _ => ret s
      | EForall _ | EExists _ | EClause _ _ =>
          if t && match e with EExists _ => true | _ => false end then item_value s i true []
          else if negb t && conjunctive e then item_value s i false []
          else if few then
            if sbc_subsumed s e then item_value s i (negb (conjunctive e)) []
            else match sbc_open s e with
                 | [] => item_value s i (conjunctive e) [i]
                 | [(Ident x, neg)] => sbc_unit s i x neg
                 | _ => ret s
                 end
          else match e with
               | EClause p n => sbc_clause s i p n v t
               | _ => ret s
               end
      end
  end.

(** 1800-1824 decrement_non_fixed_vars: the first count unsubscribes the fixed names *)
Definition unsubscribed (s : state) (i : item) (v : nat) (t : bool) (first : bool) : list (nat * item) :=
  match item_expr s i with
  | Some e =>
      if is_bool_call e && found s e v && first &&
         negb (t && match e with EExists _ => true | _ => false end) && negb (negb t && conjunctive e)
      then map (fun x => (x, i)) (filter (fun x => negb (is_none (dm s (rd s x)))) (ids e))
      else []
  | None => []
  end.
(** 953-958: the key is the name, not its declaration *)
Definition unsubscribe1 (s : state) (p : nat * item) : state :=
  with_occ s (upd (occ s) (fst p) (remove item_eq_dec (snd p) (occ s (fst p)))).

(** What the counters say when an item is looked at: the first count, at most one unfixed argument *)
Definition counters : Type := item -> bool * bool.

(** 931-952: the items in which the variable occurs *)
Fixpoint sbc_items (s : state) (l : list item) (v : nat) (t : bool) (k : counters)
    (rem : list item) (uns : list (nat * item)) : option (state * list item * list (nat * item)) :=
  match l with
  | [] => Some (s, rem, uns)
  | i :: l =>
      match item_expr s i with
      | None => sbc_items s l v t k rem uns
      | Some _ =>
          match sbc s i v t (snd (k i)) with
          | None => None
          | Some (s1, r) => sbc_items s1 l v t k (rem ++ r) (uns ++ unsubscribed s i v t (fst (k i)))
          end
      end
  end.
(** 960-972 *)
Definition remove1 (s : state) (i : item) : state :=
  match raw_expr s i with
  | None => s
  | Some e =>
      let s := collect_decls s i e in
      match i with IC c => drop_con s c | IV w => set_rhs s w None | IS => s end
  end.

(** ** Phase 3 (optimize.cpp:860-1041) *)
(** 876-922: every listed argument gets a value, or already has it *)
Fixpoint fix_args (s : state) (l : list arg) (b : bool) : option state :=
  match l with
  | [] => Some s
  | Lit _ :: l => fix_args s l b
  | Ident x :: l =>
      match dm s (rd s x) with
      | None => fix_args (push_var (set_dom s (rd s x) b) (rd s x)) l b
      | Some d => if Bool.eqb d b then fix_args s l b else None
      end
  end.
Definition propagate_rhs (s : state) (v : nat) (t : bool) : option state :=
  match rh s v with
  | Some (EId x) => fix_args s [Ident x] t
  | Some (EForall l) => if t then fix_args s l true else Some s
  | Some (EExists l) => if t then Some s else fix_args s l false
  | Some (EClause p n) =>
      if t then Some s
      else match fix_args s p false with None => None | Some s => fix_args s n true end
  | _ => Some s
  end.
Definition pop_var (s : state) (v : nat) : state := with_vq s (remove Nat.eq_dec v (vq s)).
(** 867-977.  [again]: the flag "remove" is not set, so the item is simplified itself *)
Definition process_var (s : state) (v : nat) (k : counters) (again : bool) : option state :=
  let s := pop_var s v in
  match dm s v with
  | None => Some s
  | Some t =>
      match propagate_rhs s v t with
      | None => None
      | Some s =>
          let s := push_dep s v in
          match sbc_items s (occ s (rd s v)) v t k [] [] with
          | None => None
          | Some (s, rem, uns) =>
              let s := fold_left unsubscribe1 uns s in
              let s := fold_left remove1 (rev rem) s in
              if again then simplify_con s (IV v) else Some s
          end
      end
  end.
(** 1003-1040 *)
Definition pop_item (s : state) (i : item) : state := with_cq s (remove item_eq_dec i (cq s)).
Definition process_con (s : state) (i : item) : option state :=
  let s := pop_item s i in
  let i := match i with IV v => if gone s v then IV (rd s v) else i | _ => i end in
  match i with
  | IV v => if gone s v then Some s else simplify_con (substitute s i) i
  | IC c => match cons s c with None => Some s | Some _ => simplify_con (substitute s i) i end
  | IS => Some s
  end.

(** One step of the loop; the loop ends when both queues are empty. *)
Inductive choice : Type := PVar (v : nat) (k : counters) (again : bool) | PCon (i : item).
Definition step (s : state) (c : choice) : option state :=
  match c with
  | PVar v k again => process_var s v k again
  | PCon i => process_con s i
  end.
Fixpoint phase3 (s : state) (l : list choice) : option state :=
  match l with
  | [] => Some s
  | c :: l => match step s c with None => None | Some s => phase3 s l end
  end.

(** 1043-1049 *)
Definition clean1 (s : state) (c : nat) : state :=
  match cons s c with
  | Some e => drop_con (collect_decls s (IC c) e) c
  | None => s
  end.
Definition clean (s : state) (l : list nat) : state := fold_left clean1 l s.

(** ** Phase 4 (optimize.cpp:1051-1168) *)
Definition compact (s : state) (l : list arg) : list arg :=
  filter (fun a => match a with Ident x => is_none (dm s (rd s x)) | Lit _ => false end) l.
Definition compact_expr (s : state) (e : expr) : expr :=
  match e with
  | EForall l => EForall (compact s l)
  | EExists l => EExists (compact s l)
  | EClause p n => EClause (compact s p) (compact s n)
  | _ => e
  end.
(** 1083-1087 removedVarDecls *)
Definition compacted_out (s : state) (e : expr) : list nat :=
  filter (fun x => negb (is_none (dm s (rd s x)))) (ids e).
Definition is_nil {A : Type} (l : list A) : bool := match l with [] => true | _ => false end.
(** 1122-1132, 1143-1152 *)
Definition p4_fix (s : state) (v : nat) (b : bool) : option state :=
  match dm s v with
  | Some d => if Bool.eqb d b then Some (set_rhs (set_computed s v true) v (Some (ELit b))) else None
  | None => Some (set_rhs (set_computed (set_dom s v b) v true) v (Some (ELit b)))
  end.
Definition phase4_item (s : state) (i : item) : option state :=
  match item_expr s i with
  | None => Some s
  | Some e =>
      if negb (is_bool_call e) then Some s else
      let subsumed := sbc_subsumed s e in
      let gone_ids := compacted_out s e in
      let e1 := compact_expr s e in
      let s1 := set_expr s i e1 in
      match
        (if subsumed then
           match i with
           | IC c => if conjunctive e then None else Some (drop_con (collect_decls s1 i e1) c, [])
           | IV v =>
               if conjunctive e
               then match p4_fix s1 v false with None => None | Some s2 => Some (s2, ids e1) end
               else match p4_fix (collect_decls s1 i e1) v true with None => None | Some s2 => Some (s2, []) end
           | IS => Some (s1, [])
           end
         else if is_nil (sbc_open s e) then
           match i with
           | IC c => if conjunctive e then Some (drop_con s1 c, []) else None
           | IV v => match p4_fix s1 v (conjunctive e) with None => None | Some s2 => Some (s2, []) end
           | IS => Some (s1, [])
           end
         else Some (s1, []))
      with
      | None => None
      | Some (s2, more) => Some (fold_left (occ_del i) (gone_ids ++ more) s2)
      end
  end.
Fixpoint phase4 (s : state) (l : list item) : option state :=
  match l with
  | [] => Some s
  | i :: l => match phase4_item s i with None => None | Some s => phase4 s l end
  end.

(** ** Phase 6 (optimize.cpp:435-468 remove_deleted_items; 232-241 can_remove_fzn_vardecl) *)
Definition can_remove (s : state) (v : nat) : bool :=
  is_nil (occ s (rd s v)) &&
  negb (negb (is_none (dm s v)) && negb (cmp s v) && match rh s v with Some e => is_call e | None => false end) &&
  (negb (output v) || negb (is_none (dm s v))).
Definition delete1 (s : state) (v : nat) : state :=
  if can_remove s v && negb (gone s v) then
    let s := if output v
             then match dm s v with Some b => with_out s (upd (out s) v (OFix b)) | None => s end
             else s in
    let s := match rh s v with Some e => collect_decls s (IV v) e | None => s end in
    set_gone s v
  else s.
Definition delete (s : state) (l : list nat) : state := fold_left delete1 l s.

(** ** optimize (optimize.cpp:470-1189) without phase 5.
    [order]: the items of the flat model.  [sched]: what phase 3 does.  [dead]: what phase 6 looks at. *)
Definition optimise (s : state) (order : list item) (sched : list choice) (dead : list nat) : option state :=
  match phase1 (mkP1 s [] [] []) order with
  | None => None
  | Some p =>
      match phase2 (st p) (rev (bools p)) with
      | None => None
      | Some s2 =>
          match phase3 (assign s2 (rev (to_assign p))) sched with
          | None => None
          | Some s3 =>
              match phase4 (clean s3 (rev (to_remove p))) (rev (bools p)) with
              | None => None
              | Some s4 => Some (delete s4 dead)
              end
          end
      end
  end.
(** The loop of phase 3 has ended: both queues are empty (863). *)
Definition loop_ended (s : state) (order : list item) (sched : list choice) : Prop :=
  forall p s2 s3,
    phase1 (mkP1 s [] [] []) order = Some p ->
    phase2 (st p) (rev (bools p)) = Some s2 ->
    phase3 (assign s2 (rev (to_assign p))) sched = Some s3 ->
    vq s3 = [] /\ cq s3 = [].
End Optimise.
