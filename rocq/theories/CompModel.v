(** * Comprehensions: where clauses and variable generator sets

    Models
    - lib/typecheck.cpp:2413-2569: the type checker splits every where clause
      into its conjuncts, attaches each conjunct to the earliest generator
      variable at which all its identifiers are known, and splits generators
      that declare several variables accordingly;
    - lib/flatten/flatten_comp.cpp:42-277: a generator over a variable set
      becomes a generator over the upper bound of that set, the variable parts
      of the where clauses become a condition on the generated expression.

    Everything is taken under one fixed assignment of the decision variables:
    an expression is the function giving its value for each store of the
    generator variables.  Generator variables are numbers (for the VarDecl
    pointers) and hold integers.

    Simplifications: the alias [tmp = S] that flatten_comp.cpp:96-112 makes for
    a compound set expression is not made (its value is that of [S]); the branch
    for a library that defines [set2iter] (flatten_comp.cpp:55-89) is not
    modelled (the standard library leaves it without a body); index tuples
    (flatten_comp.cpp:211-218) are not modelled; coercions and types other than
    the par/var distinction are left out. *)

From Coq Require Import ZArith List Bool Arith.
Import ListNotations.

(** Values of the generator variables. *)
Definition store := nat -> Z.

(** e->decl(gen, id)->e(...) of include/minizinc/eval_par.hh:183-205. *)
Definition upd (s : store) (d : nat) (v : Z) : store :=
  fun x => if Nat.eqb x d then v else s x.

(** A where clause: conjunctions and anything else.  [par] says whether the
    type of the part is par, [ids] are the identifiers occurring in it in the
    order top_down visits them, [f] is its value; [None] means that evaluating
    it stops the program (a failed assertion). *)
Inductive wexp : Type :=
| WAnd (a b : wexp)
| WAtom (par : bool) (ids : list nat) (f : store -> option bool).

(** eval_bool of a where clause: [BOT_AND] evaluates its right-hand side only
    if the left-hand side is true (lib/eval_par.cpp, eval_bool). *)
Fixpoint weval (w : wexp) (s : store) : option bool :=
  match w with
  | WAtom _ _ f => f s
  | WAnd a b =>
      match weval a s with
      | None => None
      | Some false => Some false
      | Some true => weval b s
      end
  end.

(** class Generator of include/minizinc/ast.hh: the variables, the set or array
    they range over with a where clause, or an assignment ([in == nullptr], the
    value being in the where slot).  For a variable set, [vub] is [ub(S)]. *)
Inductive gen : Type :=
| GIn (ds : list nat) (vub : option (store -> list Z)) (src : store -> list Z)
      (w : option wexp)
| GAsn (d : nat) (e : store -> Z).

Definition gdecls (g : gen) : list nat :=
  match g with GIn ds _ _ _ => ds | GAsn d _ => [d] end.

Definition decls (gs : list gen) : list nat := flat_map gdecls gs.

(** comp->decl(gen, 0). *)
Definition first_decl (g : gen) : nat :=
  match g with GIn ds _ _ _ => hd 0 ds | GAsn d _ => d end.

(** ** The type checker *)

(** lib/typecheck.cpp:2468-2487: the conjuncts from left to right. *)
Fixpoint where_parts (w : wexp) : list wexp :=
  match w with
  | WAnd a b => where_parts a ++ where_parts b
  | WAtom _ _ _ => [w]
  end.

Definition atom_ids (w : wexp) : list nat :=
  match w with WAtom _ ids _ => ids | WAnd _ _ => [] end.

(** lib/typecheck.cpp:2419-2423: generatorMap, the index of the generator and
    the running index of the variable. *)
Fixpoint generator_map (gs : list gen) (gi di : nat) : list (nat * (nat * nat)) :=
  match gs with
  | [] => []
  | g :: rest =>
      combine (gdecls g) (map (fun k => (gi, k)) (seq di (length (gdecls g))))
      ++ generator_map rest (S gi) (di + length (gdecls g))
  end.

Fixpoint lookup (m : list (nat * (nat * nat))) (x : nat) : option (nat * nat) :=
  match m with
  | [] => None
  | (y, p) :: rest => if Nat.eqb x y then Some p else lookup rest x
  end.

(** lib/typecheck.cpp:2498-2505: start at the first generator that is not an
    assignment. *)
Fixpoint first_in (gs : list gen) (i : nat) : nat * nat :=
  match gs with
  | [] => (0, 0)
  | GIn ds _ _ _ :: _ => (i, hd 0 ds)
  | GAsn _ _ :: rest => first_in rest (S i)
  end.

(** lib/typecheck.cpp:2513-2517: skip assignment generators. *)
Fixpoint advance (rest : list gen) (di d : nat) : nat * nat :=
  match rest with
  | GAsn _ _ :: tl =>
      match tl with
      | g2 :: _ => advance tl (S di) (first_decl g2)
      | [] => (di, d)
      end
  | _ => (di, d)
  end.

(** lib/typecheck.cpp:2507-2519: FindLatestGen::vId. *)
Definition visit_id (gs : list gen) (st : nat * nat) (x : nat) : nat * nat :=
  match lookup (generator_map gs 0 0) x with
  | Some (g, k) => if fst st <? k then advance (skipn g gs) k x else st
  | None => st
  end.

(** lib/typecheck.cpp:2489-2522: the variable a part is attached to. *)
Definition latest (gs : list gen) (p : wexp) : nat :=
  snd (fold_left (visit_id gs) (atom_ids p) (first_in gs 0)).

(** lib/typecheck.cpp:2489-2523: whereMap, as the list of its insertions. *)
Definition where_map (gs : list gen) : list (nat * wexp) :=
  flat_map
    (fun g => match g with
              | GIn _ _ _ (Some w) => map (fun p => (latest gs p, p)) (where_parts w)
              | _ => []
              end) gs.

Definition wheres (m : list (nat * wexp)) (d : nat) : list wexp :=
  map snd (filter (fun q => Nat.eqb (fst q) d) m).

(** lib/typecheck.cpp:2533-2567: a new generator after each variable that has
    where parts, and one for the remaining variables. *)
Fixpoint split_decls (m : list (nat * wexp)) (vub : option (store -> list Z))
    (src : store -> list Z) (acc ds : list nat) : list gen :=
  match ds with
  | [] => []
  | d :: rest =>
      match wheres m d with
      | w :: ws => GIn (acc ++ [d]) vub src (Some (fold_left WAnd ws w))
                   :: split_decls m vub src [] rest
      | [] => match rest with
              | [] => [GIn (acc ++ [d]) vub src None]
              | _ => split_decls m vub src (acc ++ [d]) rest
              end
      end
  end.

(** For an assignment generator the where slot holds the value: parts attached
    to it would be conjoined with the value (lib/typecheck.cpp:2524-2527 and
    2543-2558). *)
Definition rebuild_gen (m : list (nat * wexp)) (g : gen) : list gen :=
  match g with
  | GIn ds vub src _ => split_decls m vub src [] ds
  | GAsn d e =>
      match wheres m d with
      | [] => [GAsn d e]
      | w :: ws =>
          [GAsn d (fun s => match weval (fold_left WAnd ws w) s with
                            | Some true => if Z.eqb (e s) 0 then 0%Z else 1%Z
                            | _ => 0%Z
                            end)]
      end
  end.

(** The comprehension the type checker leaves behind. *)
Definition move_wheres (gs : list gen) : list gen :=
  flat_map (rebuild_gen (where_map gs)) gs.

(** ** Flattening *)

Fixpoint wpar (w : wexp) : bool :=
  match w with
  | WAnd a b => wpar a && wpar b
  | WAtom par _ _ => par
  end.

Fixpoint wsize (w : wexp) : nat :=
  match w with WAnd a b => S (wsize a + wsize b) | WAtom _ _ _ => 1 end.

(** One operand of a conjunction, flatten_comp.cpp:135-151: keep it, condition
    on it, or split it further. *)
Definition split_operand (e : wexp) (st : list wexp * list wexp * list (wexp * wexp))
    : list wexp * list wexp * list (wexp * wexp) :=
  let '(parw, varw, todo) := st in
  if wpar e then (parw ++ [e], varw, todo)
  else match e with
       | WAnd a b => (parw, varw, (a, b) :: todo)
       | WAtom _ _ _ => (parw, varw ++ [e], todo)
       end.

(** flatten_comp.cpp:128-152, the right-hand side before the left-hand side. *)
Fixpoint split_where (fuel : nat) (st : list wexp * list wexp * list (wexp * wexp))
    : list wexp * list wexp :=
  match fuel with
  | 0 => (fst (fst st), snd (fst st))
  | S fuel' =>
      let '(parw, varw, todo) := st in
      match todo with
      | [] => (parw, varw)
      | (a, b) :: rest =>
          split_where fuel' (split_operand a (split_operand b (parw, varw, rest)))
      end
  end.

(** flatten_comp.cpp:122-177: what stays in the where clause and what becomes
    part of the condition.  A call of [forall] on three or more parts has the
    value of their conjunction. *)
Definition flat_where (w : option wexp) : option wexp * list wexp :=
  match w with
  | None => (None, [])
  | Some e =>
      if wpar e then (Some e, [])
      else match e with
           | WAnd a b =>
               let '(parw, varw) := split_where (wsize e) ([], [], [(a, b)]) in
               (match parw with
                | [] => None
                | p :: ps => Some (fold_left WAnd ps p)
                end, varw)
           | WAtom _ _ _ => (None, [e])
           end
  end.

(** flatten_comp.cpp:114-119: [d in S]. *)
Definition member (src : store -> list Z) (d : nat) : wexp :=
  WAtom false [d] (fun s => Some (existsb (Z.eqb (s d)) (src s))).

(** flatten_comp.cpp:49-189. *)
Definition flat_gen (g : gen) : gen * list wexp :=
  match g with
  | GAsn d e => (GAsn d e, [])
  | GIn ds vub src w =>
      let (w', conds) := flat_where w in
      match vub with
      | None => (GIn ds None src w', conds)
      | Some ub => (GIn ds None ub w', map (member src) ds ++ conds)
      end
  end.

Definition flat_gens (gs : list gen) : list gen := map (fun g => fst (flat_gen g)) gs.
Definition conditions (gs : list gen) : list wexp := flat_map (fun g => snd (flat_gen g)) gs.

(** The value of the condition in a Boolean context (flatten_comp.cpp:190-204). *)
Definition holds (conds : list wexp) (s : store) : bool :=
  forallb (fun w => match weval w s with Some true => true | _ => false end) conds.

(** flatten_comp.cpp:220-224: under [forall], [cond -> e]. *)
Definition elem_forall (conds : list wexp) (e : store -> bool) (s : store) : bool :=
  match conds with [] => e s | _ => implb (holds conds s) (e s) end.

(** flatten_comp.cpp:224-227: under [exists], [cond /\ e]. *)
Definition elem_exists (conds : list wexp) (e : store -> bool) (s : store) : bool :=
  match conds with [] => e s | _ => holds conds s && e s end.

(** flatten_comp.cpp:228-255: under [sum], [bool2int(cond) * e] for a par [e]
    and [if cond then e else 0 endif] otherwise.  [None]: undefined. *)
Definition elem_sum (epar : bool) (conds : list wexp) (e : store -> option Z) (s : store)
    : option Z :=
  match conds with
  | [] => e s
  | _ =>
      if epar then
        match e s with
        | None => None
        | Some v => Some ((if holds conds s then 1 else 0) * v)%Z
        end
      else if holds conds s then e s else Some 0%Z
  end.

(** flatten_comp.cpp:256-264: otherwise [if cond then e else <> endif]; the
    inner [None] is the absent value. *)
Definition elem_other (conds : list wexp) (e : store -> option Z) (s : store)
    : option (option Z) :=
  match conds with
  | [] => option_map Some (e s)
  | _ => if holds conds s then option_map Some (e s) else Some None
  end.
