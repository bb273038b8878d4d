(** Model of implication chain compression: ChainCompressor and ImpCompressor, lib/chain_compressor.cpp:19-363.
    Variables (VarDecl pointers) and items (Item pointers) are numbers; variables are ordered by their number, as the
    pointers in the multimap are by their address. *)
Require Import List Bool Arith Lia.
From Verif Require Import Base.
Import ListNotations.

(** an element of a flat array of bool: a variable or a literal.  Identifiers are resolved (follow_id_to_decl), and arrays
    stand where they are used (eval_array_lit). *)
Inductive arg := AVar (v : nat) | ALit (b : bool).

(** right hand side of a Boolean variable declaration: forall(l), exists(l), or another predicate p(l); [half]: the model
    has a half-reified version p_imp of p (Model::matchReification, lib/chain_compressor.cpp:103-110).  Other right hand
    sides are not modelled. *)
Inductive def := DForall (l : list arg) | DExists (l : list arg) | DCall (p : nat) (l : list arg) (half : bool).

(** what the compressor reads of a VarDecl: ti()->domain() of a Boolean variable, whether it is output (itself or in an
    output array, lib/optimize.cpp:106-126), the annotation ctx_pos, and e() *)
Record vinfo := mkV { v_dom : option bool; v_out : bool; v_pos : bool; v_def : option def }.

(** items of the flat model.  [Imp p l c] is a call p_imp(l, c); [Other p l] any other constraint on the Boolean variables
    of l (integer and other variables are part of p). *)
Inductive item :=
| Clause (pos neg : list arg)
| RevMap (x : arg)
| Imp (p : nat) (l : list arg) (c : arg)
| Other (p : nat) (l : list arg)
| Decl (v : nat).

(** A removed item is [None]: EnvI::flatRemoveItem (lib/flatten.cpp:1212-1220) replaces the expression of a constraint by
    the literal true.  The multimap _items is [c_done ++ c_todo], sorted by key, entries with equal keys in the order of
    their insertion; the loop of compress stands at the first element of [c_todo]. *)
Record cst := mkC { c_items : list (option item); c_done : list (nat * nat); c_todo : list (nat * nat) }.

Definition arg_is (v : nat) (x : arg) : bool := match x with AVar w => w =? v | ALit _ => false end.
Fixpoint avars (l : list arg) : list nat :=
  match l with [] => [] | AVar v :: r => v :: avars r | ALit _ :: r => avars r end.

Definition def_args (d : option def) : list arg :=
  match d with None => [] | Some (DForall l) => l | Some (DExists l) => l | Some (DCall _ l _) => l end.

Section CHAIN.
Variable V : nat -> vinfo.
Variable half_reif : bool.   (* _env.fopts.enableHalfReification *)

(** the variables that occur in an item (CollectOccurrencesI, lib/optimize.cpp:128-155) *)
Definition mentions (it : item) : list nat :=
  match it with
  | Clause p n => avars (p ++ n)
  | RevMap x => avars [x]
  | Imp _ l c => avars (l ++ [c])
  | Other _ l => avars l
  | Decl v => avars (def_args (v_def (V v)))
  end.

Definition memb (v : nat) (l : list nat) : bool := existsb (Nat.eqb v) l.

(** VarOccurrences::usages, lib/optimize.cpp:106-126: the number of items (a set) in which a variable occurs.  Declarations
    of arrays, which are looked through, do not exist in the model. *)
Definition occurrences (st : cst) (v : nat) : nat :=
  length (filter (fun o => match o with Some it => memb v (mentions it) | None => false end) (c_items st)).

(** the variables under which ImpCompressor::trackItem stores an item, lib/chain_compressor.cpp:55-118 *)
Definition keys (it : item) : list nat :=
  match it with
  | Clause _ n => avars n
  | RevMap x => avars [x]
  | Imp _ _ c => avars [c]
  | Other _ _ => []
  | Decl v =>
      match v_def (V v) with
      | Some (DForall _) => [v]
      | Some (DExists _) => if half_reif && v_pos (V v) then [v] else []
      | Some (DCall _ _ h) => if half_reif && v_pos (V v) && h then [v] else []
      | None => []
      end
  end.

(** std::multimap::emplace: behind the entries with a smaller or equal key *)
Fixpoint ins (e : nat * nat) (l : list (nat * nat)) : list (nat * nat) :=
  match l with
  | [] => [e]
  | x :: r => if fst x <=? fst e then x :: ins e r else e :: l
  end.

(** ChainCompressor::storeItem, include/minizinc/chain_compressor.hh:32-34, while the loop stands at [c_todo] *)
Definition store (st : cst) (e : nat * nat) : cst :=
  match c_todo st with
  | x :: _ => if fst x <=? fst e then mkC (c_items st) (c_done st) (ins e (c_todo st))
              else mkC (c_items st) (ins e (c_done st)) (c_todo st)
  | [] => mkC (c_items st) (ins e (c_done st)) []
  end.

Definition track (st : cst) (i : nat) (it : item) : cst :=
  fold_left (fun s v => store s (v, i)) (keys it) st.

(** ChainCompressor::addItem, lib/chain_compressor.cpp:30-35 *)
Definition add_item (st : cst) (it : item) : cst :=
  track (mkC (c_items st ++ [Some it]) (c_done st) (c_todo st)) (length (c_items st)) it.

Fixpoint upd {A} (l : list A) (i : nat) (x : A) : list A :=
  match l, i with
  | [], _ => []
  | _ :: r, O => x :: r
  | y :: r, S i' => y :: upd r i' x
  end.

(** ChainCompressor::removeItem, lib/chain_compressor.cpp:19-28 *)
Definition remove_item (st : cst) (i : nat) : cst :=
  mkC (upd (c_items st) i None) (c_done st) (c_todo st).

(** ChainCompressor::count, include/minizinc/chain_compressor.hh:36 *)
Definition count (st : cst) (v : nat) : nat :=
  length (filter (fun e => fst e =? v) (c_done st ++ c_todo st)).

Definition entry_eqb (e f : nat * nat) : bool := (fst e =? fst f) && (snd e =? snd f).
Fixpoint rem1 (e : nat * nat) (l : list (nat * nat)) : option (list (nat * nat)) :=
  match l with
  | [] => None
  | x :: r => if entry_eqb x e then Some r else match rem1 e r with Some r' => Some (x :: r') | None => None end
  end.

(** lib/chain_compressor.cpp:232-238: erase the first entry of the item under a variable, if there is one.  Erasing the
    entry at which the loop stands would invalidate its iterator. *)
Definition erase1 (st : cst) (e : nat * nat) : res cst :=
  match rem1 e (c_done st) with
  | Some d => Ok (mkC (c_items st) d (c_todo st))
  | None =>
      match c_todo st with
      | [] => Ok st
      | x :: r =>
          if entry_eqb x e then UB
          else match rem1 e r with
               | Some r' => Ok (mkC (c_items st) (c_done st) (x :: r'))
               | None => Ok st
               end
      end
  end.

(** the new array of negative literals, lib/chain_compressor.cpp:223-240.  Literals are cast to VarDecl. *)
Fixpoint rename (st : cst) (i b a : nat) (neg : list arg) : res (cst * list arg) :=
  match neg with
  | [] => Ok (st, [])
  | ALit _ :: _ => UB
  | AVar v :: r =>
      if v =? b then do ' (st', r') <- rename st i b a r; Ok (st', AVar a :: r')
      else do st1 <- erase1 st (v, i);
           do ' (st', r') <- rename st1 i b a r; Ok (st', AVar v :: r')
  end.

(** ImpCompressor::arrayLitCopyReplace, lib/chain_compressor.cpp:296-311 (literals have led to undefined behaviour before) *)
Definition subst1 (b a : nat) (x : arg) : arg := if arg_is b x then AVar a else x.

(** lib/chain_compressor.cpp:266-273 *)
Fixpoint add_conjuncts (st : cst) (a : nat) (l : list arg) : cst :=
  match l with
  | [] => st
  | x :: r => add_conjuncts (if arg_is a x then st else add_item st (Clause [x] [AVar a])) a r
  end.

(** ImpCompressor::compressItem, lib/chain_compressor.cpp:208-294, with oldLHS = b, newLHS = a.  The expression of a removed
    constraint is not a call.  constructHalfReif (350-367) finds the predicate p_imp, as the item was tracked only if it
    exists. *)
Definition compress_item (st : cst) (i b a : nat) : res cst :=
  match nth_error (c_items st) i with
  | None | Some None => UB
  | Some (Some it) =>
      match it with
      | Clause pos neg =>
          if (length pos =? 1) && (length neg =? 1) && existsb (arg_is a) pos then Ok (remove_item st i)
          else do ' (st1, contents) <- rename st i b a neg;
               Ok (remove_item (add_item st1 (Clause pos (map (subst1 b a) contents))) i)
      | RevMap _ => Ok st
      | Imp p l _ =>
          let it' := Imp p l (AVar a) in
          Ok (track (mkC (upd (c_items st) i (Some it')) (c_done st) (c_todo st)) i it')
      | Other _ _ => Ok st
      | Decl v =>
          match v_def (V v) with
          | Some (DForall l) => Ok (add_conjuncts st a l)
          | Some (DExists l) =>
              if v_pos (V v) then
                match l with
                | [] => UB
                | x :: _ =>
                    Ok (remove_item (if arg_is a x then st else add_item st (Clause l [AVar a])) i)
                end
              else Ok st
          | Some (DCall p l _) => if v_pos (V v) then Ok (add_item st (Imp p l (AVar a))) else Ok st
          | None => UB
          end
      end
  end.

Fixpoint compress_items (st : cst) (is_ : list nat) (b a : nat) : res cst :=
  match is_ with
  | [] => Ok st
  | i :: r => do st1 <- compress_item st i b a; compress_items st1 r b a
  end.

Inductive decision := Skip | Again | Go (a b : nat).

(** the test of compress, lib/chain_compressor.cpp:121-183, for the entry of item i.  [Again] is the `continue' at line 177,
    which does not advance the iterator. *)
Definition decide (st : cst) (i : nat) : res decision :=
  match nth_error (c_items st) i with
  | None | Some None => UB
  | Some (Some (Clause [AVar b] [x])) =>
      let occ := occurrences st b in
      let lhs := count st b in
      let compress :=
        match v_dom (V b) with None => true | Some _ => false end && negb (v_out (V b)) && (0 <? lhs) &&
        match v_def (V b) with
        | Some (DForall _) => (occ =? 1) && (lhs =? 1)
        | Some _ => occ =? lhs
        | None => occ =? lhs + 1
        end in
      if compress then
        match x with
        | AVar a => if a =? b then Ok Again else Ok (Go a b)
        | ALit _ => Ok Skip
        end
      else Ok Skip
  | Some (Some _) => Ok Skip
  end.

(** one round of the loop of ImpCompressor::compress, lib/chain_compressor.cpp:120-206, for a non-empty [c_todo].  Erasing
    the range of b would invalidate the iterator if the current entry were in it. *)
Definition step (st : cst) (e : nat * nat) (rest : list (nat * nat)) : res cst :=
  do d <- decide st (snd e);
  match d with
  | Skip => Ok (mkC (c_items st) (c_done st ++ [e]) rest)
  | Again => Ok st
  | Go a b =>
      let to_process := map snd (filter (fun x => fst x =? b) (c_done st ++ c_todo st)) in
      if fst e =? b then UB
      else
        let keep := filter (fun x => negb (fst x =? b)) in
        do st1 <- compress_items (mkC (c_items st) (keep (c_done st)) (e :: keep rest)) to_process b a;
        let st2 := remove_item st1 (snd e) in
        Ok (mkC (c_items st2) (c_done st2) (tl (c_todo st2)))
  end.

Fixpoint compress (fuel : nat) (st : cst) : res cst :=
  match c_todo st with
  | [] => Ok st
  | e :: rest =>
      match fuel with
      | O => Err OutOfFuel
      | S f => do st' <- step st e rest; compress f st'
      end
  end.

(** tracking of all items before the first call of compress, lib/optimize.cpp:1172-1177 *)
Fixpoint track_all (l : list item) (i : nat) (m : list (nat * nat)) : list (nat * nat) :=
  match l with
  | [] => m
  | it :: r => track_all r (S i) (fold_left (fun m v => ins (v, i) m) (keys it) m)
  end.

Definition start (l : list item) : cst := mkC (map Some l) [] (track_all l 0 []).

Definition result (st : cst) : list item :=
  flat_map (fun o => match o with Some it => [it] | None => [] end) (c_items st).

End CHAIN.
