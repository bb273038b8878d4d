(** Model of the compression of chains of linear inequalities: class LECompressor, lib/chain_compressor.cpp:371-638, and its base class
    (lines 19-53, chain_compressor.hh).

    Simplifications.  Integers only: float inequalities and int2float aliases are left out.  Identifiers are not aliases of others, so
    follow_id_to_decl is the identity.  Every item other than an integer linear inequality is a predicate over the variables it mentions.
    The map of occurrences (optimize.cpp:106-126) is not stored: each item has a flag saying whether its variables are counted, and the
    occurrences of a variable are the counted items that mention it. *)
Require Import ZArith List Bool.
From Verif Require Import Base IntValModel SetModel LinModel.
Import ListNotations.
Open Scope Z_scope.

(** int_lin_le(cs, xs, c), or something else *)
Inductive fitem := Lin (cs : list IntVal) (xs : list term) (c : IntVal) | Oth (p : nat) (vs : list ident).
(** an item of the flat model: its constraint (None once it is replaced by the literal true, flatten.cpp:1212-1216), whether it is still in the
    model, and whether its variables are counted as occurrences *)
Record slot := mkSlot { s_item : option fitem; s_live : bool; s_counted : bool }.
Definition fresh (i : fitem) : slot := mkSlot (Some i) true true.

(** what is known about the variables: the address of the declaration (the order of the multimap), the right hand side, the domain, and
    whether it is output *)
Record venv := mkVenv { v_addr : ident -> Z; v_def : decls; v_dom : ident -> option iset; v_out : ident -> bool }.

Section LE.
Variable V : venv.
(** std::sort in simplify_lin, as in LinModel *)
Variable sort : list term -> list nat.

Definition entry : Type := ident * nat.
(** chain_compressor.hh storeItem: emplace puts the new entry after those with the same key *)
Fixpoint emplace (e : entry) (l : list entry) : list entry :=
  match l with
  | [] => [e]
  | e' :: l' => if v_addr V (fst e) <? v_addr V (fst e') then e :: l else e' :: emplace e l'
  end.
(** the same around the entry that the loop has reached *)
Definition emplace_at (pre : list entry) (cur : entry) (post : list entry) (e : entry) : list entry * list entry :=
  if v_addr V (fst e) <? v_addr V (fst cur) then (emplace e pre, post) else (pre, emplace e post).
Definition with_key (k : ident) (l : list entry) : list entry := filter (fun e => ident_eqb (fst e) k) l.
Definition without_key (k : ident) (l : list entry) : list entry := filter (fun e => negb (ident_eqb (fst e) k)) l.

(** 371-401 trackItem, for the item with number n *)
Fixpoint track_terms (n : nat) (cs : list IntVal) (xs : list term) (l : list entry) : list entry :=
  match cs, xs with
  | c :: cs', TId i :: xs' => track_terms n cs' xs' (if iv_gt c (ofZ 0) then emplace (i, n) l else l)
  | _ :: cs', _ :: xs' => track_terms n cs' xs' l
  | _, _ => l
  end.
Fixpoint track_all (n : nat) (items : list slot) (l : list entry) : list entry :=
  match items with
  | [] => l
  | sl :: items' =>
      track_all (S n) items'
        match s_live sl, s_item sl with true, Some (Lin cs xs _) => track_terms n cs xs l | _, _ => l end
  end.

(** optimize.cpp:106-126 VarOccurrences::usages *)
Definition mentions (v : ident) (i : fitem) : bool :=
  match i with
  | Lin _ xs _ => existsb (fun t => match t with TId w => ident_eqb w v | _ => false end) xs
  | Oth _ vs => existsb (fun w => ident_eqb w v) vs
  end.
Definition occurrences (items : list slot) (v : ident) : nat :=
  length (filter (fun sl => s_counted sl && match s_item sl with Some i => mentions v i | None => false end) items).

(** 610-638 eqBounds *)
Definition bounds_of (t : term) : option iset :=
  match t with TId i => v_dom V i | TLit v => Some [(v, v)] | TExp _ => None end.
Definition eq_bounds (a b : term) : bool :=
  match bounds_of a, bounds_of b with
  | Some x, Some y => set_equal x y
  | None, None => true
  | _, _ => false
  end.

(** 432-500: what to do at an entry: stop, go on, or replace neg by pos *)
Inductive verdict := Stop | Skip | Go (neg pos : ident).
Definition consider (items : list slot) (ix : list entry) (i : fitem) : res verdict :=
  match i with
  | Lin [a0; a1] [x0; x1] c =>
      if iv_eq c (ofZ 0) then
        do m <- iv_neg a1;
        if iv_eq a0 m && eq_bounds x0 x1 then
          let '(xn, xp) := if iv_lt a0 a1 then (x0, x1) else (x1, x0) in
          match xn with
          | TId neg =>
              match v_def V neg with
              | RNone =>
                  let lhs := length (with_key neg ix) in
                  let ok := negb (v_out V neg) && Nat.ltb 0 lhs && Nat.eqb (occurrences items neg) (lhs + 1) in
                  match xp with TId pos => Ok (if ok then Go neg pos else Skip) | _ => Ok Skip end
              | _ => Ok Skip
              end
          | _ => Ok Stop                                 (* 446-448 *)
          end
        else Ok Skip
      else Ok Skip
  | _ => Ok Skip
  end.

(** 553-608 leReplaceVar *)
Definition subst_term (old new : ident) (t : term) : term := match t with TId i => if ident_eqb i old then TId new else t | _ => t end.
Inductive replaced := RFail | RDrop | RNew (i : fitem) (entries : nat).
Definition replace_item (i : fitem) (old new : ident) : res replaced :=
  match i with
  | Lin cs xs c =>
      do ' (cs', xs', d) <- simplify_lin 1 (v_def V) sort cs (map (subst_term old new) xs) (ofZ 0);
      match cs' with
      | [] => Ok (if iv_gt d c then RFail else RDrop)
      | _ => do c' <- sub_assign c d; Ok (RNew (Lin cs' xs' c') (length (filter (fun t => match t with TId w => ident_eqb w new | _ => false end) xs')))
      end
  | Oth _ _ => UB                                         (* the cast to an inequality *)
  end.

Fixpoint emplaces (k : nat) (e : entry) (pre : list entry) (cur : entry) (post : list entry) : list entry * list entry :=
  match k with O => (pre, post) | S k' => let '(pre', post') := emplace_at pre cur post e in emplaces k' e pre' cur post' end.
Inductive progress := PFail | PGo (items : list slot) (pre post : list entry).
Fixpoint replace_all (todo : list entry) (old new : ident) (cur : entry) (items : list slot) (pre post : list entry) : res progress :=
  match todo with
  | [] => Ok (PGo items pre post)
  | (_, n) :: todo' =>
      match nth_error items n with
      | Some (mkSlot (Some i) l _) =>
          do r <- replace_item i old new;
          match r with
          | RFail => Ok PFail
          | RDrop => replace_all todo' old new cur (upd items n (mkSlot (Some i) false false)) pre post
          | RNew i' k =>
              let '(pre', post') := emplaces k (new, n) pre cur post in
              replace_all todo' old new cur (upd items n (mkSlot (Some i') l true)) pre' post'
          end
      | _ => UB
      end
  end.

(** 423-550 compress: [pre] are the entries before the iterator, [post] those from it on *)
Inductive outcome := Failed | Done (items : list slot).
Fixpoint compress (fuel : nat) (items : list slot) (pre post : list entry) : res outcome :=
  match post with
  | [] => Ok (Done items)
  | cur :: post' =>
      match fuel with
      | O => Err OutOfFuel
      | S fuel' =>
          match nth_error items (snd cur) with
          | Some (mkSlot (Some i) _ _) =>
              do v <- consider items (pre ++ post) i;
              match v with
              | Stop => Ok (Done items)
              | Skip => compress fuel' items (pre ++ [cur]) post'
              | Go neg pos =>
                  do p <- replace_all (with_key neg (pre ++ post)) neg pos cur items (without_key neg pre) (without_key neg post');
                  match p with
                  | PFail => Ok Failed
                  | PGo items' pre' post'' =>
                      (* 543: the iterator is no longer valid if its own entry has been erased *)
                      if ident_eqb (fst cur) neg then UB
                      else compress fuel' (upd items' (snd cur) (mkSlot None false false)) pre' post''
                  end
              end
          | _ => UB                                        (* 432: the cast of the literal true to a call *)
          end
      end
  end.

(** optimize.cpp:1173-1182: track all items, then compress *)
Definition le_compress (model : list fitem) : res outcome :=
  let items := map fresh model in
  let ix := track_all 0 items [] in
  compress (S (length ix) * S (length ix)) items [] ix.
(** the model that is left *)
Definition rest (items : list slot) : list fitem :=
  flat_map (fun sl => match s_live sl, s_item sl with true, Some i => [i] | _, _ => [] end) items.
End LE.
