(** Model of DenseIdMap (include/minizinc/hash.hh:118-263) and of VarOccurrences (lib/optimize.cpp:20-107),
    the maps from variables to the items using them. *)
Require Import ZArith List Bool Lia.
From Verif Require Import Base.
Import ListNotations.
Open Scope Z_scope.

(** include/minizinc/ast.hh:787-846 Id and include/minizinc/ast.hpp:251-280.  An identifier is either a string
    (idn() is -1; here the string is represented by a number) or an integer idn(). *)
Inductive key := KName (s : Z) | KInt (n : Z).
Definition key_dec (a b : key) : {a = b} + {a <> b}.
Proof. decide equality; apply Z.eq_dec. Defined.
Definition keqb (a b : key) : bool := if key_dec a b then true else false.

Section Dense.
Variable T : Type.
Variable dflt : T.   (* T() *)

(** hash.hh:118-128.  The unordered_map _sm is the list of its entries in iteration order (the library may
    choose another order; theorems about iteration are up to permutation of the named entries), the vectors
    _im and _ip are lists. *)
Record dense := mkD { d_sm : list (Z * T); d_im : list T; d_ip : list bool }.
Definition dense0 : dense := mkD [] [] [].

(** unordered_map::find with IdEq (hash.hh:63-73) on string identifiers: equal strings *)
Fixpoint sm_find (s : Z) (l : list (Z * T)) : option T :=
  match l with
  | [] => None
  | (s', t) :: r => if s' =? s then Some t else sm_find s r
  end.
(** unordered_map::erase(key) *)
Definition sm_erase (s : Z) (l : list (Z * T)) : list (Z * T) := filter (fun p => negb (fst p =? s)) l.

(** std::vector::resize(n, x) *)
Definition resize {A} (n : Z) (x : A) (l : list A) : list A :=
  firstn (Z.to_nat n) l ++ repeat x (Z.to_nat n - length l).

(** vector[n] = x; an index outside the vector is undefined behaviour *)
Definition set_at {A} (n : Z) (x : A) (l : list A) : res (list A) :=
  if (0 <=? n) && (n <? Z.of_nat (length l)) then Ok (firstn (Z.to_nat n) l ++ x :: skipn (S (Z.to_nat n)) l)
  else UB.

(** static_cast<int>(size) *)
Definition to_int (n : Z) : Z := let m := n mod 4294967296 in if m <? 2147483648 then m else m - 4294967296.

(** hash.hh:198-200: static_cast<unsigned int>(static_cast<double>(idn + 1) * 1.5).  The product is exact for
    arguments below 2^51 (it needs 53 bits) and truncated by the conversion; from 2^32 on the conversion to unsigned
    int is undefined behaviour (also for the larger arguments, whose rounded product is larger still). *)
Definition newSize (n1 : Z) : res Z := let p := 3 * n1 / 2 in if p <? 4294967296 then Ok p else UB.

(** does insert grow the vectors for this index?  hash.hh:197 *)
Definition grows (d : dense) (n : Z) : bool := to_int (Z.of_nat (length (d_im d))) <? n + 1.

(** hash.hh:192-207 insert.  unordered_map::insert keeps an existing entry; the vector entry is overwritten. *)
Definition insert (d : dense) (k : key) (t : T) : res dense :=
  match k with
  | KName s => Ok (match sm_find s (d_sm d) with
                   | Some _ => d
                   | None => mkD (d_sm d ++ [(s, t)]) (d_im d) (d_ip d)
                   end)
  | KInt n =>
      do n1 <- ll (n + 1);
      do d' <- (if grows d n then
                  do sz <- newSize n1; Ok (mkD (d_sm d) (resize sz dflt (d_im d)) (resize sz false (d_ip d)))
                else Ok d);
      do im <- set_at n t (d_im d');
      do ip <- set_at n true (d_ip d');
      Ok (mkD (d_sm d') im ip)
  end.

(** hash.hh:209-218 remove *)
Definition remove (d : dense) (k : key) : res dense :=
  match k with
  | KName s => Ok (mkD (sm_erase s (d_sm d)) (d_im d) (d_ip d))
  | KInt n =>
      if n <? to_int (Z.of_nat (length (d_ip d))) then
        do im <- set_at n dflt (d_im d);
        do ip <- set_at n false (d_ip d);
        Ok (mkD (d_sm d) im ip)
      else Ok d
  end.

(** hash.hh:221-225 clear *)
Definition clear (d : dense) : dense := dense0.

(** reading vector[n] *)
Definition get_at {A} (n : Z) (l : list A) : res A :=
  if 0 <=? n then match nth_error l (Z.to_nat n) with Some x => Ok x | None => UB end else UB.

(** hash.hh:238-250 find: None is {false, nullptr} *)
Definition find (d : dense) (k : key) : res (option T) :=
  match k with
  | KName s => Ok (sm_find s (d_sm d))
  | KInt n =>
      if Z.of_nat (length (d_ip d)) <=? n then Ok None
      else do b <- get_at n (d_ip d);
           if b : bool then do t <- get_at n (d_im d); Ok (Some t) else Ok None
  end.

(** hash.hh:226-237 get, with assertions off: reads the vector entry even if it is not marked present *)
Definition get (d : dense) (k : key) : res T :=
  match k with
  | KName s => match sm_find s (d_sm d) with Some t => Ok t | None => Err InternalError end
  | KInt n => get_at n (d_im d)
  end.

(** assigning through the reference that find returned (used by VarOccurrences) *)
Fixpoint sm_set (s : Z) (t : T) (l : list (Z * T)) : list (Z * T) :=
  match l with
  | [] => []
  | (s', t') :: r => if s' =? s then (s', t) :: r else (s', t') :: sm_set s t r
  end.
Definition assign (d : dense) (k : key) (t : T) : res dense :=
  match k with
  | KName s => Ok (mkD (sm_set s t (d_sm d)) (d_im d) (d_ip d))
  | KInt n => do im <- set_at n t (d_im d); Ok (mkD (d_sm d) im (d_ip d))
  end.

(** hash.hh:130-190 DenseIdMapIterator, represented by what lies between it and the end: the remaining named
    entries and the remaining vector entries with their presence flags. *)
Record iter := mkIt { it_sm : list (Z * T); it_im : list (T * bool) }.

(** hash.hh:147-150, 172-175: skip entries that are not present *)
Fixpoint skip (l : list (T * bool)) : list (T * bool) :=
  match l with
  | (t, false) :: r => skip r
  | _ => l
  end.

(** hash.hh:140-152 the constructor skips absent entries only if there are no named entries *)
Definition mkIter (sm : list (Z * T)) (im : list (T * bool)) : iter :=
  match sm with
  | [] => mkIt [] (skip im)
  | _ => mkIt sm im
  end.

(** hash.hh:252-254 begin *)
Definition begin (d : dense) : iter := mkIter (d_sm d) (combine (d_im d) (d_ip d)).

(** hash.hh:157-162 operator*; None: the iterator is at the end *)
Definition deref (it : iter) : option T :=
  match it_sm it, it_im it with
  | (_, t) :: _, _ => Some t
  | [], (t, _) :: _ => Some t
  | [], [] => None
  end.

(** hash.hh:169-182 operator++ *)
Definition incr (it : iter) : iter :=
  match it_sm it with
  | _ :: r => mkIt r (it_im it)
  | [] => mkIt [] (match skip (it_im it) with [] => [] | _ :: r => r end)
  end.

(** for (auto& x : map) : the values visited.  The loop makes at most one step per entry (fuel); running out of fuel
    is an error that the theorems exclude. *)
Fixpoint visit (fuel : nat) (it : iter) : res (list T) :=
  match deref it with
  | None => Ok []
  | Some t =>
      match fuel with
      | O => Err OutOfFuel
      | S f => do r <- visit f (incr it); Ok (t :: r)
      end
  end.
Definition iterate (d : dense) : res (list T) := visit (length (d_sm d) + length (d_im d)) (begin d).

End Dense.
Arguments mkD {T}. Arguments d_sm {T}. Arguments d_im {T}. Arguments d_ip {T}. Arguments dense0 {T}.
Arguments sm_find {T}. Arguments sm_erase {T}. Arguments insert {T}. Arguments remove {T}. Arguments clear {T}.
Arguments find {T}. Arguments get {T}. Arguments grows {T}. Arguments assign {T}. Arguments sm_set {T}. Arguments skip {T}.
Arguments mkIt {T}. Arguments it_sm {T}. Arguments it_im {T}. Arguments mkIter {T}. Arguments begin {T}.
Arguments deref {T}. Arguments incr {T}. Arguments visit {T}. Arguments iterate {T}.

(** * VarOccurrences: include/minizinc/optimize.hh:21-64, lib/optimize.cpp:20-107 *)

(** std::set<Item*>: items are numbers; the set is a duplicate-free list *)
Definition items := list Z.
Definition it_insert (i : Z) (s : items) : items := if existsb (Z.eqb i) s then s else s ++ [i].
Definition it_erase (i : Z) (s : items) : items := filter (fun j => negb (j =? i)) s.

(** The occurrence map, the index map, and the redirections made by Id::redirect (ast.hh:835-839).  The flat model
    itself is not part of the state: unify's removal of the declaration item is not modelled. *)
Record vocc := mkV { v_items : dense items; v_idx : dense Z; v_redir : list (key * key) }.
Definition vocc0 : vocc := mkV dense0 dense0 [].

(** v->id()->decl()->id(): follow the redirections, oldest first (a redirected identifier is never redirected
    again, since unify works on identifiers of declarations; ast.hpp:251-270 follows the chain) *)
Definition resolve (r : list (key * key)) (k : key) : key :=
  fold_left (fun k p => if keqb (fst p) k then snd p else k) r k.

(** lib/optimize.cpp:24-28, 39 index operations; find returns -1 if there is no index *)
Definition addIndex (s : vocc) (k : key) (i : Z) : res vocc :=
  do d <- insert 0 (v_idx s) (resolve (v_redir s) k) i; Ok (mkV (v_items s) d (v_redir s)).
Definition findIndex (s : vocc) (k : key) : res Z :=
  do o <- find (v_idx s) (resolve (v_redir s) k); Ok (match o with Some i => to_int i | None => -1 end).
Definition removeIndex (s : vocc) (k : key) : res vocc :=
  do d <- remove 0 (v_idx s) (resolve (v_redir s) k); Ok (mkV (v_items s) d (v_redir s)).

(** lib/optimize.cpp:41-49 add *)
Definition vadd (s : vocc) (v : key) (i : Z) : res vocc :=
  let k := resolve (v_redir s) v in
  do o <- find (v_items s) k;
  match o with
  | Some its => do d <- assign (v_items s) k (it_insert i its); Ok (mkV d (v_idx s) (v_redir s))
  | None => do d <- insert (T := items) [] (v_items s) k [i]; Ok (mkV d (v_idx s) (v_redir s))
  end.

(** lib/optimize.cpp:51-56 remove(v, i); without an entry the null pointer is dereferenced *)
Definition vremove (s : vocc) (v : key) (i : Z) : res (vocc * Z) :=
  let k := resolve (v_redir s) v in
  do o <- find (v_items s) k;
  match o with
  | Some its =>
      do d <- assign (v_items s) k (it_erase i its);
      Ok (mkV d (v_idx s) (v_redir s), to_int (Z.of_nat (length (it_erase i its))))
  | None => UB
  end.

(** lib/optimize.cpp:58-62 removeAllOccurrences *)
Definition vremoveAll (s : vocc) (v : key) : res vocc :=
  let k := resolve (v_redir s) v in
  do o <- find (v_items s) k;
  match o with
  | Some its => do d <- assign (v_items s) k []; Ok (mkV d (v_idx s) (v_redir s))
  | None => UB
  end.

(** lib/optimize.cpp:64-94 unify.  In line 87 the value is passed by reference to the entry of v0: if that entry lies in
    the vector and insert makes the vector grow, the reference dangles when it is read (hash.hh:198-205).  (Growing
    within spare capacity would leave it valid; the model does not track capacities and counts every growth.) *)
Definition vunify (s : vocc) (id0 id1 : key) : res vocc :=
  let k0 := resolve (v_redir s) id0 in
  let k1 := resolve (v_redir s) id1 in
  if keqb k0 k1 then Ok s else
  do o0 <- find (v_items s) k0;
  do d <- match o0 with
          | None => Ok (v_items s)
          | Some its0 =>
              do o1 <- find (v_items s) k1;
              do d <- match o1 with
                      | Some its1 => assign (v_items s) k1 (fold_left (fun a i => it_insert i a) its0 its1)
                      | None =>
                          match k0, k1 with
                          | KInt _, KInt n1 => if grows (v_items s) n1 then UB
                                               else insert (T := items) [] (v_items s) k1 its0
                          | _, _ => insert (T := items) [] (v_items s) k1 its0
                          end
                      end;
              remove (T := items) [] d k0
          end;
  do x <- remove 0 (v_idx s) k0;
  Ok (mkV d x (v_redir s ++ [(k0, k1)])).

(** lib/optimize.cpp:96-99 clear *)
Definition vclear (s : vocc) : vocc := mkV (clear (v_items s)) (clear (v_idx s)) (v_redir s).

(** lib/optimize.cpp:101-104 occurrences *)
Definition occurrences (s : vocc) (v : key) : res Z :=
  do o <- find (v_items s) (resolve (v_redir s) v);
  Ok (match o with Some its => to_int (Z.of_nat (length its)) | None => 0 end).
