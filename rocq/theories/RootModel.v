(** Model of the root set of the garbage collector: the trail, KeepAlive handles, markers and weak references
    (lib/gc.cpp, include/minizinc/gc.hh). *)
Require Import ZArith List Bool Lia.
From Verif Require Import Base.
Import ListNotations.
Open Scope Z_scope.

(** An Expression* is the null pointer, an unboxed value or the address of a node
    (Expression::isUnboxedVal, include/minizinc/ast.hh) *)
Inductive val := VNull | VUnboxed (z : Z) | VNode (a : Z).

(** (_e != nullptr) && !Expression::isUnboxedVal(_e) *)
Definition boxed (v : val) : bool := match v with VNode _ => true | _ => false end.

(** ** The trail, lib/gc.cpp:96-105 and 680-700 *)

(** The memory the trail writes to: locations (Expression star star) and their contents *)
Definition cells := Z -> val.
Definition cset (m : cells) (l : Z) (v : val) : cells := fun x => if x =? l then v else m x.

(** GC::Heap::TItem, lib/gc.cpp:97-102: a mark or a location with the value to restore *)
Inductive titem := TMark | TSave (l : Z) (v : val).

(** GC::untrail, lib/gc.cpp:689-698; the trail is listed from its back.  back() of an empty vector is undefined. *)
Fixpoint untrail (t : list titem) (m : cells) : res (list titem * cells) :=
  match t with
  | [] => UB
  | TMark :: r => Ok (r, m)
  | TSave l v :: r => untrail r (cset m l v)
  end.

(** The operations: GC::mark (680-684), GC::trail of the current value of a location (685-688; all callers pass the
    current value, lib/ast.cpp:1049-1054), a write to a location, and GC::untrail *)
Inductive trail_op := OMark | OTrail (l : Z) | OSet (l : Z) (v : val) | OUntrail.
Definition trail_step (o : trail_op) (s : list titem * cells) : res (list titem * cells) :=
  let '(t, m) := s in
  match o with
  | OMark => Ok (TMark :: t, m)
  | OTrail l => Ok (TSave l (m l) :: t, m)
  | OSet l v => Ok (t, cset m l v)
  | OUntrail => untrail t m
  end.
Fixpoint trail_run (ops : list trail_op) (s : list titem * cells) : res (list titem * cells) :=
  match ops with
  | [] => Ok s
  | o :: r => do s' <- trail_step o s; trail_run r s'
  end.

(** ** KeepAlive handles, lib/gc.cpp:717-791 *)

(** KeepAlive and WeakRef objects have the same members _e, _p, _n (include/minizinc/gc.hh:236-272).  Objects are
    identified by their address; the null pointer is 0. *)
Record handle := mkH { h_e : val; h_p : Z; h_n : Z }.
Definition handles := Z -> option handle.
Definition hput (m : handles) (a : Z) (h : handle) : handles := fun x => if x =? a then Some h else m x.
Definition hdel (m : handles) (a : Z) : handles := fun x => if x =? a then None else m x.

(** The objects that exist and the head of the list (Heap::_roots, or Heap::_weakRefs for weak references) *)
Record hlist := mkHL { hl_m : handles; hl_head : Z }.

Definition hget (m : handles) (a : Z) : res handle := match m a with Some h => Ok h | None => UB end.
Definition set_p (a p : Z) (m : handles) : res handles := do h <- hget m a; Ok (hput m a (mkH (h_e h) p (h_n h))).
Definition set_n (a n : Z) (m : handles) : res handles := do h <- hget m a; Ok (hput m a (mkH (h_e h) (h_p h) n)).
Definition set_e (a : Z) (e : val) (m : handles) : res handles := do h <- hget m a; Ok (hput m a (mkH e (h_p h) (h_n h))).

(** GC::addKeepAlive, lib/gc.cpp:717-726, and GC::addWeakRef, 793-801: the same code for the two lists *)
Definition add (e : Z) (s : hlist) : res hlist :=
  do h <- hget (hl_m s) e;
  if negb (h_p h =? 0) || negb (h_n h =? 0) then UB                      (* assertions *)
  else
    do m1 <- set_n e (hl_head s) (hl_m s);
    do m2 <- (if negb (hl_head s =? 0) then set_p (hl_head s) e m1 else Ok m1);
    Ok (mkHL m2 e).
(** GC::removeKeepAlive, lib/gc.cpp:727-738, and GC::removeWeakRef, 802-812 *)
Definition remove (e : Z) (s : hlist) : res hlist :=
  do h <- hget (hl_m s) e;
  do s1 <- (if negb (h_p h =? 0) then do m <- set_n (h_p h) (h_n h) (hl_m s); Ok (mkHL m (hl_head s))
            else if hl_head s =? e then Ok (mkHL (hl_m s) (h_n h)) else UB);   (* assertion *)
  do h' <- hget (hl_m s1) e;
  if negb (h_n h' =? 0) then do m <- set_p (h_n h') (h_p h') (hl_m s1); Ok (mkHL m (hl_head s1)) else Ok s1.
(** GC::relocateKeepAlive, lib/gc.cpp:739-748 *)
Definition relocate (e : Z) (s : hlist) : res hlist :=
  do h <- hget (hl_m s) e;
  do s1 <- (if negb (h_p h =? 0) then do m <- set_n (h_p h) e (hl_m s); Ok (mkHL m (hl_head s))
            else Ok (mkHL (hl_m s) e));
  do h' <- hget (hl_m s1) e;
  if negb (h_n h' =? 0) then do m <- set_p (h_n h') e (hl_m s1); Ok (mkHL m (hl_head s1)) else Ok s1.

(** A new object is placed at the address [a]; placing it over an existing object or at the null pointer is an error of
    the caller *)
Definition place (a : Z) (h : handle) (s : hlist) : res hlist :=
  if a =? 0 then UB
  else match hl_m s a with Some _ => UB | None => Ok (mkHL (hput (hl_m s) a h) (hl_head s)) end.

(** KeepAlive::KeepAlive(Expression* e), lib/gc.cpp:750-754, and WeakRef::WeakRef(Expression* e), 835-839 *)
Definition ka_new (a : Z) (e : val) (s : hlist) : res hlist :=
  do s1 <- place a (mkH e 0 0) s;
  if boxed e then add a s1 else Ok s1.
(** KeepAlive::~KeepAlive, lib/gc.cpp:755-759, and WeakRef::~WeakRef, 840-844; the object ceases to exist *)
Definition ka_del (a : Z) (s : hlist) : res hlist :=
  do h <- hget (hl_m s) a;
  do s1 <- (if boxed (h_e h) then remove a s else Ok s);
  Ok (mkHL (hdel (hl_m s1) a) (hl_head s1)).
(** KeepAlive::KeepAlive(const KeepAlive& e), lib/gc.cpp:760-764 *)
Definition ka_copy (a src : Z) (s : hlist) : res hlist :=
  do h <- hget (hl_m s) src;
  ka_new a (h_e h) s.
(** KeepAlive::KeepAlive(KeepAlive&& e), lib/gc.cpp:765-777 *)
Definition ka_move (a src : Z) (s : hlist) : res hlist :=
  do h <- hget (hl_m s) src;
  do s1 <- place a (mkH (h_e h) (h_p h) (h_n h)) s;
  do s2 <- (if boxed (h_e h) then relocate a s1 else Ok s1);
  do _ <- hget (hl_m s2) src;
  Ok (mkHL (hput (hl_m s2) src (mkH VNull 0 0)) (hl_head s2)).
(** KeepAlive::operator=, lib/gc.cpp:778-793 *)
Definition ka_assign (a src : Z) (s : hlist) : res hlist :=
  if a =? src then do _ <- hget (hl_m s) a; Ok s
  else
    do h <- hget (hl_m s) a; do g <- hget (hl_m s) src;
    do s1 <- (if boxed (h_e h)
              then (if negb (boxed (h_e g))
                    then do s' <- remove a s;
                         do m1 <- set_n a 0 (hl_m s'); do m2 <- set_p a 0 m1;
                         Ok (mkHL m2 (hl_head s'))
                    else Ok s)
              else (if boxed (h_e g) then add a s else Ok s));
    do g' <- hget (hl_m s1) src;
    do m <- set_e a (h_e g') (hl_m s1);
    Ok (mkHL m (hl_head s1)).

Inductive ka_op := KNew (a : Z) (e : val) | KDel (a : Z) | KCopy (a src : Z) | KMove (a src : Z) | KAssign (a src : Z).
Definition ka_step (o : ka_op) (s : hlist) : res hlist :=
  match o with
  | KNew a e => ka_new a e s
  | KDel a => ka_del a s
  | KCopy a src => ka_copy a src s
  | KMove a src => ka_move a src s
  | KAssign a src => ka_assign a src s
  end.
Fixpoint ka_run (ops : list ka_op) (s : hlist) : res hlist :=
  match ops with
  | [] => Ok s
  | o :: r => do s' <- ka_step o s; ka_run r s'
  end.
(** No object exists and the list is empty, lib/gc.cpp:107-119 *)
Definition hl_init : hlist := mkHL (fun _ => None) 0.

(** The loop over the list in Heap::mark, lib/gc.cpp:438 (and 467 for weak references): the objects visited from [a] on *)
Inductive visits (m : handles) : Z -> list Z -> Prop :=
| visits_end : visits m 0 []
| visits_next : forall a h l, a <> 0 -> m a = Some h -> visits m (h_n h) l -> visits m a (a :: l).

(** ** Markers: the ring of GCMarker objects, lib/gc.cpp:390-416 *)

(** A marker has the members _rootsPrev and _rootsNext, include/minizinc/gc.hh:302-331 *)
Record ring := mkR { r_m : Z -> option (Z * Z); r_root : Z }.
Definition rput (m : Z -> option (Z * Z)) (a : Z) (v : Z * Z) : Z -> option (Z * Z) := fun x => if x =? a then Some v else m x.
Definition rget (m : Z -> option (Z * Z)) (a : Z) : res (Z * Z) := match m a with Some v => Ok v | None => UB end.
Definition rset_next (a n : Z) (m : Z -> option (Z * Z)) : res (Z -> option (Z * Z)) :=
  do ' (p, _) <- rget m a; Ok (rput m a (p, n)).
Definition rset_prev (a p : Z) (m : Z -> option (Z * Z)) : res (Z -> option (Z * Z)) :=
  do ' (_, n) <- rget m a; Ok (rput m a (p, n)).

(** GCMarker::GCMarker and GC::add, lib/gc.cpp:390-402 *)
Definition marker_add (a : Z) (s : ring) : res ring :=
  if a =? 0 then UB
  else match r_m s a with
  | Some _ => UB
  | None =>
    let m0 := rput (r_m s) a (0, 0) in
    if negb (r_root s =? 0) then
      do m1 <- rset_next a (r_root s) m0;                       (* m->_rootsNext = _rootset *)
      do ' (_, nx) <- rget m1 a;
      do ' (np, _) <- rget m1 nx;
      do m2 <- rset_prev a np m1;                               (* m->_rootsPrev = m->_rootsNext->_rootsPrev *)
      do ' (pv, nx2) <- rget m2 a;
      do m3 <- rset_next pv a m2;                               (* m->_rootsPrev->_rootsNext = m *)
      do m4 <- rset_prev nx2 a m3;                              (* m->_rootsNext->_rootsPrev = m *)
      Ok (mkR m4 (r_root s))
    else Ok (mkR (rput m0 a (a, a)) a)
  end.
(** GC::remove, lib/gc.cpp:404-416, in the destructor of GCMarker: the object ceases to exist *)
Definition marker_remove (a : Z) (s : ring) : res ring :=
  do ' (pv, nx) <- rget (r_m s) a;
  do s1 <- (if nx =? a then Ok (mkR (r_m s) 0)
            else
              do m1 <- rset_prev nx pv (r_m s);
              do ' (pv1, nx1) <- rget m1 a;
              do m2 <- rset_next pv1 nx1 m1;
              do ' (pv2, _) <- rget m2 a;
              Ok (mkR m2 (if a =? r_root s then pv2 else r_root s)));
  Ok (mkR (fun x => if x =? a then None else r_m s1 x) (r_root s1)).

Inductive marker_op := MAdd (a : Z) | MRemove (a : Z).
Definition marker_step (o : marker_op) (s : ring) : res ring :=
  match o with MAdd a => marker_add a s | MRemove a => marker_remove a s end.
Fixpoint marker_run (ops : list marker_op) (s : ring) : res ring :=
  match ops with
  | [] => Ok s
  | o :: r => do s' <- marker_step o s; marker_run r s'
  end.
Definition ring_init : ring := mkR (fun _ => None) 0.

(** The do-while loop over the markers in Heap::mark, lib/gc.cpp:450-457: the markers visited before the root is met again *)
Inductive ring_visits (m : Z -> option (Z * Z)) (root : Z) : Z -> list Z -> Prop :=
| ring_last : forall a p, m a = Some (p, root) -> ring_visits m root a [a]
| ring_next : forall a p n l, m a = Some (p, n) -> n <> root -> ring_visits m root n l -> ring_visits m root a (a :: l).

(** ** Weak references, lib/gc.cpp:462-481 and 835-880 *)

(** WeakRef::operator(), lib/gc.cpp:875-880 *)
Definition wr_deref (h : handle) : val :=
  match h_e h with
  | VNode a => if negb (h_p h =? 0) then VNode a else VNull
  | VUnboxed z => VUnboxed z
  | VNull => VNull
  end.
(** WeakRef::WeakRef(const WeakRef& e), lib/gc.cpp:845-849 *)
Definition wr_copy (a src : Z) (s : hlist) : res hlist :=
  do h <- hget (hl_m s) src;
  ka_new a (wr_deref h) s.
(** WeakRef::operator=, lib/gc.cpp:850-873 *)
Definition wr_assign (a src : Z) (s : hlist) : res hlist :=
  if a =? src then do _ <- hget (hl_m s) a; Ok s
  else
    do h <- hget (hl_m s) a; do g <- hget (hl_m s) src;
    let isActive := boxed (h_e h) in
    do s1 <- (if isActive && negb (boxed (wr_deref g))
              then do s' <- remove a s;
                   do m1 <- set_p a 0 (hl_m s'); do m2 <- set_n a 0 m1;
                   Ok (mkHL m2 (hl_head s'))
              else Ok s);
    do g' <- hget (hl_m s1) src;
    do m <- set_e a (wr_deref g') (hl_m s1);
    let s2 := mkHL m (hl_head s1) in
    if negb isActive && boxed (wr_deref g') then add a s2 else Ok s2.

(** The nodes of the heap: [Some true] is an allocated node that has been marked, [Some false] an allocated node that has
    not, [None] an address without a node.  Reading the mark of a node that is not there is undefined. *)
Definition nodes := Z -> option bool.

(** The pending removal of a cleared reference, lib/gc.cpp:468-473 and 479-483 *)
Definition wr_flush (prev : option Z) (s : hlist) : res hlist :=
  match prev with
  | None => Ok s
  | Some p => do s' <- remove p s;
              do m1 <- set_n p 0 (hl_m s'); do m2 <- set_p p 0 m1;
              Ok (mkHL m2 (hl_head s'))
  end.
(** The loop over the weak references, lib/gc.cpp:466-483 *)
Fixpoint wr_loop (fuel : nat) (g : nodes) (wr : Z) (prev : option Z) (s : hlist) : res hlist :=
  match fuel with
  | O => Err OutOfFuel
  | S f =>
      if wr =? 0 then wr_flush prev s
      else
        do s1 <- wr_flush prev s;
        do h <- hget (hl_m s1) wr;
        do ' (s2, prev2) <-
           (match wr_deref h with
            | VNull => Ok (s1, None)
            | VUnboxed _ => UB                       (* _gcMark of an unboxed value *)
            | VNode a => match g a with
                         | None => UB
                         | Some true => Ok (s1, None)
                         | Some false => do m <- set_e wr VNull (hl_m s1); Ok (mkHL m (hl_head s1), Some wr)
                         end
            end);
        do h2 <- hget (hl_m s2) wr;
        wr_loop f g (h_n h2) prev2 s2
  end.

(** A collection in which the nodes [keep] have been marked, for a heap with at least one marker: the weak references are
    processed (Heap::mark) and the unmarked nodes are freed (Heap::sweep).  [fuel] bounds the length of the list. *)
Definition wr_collect (fuel : nat) (keep : Z -> bool) (st : hlist * (Z -> bool)) : res (hlist * (Z -> bool)) :=
  let '(s, alive) := st in
  do s' <- wr_loop fuel (fun a => if alive a then Some (keep a) else None) (hl_head s) None s;
  Ok (s', fun a => alive a && keep a).

Inductive wr_op :=
| WNode (x : Z)                      (* a node is allocated at the address x *)
| WNew (a : Z) (e : val) | WDel (a : Z) | WCopy (a src : Z) | WAssign (a src : Z)
| WCollect (keep : Z -> bool).
Definition wr_step (fuel : nat) (o : wr_op) (st : hlist * (Z -> bool)) : res (hlist * (Z -> bool)) :=
  let '(s, alive) := st in
  match o with
  | WNode x => if alive x then UB else Ok (s, fun a => if a =? x then true else alive a)
  | WNew a e => do s' <- ka_new a e s; Ok (s', alive)
  | WDel a => do s' <- ka_del a s; Ok (s', alive)
  | WCopy a src => do s' <- wr_copy a src s; Ok (s', alive)
  | WAssign a src => do s' <- wr_assign a src s; Ok (s', alive)
  | WCollect keep => wr_collect fuel keep st
  end.
Fixpoint wr_run (fuel : nat) (ops : list wr_op) (st : hlist * (Z -> bool)) : res (hlist * (Z -> bool)) :=
  match ops with
  | [] => Ok st
  | o :: r => do st' <- wr_step fuel o st; wr_run fuel r st'
  end.
Definition wr_init : hlist * (Z -> bool) := (hl_init, fun _ => false).

(** ** Weak maps *)

(** ASTNodeWeakMap, lib/gc.cpp:485-495: entries are pairs of nodes; an entry is removed if the key or the value is unmarked.
    The map is a list of entries without repeated keys. *)
Definition weak_map_fix (marked : Z -> bool) (m : list (Z * Z)) : list (Z * Z) :=
  let toRemove := map fst (filter (fun n => negb (marked (fst n)) || negb (marked (snd n))) m) in
  filter (fun n => negb (existsb (Z.eqb (fst n)) toRemove)) m.
(** Expression::hasMark, lib/ast.cpp:297-299 *)
Definition has_mark (marked : Z -> bool) (v : val) : bool :=
  match v with VNode a => marked a | _ => false end.
(** CSEMap::fixWeakRefs, include/minizinc/flatten_internal.hh:330-342: entries map an expression to a pair (r, b) *)
Definition cse_fix (marked : Z -> bool) (m : list (Z * (val * val))) : list (Z * (val * val)) :=
  let toRemove := map fst (filter (fun n => negb (has_mark marked (fst (snd n))) || negb (has_mark marked (snd (snd n)))) m) in
  filter (fun n => negb (existsb (Z.eqb (fst n)) toRemove)) m.
