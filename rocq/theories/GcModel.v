(** Model of the garbage collected heap: nodes, marking, allocation and sweeping (lib/gc.cpp, Expression::mark and Item::mark in
    lib/ast.cpp).  Sizes are those of a 64-bit build. *)
Require Import ZArith List Bool Lia.
From Verif Require Import Base RootModel.
Import ListNotations.
Open Scope Z_scope.

(** ** Nodes *)

(** The address of a node; the null pointer is 0.  An Expression* is a [val] of RootModel: null, unboxed or a node. *)
Definition ptr := Z.

(** The fields of the expression classes that matter to the collector, include/minizinc/ast.hh:656-1640.  Vectors (ASTExprVec,
    ASTIntVec) and strings (ASTString) are pointers to their node.  Literal values are kept as an opaque number. *)
Inductive expr :=
| EIntLit (x : Z) | EFloatLit (x : Z) | EBoolLit (b : bool) | EAnon
| ESetLit (u : ptr) (v : ptr)                        (* _u.isv or _u.fsv; _v *)
| EStringLit (s : ptr)
| EId (named : bool) (s : ptr) (dest : val)          (* _vOrIdn holds a string iff named; _decl *)
| EArrayLit (slice : bool) (u : ptr) (dims : ptr)    (* _flag2; _u.al or _u.v; _dims *)
| EArrayAccess (v : val) (idx : ptr)
| EFieldAccess (v f : val)
| EComp (e : val) (g : ptr) (gIndex : ptr)
| EITE (els : val) (ifthen : ptr)
| EBinOp (l r : val) (decl : ptr)
| EUnOp (e : val) (decl : ptr)
| ECall (hasDecl : bool) (u : ptr) (ck : Z) (data : list val) (args : ptr)
      (* _uId.decl or _uId.id; _secondaryId; _data of Call1 to Call4; _args of CallNary *)
| EVarDecl (ti id e : val) (flat : ptr)
| ELet (lt orig : ptr) (inn : val)
| ETI (domain : val) (ranges : ptr)
| ETIId (s : ptr).

(** The item classes, include/minizinc/ast.hh:1644-2000.  A VarDeclI is the VarDecl itself (1765-1785). *)
Inductive item :=
| IInc (f : ptr)
| IAsn (id : ptr) (e decl : val)
| ICon (e : val)
| ISol (ann : list val) (e : val)
| IOut (e : val) (ann : list val)
| IFun (id : ptr) (ti : val) (ann : list val) (e : val) (params : ptr).

(** What a node is: a FreeListNode (lib/gc.cpp:34-43), a chunk (integer vectors and sets) or string with [n] bytes of data, a
    vector of expressions, the LocVec of a location with [n] entries (include/minizinc/ast.hh:168-189), an expression or an item,
    both with the LocVec of their location.  Annotations are sets of expressions outside of the heap. *)
Inductive kind :=
| KFree (size : Z)
| KChunk (n : Z) | KStr (n : Z)
| KVec (l : list val)
| KLoc (file : ptr) (n : Z)
| KExpr (loc : ptr) (ann : list val) (e : expr)
| KItem (loc : ptr) (i : item).

(** The flags _gcMark and _vdGcMark, include/minizinc/gc.hh:44-48 *)
Record node := mkN { n_kind : kind; n_mark : bool; n_vd : bool }.
Definition mem := Z -> option node.
Definition mput (m : mem) (a : ptr) (n : node) : mem := fun x => if x =? a then Some n else m x.
Definition mget (m : mem) (a : ptr) : res node := match m a with Some n => Ok n | None => UB end.

(** ** Marking *)

(** _gcMark = 1 of the node at [a] *)
Definition set_mark (a : ptr) (m : mem) : res mem :=
  do n <- mget m a; Ok (mput m a (mkN (n_kind n) true (n_vd n))).
(** mark of a pointer that may be null: ASTString::mark (include/minizinc/aststring.hh:204-208), ASTIntVec::mark and
    ASTExprVec::mark (include/minizinc/astvec.hh:191-195 and 236-240) *)
Definition mark_ptr (a : ptr) (m : mem) : res mem := if a =? 0 then Ok m else set_mark a m.
(** Location::mark, lib/ast.cpp:138-142, and LocVec::mark, include/minizinc/ast.hh:177-182 *)
Definition mark_loc (a : ptr) (m : mem) : res mem :=
  if a =? 0 then Ok m
  else do m1 <- set_mark a m;
       do n <- mget m1 a;
       match n_kind n with KLoc f _ => mark_ptr f m1 | _ => UB end.

(** the elements of a vector; the vector may be null (ASTExprVec::size, include/minizinc/astvec.hh) *)
Definition elements (m : mem) (v : ptr) : res (list val) :=
  if v =? 0 then Ok []
  else do n <- mget m v; match n_kind n with KVec l => Ok l | _ => UB end.
Definition nonnull (l : list val) : list val := filter (fun v => match v with VNull => false | _ => true end) l.

(** What Expression::mark does for one expression after setting its mark, lib/ast.cpp:204-289: the strings and vectors it marks,
    the expressions it pushes and the function item it marks (0 for none).  Null pointers in the first list are skipped.
    Simplified: the effects of one expression are collected, their order makes no difference. *)
Definition parts (m : mem) (e : expr) : res (list ptr * list val * ptr) :=
  match e with
  | EIntLit _ | EFloatLit _ | EBoolLit _ | EAnon => Ok ([], [], 0)
  | ESetLit u v => if negb (u =? 0) then Ok ([u], [], 0) else do l <- elements m v; Ok ([v], l, 0)
  | EStringLit s => Ok ([s], [], 0)
  | EId named s dest => Ok (if named then [s] else [], [dest], 0)
  | EArrayLit slice u dims =>
      if slice then Ok ([dims], [VNode u], 0) else do l <- elements m u; Ok ([u; dims], l, 0)
  | EArrayAccess v idx => do l <- elements m idx; Ok ([idx], v :: l, 0)
  | EFieldAccess v f => Ok ([], [v; f], 0)
  | EComp e g gi => do l <- elements m g; Ok ([g; gi], e :: l, 0)
  | EITE els it => do l <- elements m it; Ok ([it], els :: l, 0)
  | EBinOp l r _ => Ok ([], [l; r], 0)
  | EUnOp e _ => Ok ([], [e], 0)
  | ECall hasDecl u ck data args =>
      do id <- (if hasDecl
                then do n <- mget m u; match n_kind n with KItem _ (IFun id _ _ _ _) => Ok id | _ => UB end
                else Ok u);
      do l <- (if 5 <=? ck then (if args =? 0 then UB else elements m args)
               else if (length data <? Z.to_nat ck)%nat then UB else Ok (firstn (Z.to_nat ck) data));
      Ok (id :: (if 5 <=? ck then [args] else []), l, if hasDecl then u else 0)
  | EVarDecl ti id e _ => Ok ([], [ti; e; id], 0)
  | ELet lt orig inn => do l <- elements m lt; do l' <- elements m orig; Ok ([lt; orig], l ++ l' ++ [inn], 0)
  | ETI dom ranges => do l <- elements m ranges; Ok ([ranges], dom :: l, 0)
  | ETIId s => Ok ([s], [], 0)
  end.

Fixpoint mark_ptrs (l : list ptr) (m : mem) : res mem :=
  match l with [] => Ok m | a :: r => do m' <- mark_ptr a m; mark_ptrs r m' end.
Definition is_vardecl (k : kind) : bool := match k with KExpr _ _ (EVarDecl _ _ _ _) => true | _ => false end.

(** The loop of Expression::mark, lib/ast.cpp:190-293, over the stack of pending expressions, and Item::mark, 1922-1975.
    FunctionI::markParams is at include/minizinc/ast.hpp:757-762.  An II_VD item is marked through its VarDecl (1932-1934: the
    mark that has been set is reset first). *)
Fixpoint mark_loop (fuel : nat) (stack : list val) (m : mem) : res mem :=
  match fuel with
  | O => Err OutOfFuel
  | S f =>
      match stack with
      | [] => Ok m
      | VNode a :: s =>
          do n <- mget m a;
          if n_mark n then mark_loop f s m
          else match n_kind n with
               | KExpr loc ann e =>
                   let m0 := mput m a (mkN (n_kind n) true (n_vd n || is_vardecl (n_kind n))) in
                   do m1 <- mark_loc loc m0;
                   do ' (ps, l, fi) <- parts m1 e;
                   do m2 <- mark_ptrs ps m1;
                   do m3 <- (if fi =? 0 then Ok m2 else mark_item f fi m2);
                   mark_loop f (nonnull (rev l) ++ nonnull (rev ann) ++ s) m3
               | _ => UB
               end
      | _ :: s => mark_loop f s m                     (* unboxed values are skipped; null is never pushed *)
      end
  end
with mark_item (fuel : nat) (a : ptr) (m : mem) : res mem :=
  match fuel with
  | O => Err OutOfFuel
  | S f =>
      do n <- mget m a;
      if n_mark n then Ok m
      else match n_kind n with
           | KExpr loc _ (EVarDecl _ _ _ _) => do m1 <- mark_loc loc m; mark_loop f [VNode a] m1
           | KItem loc i =>
               do m0 <- set_mark a m;
               do m1 <- mark_loc loc m0;
               let marks := fun vs m => fold_left (fun r v => do m' <- r; mark_loop f (nonnull [v]) m') vs (Ok m) in
               match i with
               | IInc s => mark_ptr s m1
               | IAsn id e d => do m2 <- mark_ptr id m1; marks [e; d] m2
               | ICon e => marks [e] m1
               | ISol ann e => marks (ann ++ [e]) m1
               | IOut e ann => marks (e :: ann) m1
               | IFun id ti ann e params =>
                   do m2 <- mark_ptr id m1;
                   do m3 <- marks (ti :: ann ++ [e]) m2;
                   do m4 <- mark_ptr params m3;
                   do l <- elements m4 params;
                   marks l m4
               end
           | _ => UB
           end
  end.

(** What a GCMarker marks in its mark(): expressions, items, strings and locations (Model::mark, include/minizinc/model.hh:93-99;
    Constants::mark, lib/ast.cpp:2971-2989; the classes in include/minizinc/astexception.hh and astmap.hh) *)
Inductive root := RExpr (v : val) | RItem (a : ptr) | RStr (s : ptr) | RLoc (l : ptr).
Definition mark_root (fuel : nat) (r : root) (m : mem) : res mem :=
  match r with
  | RExpr v => mark_loop fuel (nonnull [v]) m
  | RItem a => mark_item fuel a m
  | RStr s => mark_ptr s m
  | RLoc l => mark_loc l m
  end.
Fixpoint mark_roots (fuel : nat) (l : list root) (m : mem) : res mem :=
  match l with [] => Ok m | r :: l' => do m' <- mark_root fuel r m; mark_roots fuel l' m' end.

(** GC::Heap::mark, lib/gc.cpp:432-461: the KeepAlive handles, then the markers, then the trail from its back.  Without a marker
    the function returns before the trail.  Weak references and weak maps (463-495) are in RootModel. *)
Definition heap_mark (fuel : nat) (keep : list val) (markers : list (list root)) (trail : list val) (m : mem) : res mem :=
  do m1 <- mark_roots fuel (map RExpr keep) m;
  match markers with
  | [] => Ok m1
  | _ => do m2 <- mark_roots fuel (concat markers) m1;
         mark_roots fuel (map RExpr trail) m2
  end.

(** ** Memory *)

(** sizeof(Item) = 16; the sizes of the free lists are 24, 32, ..., 96 (lib/gc.cpp:67-70 and 383-390) *)
Definition fl_min : Z := 24.
Definition fl_max : Z := 96.
Definition freelistSlot (size : Z) : res Z :=
  if (fl_max <? size) || (size <? fl_min) || negb (size mod 8 =? 0) then UB else Ok ((size - 16) / 8 - 1).
Definition align8 (s : Z) : Z := s + (8 - s mod 8) mod 8.

(** GC::Heap::nodesize, lib/gc.cpp:239-309; memsize of chunks and vectors, include/minizinc/gc.hh:99-103 and 122-126 *)
Definition call_size (ck : Z) : Z :=
  if ck =? 0 then 48 else if (ck =? 2) || (ck =? 6) then 56 else if (ck =? 3) || (ck =? 7) then 64
  else if (ck =? 4) || (ck =? 8) then 72 else 48.
Definition expr_size (e : expr) : Z :=
  match e with
  | EIntLit _ | EFloatLit _ | ESetLit _ _ | EId _ _ _ | EArrayLit _ _ _ | EArrayAccess _ _ | EFieldAccess _ _ | EITE _ _ | EUnOp _ _ | ETI _ _ => 48
  | EBoolLit _ | EStringLit _ | ETIId _ => 40
  | EAnon => 32
  | EComp _ _ _ | ELet _ _ _ => 56
  | EBinOp _ _ _ => 64
  | EVarDecl _ _ _ _ => 72
  | ECall _ _ ck _ _ => call_size ck
  end.
Definition item_size (i : item) : Z :=
  match i with
  | IInc _ | ISol _ _ | IOut _ _ => 32
  | IAsn _ _ _ => 40
  | ICon _ => 24
  | IFun _ _ _ _ _ => 120
  end.
Definition nodesize (k : kind) : Z :=
  align8 (match k with
          | KFree s => s
          | KChunk n | KStr n => align8 (24 + (if n <=? 4 then 0 else n - 4))
          | KVec l => align8 (32 + (if Z.of_nat (length l) <=? 2 then 0 else Z.of_nat (length l) - 2) * 8)
          | KLoc _ n => align8 (32 + (if n <=? 2 then 0 else n - 2) * 8)
          | KExpr _ _ e => expr_size e
          | KItem _ i => item_size i
          end).

(** HeapPage, lib/gc.cpp:45-52; [p_base] is the address of its data *)
Record page := mkP { p_base : Z; p_size : Z; p_used : Z }.
(** GC::Heap, lib/gc.cpp:55-122.  The list of pages starts with _page; the free lists are lists of addresses, from their head.
    Counters are unbounded integers (C22_accounting shows that they do not become negative).  _gcThreshold and _maxAllocedMem are
    not modelled: collections happen at arbitrary points of a history. *)
Record heap := mkHp { hp_mem : mem; hp_pages : list page; hp_fl : Z -> list ptr; hp_alloced : Z; hp_free : Z }.
Definition flput (fl : Z -> list ptr) (s : Z) (l : list ptr) : Z -> list ptr := fun x => if x =? s then l else fl x.

Definition pageSize : Z := 4194304.

(** HeapPage* allocPage(size_t s, bool exact), lib/gc.cpp:127-164.  [base] is the address malloc returns; out of memory is not
    modelled.  The new page is returned separately from the others before and behind it. *)
Definition alloc_page (s0 : Z) (exact : bool) (base : Z) (h : heap) : res (heap * list page * page * list page) :=
  let s := if exact then s0 else Z.max s0 pageSize in
  let al := hp_alloced h + s in
  let fr := hp_free h + s in
  let np := mkP base s 0 in
  match hp_pages h with
  | p :: ps =>
      if exact then Ok (mkHp (hp_mem h) [] (hp_fl h) al fr, [p], np, ps)
      else
        let ns := p_size p - p_used p in
        if fl_max <? ns then UB                                                      (* assertion *)
        else if fl_min <=? ns then
          do slot <- freelistSlot ns;
          let a := p_base p + p_used p in
          Ok (mkHp (mput (hp_mem h) a (mkN (KFree ns) true false)) [] (flput (hp_fl h) slot (a :: hp_fl h slot)) al fr,
              [], np, mkP (p_base p) (p_size p) (p_used p + ns) :: ps)
        else if al <? fr - ns then UB                                                (* assertion *)
        else Ok (mkHp (hp_mem h) [] (hp_fl h) al (fr - ns), [], np, p :: ps)
  | [] => Ok (mkHp (hp_mem h) [] (hp_fl h) al fr, [], np, [])
  end.
(** void* alloc(size_t size, bool exact), lib/gc.cpp:166-184 *)
Definition heap_alloc (size0 : Z) (exact : bool) (base : Z) (h : heap) : res (heap * ptr) :=
  if (fl_max <? size0) && negb exact then UB                                         (* assertion *)
  else
    let size := align8 size0 in
    do ' (h1, before, p, behind) <-
       (match hp_pages h with
        | [] => alloc_page size exact base h
        | p :: ps => if exact || (p_size p <=? p_used p + size) then alloc_page size exact base h
                     else Ok (h, [], p, ps)
        end);
    let ret := p_base p + p_used p in
    let used := p_used p + size in
    let fr := hp_free h1 - size in
    let rest := p_size p - used in
    let '(psize, al2, fr2) := if rest <? fl_min then (used, hp_alloced h1 - rest, fr - rest) else (p_size p, hp_alloced h1, fr) in
    if al2 <? fr2 then UB                                                            (* assertion *)
    else Ok (mkHp (hp_mem h1) (before ++ mkP (p_base p) psize used :: behind) (hp_fl h1) al2 fr2, ret).
(** void* fl(size_t size), lib/gc.cpp:198-208 *)
Definition heap_fl (size : Z) (base : Z) (h : heap) : res (heap * ptr) :=
  do slot <- freelistSlot size;
  match hp_fl h slot with
  | a :: r => Ok (mkHp (hp_mem h) (hp_pages h) (flput (hp_fl h) slot r) (hp_alloced h) (hp_free h - size), a)
  | [] => heap_alloc size false base h
  end.
(** GC::alloc, lib/gc.cpp:418-430: memory for a node, which is a FreeListNode without mark until it is constructed *)
Definition gc_alloc (size0 : Z) (base : Z) (h : heap) : res (heap * ptr) :=
  let size := align8 size0 in
  do ' (h1, a) <- (if (size <? fl_min) || (fl_max <? size) then heap_alloc size true base h else heap_fl size base h);
  Ok (mkHp (mput (hp_mem h1) a (mkN (KFree size) false false)) (hp_pages h1) (hp_fl h1) (hp_alloced h1) (hp_free h1), a).
(** new T(...): the memory is allocated and the node constructed in it; the constructor of ASTNode clears the marks
    (include/minizinc/gc.hh:62) *)
Definition gc_new (k : kind) (base : Z) (h : heap) : res (heap * ptr) :=
  do ' (h1, a) <- gc_alloc (nodesize k) base h;
  Ok (mkHp (mput (hp_mem h1) a (mkN k false false)) (hp_pages h1) (hp_fl h1) (hp_alloced h1) (hp_free h1), a).

(** ** Sweeping, GC::Heap::sweep, lib/gc.cpp:506-670 *)

Definition set_flat (f : ptr) (k : kind) : kind :=
  match k with KExpr loc ann (EVarDecl ti id e _) => KExpr loc ann (EVarDecl ti id e f) | _ => k end.
Definition flat_of (k : kind) : ptr := match k with KExpr _ _ (EVarDecl _ _ _ f) => f | _ => 0 end.

(** _id == ASTNode::NID_FL, lib/gc.cpp:572-576 *)
Definition free_kind (k : kind) : bool := match k with KFree _ => true | _ => false end.

(** State of the loop over the nodes of a page: memory, freeNodes, wholepage and fixVDGCMarks *)
Record sweep_state := mkS { s_mem : mem; s_free : list (ptr * Z); s_whole : bool; s_vds : list ptr }.

(** One node, lib/gc.cpp:526-594.  Destructors of annotations and strings are not modelled (strings: StrModel.destroy). *)
Definition sweep_node (p : page) (off : Z) (st : sweep_state) : res (sweep_state * Z) :=
  let a := p_base p + off in
  do n <- mget (s_mem st) a;
  let k := n_kind n in
  let ns := nodesize (n_kind n) in
  if ns =? 0 then UB                                                                 (* assertion *)
  else if negb (n_mark n) then
    let m1 := if is_vardecl (n_kind n) then mput (s_mem st) a (mkN (set_flat 0 (n_kind n)) false false) else s_mem st in
    if (fl_min <=? ns) && (ns <=? fl_max)
    then Ok (mkS m1 (s_free st ++ [(a, ns)]) (s_whole st) (s_vds st), ns)
    else if (off =? 0) && (p_used p =? p_size p) then Ok (mkS m1 (s_free st) (s_whole st) (s_vds st), ns)
    else UB                                                                          (* assertions *)
  else if free_kind k then Ok (st, ns)
  else if is_vardecl k then
    let f := flat_of k in
    let m1 := mput (s_mem st) a (mkN k false (n_vd n)) in
    do k' <- (if f =? 0 then Ok k
              else do t <- mget m1 f; Ok (if n_vd t then k else set_flat 0 k));
    Ok (mkS (mput m1 a (mkN k' false (n_vd n))) (s_free st) false (s_vds st ++ [a]), ns)
  else Ok (mkS (mput (s_mem st) a (mkN k false (n_vd n))) (s_free st) false (s_vds st), ns).
Fixpoint sweep_nodes (fuel : nat) (p : page) (off : Z) (st : sweep_state) : res sweep_state :=
  match fuel with
  | O => Err OutOfFuel
  | S f => if off <? p_used p then do ' (st', ns) <- sweep_node p off st; sweep_nodes f p (off + ns) st' else Ok st
  end.

(** The loop over the free list nodes of a page that is given back, lib/gc.cpp:617-628 *)
Fixpoint unlink_nodes (fuel : nat) (p : page) (off : Z) (m : mem) (fr : Z) : res (mem * Z) :=
  match fuel with
  | O => Err OutOfFuel
  | S f =>
      if off <? p_used p then
        let a := p_base p + off in
        do n <- mget m a;
        let ns := nodesize (n_kind n) in
        if free_kind (n_kind n) then unlink_nodes f p (off + ns) (mput m a (mkN (n_kind n) false (n_vd n))) (fr - ns)
        else unlink_nodes f p (off + ns) m fr
      else Ok (m, fr)
  end.
(** The nodes that go to the free lists, lib/gc.cpp:634-642 *)
Fixpoint free_nodes (l : list (ptr * Z)) (m : mem) (fl : Z -> list ptr) (fr : Z) : res (mem * (Z -> list ptr) * Z) :=
  match l with
  | [] => Ok (m, fl, fr)
  | (a, ns) :: r => do slot <- freelistSlot ns;
                    free_nodes r (mput m a (mkN (KFree ns) true false)) (flput fl slot (a :: fl slot)) (fr + ns)
  end.

(** The loop over the pages, lib/gc.cpp:516-650.  Returns the remaining pages, the pages to free and the VarDecls seen.
    [fuel] bounds the number of nodes of a page. *)
Fixpoint sweep_pages (fuel : nat) (ps : list page) (m : mem) (fl : Z -> list ptr) (al fr : Z)
  : res (mem * (Z -> list ptr) * Z * Z * list page * list page * list ptr) :=
  match ps with
  | [] => Ok (m, fl, al, fr, [], [], [])
  | p :: r =>
      do st <- sweep_nodes fuel p 0 (mkS m [] true []);
      if s_whole st then
        let al1 := al - p_size p in
        let fr1 := if fl_min <=? p_size p - p_used p then fr - (p_size p - p_used p) else fr in
        do ' (m1, fr2) <- unlink_nodes fuel p 0 (s_mem st) fr1;
        if al1 <? fr2 then UB                                                        (* assertion *)
        else
          do ' (m2, fl2, al2, fr3, keep, gone, vds) <- sweep_pages fuel r m1 fl al1 fr2;
          Ok (m2, fl2, al2, fr3, keep, p :: gone, s_vds st ++ vds)
      else
        do ' (m1, fl1, fr1) <- free_nodes (s_free st) (s_mem st) fl fr;
        if al <? fr1 then UB                                                         (* assertion *)
        else
          do ' (m2, fl2, al2, fr3, keep, gone, vds) <- sweep_pages fuel r m1 fl1 al fr1;
          Ok (m2, fl2, al2, fr3, p :: keep, gone, s_vds st ++ vds)
  end.

(** _vdGcMark = 0 of all VarDecls seen, lib/gc.cpp:651-653 *)
Fixpoint reset_vds (l : list ptr) (m : mem) : res mem :=
  match l with
  | [] => Ok m
  | a :: r => do n <- mget m a; reset_vds r (mput m a (mkN (n_kind n) (n_mark n) false))
  end.
(** A free list without the nodes of freed pages, lib/gc.cpp:654-665 *)
Fixpoint clean_list (m : mem) (l : list ptr) : res (list ptr) :=
  match l with
  | [] => Ok []
  | a :: r => do n <- mget m a; do r' <- clean_list m r; Ok (if n_mark n then a :: r' else r')
  end.
Fixpoint clean_lists (m : mem) (slots : list Z) (fl : Z -> list ptr) : res (Z -> list ptr) :=
  match slots with
  | [] => Ok fl
  | s :: r => do l <- clean_list m (fl s); clean_lists m r (flput fl s l)
  end.
Definition all_slots : list Z := [0; 1; 2; 3; 4; 5; 6; 7; 8; 9].
(** free of a page, lib/gc.cpp:666-671: the memory of the page is gone *)
Definition in_page (p : page) (a : Z) : bool := (p_base p <=? a) && (a <? p_base p + p_size p).
Definition free_pages (gone : list page) (m : mem) : mem := fun a => if existsb (fun p => in_page p a) gone then None else m a.

Definition sweep (fuel : nat) (h : heap) : res heap :=
  do ' (m1, fl1, al, fr, keep, gone, vds) <- sweep_pages fuel (hp_pages h) (hp_mem h) (hp_fl h) (hp_alloced h) (hp_free h);
  do m2 <- reset_vds vds m1;
  do fl2 <- (match gone with [] => Ok fl1 | _ => clean_lists m2 all_slots fl1 end);
  Ok (mkHp (free_pages gone m2) keep fl2 al fr).

(** GC::Heap::trigger, lib/gc.cpp:204-231, without the computation of the threshold *)
Definition trigger (fuel : nat) (keep : list val) (markers : list (list root)) (trail : list val) (h : heap) : res heap :=
  do m <- heap_mark fuel keep markers trail (hp_mem h);
  sweep fuel (mkHp m (hp_pages h) (hp_fl h) (hp_alloced h) (hp_free h)).

Definition heap_init : heap := mkHp (fun _ => None) [] (fun _ => []) 0 0.

(** ** Changing the class of a node *)

(** Call::argCount, include/minizinc/ast.hpp:510-514 *)
Definition call_count (m : mem) (ck : Z) (args : ptr) : res Z :=
  if 5 <=? ck then (if args =? 0 then UB else do l <- elements m args; Ok (Z.of_nat (length l))) else Ok ck.
(** Call::args, lib/ast.cpp:935-960, of the call [e]; [vecp] is the vector that is allocated for the arguments.  If the number of
    arguments of an n-ary call does not change they are written to its vector, which is not shown here. *)
Definition call_args (m : mem) (new : list val) (vecp : ptr) (e : expr) : res expr :=
  match e with
  | ECall hasDecl u ck data args =>
      do n <- call_count m ck args;
      let n' := Z.of_nat (length new) in
      if n =? n' then Ok (ECall hasDecl u ck (if 5 <=? ck then data else new) args)
      else if (n =? 0) && (n' =? 1) then Ok (ECall hasDecl u 1 new args)
      else Ok (ECall hasDecl u (if ck =? 2 then 6 else if ck =? 3 then 7 else if ck =? 4 then 8 else 5) data vecp)
  | _ => UB
  end.
(** BinOp::morph, lib/ast.cpp:716-725: the node becomes a ternary call and gets its arguments.  The slots of the arguments are
    the operands and the declaration (which is not an expression; it is overwritten before it is read). *)
Definition binop_morph (m : mem) (ident : ptr) (new : list val) (vecp : ptr) (e : expr) : res expr :=
  match e with
  | EBinOp l r _ => call_args m new vecp (ECall false ident 3 [l; r; VNull] 0)
  | _ => UB
  end.
