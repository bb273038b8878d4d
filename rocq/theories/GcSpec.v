(** Specification for C22: which nodes a node refers to, reachability, well-typed memory and what a collection should do. *)
Require Import ZArith List Bool Lia.
From Verif Require Import Base RootModel GcModel.
Import ListNotations.
Open Scope Z_scope.

(** ** The pointers stored in a node *)
Definition opt (p : ptr) : list ptr := if p =? 0 then [] else [p].
Definition vnode (v : val) : list ptr := match v with VNode a => [a] | _ => [] end.
Definition vnodes (l : list val) : list ptr := flat_map vnode l.

(** The strong pointers of an expression.  Not included: VarDecl::flat, which is weak, and the function declaration of an
    operator ([op_decl] below), which the collector does not follow. *)
Definition expr_refs (e : expr) : list ptr :=
  match e with
  | EIntLit _ | EFloatLit _ | EBoolLit _ | EAnon => []
  | ESetLit u v => opt u ++ opt v
  | EStringLit s => opt s
  | EId named s dest => (if named then opt s else []) ++ vnode dest
  | EArrayLit _ u dims => opt u ++ opt dims
  | EArrayAccess v idx => vnode v ++ opt idx
  | EFieldAccess v f => vnode v ++ vnode f
  | EComp e g gi => vnode e ++ opt g ++ opt gi
  | EITE els it => vnode els ++ opt it
  | EBinOp l r _ => vnode l ++ vnode r
  | EUnOp e _ => vnode e
  | ECall _ u ck data args => opt u ++ (if 5 <=? ck then opt args else vnodes (firstn (Z.to_nat ck) data))
  | EVarDecl ti id e _ => vnode ti ++ vnode id ++ vnode e
  | ELet lt orig inn => opt lt ++ opt orig ++ vnode inn
  | ETI dom ranges => vnode dom ++ opt ranges
  | ETIId s => opt s
  end.
Definition item_refs (i : item) : list ptr :=
  match i with
  | IInc f => opt f
  | IAsn id e d => opt id ++ vnode e ++ vnode d
  | ICon e => vnode e
  | ISol ann e => vnodes ann ++ vnode e
  | IOut e ann => vnode e ++ vnodes ann
  | IFun id ti ann e params => opt id ++ vnode ti ++ vnodes ann ++ vnode e ++ opt params
  end.
Definition refs (k : kind) : list ptr :=
  match k with
  | KFree _ | KChunk _ | KStr _ => []
  | KVec l => vnodes l
  | KLoc f _ => opt f
  | KExpr loc ann e => opt loc ++ vnodes ann ++ expr_refs e
  | KItem loc i => opt loc ++ item_refs i
  end.
Definition op_decl (k : kind) : ptr := match k with KExpr _ _ (EBinOp _ _ d) | KExpr _ _ (EUnOp _ d) => d | _ => 0 end.

(** the nodes reachable from [x] *)
Inductive reach (m : mem) : ptr -> ptr -> Prop :=
| reach_refl : forall x, reach m x x
| reach_step : forall x n y z, m x = Some n -> In y (refs (n_kind n)) -> reach m y z -> reach m x z.

(** ** The roots of a collection *)
Definition root_ref (r : root) : list ptr :=
  match r with RExpr v => vnode v | RItem a => [a] | RStr s => opt s | RLoc l => opt l end.
Definition root_refs (keep : list val) (markers : list (list root)) (trail : list val) : list ptr :=
  vnodes keep ++ flat_map root_ref (concat markers) ++ vnodes trail.
Definition live (m : mem) (roots : list ptr) (a : ptr) : Prop := exists r, In r roots /\ reach m r a.

(** ** Well-typed memory: every pointer is null or points to a node of the class it is declared with *)
Definition kstr (k : kind) : bool := match k with KStr _ => true | _ => false end.
Definition kchunk (k : kind) : bool := match k with KChunk _ => true | _ => false end.
Definition kvec (k : kind) : bool := match k with KVec _ => true | _ => false end.
Definition kloc (k : kind) : bool := match k with KLoc _ _ => true | _ => false end.
Definition kexpr (k : kind) : bool := match k with KExpr _ _ _ => true | _ => false end.
Definition kfun (k : kind) : bool := match k with KItem _ (IFun _ _ _ _ _) => true | _ => false end.
Definition kitem (k : kind) : bool := match k with KItem _ _ => true | _ => is_vardecl k end.
Definition points (P : kind -> bool) (m : mem) (p : ptr) : Prop := exists n, m p = Some n /\ P (n_kind n) = true.
Definition isp (P : kind -> bool) (m : mem) (p : ptr) : Prop := p = 0 \/ points P m p.
Definition isv (m : mem) (v : val) : Prop := match v with VNode a => points kexpr m a | _ => True end.

Definition typed_expr (m : mem) (e : expr) : Prop :=
  match e with
  | EIntLit _ | EFloatLit _ | EBoolLit _ | EAnon => True
  | ESetLit u v => isp kchunk m u /\ isp kvec m v /\ (u = 0 \/ v = 0)
  | EStringLit s => isp kstr m s
  | EId named s dest => (named = true -> isp kstr m s) /\ isv m dest
  | EArrayLit slice u dims => (if slice then points kexpr m u else isp kvec m u) /\ isp kchunk m dims
  | EArrayAccess v idx => isv m v /\ isp kvec m idx
  | EFieldAccess v f => isv m v /\ isv m f
  | EComp e g gi => isv m e /\ isp kvec m g /\ isp kchunk m gi
  | EITE els it => isv m els /\ isp kvec m it
  | EBinOp l r _ => isv m l /\ isv m r
  | EUnOp e _ => isv m e
  | ECall hasDecl u ck data args =>
      (if hasDecl then points kfun m u else isp kstr m u) /\ 0 <= ck <= 8 /\
      (if 5 <=? ck then points kvec m args else (Z.to_nat ck <= length data)%nat /\ Forall (isv m) (firstn (Z.to_nat ck) data))
  | EVarDecl ti id e flat => isv m ti /\ isv m id /\ isv m e /\ isp is_vardecl m flat
  | ELet lt orig inn => isp kvec m lt /\ isp kvec m orig /\ isv m inn
  | ETI dom ranges => isv m dom /\ isp kvec m ranges
  | ETIId s => isp kstr m s
  end.
Definition typed_item (m : mem) (i : item) : Prop :=
  match i with
  | IInc f => isp kstr m f
  | IAsn id e d => isp kstr m id /\ isv m e /\ isv m d
  | ICon e => isv m e
  | ISol ann e => Forall (isv m) ann /\ isv m e
  | IOut e ann => isv m e /\ Forall (isv m) ann
  | IFun id ti ann e params => isp kstr m id /\ isv m ti /\ Forall (isv m) ann /\ isv m e /\ isp kvec m params
  end.
Definition typed_kind (m : mem) (k : kind) : Prop :=
  match k with
  | KFree s => True
  | KChunk n | KStr n => 0 <= n
  | KVec l => Forall (isv m) l
  | KLoc f n => isp kstr m f /\ 0 <= n
  | KExpr loc ann e => isp kloc m loc /\ Forall (isv m) ann /\ typed_expr m e
  | KItem loc i => isp kloc m loc /\ typed_item m i
  end.
Definition typed (m : mem) : Prop := m 0 = None /\ forall a n, m a = Some n -> typed_kind m (n_kind n).
Definition typed_root (m : mem) (r : root) : Prop :=
  match r with RExpr v => isv m v | RItem a => points kitem m a | RStr s => isp kstr m s | RLoc l => isp kloc m l end.
Definition typed_roots (m : mem) (keep : list val) (markers : list (list root)) (trail : list val) : Prop :=
  Forall (isv m) keep /\ Forall (typed_root m) (concat markers) /\ Forall (isv m) trail.


(** ** What a collection should do *)

(** The contents of a surviving node: unchanged, except that the weak pointer flat of a VarDecl becomes null if its target has
    not survived *)
Definition survives (keeps : ptr -> Prop) (k k' : kind) : Prop :=
  (flat_of k = 0 \/ keeps (flat_of k) -> k' = k) /\ (flat_of k <> 0 -> ~ keeps (flat_of k) -> k' = set_flat 0 k).

(** ** Histories of a heap *)

(** the object at an address, if there is one *)
Definition contents (h : heap) (a : ptr) : option kind :=
  match hp_mem h a with Some n => if free_kind (n_kind n) then None else Some (n_kind n) | None => None end.
(** malloc returns an address outside of the pages in use *)
Definition apart (b1 s1 b2 s2 : Z) : Prop := b1 + s1 <= b2 \/ b2 + s2 <= b1.
Definition request (k : kind) : Z := if (24 <=? nodesize k) && (nodesize k <=? 96) then pageSize else nodesize k.
Definition malloc_ok (h : heap) (k : kind) (base : Z) : Prop :=
  0 < base /\ Forall (fun p => apart base (request k) (p_base p) (p_size p)) (hp_pages h).

(** The states a program can reach: it creates objects, assigns to their fields (without changing their size, see
    C22_morph for the operations that change the class of an object) and triggers collections. *)
Definition store_at (h : heap) (a : ptr) (k : kind) : heap :=
  mkHp (mput (hp_mem h) a (mkN k false false)) (hp_pages h) (hp_fl h) (hp_alloced h) (hp_free h).
Inductive heap_state : heap -> Prop :=
| hs_init : heap_state heap_init
| hs_new : forall h k base h' a, heap_state h -> free_kind k = false -> typed_kind (hp_mem h) k -> malloc_ok h k base ->
    gc_new k base h = Ok (h', a) -> heap_state h'
| hs_write : forall h a k k', heap_state h -> contents h a = Some k -> free_kind k' = false -> nodesize k' = nodesize k ->
    typed (mput (hp_mem h) a (mkN k' false false)) -> heap_state (store_at h a k')
| hs_collect : forall h fuel keep markers trail h', heap_state h -> typed_roots (hp_mem h) keep markers trail -> markers <> [] ->
    trigger fuel keep markers trail h = Ok h' -> heap_state h'.

(** the memory of two objects does not overlap *)
Definition extent_apart (h : heap) (a b : ptr) : Prop :=
  forall k k', contents h a = Some k -> contents h b = Some k' -> a <> b -> apart a (nodesize k) b (nodesize k').
Definition sum (l : list Z) : Z := fold_right Z.add 0 l.
Definition object_size (h : heap) (a : ptr) : Z := match contents h a with Some k => nodesize k | None => 0 end.

(** the objects of a heap *)
Definition objects_of (h : heap) (objs : list ptr) : Prop := NoDup objs /\ forall a, In a objs <-> contents h a <> None.
