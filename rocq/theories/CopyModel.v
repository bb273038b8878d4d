(** Model of the deep copy of expressions, items and models (lib/copy.cpp:61-560).

    Nodes of the syntax graph live at addresses; address 0 is the null pointer.  Simplifications: a node is
    a label (all its plain data: expression class, operator, value, name, type, flags, location), the nodes
    it refers to and its annotations; shared argument vectors are part of the node; followIds = false; no
    declaration in the map belongs to a removed item (copy.cpp:67-70); an annotation set is a list. *)
Require Import List Arith Bool.
Import ListNotations.

(** KConst: the shared constants true, false and absent; KDecl i: a variable declaration whose own
    identifier is node i; KId d: an identifier that refers to declaration d; KNode: all other nodes
    (expressions, identifiers without declaration, and items) *)
Inductive kind : Type := KConst | KNode | KDecl (ident : nat) | KId (decl : nat).

(** npre: nodes that copy visits before it registers the copy of this node; npost: those it visits after.
    copy.cpp registers first for set literals (:87), array literals (:206), array accesses (:227),
    comprehensions (:254), if-then-else (:276), operators (:295,:309) and calls (:329) - the called function, if
    copied, is visited before -, declarations (:352), constraint, assignment and function items (:455-515);
    it registers last for slices (:199), field accesses (:245), lets (:373), type-insts (:395) and
    solve and output items (:480,:487). *)
Record node : Type := mkNode { nkind : kind; nlab : nat; npre : list nat; npost : list nat; nann : list nat }.

Record st : Type := mkSt { H : nat -> node; nx : nat; M : list (nat * nat) }.

(* copy.cpp:17-27 CopyMap::find *)
Fixpoint lookup (m : list (nat * nat)) (e : nat) : option nat :=
  match m with [] => None | (a, c) :: m' => if a =? e then Some c else lookup m' e end.

Definition upd (h : nat -> node) (a : nat) (x : node) : nat -> node := fun b => if b =? a then x else h b.

(* creation and registration of the copy: new ...; m.insert(e, c); a declaration creates its own identifier
   and is also registered as its own copy, copy.cpp:337-353 *)
Definition alloc (s : st) (e : nat) (x : node) (pre : list nat) : st :=
  let c := nx s in
  match nkind x with
  | KDecl _ =>
      mkSt (upd (upd (H s) c (mkNode (KDecl (S c)) (nlab x) pre [] [])) (S c) (mkNode (KId c) (nlab x) [] [] []))
           (S (S c)) ((c, c) :: (e, c) :: M s)
  | k => mkSt (upd (H s) c (mkNode k (nlab x) pre [] [])) (S c) ((e, c) :: M s)
  end.
(* c->init(...), c->lhs(...), c->arg(i, ...), ...: the fields set after registration *)
Definition set_post (s : st) (c : nat) (l : list nat) : st :=
  let x := H s c in mkSt (upd (H s) c (mkNode (nkind x) (nlab x) (npre x) l (nann x))) (nx s) (M s).
(* copy.cpp:414-420 copy_ann: newAnn.add(...) *)
Definition add_ann (s : st) (c : nat) (l : list nat) : st :=
  let x := H s c in mkSt (upd (H s) c (mkNode (nkind x) (nlab x) (npre x) (npost x) (nann x ++ l))) (nx s) (M s).
(* m.insert(e, c) *)
Definition register (s : st) (e c : nat) : st := mkSt (H s) (nx s) ((e, c) :: M s).
(* VarDecl::id() *)
Definition ident_of (x : node) : nat := match nkind x with KDecl i => i | _ => 0 end.

Fixpoint copy_list (cp : st -> nat -> option (st * nat)) (s : st) (l : list nat) : option (st * list nat) :=
  match l with
  | [] => Some (s, [])
  | e :: l' =>
      match cp s e with
      | None => None
      | Some (s1, c) => match copy_list cp s1 l' with None => None | Some (s2, cs) => Some (s2, c :: cs) end
      end
  end.

(* copy.cpp:61-412; fuel bounds the depth of the recursion *)
Fixpoint copy (fuel : nat) (s : st) (e : nat) : option (st * nat) :=
  match fuel with
  | O => None
  | S n =>
      if e =? 0 then Some (s, 0) (* :63-65 *)
      else match lookup (M s) e with
      | Some c => Some (s, c) (* :66-71 *)
      | None =>
          let x := H s e in
          match nkind x with
          | KConst => Some (s, e) (* :123-125, :133-135 *)
          | KId d => (* :172-187: the copy of an identifier is the identifier of the copied declaration *)
              match copy n s d with
              | None => None
              | Some (s1, c1) =>
                  let c := ident_of (H s1 c1) in
                  match copy_list (copy n) (register s1 e c) (nann x) with (* :410 *)
                  | None => None
                  | Some (s3, l) => Some (add_ann s3 c l, c)
                  end
              end
          | _ =>
              match copy_list (copy n) s (npre x) with
              | None => None
              | Some (s1, pre) =>
                  let c := nx s1 in
                  match copy_list (copy n) (alloc s1 e x pre) (npost x) with
                  | None => None
                  | Some (s3, post) =>
                      match copy_list (copy n) (set_post s3 c post) (nann x) with
                      | None => None
                      | Some (s5, l) => Some (add_ann s5 c l, c)
                      end
                  end
              end
          end
      end
  end.

(* copy.cpp:535-556: the items of a model are copied one after the other with the same map *)
Definition copy_all (fuel : nat) (s : st) (roots : list nat) : option (st * list nat) := copy_list (copy fuel) s roots.
