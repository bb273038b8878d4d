(** Model of structural comparison, equality and hashing of expressions (lib/ast.cpp: Expression::compare 2069-2341,
    Expression::equalInternal 2343-2582, the rehash functions; include/minizinc/ast.hpp:14-40 Expression::equal).

    Simplifications.  Expressions are trees: the shortcut for equal pointers is only kept for anonymous variables and type
    variables (which carry their address), since on all others it gives what the comparison of the contents gives.  The hash is
    computed when it is needed; in the code it is stored when a node is built, so a node changed later without a call of rehash is
    not covered.  Doubles are represented by their rank (IntVal): FloatVal has the comparison operators of IntVal and holds no NaN.
    Types are represented by their integer (Type::toInt).  Array slices (ArrayLit::_flag2) are left out. *)
Require Import ZArith List Bool.
From Verif Require Import Base IntValModel StrModel.
Import ListNotations.
Open Scope Z_scope.

(** dims: the vector _dims (empty for a 1d array indexed from 1).  reps: how often the first element of vec is repeated in a compressed
    array, 1 if it is not compressed.
    decl, flat: addresses of the declaration of an identifier and of its flat version.  idn is -1 if the identifier has a string. *)
Inductive expr :=
| ENull
| EInt (v : IntVal)
| EFloat (v : IntVal)
| ESetI (ty : Z) (rs : list (IntVal * IntVal))
| ESetF (ty : Z) (rs : list (IntVal * IntVal))
| ESetV (ty : Z) (l : list expr)
| EBool (ty : Z) (b : bool)
| EString (ty : Z) (s : str)
| EId (ty : Z) (idn : Z) (v : str) (decl flat : option nat)
| EAnon (ty : Z) (addr : nat)
| EArray (ty : Z) (dims : list Z) (reps : nat) (vec : list expr)
| EAccess (ty : Z) (v : expr) (idx : list expr)
| EField (ty : Z) (v field : expr)
| EComp (ty : Z) (set : bool) (e : expr) (g : list expr) (gIndex : list Z)
| EIte (ty : Z) (ifthen : list expr) (els : expr)
| EBin (ty : Z) (op : Z) (l r : expr)
| EUn (ty : Z) (op : Z) (e : expr)
| ECall (ty : Z) (id : str) (decl : option nat) (args : list expr)
| EVarDecl (ty : Z) (ti id e : expr)
| ELet (ty : Z) (let_ : list expr) (in_ : expr)
| ETI (ty : Z) (ranges : list expr) (domain : expr)
| ETIId (ty : Z) (addr : nat) (v : str).

(* include/minizinc/ast.hh:343-364; the null pointer comes before all *)
Definition eid (e : expr) : Z :=
  match e with
  | ENull => 0 | EInt _ => 4 | EFloat _ => 5 | ESetI _ _ | ESetF _ _ | ESetV _ _ => 6 | EBool _ _ => 7 | EString _ _ => 8
  | EId _ _ _ _ _ => 9 | EAnon _ _ => 10 | EArray _ _ _ _ => 11 | EAccess _ _ _ => 12 | EField _ _ _ => 13 | EComp _ _ _ _ _ => 14
  | EIte _ _ _ => 15 | EBin _ _ _ _ => 16 | EUn _ _ _ => 17 | ECall _ _ _ _ => 18 | EVarDecl _ _ _ _ => 19 | ELet _ _ _ => 20
  | ETI _ _ _ => 21 | ETIId _ _ _ => 22
  end.
Definition ety (e : expr) : Z :=
  match e with
  | ENull | EInt _ | EFloat _ => 0
  | ESetI t _ | ESetF t _ | ESetV t _ | EBool t _ | EString t _ | EId t _ _ _ _ | EAnon t _ | EArray t _ _ _ | EAccess t _ _ | EField t _ _
  | EComp t _ _ _ _ | EIte t _ _ | EBin t _ _ _ | EUn t _ _ | ECall t _ _ _ | EVarDecl t _ _ _ | ELet t _ _ | ETI t _ _ | ETIId t _ _ => t
  end.
(** the elements at positions i < size() of an array literal: ast.cpp, C30 *)
Definition elems {A} (reps : nat) (vec : list A) : list A :=
  match vec with [] => [] | x :: r => repeat x reps ++ r end.

(** ** Comparison *)
Definition cthen (c k : Z) : Z := if c =? 0 then k else c.
Definition cmpZ (a b : Z) : Z := if a =? b then 0 else if a <? b then -1 else 1.
(* a < b ? -1 : (a == b ? 0 : 1) *)
Definition cmpV (a b : IntVal) : Z := if iv_lt a b then -1 else if iv_eq a b then 0 else 1.
(* if (a != b) return a < b ? -1 : 1 *)
Definition cmpV' (a b : IntVal) : Z := if iv_ne a b then (if iv_lt a b then -1 else 1) else 0.
(** interned strings are equal iff their contents are: C50 *)
Definition str_eqb (a b : str) : bool := if list_eq_dec Z.eq_dec a b then true else false.
(* ast.cpp:2065-2067 *)
Definition cmp_astr (a b : str) : Z := if str_eqb a b then 0 else if str_lt a b then -1 else 1.
Definition csize {A} (l0 l1 : list A) : Z := cmpZ (Z.of_nat (length l0)) (Z.of_nat (length l1)).
(** the first difference between elements at the same position *)
Definition clist {A} (f : A -> A -> Z) : list A -> list A -> Z :=
  fix go l0 l1 := match l0, l1 with x :: l0', y :: l1' => cthen (f x y) (go l0' l1') | _, _ => 0 end.
Definition cranges (r0 r1 : list (IntVal * IntVal)) : Z :=
  cthen (csize r0 r1) (clist (fun x y => cthen (cmpV' (fst x) (fst y)) (cmpV' (snd x) (snd y))) r0 r1).

Fixpoint compare (e0 e1 : expr) : Z :=
  cthen (cmpZ (eid e0) (eid e1))
  match e0, e1 with
  | EInt a, EInt b => cmpV a b
  | EFloat a, EFloat b => cmpV a b
  | EBool _ a, EBool _ b => cmpZ (Z.b2z a) (Z.b2z b)
  | EString _ a, EString _ b => cmp_astr a b
  | ESetI _ a, ESetI _ b => cranges a b
  | ESetF _ a, ESetF _ b => cranges a b
  | ESetV _ a, ESetV _ b => cthen (csize a b) (clist compare a b)
  (* v() of a set of integers or floats is empty *)
  | ESetV _ a, (ESetI _ _ | ESetF _ _) => csize a []
  | (ESetI _ _ | ESetF _ _), ESetV _ b => csize [] b
  | EId _ n0 v0 _ _, EId _ n1 v1 _ _ => cthen (cmpZ n0 n1) (if n0 =? -1 then cmp_astr v0 v1 else 0)
  | EArray _ _ k0 a0, EArray _ _ k1 a1 =>
      cthen (csize (elems k0 a0) (elems k1 a1))
        (match a0 with
         | [] => 0
         | x0 :: t0 =>
             (* position by position over the elements of both; for the repeated part the same element of a0 is used again *)
             (fix rep (k : nat) (l : list expr) : Z :=
                match k with
                | O => clist compare t0 l
                | S k' => match l with y :: l' => cthen (compare x0 y) (rep k' l') | [] => 0 end
                end) k0 (elems k1 a1)
         end)
  | EAccess _ v0 x0, EAccess _ v1 x1 => cthen (compare v0 v1) (cthen (csize x0 x1) (clist compare x0 x1))
  | ECall _ i0 _ a0, ECall _ i1 _ a1 => cthen (cmp_astr i0 i1) (cthen (csize a0 a1) (clist compare a0 a1))
  | EBin _ o0 l0 r0, EBin _ o1 l1 r1 => cthen (cmpZ o0 o1) (cthen (compare l0 l1) (compare r0 r1))
  | EUn _ o0 x0, EUn _ o1 x1 => cthen (cmpZ o0 o1) (compare x0 x1)
  | EField _ v0 f0, EField _ v1 f1 => cthen (compare f0 f1) (compare v0 v1)
  | EComp _ s0 x0 g0 i0, EComp _ s1 x1 g1 i1 =>
      cthen (cmpZ (Z.b2z s0) (Z.b2z s1)) (cthen (compare x0 x1) (cthen (csize g0 g1) (cthen (clist compare g0 g1)
        (cthen (csize i0 i1) (clist cmpZ i0 i1)))))
  | EIte _ t0 x0, EIte _ t1 x1 => cthen (csize t0 t1) (cthen (clist compare t0 t1) (compare x0 x1))
  | EVarDecl _ t0 i0 x0, EVarDecl _ t1 i1 x1 => cthen (compare i0 i1) (cthen (compare t0 t1) (compare x0 x1))
  | ELet _ l0 x0, ELet _ l1 x1 => cthen (compare x0 x1) (cthen (csize l0 l1) (clist compare l0 l1))
  | ETI _ r0 d0, ETI _ r1 d1 => cthen (csize r0 r1) (cthen (clist compare r0 r1) (compare d0 d1))
  | ETIId _ _ v0, ETIId _ _ v1 => cmp_astr v0 v1
  | _, _ => 0
  end.

(** ** Hash *)
(** what the library hashes: integers, doubles and strings of characters; leafhash stands for std::hash *)
Inductive leaf := LInt (v : Z) | LFloat (v : Z) | LString (s : str).
Section Hash.
Variable leafhash : leaf -> Z.
(* ast.hh:385-391 *)
Definition combine_hash (seed h : Z) : Z :=
  Z.lxor seed (size_t (h + 2654435769 + size_t (Z.shiftl seed 6) + Z.shiftr seed 2)).
Definition combine_all (seed : Z) (hs : list Z) : Z := fold_left combine_hash hs seed.
Definition hnum (z : Z) : Z := leafhash (LInt z).
Definition hranges (l : Z -> leaf) (rs : list (IntVal * IntVal)) : list Z :=
  flat_map (fun r => [leafhash (l (iv_v (fst r))); leafhash (l (iv_v (snd r)))]) rs.
Fixpoint hash (e : expr) : Z :=
  let init := combine_hash 0 (eid e) in
  match e with
  | ENull => 0
  (* ast.hh:613-619, unboxed numbers; the hash of boxed ones is also a function of the value *)
  | EInt v => hnum (iv_v v)
  | EFloat v => leafhash (LFloat (iv_v v))
  | ESetI _ rs => combine_all init (hranges LInt rs)
  | ESetF _ rs => combine_all init (hranges LFloat rs)
  | ESetV _ l => combine_all init (rev (map hash l))
  | EBool _ b => combine_hash init (hnum (Z.b2z b))
  | EString _ s => combine_hash init (leafhash (LString s))
  | EId _ n v _ _ => combine_hash init (if n =? -1 then leafhash (LString v) else hnum n)
  | EAnon _ _ => init
  | EArray _ dims _ vec =>
      combine_all (combine_all init (map hnum dims))
        (concat (rev ((fix go (i : Z) (l : list expr) : list (list Z) :=
                         match l with [] => [] | x :: r => [hnum i; hash x] :: go (i + 1) r end) 0 vec)))
  | EAccess _ v idx => combine_all init (hash v :: hnum (Z.of_nat (length idx)) :: rev (map hash idx))
  | EField _ v f => combine_all init [hash v; hash f]
  | EComp _ s x g gi =>
      combine_all init (hnum (Z.b2z s) :: hash x :: hnum (Z.of_nat (length gi)) :: rev (map hnum gi) ++ hnum (Z.of_nat (length g)) :: rev (map hash g))
  | EIte _ l x => combine_all init (hnum (Z.of_nat (length l)) :: rev (map hash l) ++ [hash x])
  | EBin _ o l r => combine_all init [hnum o; hash l; hash r]
  | EUn _ o x => combine_all init [hnum o; hash x]
  | ECall _ i _ args => combine_all init (leafhash (LString i) :: hnum (Z.of_nat (length args)) :: map hash args)
  | EVarDecl _ t i x => combine_all init [hash t; hash i; hash x]
  | ELet _ l x => combine_all init (hash x :: hnum (Z.of_nat (length l)) :: rev (map hash l))
  | ETI _ l d => combine_all init (hnum (Z.of_nat (length l)) :: rev (map hash l) ++ [hash d])
  | ETIId _ _ v => combine_hash init (leafhash (LString v))
  end.

(** ** Equality *)
(** elementwise, up to the length of the first; the lengths are tested before, except for _gIndex (ast.cpp:2468), where reading beyond
    the end of the second is taken to give a difference *)
Definition elist {A} (f : A -> A -> bool) : list A -> list A -> bool :=
  fix go l0 l1 := match l0, l1 with [], _ => true | x :: l0', y :: l1' => f x y && go l0' l1' | _, _ => false end.
Definition esize {A} (l0 l1 : list A) : bool := Z.of_nat (length l0) =? Z.of_nat (length l1).
Definition erange (x y : IntVal * IntVal) : bool := iv_eq (fst x) (fst y) && iv_eq (snd x) (snd y).
Definition opt_eqb (a b : option nat) : bool :=
  match a, b with None, None => true | Some x, Some y => Nat.eqb x y | _, _ => false end.
(* ast.cpp:2389-2397 *)
Definition id_eqb (n0 : Z) (v0 : str) (d0 f0 : option nat) (n1 : Z) (v1 : str) (d1 f1 : option nat) : bool :=
  match d0, d1 with
  | Some x, Some y => Nat.eqb x y || match f0, f1 with Some a, Some b => Nat.eqb a b | _, _ => false end
  | _, _ => str_eqb v0 v1 && (n0 =? n1)
  end.

(* ast.hpp:24-37 for nodes that are not unboxed *)
Definition head_eqb (e0 e1 : expr) : bool := (eid e0 =? eid e1) && (ety e0 =? ety e1) && (hash e0 =? hash e1).
Fixpoint equal (e0 e1 : expr) : bool :=
  match e0, e1 with
  | ENull, ENull => true
  | EInt a, EInt b => iv_eq a b
  | EFloat a, EFloat b => iv_eq a b
  | ESetI _ a, ESetI _ b => head_eqb e0 e1 && esize a b && elist erange a b      (* Ranges::equal, iter.hh:697-708 *)
  | ESetF _ a, ESetF _ b => head_eqb e0 e1 && esize a b && elist erange a b
  | ESetV _ a, ESetV _ b => head_eqb e0 e1 && esize a b && elist equal a b
  | EBool _ a, EBool _ b => head_eqb e0 e1 && Bool.eqb a b
  | EString _ a, EString _ b => head_eqb e0 e1 && str_eqb a b
  | EId _ n0 v0 d0 f0, EId _ n1 v1 d1 f1 => head_eqb e0 e1 && id_eqb n0 v0 d0 f0 n1 v1 d1 f1
  | EAnon _ a, EAnon _ b => head_eqb e0 e1 && Nat.eqb a b
  | EArray _ s0 k0 a0, EArray _ s1 k1 a1 => head_eqb e0 e1 &&
      esize (elems k0 a0) (elems k1 a1) && (esize s0 s1 && elist Z.eqb s0 s1) &&
      match a0 with
      | [] => true
      | x0 :: t0 =>
          (fix rep (k : nat) (l : list expr) : bool :=
             match k with
             | O => elist equal t0 l
             | S k' => match l with y :: l' => equal x0 y && rep k' l' | [] => false end
             end) k0 (elems k1 a1)
      end
  | EAccess _ v0 x0, EAccess _ v1 x1 => head_eqb e0 e1 && equal v0 v1 && esize x0 x1 && elist equal x0 x1
  | EField _ v0 f0, EField _ v1 f1 => head_eqb e0 e1 && equal f0 f1 && equal v0 v1
  | EComp _ s0 x0 g0 i0, EComp _ s1 x1 g1 i1 => head_eqb e0 e1 &&
      Bool.eqb s0 s1 && equal x0 x1 && esize g0 g1 && elist equal g0 g1 && elist Z.eqb i0 i1
  | EIte _ t0 x0, EIte _ t1 x1 => head_eqb e0 e1 && esize t0 t1 && elist equal t0 t1 && equal x0 x1
  | EBin _ o0 l0 r0, EBin _ o1 l1 r1 => head_eqb e0 e1 && (o0 =? o1) && equal l0 l1 && equal r0 r1
  | EUn _ o0 x0, EUn _ o1 x1 => head_eqb e0 e1 && (o0 =? o1) && equal x0 x1
  | ECall _ i0 d0 a0, ECall _ i1 d1 a1 => head_eqb e0 e1 && str_eqb i0 i1 && opt_eqb d0 d1 && esize a0 a1 && elist equal a0 a1
  | EVarDecl _ t0 i0 x0, EVarDecl _ t1 i1 x1 => head_eqb e0 e1 && equal t0 t1 && equal i0 i1 && equal x0 x1
  | ELet _ l0 x0, ELet _ l1 x1 => head_eqb e0 e1 && equal x0 x1 && esize l0 l1 && elist equal l0 l1
  | ETI _ r0 d0, ETI _ r1 d1 => head_eqb e0 e1 && esize r0 r1 && elist equal r0 r1 && equal d0 d1
  | ETIId _ a v0, ETIId _ b v1 => head_eqb e0 e1 && Nat.eqb a b && str_eqb v0 v1      (* the same node *)
  (* nodes of different kinds: the hash or the test of the kind tells them apart *)
  | _, _ => false
  end.
End Hash.
