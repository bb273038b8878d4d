(** Specification for C47. *)
Require Import ZArith List Bool Sorted.
From Verif Require Import Base IntValModel IntValSpec StrModel StrSpec CmpModel.
Import ListNotations.
Open Scope Z_scope.

(** the direct subexpressions of an expression *)
Definition children (e : expr) : list expr :=
  match e with
  | ENull | EInt _ | EFloat _ | ESetI _ _ | ESetF _ _ | EBool _ _ | EString _ _ | EId _ _ _ _ _ | EAnon _ _ | ETIId _ _ _ => []
  | ESetV _ l => l
  | EArray _ _ _ v => v
  | EAccess _ v l => v :: l
  | EField _ v f => [v; f]
  | EComp _ _ x g _ => x :: g
  | EIte _ l x => x :: l
  | EBin _ _ l r => [l; r]
  | EUn _ _ x => [x]
  | ECall _ _ _ l => l
  | EVarDecl _ t i x => [t; i; x]
  | ELet _ l x => x :: l
  | ETI _ l x => x :: l
  end.
(** every subexpression satisfies P *)
Inductive everywhere (P : expr -> Prop) (e : expr) : Prop :=
| Everywhere : P e -> (forall c, In c (children e) -> everywhere P c) -> everywhere P e.

(** values are well formed, strings contain no NUL, and the index of the generators of a comprehension is increasing and ends with the
    number of their parts *)
Definition clean (e : expr) : Prop :=
  match e with
  | EInt v | EFloat v => wf v
  | ESetI _ rs | ESetF _ rs => Forall (fun r => wf (fst r) /\ wf (snd r)) rs
  | EString _ s | EId _ _ s _ _ | ECall _ s _ _ | ETIId _ _ s => nul_free s
  | EComp _ _ _ g gi => StronglySorted Z.lt gi /\ gi <> [] /\ last gi 0 = Z.of_nat (length g)
  | _ => True
  end.
(** no array is stored compressed *)
Definition uncompressed (e : expr) : Prop := match e with EArray _ _ k _ => k = 1%nat | _ => True end.
(** set literals are sets of integers (of floats, if fl), or list at least one element *)
Definition one_kind (fl : bool) (e : expr) : Prop :=
  match e with
  | ESetI _ _ => fl = false
  | ESetF _ _ => fl = true
  | ESetV _ l => l <> []
  | _ => True
  end.
(** identifiers with a declaration have the name and the flat version of the declaration *)
Definition named (nm : nat -> Z * str) (fl : nat -> option nat) (e : expr) : Prop :=
  match e with EId _ n v (Some d) f => (n, v) = nm d /\ f = fl d | _ => True end.
(** declarations with the same flat version have the same name *)
Definition no_alias (nm : nat -> Z * str) (fl : nat -> option nat) : Prop :=
  forall d d' a, fl d = Some a -> fl d' = Some a -> nm d = nm d'.
Definition resolved (e : expr) : Prop := match e with EId _ _ _ d _ => d <> None | _ => True end.

(** two identifiers mean the same: by declaration if both are resolved, by name otherwise *)
Definition same_id (n0 : Z) (v0 : str) (d0 f0 : option nat) (n1 : Z) (v1 : str) (d1 f1 : option nat) : Prop :=
  match d0, d1 with
  | Some x, Some y => x = y \/ (exists a, f0 = Some a /\ f1 = Some a)
  | _, _ => v0 = v1 /\ n0 = n1
  end.
(** two expressions have the same structure and types.  Anonymous variables and type variables are only the same as themselves. *)
Inductive same : expr -> expr -> Prop :=
| S_null : same ENull ENull
| S_int v : same (EInt v) (EInt v)
| S_float v : same (EFloat v) (EFloat v)
| S_seti t r : same (ESetI t r) (ESetI t r)
| S_setf t r : same (ESetF t r) (ESetF t r)
| S_setv t l l' : Forall2 same l l' -> same (ESetV t l) (ESetV t l')
| S_bool t b : same (EBool t b) (EBool t b)
| S_string t s : same (EString t s) (EString t s)
| S_id t n v d f n' v' d' f' : same_id n v d f n' v' d' f' -> same (EId t n v d f) (EId t n' v' d' f')
| S_anon t a : same (EAnon t a) (EAnon t a)
| S_array t s k k' v v' : Forall2 same (elems k v) (elems k' v') -> same (EArray t s k v) (EArray t s k' v')
| S_access t v v' l l' : same v v' -> Forall2 same l l' -> same (EAccess t v l) (EAccess t v' l')
| S_field t v v' f f' : same v v' -> same f f' -> same (EField t v f) (EField t v' f')
| S_comp t s x x' g g' gi : same x x' -> Forall2 same g g' -> same (EComp t s x g gi) (EComp t s x' g' gi)
| S_ite t l l' x x' : Forall2 same l l' -> same x x' -> same (EIte t l x) (EIte t l' x')
| S_bin t o l l' r r' : same l l' -> same r r' -> same (EBin t o l r) (EBin t o l' r')
| S_un t o x x' : same x x' -> same (EUn t o x) (EUn t o x')
| S_call t i d l l' : Forall2 same l l' -> same (ECall t i d l) (ECall t i d l')
| S_vardecl t ti ti' i i' x x' : same ti ti' -> same i i' -> same x x' -> same (EVarDecl t ti i x) (EVarDecl t ti' i' x')
| S_let t l l' x x' : Forall2 same l l' -> same x x' -> same (ELet t l x) (ELet t l' x')
| S_ti t l l' x x' : Forall2 same l l' -> same x x' -> same (ETI t l x) (ETI t l' x')
| S_tiid t a v : same (ETIId t a v) (ETIId t a v).
