(** Specification for C44, C50 and C57. *)
Require Import ZArith List Bool Lia.
From Verif Require Import Base StrModel.
Import ListNotations.
Open Scope Z_scope.

(** a single-character edit: insertion, deletion or substitution somewhere in the string *)
Inductive edit1 : str -> str -> Prop :=
| E_ins : forall p q c, edit1 (p ++ q) (p ++ c :: q)
| E_del : forall p q c, edit1 (p ++ c :: q) (p ++ q)
| E_sub : forall p q c c', edit1 (p ++ c :: q) (p ++ c' :: q).
(** [edits k a b]: k edits lead from a to b *)
Inductive edits : nat -> str -> str -> Prop :=
| E_none : forall a, edits 0 a a
| E_step : forall k a b c, edit1 a b -> edits k b c -> edits (S k) a c.
(** d is the least number of edits from a to b *)
Definition edit_distance (a b : str) (d : Z) : Prop :=
  (exists k, Z.of_nat k = d /\ edits k a b) /\ forall k, edits k a b -> d <= Z.of_nat k.

(** strings without the character 0 *)
Definition nul_free (s : str) : Prop := ~ In 0 s.

(** dictionary order of strings of unsigned characters *)
Inductive lex : str -> str -> Prop :=
| Lex_nil : forall c s, lex [] (c :: s)
| Lex_lt : forall c c' s s', c < c' -> lex (c :: s) (c' :: s')
| Lex_eq : forall c s s', lex s s' -> lex (c :: s) (c :: s').

(** Histories of the string table.  [Make s fresh]: the program constructs an ASTString; [fresh] is the address the
    allocator would return, not the address of a live object.  [Free a]: the garbage collector frees the object at a.
    The handles are the ASTStrings that the program may still use: those whose object has not been freed. *)
Inductive op := Make (s : str) (fresh : Z) | Free (a : Z).
Definition handles := list (str * option Z).
Definition kill (a : Z) (h : handles) : handles :=
  filter (fun p => match snd p with Some b => negb (b =? a) | None => true end) h.
Inductive history : list op -> interner -> handles -> Prop :=
| H_nil : history [] (mkI [] []) []
| H_make : forall ops i h s fresh i' r, history ops i h -> content fresh (i_live i) = None ->
    make s fresh i = (i', r) -> history (ops ++ [Make s fresh]) i' ((s, r) :: h)
| H_free : forall ops i h a i', history ops i h -> content a (i_live i) <> None ->
    destroy a i = Ok i' -> history (ops ++ [Free a]) i' (kill a h).
Definition op_nul_free (o : op) : Prop := match o with Make s _ => nul_free s | Free _ => True end.
