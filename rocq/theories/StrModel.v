(** Model of strings: ASTString and ASTStringData (include/minizinc/aststring.hh, lib/aststring.cpp) and the search for
    similar names in Scopes (lib/typecheck.cpp:104-129). *)
Require Import ZArith List Bool Lia.
From Verif Require Import Base ArrModel DenseModel.
Import ListNotations.
Open Scope Z_scope.

(** A string is the list of its characters, read as unsigned char (0..255).  The memory of a string ends with a
    terminating 0.  Not modelled: strings of 2^32-9 and more characters, whose size() is truncated. *)
Definition str := list Z.
Definition len (s : str) : Z := Z.of_nat (length s).

(** strncmp of the C library on terminated strings: compares at most n unsigned characters and stops behind a 0 in both *)
Fixpoint strncmp (n : nat) (a b : str) : Z :=
  match n with
  | O => 0
  | S n' =>
      let x := hd 0 a in let y := hd 0 b in
      if x =? y then (if x =? 0 then 0 else strncmp n' (tl a) (tl b))
      else x - y
  end.

(** static_cast to char and then to size_t: characters from 128 on are negative (signed char) *)
Definition schar (c : Z) : Z := if 128 <=? c then c - 256 else c.
Definition size_t (z : Z) : Z := z mod 18446744073709551616.

(** CStringHash, include/minizinc/aststring.hh:128-138 *)
Definition hash_str (s : str) : Z := fold_left (fun r c => size_t (schar c + size_t (r * 31))) s 0.

(** CStringEquals, include/minizinc/aststring.hh:140-145 *)
Definition cstr_eq (a b : str) : bool := (len a =? len b) && (strncmp (length a) a b =? 0).

(** The interner.  An ASTStringData object is its address with its characters; the hash map holds for each entry the
    characters of its key (which point into the object) and the object.  std::unordered_map::find compares the hash
    and then the keys with CStringEquals. *)
Record interner := mkI { i_live : list (Z * str); i_map : list (str * Z) }.

Fixpoint ifind (s : str) (m : list (str * Z)) : option Z :=
  match m with
  | [] => None
  | (k, a) :: r => if (hash_str k =? hash_str s) && cstr_eq k s then Some a else ifind s r
  end.
Fixpoint ierase (s : str) (m : list (str * Z)) : list (str * Z) :=
  match m with
  | [] => []
  | (k, a) :: r => if (hash_str k =? hash_str s) && cstr_eq k s then r else (k, a) :: ierase s r
  end.
Fixpoint content (a : Z) (l : list (Z * str)) : option str :=
  match l with
  | [] => None
  | (a', s) :: r => if a' =? a then Some s else content a r
  end.
Definition drop (a : Z) (l : list (Z * str)) : list (Z * str) := filter (fun p => negb (fst p =? a)) l.

(** ASTStringData::a, lib/aststring.cpp:80-92.  [fresh] is the address the allocator returns if it is asked; the null
    pointer is None *)
Definition make (s : str) (fresh : Z) (i : interner) : interner * option Z :=
  match s with
  | [] => (i, None)
  | _ => match ifind s (i_map i) with
         | Some a => (i, Some a)
         | None => (mkI ((fresh, s) :: i_live i) ((s, fresh) :: i_map i), Some fresh)
         end
  end.
(** ASTStringData::destroy, include/minizinc/aststring.hh:182-187, when the garbage collector frees the object *)
Definition destroy (a : Z) (i : interner) : res interner :=
  match content a (i_live i) with
  | None => UB
  | Some s => match ifind s (i_map i) with
              | None => UB                                   (* assertion *)
              | Some _ => Ok (mkI (drop a (i_live i)) (ierase s (i_map i)))
              end
  end.

(** ASTString::size and the characters of a handle, include/minizinc/aststring.hh:192-196 *)
Definition chars (i : interner) (h : option Z) : res str :=
  match h with
  | None => Ok []
  | Some a => match content a (i_live i) with Some s => Ok s | None => UB end
  end.
(** operator== for two ASTStrings, include/minizinc/aststring.hh:203: equality of the pointers *)
Definition handle_eq (h h' : option Z) : bool :=
  match h, h' with
  | None, None => true
  | Some a, Some b => a =? b
  | _, _ => false
  end.

(** operator== for an ASTString with characters [a] and a std::string, include/minizinc/aststring.hh:216-224 *)
Definition eq_string (a b : str) : bool := (len a =? len b) && ((len a =? 0) || (strncmp (length a) a b =? 0)).
(** operator!=, 236-244 *)
Definition ne_string (a b : str) : bool := negb (len a =? len b) || (negb (len a =? 0) && negb (strncmp (length a) a b =? 0)).
(** strlen: number of characters before the first 0 *)
Fixpoint strlen (b : str) : nat :=
  match b with
  | [] => O
  | c :: r => if c =? 0 then O else S (strlen r)
  end.
(** operator== for an ASTString and a char*, 206-214 *)
Definition eq_cstr (a b : str) : bool :=
  (len a =? Z.of_nat (strlen b)) && ((Z.of_nat (strlen b) =? 0) || (strncmp (strlen b) a b =? 0)).

(** operator<, include/minizinc/aststring.hh:246-256.  For an empty right operand strncmp is called with a null pointer
    and size 0, which is taken to return 0. *)
Definition str_lt (a b : str) : bool :=
  if len a =? 0 then negb (len b =? 0)
  else
    let size := Nat.min (length a) (length b) in
    let cmp := strncmp size a b in
    if cmp =? 0 then len a <? len b else cmp <? 0.

(** endsWith and beginsWith, 257-263 *)
Definition ends_with (a b : str) : bool :=
  (len b <=? len a) && ((len a =? 0) || (strncmp (length b) (skipn (length a - length b) a) b =? 0)).
Definition begins_with (a b : str) : bool :=
  (len b <=? len a) && ((len a =? 0) || (strncmp (length b) a b =? 0)).

(** substr, 265-273.  [count = None] is npos; std::out_of_range is InternalError here *)
Definition substr (a : str) (pos : Z) (count : option Z) : res str :=
  if len a <? pos then Err InternalError
  else
    let rest := skipn (Z.to_nat pos) a in
    match count with
    | None => Ok (firstn (Z.to_nat (len a - pos)) rest)
    | Some c => Ok (firstn (Z.to_nat (Z.min (len a - pos) c)) rest)
    end.

(** find, 284-295; None is npos *)
Fixpoint find_from (a : str) (ch : Z) (i : Z) : option Z :=
  match a with
  | [] => None
  | c :: r => if c =? ch then Some i else find_from r ch (i + 1)
  end.
Definition find_char (a : str) (ch pos : Z) : option Z :=
  if len a <=? pos then None else find_from (skipn (Z.to_nat pos) a) ch pos.

(** findLastOf, 274-282.  The loop condition i >= 0 always holds for the unsigned i, and str[i] is undefined once i has
    wrapped around. *)
Fixpoint last_loop (a : str) (ch : Z) (i : nat) : res Z :=
  do c <- at_ a (Z.of_nat i);
  if c =? ch then Ok (Z.of_nat i)
  else match i with O => UB | S i' => last_loop a ch i' end.
Definition find_last_of (a : str) (ch : Z) (pos : Z) : res Z :=
  if len a =? 0 then UB else last_loop a ch (Z.to_nat (Z.min (len a - 1) pos)).

(** ASTString::levenshteinDistance, lib/aststring.cpp:27-55.  Assertions that fail are UB, int arithmetic is i32.
    The loop counters are natural numbers here; they overflow if a string has INT_MAX or more characters, which
    [levenshtein] checks at its start. *)
Fixpoint lev_init (n : nat) (i : nat) (dp0 : list Z) : res (list Z) :=
  match n with
  | O => Ok dp0
  | S n' => do d <- set_at (Z.of_nat i) (Z.of_nat i) dp0; lev_init n' (S i) d
  end.
Fixpoint lev_inner (n : nat) (j : nat) (si : Z) (t : str) (dp0 dp1 : list Z) : res (list Z) :=
  match n with
  | O => Ok dp1
  | S n' =>
      let zj := Z.of_nat j in
      do a <- at_ dp0 zj; do del <- i32 (a + 1);
      do b <- at_ dp1 (zj - 1); do ins <- i32 (b + 1);
      do c <- at_ dp0 (zj - 1); do tj <- at_ t (zj - 1);
      do sub <- i32 (c + (if si =? tj then 0 else 1));
      do dp1' <- set_at zj (Z.min del (Z.min ins sub)) dp1;
      lev_inner n' (S j) si t dp0 dp1'
  end.
Fixpoint lev_outer (m : nat) (i : nat) (s t : str) (dp0 dp1 : list Z) : res (list Z) :=
  match m with
  | O => Ok dp0
  | S m' =>
      do d <- set_at 0 (Z.of_nat i) dp1;
      do si <- at_ s (Z.of_nat i - 1);
      do row <- lev_inner (length t) 1 si t dp0 d;
      lev_outer m' (S i) s t row dp0
  end.
Definition levenshtein (s t : str) : res Z :=
  if (len s =? 0) || (len t =? 0) then UB
  else if (INT_MAX <=? len s) || (INT_MAX <=? len t) then UB
  else
    do dp0 <- lev_init (S (length t)) 0 (repeat 0 (S (length t)));
    do row <- lev_outer (length s) 1 s t dp0 (repeat 0 (S (length t)));
    at_ row (len t).

(** Scopes::findSimilar, lib/typecheck.cpp:104-129: the loop over the declarations of the visited scopes, in the order
    of visiting; a declaration is its name and a value.  Identifiers without a string are not modelled (their distance
    is INT_MAX, lib/ast.cpp:355-358). *)
Fixpoint similar_loop {D} (ident : str) (decls : list (str * D)) (minEdits : Z) (best : option D) : res (option D) :=
  match decls with
  | [] => Ok best
  | (nm, d) :: r =>
      do edits <- levenshtein ident nm;
      if (edits <? minEdits) && (Z.abs (len ident - len nm) <=? 3)
      then similar_loop ident r edits (Some d)
      else similar_loop ident r minEdits best
  end.
Definition find_similar {D} (ident : str) (decls : list (str * D)) : res (option D) := similar_loop ident decls 3 None.
