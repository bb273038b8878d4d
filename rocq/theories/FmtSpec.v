(** Independent specification of strings: UTF-8, splitting, joining and justification. *)
Require Import ZArith List Bool.
From Verif Require Import Base IntValModel IntValSpec ArrModel FmtModel.
Import ListNotations.
Open Scope Z_scope.

(** the UTF-8 encoding of a Unicode code point *)
Definition code_point (c : Z) : Prop := 0 <= c < 1114112.
Definition utf8 (c : Z) : list Z :=
  if c <? 128 then [c]
  else if c <? 2048 then [192 + c / 64; 128 + c mod 64]
  else if c <? 65536 then [224 + c / 4096; 128 + c / 64 mod 64; 128 + c mod 64]
  else [240 + c / 262144; 128 + c / 4096 mod 64; 128 + c / 64 mod 64; 128 + c mod 64].
(** a text, as code points, and its bytes *)
Definition encodes (cs : list Z) (s : list Z) : Prop := Forall code_point cs /\ s = flat_map utf8 cs.

(** the texts ps with sep between them *)
Fixpoint joined (sep : list Z) (ps : list (list Z)) : list Z :=
  match ps with [] => [] | [p] => p | p :: ps => p ++ sep ++ joined sep ps end.
(** sep is not part of s *)
Definition free_of (sep s : list Z) : Prop := forall a b, s <> a ++ sep ++ b.
(** sep is part of p followed by sep only at the very end *)
Definition ends_first (sep p : list Z) : Prop := forall a b, p ++ sep = a ++ sep ++ b -> b = [].
(** ps is s, cut from left to right at every occurrence of sep *)
Fixpoint cut (sep : list Z) (ps : list (list Z)) : Prop :=
  match ps with [] => False | [p] => free_of sep p | p :: ps => ends_first sep p /\ cut sep ps end.

(** out is text, filled with blanks on the left (on the right if w is negative) up to |w| bytes *)
Definition justified (w : Z) (text out : list Z) : Prop :=
  len out = Z.max (Z.abs w) (len text) /\
  exists n, out = if w <? 0 then text ++ repeat 32 n else repeat 32 n ++ text.

(** at most the first p bytes *)
Definition cut_off (p : option Z) (t : list Z) : list Z := match p with Some p => firstn (Z.to_nat p) t | None => t end.
(** an optional argument *)
Definition opt_int (v : option IntVal) (z : option Z) : Prop := match v, z with None, None => True | Some v, Some z => is_int v z | _, _ => False end.
(** the text that format writes, before justification *)
Definition text_of (x : shown) (p : option Z) : list Z :=
  match x with ShownInt t => t | ShownFloat f => f (match p with Some p => p | None => 17 end) | ShownOther t => cut_off p t end.
