(** Specification for C37, C38, C39 and C67. *)
Require Import ZArith List Bool String Ascii.
From Verif Require Import Base StrModel LexModel.
Import ListNotations.
Open Scope Z_scope.

(** ** What flex does with the rules, declaratively *)
(** the texts a regular expression stands for *)
Inductive matches : re -> str -> Prop :=
| M_eps : matches REps []
| M_set neg l c : in_set neg l c = true -> matches (RSet neg l) [c]
| M_seq a b s t : matches a s -> matches b t -> matches (RSeq a b) (s ++ t)
| M_left a b s : matches a s -> matches (RAlt a b) s
| M_right a b s : matches b s -> matches (RAlt a b) s
| M_done a : matches (RStar a) []
| M_more a s t : matches a s -> matches (RStar a) t -> matches (RStar a) (s ++ t).
Definition pmatches (p : pat) (s : str) : Prop := match p with PLit l => s = l | PRe r => matches r s end.

(** rule number i is the one flex picks in condition s, with the first n bytes of the text: it matches them, no active rule matches more, and
    no earlier one as much *)
Definition picked (s : sc) (text : str) (i n : nat) (a : action) : Prop :=
  exists r, nth_error rules i = Some r /\ active (r_cond r) s = true /\ r_act r = a /\ (n <= List.length text)%nat /\ pmatches (r_pat r) (firstn n text) /\
  forall j q m, nth_error rules j = Some q -> active (r_cond q) s = true -> (m <= List.length text)%nat -> pmatches (r_pat q) (firstn m text) ->
    (m <= n)%nat /\ ((j < i)%nat -> (m < n)%nat).

Definition is_bytes (s : str) : Prop := Forall (fun c => 0 <= c < 256) s.

(** ** Identifiers *)
Definition is_letter (c : Z) : Prop := 65 <= c <= 90 \/ 97 <= c <= 122.
Definition is_idchar (c : Z) : Prop := is_letter c \/ 48 <= c <= 57 \/ c = 95.
(** a name the language admits: it is an identifier in some program *)
Definition admitted (s : str) : Prop := exists text toks, is_bytes text /\ lex false text = Ok toks /\ In (TIdent s) toks.
(** the text does not go on with a character of an identifier *)
Definition breaks (rest : str) : Prop := match rest with [] => True | c :: _ => ~ is_idchar c end.

(** ** Integers *)
(** digits in base ten *)
Inductive decimal : str -> Z -> Prop :=
| D_one c : 48 <= c <= 57 -> decimal [c] (c - 48)
| D_more l v c : decimal l v -> 48 <= c <= 57 -> decimal (l ++ [c]) (10 * v + (c - 48)).
(** the text does not go on as a number: with a digit, with the letter of an exponent or of another base, or with a single dot *)
Definition ends_number (rest : str) : Prop :=
  match rest with
  | [] => True
  | c :: r => ~ (48 <= c <= 57) /\ c <> 101 /\ c <> 69 /\ c <> 120 /\ c <> 88 /\ c <> 111 /\ (c = 46 -> match r with d :: _ => ~ (48 <= d <= 57) | [] => True end)
  end.
