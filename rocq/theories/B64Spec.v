(** Independent specification of base64 (RFC 4648, section 4). *)
Require Import ZArith List Bool.
Import ListNotations.
Open Scope Z_scope.

(** a C++ char, and the byte it stands for *)
Definition is_char (c : Z) : Prop := -128 <= c <= 127.
Definition byte_of (c : Z) : Z := if c <? 0 then c + 256 else c.

(** the alphabet: A-Z a-z 0-9 + / *)
Definition digit (d : Z) : Z :=
  if d <? 26 then 65 + d
  else if d <? 52 then 97 + (d - 26)
  else if d <? 62 then 48 + (d - 52)
  else if d =? 62 then 43 else 47.

(** three bytes are a 24-bit number written as four digits; a shorter last group is padded with zero
    bits and '=' (61) *)
Fixpoint rfc4648 (l : list Z) : list Z :=
  match l with
  | a :: b :: c :: rest =>
      let n := a * 65536 + b * 256 + c in
      digit (n / 262144) :: digit (n / 4096 mod 64) :: digit (n / 64 mod 64) :: digit (n mod 64) :: rfc4648 rest
  | [a; b] =>
      let n := (a * 256 + b) * 4 in
      [digit (n / 4096); digit (n / 64 mod 64); digit (n mod 64); 61]
  | [a] =>
      let n := a * 16 in
      [digit (n / 64); digit (n mod 64); 61; 61]
  | [] => []
  end.
