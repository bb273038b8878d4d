(** C40: base64.  Statements only; proofs are in B64Proofs.v. *)
Require Import ZArith List Bool Lia.
From Verif Require Import Base B64Model B64Spec B64Proofs.
Import ListNotations.
Open Scope Z_scope.

(** C40: whatever the encoder writes (for any line length cpl, and any block size N of the encoder), the
    decoder (with any block size M of at least 4) reads back the original string. *)
Theorem C40_round_trip : forall N M cpl s o, (0 < N)%nat -> (4 <= M)%nat -> Forall is_char s ->
  encode_base64 N cpl s = Ok o -> decode_base64 M o = Ok s.
Proof. exact C40_round_trip_l. Qed.
Print Assumptions C40_round_trip.
(** with unbroken lines (what MiniZinc uses) the encoder never fails; its output is '@' followed by the
    standard encoding, independently of the block size *)
Theorem C40_standard_encoding : forall N s, (2 <= N)%nat -> Forall is_char s ->
  encode_base64 N 0 s = Ok (64 :: rfc4648 (map byte_of s)).
Proof. exact C40_rfc_l. Qed.
Print Assumptions C40_standard_encoding.
(** decoding any text is defined, as long as it holds no '{' *)
Theorem C40_decode_defined : forall N s, (4 <= N)%nat -> Forall is_char s -> ~ In 123 s ->
  exists o, decode_base64 N (64 :: s) = Ok o.
Proof. exact C40_decode_defined_l. Qed.
Print Assumptions C40_decode_defined.
(** FINDING: for '{' the decoder reads one element past its table (comparison > instead of >=) *)
Theorem C40_brace_refuted : decode_base64 4096 [64; 123] = UB.
Proof. vm_compute. reflexivity. Qed.
Print Assumptions C40_brace_refuted.

(* "MiniZinc" and three bytes with the top bit set, in blocks of 4 and 5 chars, with lines of 4 chars *)
Example C40_nonvacuous :
  let s := [77; 105; 110; 105; 90; 105; 110; 99; -1; -128; -17] in
  Forall is_char s /\
  encode_base64 4 0 s = Ok [64; 84;87;108;117; 97;86;112;112; 98;109;80;47; 103;79;56;61] /\
  decode_base64 5 [64; 84;87;108;117; 97;86;112;112; 98;109;80;47; 103;79;56;61] = Ok s /\
  encode_base64 16 4 s = Ok [64; 84;87;108;117; 10; 97;86;112;112; 10; 98;109;80;47; 10; 103;79;56;61; 10].
Proof. cbv zeta. split; [repeat constructor; unfold is_char; lia|]. vm_compute. auto. Qed.
