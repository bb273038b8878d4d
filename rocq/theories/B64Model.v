(** Model of base64 encoding (lib/thirdparty/cencode.c, lib/thirdparty/cdecode.c,
    include/minizinc/_thirdparty/b64/encode.h, decode.h, lib/file_utils.cpp:820-839).
    A char is a number from -128 to 127, a string a list of chars.  A loop that writes to a buffer is a
    function returning the written chars. *)
Require Import ZArith List Bool.
From Verif Require Import Base.
Import ListNotations.
Open Scope Z_scope.

(* conversion of an int to (signed) char *)
Definition to_char (z : Z) : Z := (z + 128) mod 256 - 128.

(** ** Encoding *)
(* cencode.c:65-69 base64_encode_value *)
Definition encoding : list Z :=
  [65;66;67;68;69;70;71;72;73;74;75;76;77;78;79;80;81;82;83;84;85;86;87;88;89;90;
   97;98;99;100;101;102;103;104;105;106;107;108;109;110;111;112;113;114;115;116;117;118;119;120;121;122;
   48;49;50;51;52;53;54;55;56;57;43;47].
Definition encode_value (v : Z) : res Z :=
  if v >? 63 then Ok 61
  else if v <? 0 then UB
  else match nth_error encoding (Z.to_nat v) with Some c => Ok c | None => UB end.

Inductive estep : Type := step_A | step_B | step_C.
(* cencode.h base64_encodestate *)
Record encodestate : Type := mkES { e_stepcount : Z; e_cpl : Z; e_step : estep; e_result : Z }.
(* cencode.c:11-16; BASE64_CENC_DEFCPL is 0.  Here the line length is an argument. *)
Definition init_encodestate (cpl : Z) : encodestate := mkES 0 cpl step_A 0.

(* cencode.c:71-78 CHECK_BREAK *)
Definition check_break (cpl count : Z) : list Z * Z :=
  if negb (cpl =? 0) && (count >=? cpl) then ([10], 1) else ([], (count + 1) mod 2 ^ 64).

(* cencode.c:80-138, the body of the loop for one input char; returns the chars written *)
Definition encode_char (st : encodestate) (fragment : Z) : res (encodestate * list Z) :=
  let cpl := e_cpl st in
  let '(br, n) := check_break cpl (e_stepcount st) in
  match e_step st with
  | step_A =>
      do c <- encode_value (Z.shiftr (Z.land fragment 252) 2);
      Ok (mkES n cpl step_B (Z.shiftl (Z.land fragment 3) 4), br ++ [c])
  | step_B =>
      do c <- encode_value (to_char (Z.lor (e_result st) (Z.shiftr (Z.land fragment 240) 4)));
      Ok (mkES n cpl step_C (Z.shiftl (Z.land fragment 15) 2), br ++ [c])
  | step_C =>
      do c <- encode_value (to_char (Z.lor (e_result st) (Z.shiftr (Z.land fragment 192) 6)));
      let '(br2, n2) := check_break cpl n in
      let result := Z.shiftr (Z.land fragment 63) 0 in
      do c2 <- encode_value result;
      Ok (mkES n2 cpl step_A result, br ++ [c] ++ br2 ++ [c2])
  end.
(* cencode.c:80-138 base64_encode_block *)
Fixpoint encode_block (st : encodestate) (plain : list Z) : res (encodestate * list Z) :=
  match plain with
  | [] => Ok (st, [])
  | c :: rest =>
      do ' (st1, o1) <- encode_char st c;
      do ' (st2, o2) <- encode_block st1 rest;
      Ok (st2, o1 ++ o2)
  end.
(* cencode.c:140-166 base64_encode_blockend *)
Definition encode_blockend (st : encodestate) : res (list Z) :=
  let cpl := e_cpl st in
  let nl := if negb (cpl =? 0) then [10] else [] in
  match e_step st with
  | step_B =>
      let '(b1, n1) := check_break cpl (e_stepcount st) in
      do c <- encode_value (e_result st);
      let '(b2, n2) := check_break cpl n1 in
      let '(b3, _) := check_break cpl n2 in
      Ok (b1 ++ [c] ++ b2 ++ [61] ++ b3 ++ [61] ++ nl)
  | step_C =>
      let '(b1, n1) := check_break cpl (e_stepcount st) in
      do c <- encode_value (e_result st);
      let '(b2, _) := check_break cpl n1 in
      Ok (b1 ++ [c] ++ b2 ++ [61] ++ nl)
  | step_A => Ok nl
  end.
(* encode.h:49-75 encoder::encode on streams: blocks of N chars are read until fewer than N are left;
   code is a buffer of 2N chars, writing past it is UB *)
Fixpoint encode_stream (fuel : nat) (N : nat) (st : encodestate) (input : list Z) : res (list Z) :=
  match fuel with
  | O => Err OutOfFuel
  | S fuel =>
      let block := firstn N input in
      do ' (st1, o) <- encode_block st block;
      if (2 * N <? length o)%nat then UB else
      (* istream_in.good(): the whole block was read; plainlength > 0 *)
      if (N <=? length input)%nat && (0 <? length block)%nat then
        do o2 <- encode_stream fuel N st1 (skipn N input);
        Ok (o ++ o2)
      else
        do o2 <- encode_blockend st1;
        if (2 * N <? length o2)%nat then UB else Ok (o ++ o2)
  end.
(* file_utils.cpp:820-827; 64 is '@' *)
Definition encode_base64 (N : nat) (cpl : Z) (s : list Z) : res (list Z) :=
  do o <- encode_stream (S (length s)) N (init_encodestate cpl) s;
  Ok (64 :: o).

(** ** Decoding *)
(* cdecode.c:18-29 base64_decode_value *)
Definition decoding : list Z :=
  [62; -1; -1; -1; 63; 52; 53; 54; 55; 56; 57; 58; 59; 60; 61; -1; -1; -1; -2; -1;
   -1; -1; 0;  1;  2;  3;  4;  5;  6;  7;  8;  9;  10; 11; 12; 13; 14; 15; 16; 17;
   18; 19; 20; 21; 22; 23; 24; 25; -1; -1; -1; -1; -1; -1; 26; 27; 28; 29; 30; 31;
   32; 33; 34; 35; 36; 37; 38; 39; 40; 41; 42; 43; 44; 45; 46; 47; 48; 49; 50; 51].
Definition decoding_size : Z := 80.
Definition decode_value (value_in : Z) : res Z :=
  if value_in <? 43 then Ok (-1)
  else
    let v := value_in - 43 in
    if v >? decoding_size then Ok (-1)
    else match nth_error decoding (Z.to_nat v) with Some f => Ok f | None => UB end.

Inductive dstep : Type := step_a | step_b | step_c | step_d.
(* cdecode.h base64_decodestate *)
Record decodestate : Type := mkDS { d_step : dstep; d_plainchar : Z }.
Definition init_decodestate : decodestate := mkDS step_a 0.
(* cdecode.c:36-93, the body of the loop for one code char; the result holds the finished chars
   (those passed by plainchar++), the state the char being assembled *)
Definition decode_char (st : decodestate) (code : Z) : res (decodestate * list Z) :=
  do fragment <- decode_value code;
  if fragment <? 0 then Ok (st, [])
  else
    let p := d_plainchar st in
    match d_step st with
    | step_a => Ok (mkDS step_b (to_char (Z.shiftl (Z.land fragment 63) 2)), [])
    | step_b => Ok (mkDS step_c (to_char (Z.shiftl (Z.land fragment 15) 4)), [to_char (Z.lor p (Z.shiftr (Z.land fragment 48) 4))])
    | step_c => Ok (mkDS step_d (to_char (Z.shiftl (Z.land fragment 3) 6)), [to_char (Z.lor p (Z.shiftr (Z.land fragment 60) 2))])
    | step_d => Ok (mkDS step_a 0, [to_char (Z.lor p (Z.land fragment 63))])
    end.
(* cdecode.c:36-93 base64_decode_block.  After step_d the state's plainchar is whatever the next cell of
   the buffer holds; step_a overwrites it, so it is 0 here. *)
Fixpoint decode_block (st : decodestate) (code : list Z) : res (decodestate * list Z) :=
  match code with
  | [] => Ok (st, [])
  | c :: rest =>
      do ' (st1, o1) <- decode_char st c;
      do ' (st2, o2) <- decode_block st1 rest;
      Ok (st2, o1 ++ o2)
  end.
(* the number of cells of the output buffer that decode_block reads or writes: the finished chars and the
   one at plainchar (cdecode.c:42, 52) *)
Definition cells_used (out : list Z) : nat := length out + 1.
(* decode.h:44-70 decoder::decode on streams; plaintext is a buffer of N chars, writing past it is UB *)
Fixpoint decode_stream (fuel : nat) (N : nat) (st : decodestate) (input : list Z) : res (list Z) :=
  match fuel with
  | O => Err OutOfFuel
  | S fuel =>
      let block := firstn N input in
      do ' (st1, o) <- decode_block st block;
      if (N <? cells_used o)%nat then UB else
      if (N <=? length input)%nat && (0 <? length block)%nat then
        do o2 <- decode_stream fuel N st1 (skipn N input);
        Ok (o ++ o2)
      else Ok o
  end.
(* file_utils.cpp:829-839 *)
Definition decode_base64 (N : nat) (s : list Z) : res (list Z) :=
  match s with
  | 64 :: code => decode_stream (S (length code)) N init_decodestate code
  | _ => Err InternalError
  end.
