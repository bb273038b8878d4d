(** C81-C82: strings.  Statements only; proofs are in FmtProofs.v. *)
Require Import ZArith List Bool Lia.
From Verif Require Import Base IntValModel IntValSpec ArrModel ArrSpec RedSpec FmtModel FmtSpec FmtProofs.
Import ListNotations.
Open Scope Z_scope.

(** ** C81: string_length, string_split, join, concat *)
(** the length of a text in UTF-8 is its number of code points *)
Theorem C81_length : forall cs s, encodes cs s -> string_length s = Ok (len cs).
Proof. exact length_utf8. Qed.
Print Assumptions C81_length.
(** splitting it with an empty separator gives its code points *)
Theorem C81_characters : forall cs s, encodes cs s -> string_split s [] = Ok (map utf8 cs).
Proof. exact split_utf8. Qed.
Print Assumptions C81_characters.
(** for any bytes whatever: nothing is lost, and the length is the number of characters *)
Theorem C81_any_bytes : forall s, exists ps, string_split s [] = Ok ps /\ concat ps = s /\ string_length s = Ok (len ps).
Proof. exact split_chars. Qed.
Print Assumptions C81_any_bytes.
(** splitting with a separator cuts at every occurrence, from left to right *)
Theorem C81_split : forall s sep, sep <> [] -> exists ps, string_split s sep = Ok ps /\ joined sep ps = s /\ cut sep ps.
Proof. exact split_ok. Qed.
Print Assumptions C81_split.
(** and undoes joining texts that do not meet the separator *)
Theorem C81_round_trip : forall sep ps, sep <> [] -> cut sep ps -> string_split (joined sep ps) sep = Ok ps.
Proof. exact split_joined. Qed.
Print Assumptions C81_round_trip.
(** join and concat of the strings of an array *)
Theorem C81_join : forall E (eqb : E -> E -> bool) same ev_string, equivalence eqb same -> respects same ev_string ->
  forall a sh el ps, built eqb a sh el -> Forall2 (fun e p => ev_string e = Ok p) el ps ->
  (forall sep, join_str ev_string sep a = Ok (joined sep ps)) /\ concat_str ev_string a = Ok (concat ps).
Proof.
  intros E eqb same ev (H1 & H2 & H3 & H4) Hr a sh el ps HB HS. split; [exact (join_ok E eqb same H1 H2 H3 H4 ev Hr a sh el ps HB HS)|exact (concat_ok E eqb same H1 H2 H3 H4 ev Hr a sh el ps HB HS)].
Qed.
Print Assumptions C81_join.

(** ** C82: show_int, show_float, format, format_justify_string *)
(** PARTIAL: widths are within int and not -2147483648 (see C82_width_refuted), and count bytes (see C82_characters_refuted) *)
Theorem C82_show_partial : forall v w t, is_int v w -> INT_MIN < w <= INT_MAX -> len t <= INT_MAX ->
  exists out, show_padded v t = Ok out /\ justified w t out.
Proof. exact show_padded_ok. Qed.
Print Assumptions C82_show_partial.
Theorem C82_justify_partial : forall v w mp p t, is_int v w -> INT_MIN < w <= INT_MAX -> len t <= INT_MAX ->
  match mp, p with None, None => True | Some m, Some p => is_int m p /\ 0 <= p | _, _ => False end ->
  exists out, format_justify_string v mp t = Ok out /\ justified w (cut_off p t) out.
Proof. exact justify_ok. Qed.
Print Assumptions C82_justify_partial.
Theorem C82_format_partial : forall v w mp p x, opt_int v w -> opt_int mp p -> (forall z, w = Some z -> INT_MIN < z <= INT_MAX) ->
  (forall z, p = Some z -> 0 <= z <= INT_MAX) -> (forall t, x = ShownOther t -> len t <= INT_MAX) ->
  exists out, format v mp x = Ok out /\ justified (match w with Some w => w | None => 0 end) (text_of x p) out.
Proof. exact format_ok. Qed.
Print Assumptions C82_format_partial.
(** a negative precision is an error *)
Theorem C82_format_negative : forall v w mp p x, opt_int v w -> is_int mp p -> INT_MIN <= p < 0 -> format v (Some mp) x = Err EvalError.
Proof. exact format_negative. Qed.
Print Assumptions C82_format_negative.
(** FINDING: a negative maximal length is documented to be an error; format_justify_string ignores it *)
Theorem C82_negative_refuted : format_justify_string (ofZ 0) (Some (ofZ (-1))) [97; 98] = Ok [97; 98].
Proof. vm_compute. reflexivity. Qed.
Print Assumptions C82_negative_refuted.
(** FINDING: the smallest int as a width is undefined behaviour, and larger widths are truncated to int: show_int(4294967298, 7) is
    as show_int(2, 7) *)
Theorem C82_width_refuted : show_padded (ofZ INT_MIN) [55] = UB /\ format_justify_string (ofZ INT_MIN) None [55] = UB /\
  show_padded (ofZ 4294967298) [55] = Ok [32; 55].
Proof. split; [vm_compute; reflexivity|]. split; vm_compute; reflexivity. Qed.
Print Assumptions C82_width_refuted.
(** FINDING: width and maximal length are documented as characters but count bytes: a text of one two-byte character is not
    filled up to two characters, and is cut in the middle of the character *)
Theorem C82_characters_refuted : exists s, encodes [233] s /\ string_length s = Ok 1 /\
  format_justify_string (ofZ 2) None s = Ok s /\ (exists b, format_justify_string (ofZ 0) (Some (ofZ 1)) s = Ok [b] /\ ~ exists cs, encodes cs [b]).
Proof.
  exists [195; 169]. split; [split; [repeat constructor; unfold code_point; lia|reflexivity]|]. split; [vm_compute; reflexivity|]. split; [vm_compute; reflexivity|].
  exists 195. split; [vm_compute; reflexivity|]. intros (cs & HF & H). destruct cs as [|c cs]; [discriminate|]. inversion HF as [|? ? Hc HF']; subst. destruct (utf8_head c Hc) as (b & r & Hu & He).
  cbn [flat_map] in H. rewrite Hu in H. cbn [app] in H. injection H as Hb Hr. subst b. destruct r; [|discriminate]. vm_compute in He. discriminate.
Qed.
Print Assumptions C82_characters_refuted.
(** FINDING: format(0, 1, 12) is longer than the maximal length 1 *)
Theorem C82_format_length_refuted : format (Some (ofZ 0)) (Some (ofZ 1)) (ShownInt [49; 50]) = Ok [49; 50].
Proof. vm_compute. reflexivity. Qed.
Print Assumptions C82_format_length_refuted.

Example C81_nonvacuous : encodes [97; 233; 8364; 128512] [97; 195; 169; 226; 130; 172; 240; 159; 152; 128] /\
  string_length [97; 195; 169; 226; 130; 172; 240; 159; 152; 128] = Ok 4 /\
  cut [44; 44] [[97]; []; [44; 98]] /\ joined [44; 44] [[97]; [98]; []] = [97; 44; 44; 98; 44; 44] /\
  string_split [97; 44; 44; 44; 98; 44; 44] [44; 44] = Ok [[97]; [44; 98]; []] /\
  (exists a, a = mk Z.eqb [1; 2] [(0, 1)] /\ built Z.eqb a [(0, 1)] [1; 2] /\ join_str (fun z => Ok [z; z]) [44] a = Ok [1; 1; 44; 2; 2]).
Proof.
  split; [split; [repeat constructor; unfold code_point; lia|reflexivity]|]. split; [vm_compute; reflexivity|].
  split. { cbn [cut]. split; [intros a b H|split; [intros a b H|intros a b H]].
    - destruct a as [|x [|y [|z a]]]; cbn in H; injection H; intros; subst; try reflexivity; try discriminate. destruct a; discriminate.
    - destruct a as [|x [|y a]]; cbn in H; injection H; intros; subst; try reflexivity; try discriminate. destruct a; discriminate.
    - destruct a as [|x [|y [|z a]]]; cbn in H; injection H; intros; subst; try discriminate. }
  split; [reflexivity|]. split; [vm_compute; reflexivity|]. eexists. split; [reflexivity|]. split; [|vm_compute; reflexivity].
  apply b_mk; [|reflexivity]. split; [discriminate|]. split; [repeat constructor; vm_compute; congruence|vm_compute; congruence].
Qed.
Example C82_nonvacuous : show_padded (ofZ 3) [55] = Ok [32; 32; 55] /\ show_padded (ofZ (-3)) [55] = Ok [55; 32; 32] /\
  show_padded (ofZ 1) [55; 55] = Ok [55; 55] /\ format_justify_string (ofZ (-4)) (Some (ofZ 2)) [97; 98; 99] = Ok [97; 98; 32; 32] /\
  format (Some (ofZ 5)) (Some (ofZ 2)) (ShownOther [97; 98; 99]) = Ok [32; 32; 32; 97; 98] /\ format (Some (ofZ (-3))) None (ShownInt [55]) = Ok [55; 32; 32] /\
  justified (-3) [55] [55; 32; 32] /\ is_int (ofZ 3) 3.
Proof.
  repeat (split; [vm_compute; reflexivity|]). split; [|reflexivity]. split; [reflexivity|]. exists 2%nat. reflexivity.
Qed.
