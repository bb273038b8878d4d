(** C37, C38, C39, C67: the lexer, and the printer of names and strings. *)
Require Import ZArith List Bool String Lia.
From Verif Require Import Base IntValModel StrModel JsonModel LexModel LexSpec LexProofs LexProofs2 LexProofs3 LexProofs4 LexProofs5.
Import ListNotations.
Open Scope Z_scope.

(** C67: every text is read to its end: no byte is left to flex's default action, no state is popped off an empty stack, and every rule
    that is picked consumes something, so that the scanner stops. *)
Theorem C67_total : forall fz text, is_bytes text -> exists toks, lex fz text = Ok toks /\ forall c, ~ In (TEcho c) toks.
Proof. exact C67_l. Qed.
Print Assumptions C67_total.
(** What the model takes for the next token is what flex takes: the longest match, and among those the first rule. *)
Theorem C67_longest : forall s text n a, best s rules text = Some (n, a) <-> exists i, picked s text i n a.
Proof. exact best_picked. Qed.
Print Assumptions C67_longest.
Example C67_nonvacuous : exists toks, lex false (txt "x<=2^-1 % done") = Ok toks /\ List.length toks = 4%nat.
Proof. eexists. split; [vm_compute; reflexivity|reflexivity]. Qed.

(** C37: a string literal is read back, whatever follows it.  Proved for strings without NUL and carriage return. *)
Theorem C37_partial : forall fz s rest toks, is_bytes s -> is_bytes rest -> ~ In 0 s -> ~ In 13 s -> lex fz rest = Ok toks ->
  lex fz (34 :: escapeStringLit s ++ 34 :: rest) = Ok (TString s :: toks).
Proof. exact C37_l. Qed.
Print Assumptions C37_partial.
(** FINDING: a carriage return, which the program can write as an octal escape, is printed as it is and ends the literal, *)
Theorem C37_return_refuted : exists s, is_bytes s /\ lex false (txt """a\015b""") = Ok [TString s] /\ lex false (34 :: escapeStringLit s ++ [34]) <> Ok [TString s].
Proof. exists [97; 13; 98]. split; [repeat constructor; lia|]. split; [vm_compute; reflexivity|vm_compute; discriminate]. Qed.
Print Assumptions C37_return_refuted.
(** and NUL, which cannot be in a literal at all, is not rejected when it comes from an octal escape: the string ends there. *)
Theorem C37_nul_refuted : lex false (txt """a\400b""") = Ok [TString [97]].
Proof. vm_compute. reflexivity. Qed.
Print Assumptions C37_nul_refuted.
Example C37_nonvacuous : let s := txt "say ""hi""\n" ++ [9; 10; 195; 164] in is_bytes s /\ ~ In 0 s /\ ~ In 13 s /\ lex false (34 :: escapeStringLit s ++ txt """++x") = Ok [TString s; TSym "MZN_PLUSPLUS"; TIdent (txt "x")].
Proof. cbv zeta. split; [repeat constructor; lia|]. split; [cbn; lia|]. split; [cbn; lia|]. vm_compute. reflexivity. Qed.

(** C38: an identifier is read back, whatever follows it that is not a character of an identifier.  Proved for all but three names. *)
Theorem C38_partial : forall s rest toks, admitted s -> s <> txt "infinity" -> s <> txt "variant_record" -> s <> txt "_" ->
  is_bytes rest -> breaks rest -> lex false rest = Ok toks -> lex false (quoteId s ++ rest) = Ok (TIdent s :: toks).
Proof.
  intros s rest toks Ha H1 H2 H3. apply C38_l; [exact Ha|]. intros [X|[X|[X|[]]]]; congruence.
Qed.
Print Assumptions C38_partial.
(** FINDING: the three names can be written in quotes, but they are printed without, and then they are something else. *)
Theorem C38_refuted : forall s, s = txt "infinity" \/ s = txt "variant_record" \/ s = txt "_" ->
  admitted s /\ exists t, lex false (quoteId s) = Ok [TSym t].
Proof.
  intros s H. split.
  - exists (39 :: s ++ [39]), [TIdent s]. destruct H as [->|[->| ->]]; (split; [repeat constructor; lia|]; split; [vm_compute; reflexivity|left; reflexivity]).
  - destruct H as [->|[->| ->]]; eexists; vm_compute; reflexivity.
Qed.
Print Assumptions C38_refuted.
Example C38_nonvacuous :
  (admitted (txt "x_1") /\ quoteId (txt "x_1") = txt "x_1") /\ (admitted (txt "max height") /\ quoteId (txt "max height") = txt "'max height'") /\
  (admitted (txt "int") /\ quoteId (txt "int") = txt "'int'") /\ (admitted (txt "~+") /\ quoteId (txt "~+") = txt "'~+'") /\
  breaks (txt "+1") /\ lex false (quoteId (txt "max height") ++ txt "+1") = Ok [TIdent (txt "max height"); TSym "MZN_PLUS"; TInt 1].
Proof.
  assert (A : forall s, lex false (39 :: s ++ [39]) = Ok [TIdent s] -> is_bytes (39 :: s ++ [39]) -> admitted s) by (intros s H Hb; exists (39 :: s ++ [39]), [TIdent s]; repeat split; [exact Hb|exact H|left; reflexivity]).
  split; [|split; [|split; [|split; [|split]]]]; try (split; [apply A; [vm_compute; reflexivity|repeat constructor; lia]|vm_compute; reflexivity]).
  - cbn. unfold is_idchar, is_letter. lia.
  - vm_compute. reflexivity.
Qed.

(** C39, the part of the scanner: digits are read as the number they stand for if it has 64 bits; 2^63 has a token of its own (so that the
    smallest integer can be written), and everything else is rejected. *)
Theorem C39_scanned : forall fz ds v rest toks, decimal ds v -> is_bytes rest -> ends_number rest -> lex fz rest = Ok toks ->
  exists t, lex fz (ds ++ rest) = Ok (t :: toks) /\
    (v < 2 ^ 63 -> t = TInt v) /\
    (2 ^ 63 <= v -> ds = txt "9223372036854775808" -> t = TSym "MZN_MAX_NEGATIVE_INTEGER_LITERAL") /\
    (2 ^ 63 <= v -> ds <> txt "9223372036854775808" -> t = TSym "MZN_INVALID_INTEGER_LITERAL").
Proof.
  intros fz ds v rest toks Hd Hb Hr Hl. exists (int_token ds v). split; [apply C39_l; assumption|]. unfold int_token, LLONG_MAX.
  split; [|split]; intros H; [|intros H'|intros H'].
  - destruct (v <=? 9223372036854775807) eqn:E; [reflexivity|lia].
  - destruct (v <=? 9223372036854775807) eqn:E; [lia|]. subst ds. reflexivity.
  - destruct (v <=? 9223372036854775807) eqn:E; [lia|]. destruct (str_eqb ds maxneg) eqn:E2; [apply str_eqb_ok in E2; contradiction|reflexivity].
Qed.
Print Assumptions C39_scanned.
Example C39_scanned_nonvacuous : decimal (txt "407") 407 /\ ends_number (txt "..500") /\ lex false (txt "407..500") = Ok [TInt 407; TSym "MZN_DOTDOT"; TInt 500].
Proof.
  split; [|split; [cbn; lia|vm_compute; reflexivity]]. apply (D_more [52; 48] 40 55); [|lia]. apply (D_more [52] 4 48); [|lia]. apply (D_one 52). lia.
Qed.
