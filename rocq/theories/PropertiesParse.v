(** The properties of the printer and the parser together: C36 and C39. *)
Require Import ZArith List Bool String Lia ZifyBool.
From Verif Require Import Base IntValModel StrModel TypeModel LexModel LexSpec ParseModel ParseSpec ParseProofs ParseProofs2 ParseProofs3 ParseProofs4.
Import ListNotations.
Open Scope Z_scope.

(** C36: a printed expression is read back as the same tree.  Proved for the plain expressions, *)
Theorem C36_plain_partial : forall e, plain e -> read (print e) = Ok e.
Proof. intros e H. apply C36_l. apply plain_readable. exact H. Qed.
Print Assumptions C36_plain_partial.
(** and for all those of which each operator gets its operands back according to the precedences of the grammar. *)
Theorem C36_partial : forall e, readable e -> read (print e) = Ok e.
Proof. exact C36_l. Qed.
Print Assumptions C36_partial.
(** So two of them that print alike are the same. *)
Theorem C36_injective_partial : forall e e', readable e -> readable e' -> print e = print e' -> e = e'.
Proof. intros e e' H H' E. apply C36_l in H. apply C36_l in H'. rewrite E in H. congruence. Qed.
Print Assumptions C36_injective_partial.

Local Definition v (s : string) : ex := EId (txt s).
Local Definition i (n : Z) : ex := EInt (ofZ n).
Lemma named s : lex false (39 :: s ++ [39]) = Ok [TIdent s] -> is_bytes (39 :: s ++ [39]) -> s <> txt "infinity" -> s <> txt "variant_record" -> s <> txt "_" -> name_ok s.
Proof. intros H Hb H1 H2 H3. split; [|auto]. exists (39 :: s ++ [39]), [TIdent s]. repeat split; [exact Hb|exact H|left; reflexivity]. Qed.
Ltac name := apply named; [vm_compute; reflexivity|repeat constructor; lia|vm_compute; discriminate..].
Ltac int := left; split; [reflexivity|cbn; unfold LLONG_MIN, LLONG_MAX; lia].
(** not (x+2)*-3 <= f(a[i])-(y-1) -> if b then 1..n else {} endif, and so on *)
Example C36_nonvacuous :
  let e := EBin OImpl (EBin OLq (EBin OMult (EBin OPlus (v "x") (i 2)) (i (-3))) (EBin OMinus (ECall (txt "f") [EAcc (v "a") [v "i"]]) (EBin OMinus (v "y") (i 1))))
                      (EBin OIn (i 5) (EIte [(EUn UNot (v "b"), EBin ODotdot (i 1) (v "n"))] (Some (EBin OUnion (ESet (ofZ 1) (ofZ 3)) (v "t"))))) in
  plain e /\ print e = txt "(x+2)*-3<=f(a[i])-(y-1) -> 5 in if not b then 1..n else 1..3 union t endif" /\ read (print e) = Ok e.
Proof.
  cbv zeta. split; [|split; vm_compute; reflexivity].
  assert (O : forall o, (o <> OPow /\ o <> OPlusplus /\ o <> OIntersect) -> plain_op o) by (intros; assumption).
  repeat (first [apply P_bin | apply P_int; int | apply P_id; name | apply P_call; [name|] | apply P_acc | apply P_not | apply P_set; [int|int|reflexivity] | apply P_ite | apply Forall_cons | apply Forall_nil | split
    | intros ? E; injection E as <- | discriminate | intros [] | intros _; repeat split; discriminate | intros _ | intros; cbn in *; tauto ]).
Qed.
(** readable goes further: powers, concatenation, intersection, unary plus *)
Example C36_readable_nonvacuous :
  let e := EBin OPlusplus (EBin OPlusplus (EArr [EBin OPow (v "x") (i 2); EBin OPow (v "y") (EInt iv_minus1)]) (v "b")) (EArr [EUn UPlus (EBin OPlus (v "x") (v "y")); EBin OIntersect (v "s") (v "t")]) in
  readable e /\ print e = txt "([x^2,y^-1]++b)++[+(x+y),s intersect t]" /\ read (print e) = Ok e.
Proof.
  cbv zeta. split; [|split; vm_compute; reflexivity].
  repeat (first [apply R_inv; [|reflexivity] | apply R_bin | apply R_int; int | apply R_id; name | apply R_arr | apply R_un | apply Forall_cons | apply Forall_nil
    | (left; vm_compute; reflexivity) | (right; vm_compute; repeat constructor) | (split; intros; vm_compute; discriminate) | discriminate | (intros; cbn in *; tauto) ]).
Qed.

(** The general claim is false.  In each of these cases a text is read as e, e is printed, and what is printed is not read as e.

    FINDING: a unary minus as the base of a power gets no parentheses, and the grammar gives the power the minus *)
Local Definition lost (text : string) : Prop := exists e e', read (txt text) = Ok e /\ read (print e) = Ok e' /\ e' <> e.
Local Definition unreadable (text : string) : Prop := exists e, read (txt text) = Ok e /\ read (print e) = Err SyntaxError.
Ltac lose := eexists; eexists; (split; [vm_compute; reflexivity|]); (split; [vm_compute; reflexivity|vm_compute; discriminate]).
Theorem C36_minus_refuted : lost "(-x)^y" /\ lost "(-2)^2".
Proof. split; lose. Qed.
Print Assumptions C36_minus_refuted.
(** FINDING: intersect is printed as if it bound as tightly as *, but in the grammar it binds more loosely than .. and + *)
Theorem C36_intersect_refuted : lost "(a intersect b)*c" /\ lost "a+(b intersect c)" /\ lost "(a intersect b)..c".
Proof. repeat split; lose. Qed.
Print Assumptions C36_intersect_refuted.
(** FINDING: ++ is printed as if it were associative to the right and bound like ^; in the grammar it is associative to the left and binds
    more tightly than ^ *)
Theorem C36_concat_refuted : lost "a++(b++c)" /\ lost "a++(b^c)".
Proof. repeat split; lose. Qed.
Print Assumptions C36_concat_refuted.
(** FINDING: unary operators in operands of ++ and +: not binds less tightly than ++, and + followed by a unary plus is read as ++ *)
Theorem C36_unary_refuted : lost "(not a)++b" /\ lost "a+(+b)".
Proof. repeat split; lose. Qed.
Print Assumptions C36_unary_refuted.
(** FINDING: in x^-12 the lexer finds the token ^-1, and the 2 after it is a syntax error *)
Theorem C36_power_refuted : unreadable "x^(-12)".
Proof. eexists. split; [vm_compute; reflexivity|]. vm_compute. reflexivity. Qed.
Print Assumptions C36_power_refuted.
(** FINDING: the parser accepts ^-1 after a call and drops it *)
Theorem C36_inverse_refuted : lost "f(x)^(-1)" /\ read (txt "f(x)^-1") = read (txt "f(x)").
Proof. split; [lose|vm_compute; reflexivity]. Qed.
Print Assumptions C36_inverse_refuted.

(** C39: a 64-bit integer is printed and read back, *)
Theorem C39_printed : forall n, LLONG_MIN <= n <= LLONG_MAX -> read (int_text (ofZ n)) = Ok (EInt (ofZ n)).
Proof. exact C39_printed_l. Qed.
Print Assumptions C39_printed.
(** digits are read as the number that they stand for, or rejected when it does not fit, *)
Theorem C39_digits : forall ds v, decimal ds v -> (v < 2 ^ 63 -> read ds = Ok (EInt (ofZ v))) /\ (2 ^ 63 <= v -> read ds = Err SyntaxError).
Proof. exact C39_digits_l. Qed.
Print Assumptions C39_digits.
(** and so are digits after a minus *)
Theorem C39_negated : forall ds v, decimal ds v ->
  (v < 2 ^ 63 -> read (45 :: ds) = Ok (EInt (ofZ (- v)))) /\
  (ds = txt "9223372036854775808" -> read (45 :: ds) = Ok (EInt (ofZ LLONG_MIN))) /\
  (2 ^ 63 < v -> read (45 :: ds) = Err SyntaxError).
Proof. exact C39_negated_l. Qed.
Print Assumptions C39_negated.
(** (the smallest integer must be written without zeros in front of it) *)
Theorem C39_zero_refuted : decimal (txt "09223372036854775808") (2 ^ 63) /\ read (txt "-09223372036854775808") = Err SyntaxError.
Proof.
  split; [|vm_compute; reflexivity].
  change (txt "09223372036854775808") with ([48; 57; 50; 50; 51; 51; 55; 50; 48; 51; 54; 56; 53; 52; 55; 55; 53; 56; 48; 56] : str).
  assert (G : forall l acc v, Forall (fun c => 48 <= c <= 57) l -> decimal acc v -> decimal (acc ++ l) (fold_left (fun x c => 10 * x + (c - 48)) l v)).
  { induction l as [|c l IH]; intros acc w F D; [rewrite app_nil_r; exact D|]. inversion F; subst. replace (acc ++ c :: l) with ((acc ++ [c]) ++ l) by (rewrite <- app_assoc; reflexivity). cbn [fold_left]. apply IH; [assumption|]. constructor; assumption. }
  exact (G [57; 50; 50; 51; 51; 55; 50; 48; 51; 54; 56; 53; 52; 55; 55; 53; 56; 48; 56] [48] 0 ltac:(repeat constructor; lia) (D_one 48 ltac:(lia))).
Qed.
Print Assumptions C39_zero_refuted.
Example C39_nonvacuous : read (int_text (ofZ LLONG_MIN)) = Ok (EInt (ofZ LLONG_MIN)) /\ decimal (txt "407") 407 /\ read (txt "-407") = Ok (EInt (ofZ (-407))) /\ read (txt "9223372036854775808") = Err SyntaxError.
Proof.
  split; [vm_compute; reflexivity|]. split; [|split; vm_compute; reflexivity]. apply (D_more [52; 48] 40 55); [|lia]. apply (D_more [52] 4 48); [|lia]. apply (D_one 52). lia.
Qed.
