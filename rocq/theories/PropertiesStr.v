(** C44, C50 and C57: strings. *)
Require Import ZArith List Bool Lia.
From Verif Require Import Base StrModel StrSpec StrProofs StrProofs2.
Import ListNotations.
Open Scope Z_scope.

(** levenshteinDistance is the least number of single-character edits between two non-empty strings of fewer than
    INT_MAX characters. *)
Theorem C44_distance : forall s t, s <> [] -> t <> [] -> len s < INT_MAX -> len t < INT_MAX ->
  exists d, levenshtein s t = Ok d /\ edit_distance s t d.
Proof. exact levenshtein_ok. Qed.
Print Assumptions C44_distance.

(** The name suggested for an undefined identifier is the first of those declared names that are closest to the
    identifier; none is suggested iff all need more than two edits. *)
Theorem C44_suggestion : forall D ident (decls : list (str * D)),
  ident <> [] /\ len ident < INT_MAX -> (forall nm d, In (nm, d) decls -> nm <> [] /\ len nm < INT_MAX) ->
  exists r, find_similar ident decls = Ok r /\
    match r with
    | Some d => exists l1 nm l2 e, decls = l1 ++ (nm, d) :: l2 /\ edit_distance ident nm e /\ e <= 2 /\
        (forall nm' d' e', In (nm', d') l1 -> edit_distance ident nm' e' -> e < e') /\
        (forall nm' d' e', In (nm', d') l2 -> edit_distance ident nm' e' -> e <= e')
    | None => forall nm' d' e', In (nm', d') decls -> edit_distance ident nm' e' -> 2 < e'
    end.
Proof. exact similar_ok. Qed.
Print Assumptions C44_suggestion.

(** kitten, sitting *)
Example C44_nonvacuous :
  levenshtein [107; 105; 116; 116; 101; 110] [115; 105; 116; 116; 105; 110; 103] = Ok 3 /\
  find_similar [102; 111; 111] [([98; 97; 114], 1); ([102; 111], 2); ([102; 111; 111; 111], 3)] = Ok (Some 2) /\
  find_similar [102; 111; 111] [([98; 97; 114], 1)] = Ok None.
Proof. vm_compute. auto. Qed.

(** After every history of constructions and collections without the character 0: an ASTString that is still usable has
    the characters it was constructed from, and two of them are equal iff these are the same. *)
Theorem C50_intern_partial : forall ops i h, history ops i h -> Forall op_nul_free ops ->
  forall s1 h1 s2 h2, In (s1, h1) h -> In (s2, h2) h ->
  chars i h1 = Ok s1 /\ (handle_eq h1 h2 = true <-> s1 = s2).
Proof. exact intern_ok. Qed.
Print Assumptions C50_intern_partial.

(** and freeing a live string never fails *)
Theorem C50_destroy_partial : forall ops i h a, history ops i h -> Forall op_nul_free ops -> content a (i_live i) <> None ->
  exists i', destroy a i = Ok i'.
Proof. exact destroy_ok. Qed.
Print Assumptions C50_destroy_partial.

(** make ab, cd, ab; collect cd; make cd again *)
Example C50_nonvacuous : exists ops i h, history ops i h /\ Forall op_nul_free ops /\
  h = [([99; 100], Some 5); ([97; 98], Some 1); ([97; 98], Some 1)] /\ length ops = 5%nat.
Proof.
  do 3 eexists. split; [|split].
  - eapply H_make with (s := [99; 100]) (fresh := 5).
    + eapply H_free with (a := 2).
      * eapply H_make with (s := [97; 98]) (fresh := 4).
        -- eapply H_make with (s := [99; 100]) (fresh := 2).
           ++ eapply H_make with (s := [97; 98]) (fresh := 1); [apply H_nil|reflexivity|vm_compute; reflexivity].
           ++ reflexivity.
           ++ vm_compute; reflexivity.
        -- reflexivity.
        -- vm_compute; reflexivity.
      * discriminate.
      * vm_compute; reflexivity.
    + reflexivity.
    + vm_compute; reflexivity.
  - cbn. repeat apply Forall_cons; try apply Forall_nil; cbn; unfold nul_free; cbn; intuition discriminate.
  - split; reflexivity.
Qed.

(** With the character 0 the claim is false: \0Aa and \0BB have the same hash, and strncmp does not look behind the 0, so
    the second one is taken to be the first. *)
Theorem C50_intern_refuted : exists ops i h s1 s2 a, history ops i h /\ In (s1, Some a) h /\ In (s2, Some a) h /\ s1 <> s2 /\
  chars i (Some a) = Ok s1.
Proof.
  exists ([Make [0; 65; 97] 1] ++ [Make [0; 66; 66] 2]). do 2 eexists. exists [0; 65; 97], [0; 66; 66], 1. split; [|split; [|split; [|split]]].
  - eapply H_make; [eapply (H_make []); [apply H_nil|reflexivity|vm_compute; reflexivity]|reflexivity|vm_compute; reflexivity].
  - right. now left.
  - now left.
  - discriminate.
  - reflexivity.
Qed.
Print Assumptions C50_intern_refuted.

(** operator< is the dictionary order, which is a strict total order *)
Theorem C57_order : forall a b, nul_free a -> nul_free b -> (str_lt a b = true <-> lex a b).
Proof. exact str_lt_ok. Qed.
Print Assumptions C57_order.
Theorem C57_strict_total : forall a b c, ~ lex a a /\ (lex a b -> lex b c -> lex a c) /\ (lex a b \/ a = b \/ lex b a).
Proof. intros a b c. split; [apply lex_irrefl|]. split; [apply lex_trans|apply lex_total]. Qed.
Print Assumptions C57_strict_total.

(** comparison with std::string and char* *)
Theorem C57_equal : forall a b, nul_free a ->
  (eq_string a b = true <-> a = b) /\ ne_string a b = negb (eq_string a b) /\
  (eq_cstr a b = true <-> a = firstn (strlen b) b).
Proof. intros a b N. split; [now apply eq_string_ok|]. split; [apply ne_string_ok|apply eq_cstr_ok]. Qed.
Print Assumptions C57_equal.

Theorem C57_begins_ends : forall a b, nul_free b ->
  (begins_with a b = true <-> exists r, a = b ++ r) /\ (ends_with a b = true <-> exists r, a = r ++ b).
Proof. intros a b N. split; [now apply begins_ok|now apply ends_ok]. Qed.
Print Assumptions C57_begins_ends.

(** substr returns the characters from pos on, at most count of them *)
Theorem C57_substr : forall a pos count r, 0 <= pos -> match count with Some c => 0 <= c | None => True end ->
  (substr a pos count = Ok r <->
   exists p q, a = p ++ r ++ q /\ len p = pos /\ match count with None => q = [] | Some c => len r = c \/ (len r < c /\ q = []) end).
Proof. exact substr_ok. Qed.
Print Assumptions C57_substr.

Theorem C57_find : forall a ch pos, 0 <= pos ->
  match find_char a ch pos with
  | Some k => pos <= k /\ nth_error a (Z.to_nat k) = Some ch /\ forall j, pos <= j < k -> nth_error a (Z.to_nat j) <> Some ch
  | None => forall j, pos <= j -> nth_error a (Z.to_nat j) <> Some ch
  end.
Proof. exact find_char_ok. Qed.
Print Assumptions C57_find.

(** findLastOf reads outside of the string whenever the character does not occur (no caller in this code base) *)
Theorem C57_findLastOf_refuted : find_last_of [97; 98] 99 1 = UB /\ find_last_of [] 99 0 = UB.
Proof. vm_compute. auto. Qed.
Print Assumptions C57_findLastOf_refuted.

Example C57_nonvacuous :
  str_lt [97; 98] [97; 200] = true /\ str_lt [97] [97; 98] = true /\ str_lt [98] [97; 98] = false /\
  begins_with [120; 95; 105; 109; 112] [120] = true /\ ends_with [120; 95; 105; 109; 112] [95; 105; 109; 112] = true /\
  substr [1; 2; 3; 4] 1 (Some 2) = Ok [2; 3] /\ substr [1; 2; 3; 4] 5 None = Err InternalError /\ find_char [1; 2; 1; 3] 1 1 = Some 2.
Proof. vm_compute. repeat split. Qed.
