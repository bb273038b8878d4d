(** A data file that meets the hypotheses of the theorems about JSON data. *)
Require Import ZArith List Bool Lia String.
From Verif Require Import Base IntValModel IntValSpec SetModel SetSpec SetPropProofs StrModel JsonModel JsonSpec JsonProofs JsonProofs3 JsonProofs4.
Import ListNotations.
Open Scope Z_scope.

Definition ex_text : str := Eval vm_compute in bytes "{""n"": 3,""a"":[[1,2,3],[4,5,6]], ""C"":[""R"",""G""],""S"":{""set"":[1,[3,5]]},""x"":[{""b"":true,""c"":null}],""_v"":2.5e-1}".
Definition ex_known (k : str) : option tinfo :=
  if seq k (bytes "n") then Some (mkTI false false true false 0 0)
  else if seq k (bytes "a") then Some (mkTI false false true false 2 2)
  else if seq k (bytes "C") then Some (mkTI true false true true 0 0)
  else if seq k (bytes "S") then Some (mkTI false false true true 0 0)
  else if seq k (bytes "_v") then Some (mkTI false false false false 0 0)
  else None.
Definition ex_items : list (str * jval) :=
  [(bytes "n", JInt 3); (bytes "a", JShift (JArrD [JInt 1; JInt 2; JInt 3; JInt 4; JInt 5; JInt 6] [2%nat; 3%nat]));
   (bytes "C", JEnumDef [JSet [JId (bytes "R"); JId (bytes "G")]]); (bytes "S", JIntSet [(ofZ 1, ofZ 1); (ofZ 3, ofZ 5)])].

Lemma pun0 : forall c rest, punct c (c :: rest) rest.
Proof. intros. apply (P_punct c []). constructor. Qed.
Lemma blank1 : Forall blank [32].
Proof. constructor; [left; reflexivity|constructor]. Qed.
Lemma quo0 : forall k rest, quoted k (34 :: escapeStringLit k ++ 34 :: rest) rest.
Proof. intros. apply (Q_string []); [constructor|apply escape_good]. Qed.
Lemma quo1 : forall k rest, quoted k (32 :: 34 :: escapeStringLit k ++ 34 :: rest) rest.
Proof. intros. apply (Q_string [32]); [apply blank1|apply escape_good]. Qed.
Lemma key0 : forall k rest, keyed k (34 :: escapeStringLit k ++ 34 :: 58 :: rest) rest.
Proof. intros. eexists. split; [apply quo0|apply pun0]. Qed.
Lemma key1 : forall k rest, keyed k (32 :: 34 :: escapeStringLit k ++ 34 :: 58 :: rest) rest.
Proof. intros. eexists. split; [apply quo1|apply pun0]. Qed.
Lemma int0 : forall c e rest, 48 <= c <= 57 -> ends_number e -> int_lit (c - 48) (c :: e :: rest) (e :: rest).
Proof. intros. apply (I_lit [] [c]); [constructor|constructor; constructor; assumption|unfold INT_MIN, INT_MAX; lia|assumption]. Qed.
Lemma int1 : forall c e rest, 48 <= c <= 57 -> ends_number e -> int_lit (c - 48) (32 :: c :: e :: rest) (e :: rest).
Proof. intros. apply (I_lit [32] [c]); [apply blank1|constructor; constructor; assumption|unfold INT_MIN, INT_MAX; lia|assumption]. Qed.
Ltac en := unfold ends_number; lia.
Ltac int := first [eapply (int0 49); [lia|en]|eapply (int0 50); [lia|en]|eapply (int0 51); [lia|en]|eapply (int0 52); [lia|en]|eapply (int0 53); [lia|en]|eapply (int0 54); [lia|en]|eapply (int1 51); [lia|en]].
Lemma ex_set : nf [(ofZ 1, ofZ 1); (ofZ 3, ofZ 5)] /\ forall z, elem z [(ofZ 1, ofZ 1); (ofZ 3, ofZ 5)] <-> exists a b, In (a, b) [(1, 1); (3, 5)] /\ a <= z <= b.
Proof.
  split.
  - constructor; [exists 1; exists (Fin 1), (Fin 1); repeat split; cbn; lia|exists 2, (Fin 1), (Fin 3); repeat split; cbn; try lia; congruence|].
    constructor. exists 4; exists (Fin 3), (Fin 5); repeat split; cbn; lia.
  - intros z. split.
    + intros (a & b & [E|[E|[]]] & x & y & Dx & Dy & L1 & L2); inversion E; subst; cbn in Dx, Dy; inversion Dx; inversion Dy; subst; cbn in L1, L2; [exists 1, 1|exists 3, 5]; cbn; auto.
    + intros (a & b & [E|[E|[]]] & L); inversion E; subst.
      * exists (ofZ 1), (ofZ 1). split; [left; reflexivity|]. exists (Fin 1), (Fin 1). repeat split; cbn; lia.
      * exists (ofZ 3), (ofZ 5). split; [right; left; reflexivity|]. exists (Fin 3), (Fin 5). repeat split; cbn; lia.
Qed.
Ltac key k := first [apply (key0 (bytes k))|apply (key1 (bytes k))].
Lemma ex_file : data_file ex_known ex_items ex_text.
Proof.
  eapply DF_file; [apply pun0| |constructor].
  change ex_items with ([(bytes "n", JInt 3)] ++ [(bytes "a", JShift (JArrD [JInt 1; JInt 2; JInt 3; JInt 4; JInt 5; JInt 6] [2%nat; 3%nat]))] ++
    [(bytes "C", JEnumDef [JSet [JId (bytes "R"); JId (bytes "G")]])] ++ [(bytes "S", JIntSet [(ofZ 1, ofZ 1); (ofZ 3, ofZ 5)])] ++ [] ++ []).
  eapply (DF_next ex_known (bytes "n")); [key "n"%string| |apply pun0|].
  { exists (JInt 3), (JInt 3). split; [constructor; int|]. split; [apply A_scalar; reflexivity|reflexivity]. }
  eapply (DF_next ex_known (bytes "a")); [key "a"%string| |apply pun0|].
  { exists (JArr [JArr [JInt 1; JInt 2; JInt 3]; JArr [JInt 4; JInt 5; JInt 6]]). eexists. split; [|split; [|reflexivity]].
    - assert (forall r a b c s s1 s2 s3 s4, r_lev r = None -> punct 91 s s1 -> int_lit a s1 (44 :: s2) -> int_lit b s2 (44 :: s3) -> int_lit c s3 (93 :: s4) -> writes r (JArr [JInt a; JInt b; JInt c]) s s4) as Row.
      { intros r a b c s s1 s2 s3 s4 RL P A B C. replace (JArr [JInt a; JInt b; JInt c]) with (list_value r [JInt a; JInt b; JInt c]) by (unfold list_value; rewrite RL; reflexivity).
        eapply W_list; [exact P|]. eapply L_cons; [constructor; exact A|]. eapply M_cons; [apply pun0|constructor; exact B|]. eapply M_cons; [apply pun0|constructor; exact C|]. apply M_nil, pun0. }
      change (JArr [JArr [JInt 1; JInt 2; JInt 3]; JArr [JInt 4; JInt 5; JInt 6]]) with (list_value (reading_of (mkTI false false true false 2 2)) [JArr [JInt 1; JInt 2; JInt 3]; JArr [JInt 4; JInt 5; JInt 6]]).
      eapply W_list; [apply pun0|]. eapply L_cons; [eapply Row; [reflexivity|apply pun0|int|int|int]|]. eapply M_cons; [apply pun0|eapply Row; [reflexivity|apply pun0|int|int|int]|]. apply M_nil, pun0.
    - apply (A_many _ [2%nat; 3%nat]); [reflexivity|cbn; lia|reflexivity|repeat constructor; lia|].
      repeat (constructor; try reflexivity). }
  eapply (DF_next ex_known (bytes "C")); [key "C"%string| |apply pun0|].
  { exists (JArr (map JId [bytes "R"; bytes "G"])). eexists. split; [|split; [apply A_enum; reflexivity|reflexivity]].
    change (JArr (map JId [bytes "R"; bytes "G"])) with (list_value enum_reading [if r_ids enum_reading then JId (bytes "R") else JStr (bytes "R"); if r_ids enum_reading then JId (bytes "G") else JStr (bytes "G")]).
    eapply W_list; [apply pun0|]. eapply L_cons; [apply W_string; apply (quo0 (bytes "R"))|]. eapply M_cons; [apply pun0|apply W_string; apply (quo0 (bytes "G"))|]. apply M_nil, pun0. }
  eapply (DF_next ex_known (bytes "S")); [key "S"%string| |apply pun0|].
  { eexists. eexists. split; [|split; [apply A_scalar; reflexivity|reflexivity]].
    eapply (W_set _ [(1, 1); (3, 5)]); [apply pun0|key "set"%string|apply pun0| |apply pun0|apply (proj1 ex_set)|apply (proj2 ex_set)].
    eapply S_next; [apply S_one; int|apply pun0|]. eapply S_last; [|apply pun0]. eapply S_pair; [apply pun0|int|apply pun0|int|apply pun0]. }
  eapply (DF_next ex_known (bytes "x")); [key "x"%string| |apply pun0|].
  { exists (JArr [JRec [JField (bytes "b") (JBool true); JField (bytes "c") JAbsent]]). split; [|reflexivity].
    change (JArr [JRec [JField (bytes "b") (JBool true); JField (bytes "c") JAbsent]]) with (list_value raw [JRec [JField (bytes "b") (JBool true); JField (bytes "c") JAbsent]]).
    eapply W_list; [apply pun0|]. eapply L_cons; [|apply M_nil, pun0]. eapply W_object; [apply pun0|].
    eapply F_next; [apply K_key; discriminate|key "b"%string|apply (W_true _ []); constructor|apply pun0|].
    eapply F_last; [apply K_key; discriminate|key "c"%string|apply (W_null _ []); constructor|apply pun0]. }
  eapply (DF_last ex_known (bytes "_v")); [key "_v"%string| |apply pun0].
  { exists (JFloat (bytes "2.5e-1")). eexists. split; [|split; [apply A_scalar; reflexivity|reflexivity]].
    apply (W_float _ [] (bytes "2.5e-1")); [constructor| |en].
    apply (F_frac [] [50] [53] [101; 45; 49]); [left; reflexivity|split; [discriminate|repeat constructor; lia]|repeat constructor; lia|].
    right. apply (X_exp 101 [45] [49]); [left; reflexivity|right; reflexivity|split; [discriminate|repeat constructor; lia]]. }
Qed.
