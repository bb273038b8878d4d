(** The statements about solver output in their final form, and concrete streams. *)
Require Import ZArith List Bool String Lia Sorted.
From Verif Require Import Base StrModel SolnModel SolnSpec SolnProofs SolnProofs2 SolnProofs3 SolnProofs4.
Import ListNotations.
Open Scope Z_scope.

Lemma stream_events : forall o e cs ls r st', List.concat cs = terminated ls ++ r -> Forall is_line ls -> is_line r ->
  0 <= o_ignore o -> feed_all o e cs (s2o_init o) = Going st' ->
  exists ls', Forall2 uncr (skipn (Z.to_nat (o_ignore o)) ls) ls' /\ reads [] ls' (s_log st') (s_solution st') /\
    s_part st' = r /\ (s_raw st' = if o_raw o then List.concat cs else []) /\
    statuses (s_out st') = ev_statuses (s_log st') /\
    s_status st' = last (List.map ev_status (s_log st')) UNKNOWN /\
    (s_printed st' = false <-> ev_statuses (s_log st') = []).
Proof.
  intros o e cs ls r st' Ec Fl Fr Hi H. destruct (stream_run o e cs ls r st' Ec Fl Fr Hi H) as ((outs & fs & []) & P & R & S).
  exists (List.map strip_cr (skipn (Z.to_nat (o_ignore o)) ls)). split.
  - induction (skipn (Z.to_nat (o_ignore o)) ls) as [|l k IH]; cbn; constructor; [apply strip_cr_uncr|].
    clear - k. induction k; cbn; constructor; auto using strip_cr_uncr.
  - repeat (split; [assumption|]). rewrite v_printed. destruct (ev_statuses (s_log st')); cbn; split; congruence.
Qed.

Lemma stream_prints : forall o e cs ls r st', List.concat cs = terminated ls ++ r -> Forall is_line ls -> is_line r ->
  0 <= o_ignore o -> feed_all o e cs (s2o_init o) = Going st' ->
  exists outs, List.map Some outs = List.map (e_output e) (ev_texts (s_log st')) /\
    (o_canon o = false -> o_unique o = true ->
       firsts [] outs (solutions (s_out st')) /\ NoDup (solutions (s_out st')) /\
       (forall x, In x (solutions (s_out st')) <-> In x outs)) /\
    (o_canon o = false -> o_unique o = false -> solutions (s_out st') = outs) /\
    (o_canon o = false -> s_nsolns st' = Z.of_nat (List.length (solutions (s_out st')))) /\
    (o_canon o = true -> canon_prints e (s_log st') (solutions (s_out st')) /\
       (o_noncanon o = true -> firsts [] outs (solutions (s_noncanon st')))).
Proof.
  intros o e cs ls r st' Ec Fl Fr Hi H. destruct (stream_run o e cs ls r st' Ec Fl Fr Hi H) as ((outs & fs & []) & _ & _ & _).
  exists outs. split; [exact v_outs|]. destruct (o_canon o).
  - rewrite orb_true_r in v_fs. repeat (split; [discriminate|]). intros _. split; [exact v_sols|]. intros En. rewrite v_noncanon, En. exact v_fs.
  - rewrite orb_false_r in v_fs. rewrite v_sols. split; [|split; [|split; [|discriminate]]].
    + intros _ Eu. rewrite Eu in v_fs. split; [exact v_fs|]. split; [eapply firsts_nodup; exact v_fs|].
      intros x. rewrite (firsts_in _ _ _ v_fs). cbn. tauto.
    + intros _ Eu. rewrite Eu in v_fs. exact v_fs.
    + intros _. exact v_n.
Qed.

(** *** examples *)
Definition ex_o (u c : bool) : opts :=
  mkO true u c false (lit "----------") (lit ",") (lit "==========") (lit "UNSAT") (lit "U") (lit "UU") (lit "UK") (lit "E")
      true true true 1 [(lit "b1", lit "x < y")].
Definition ex_e : evals := mkE (fun _ => true) (fun t => Some t) (fun _ => []) (fun _ => Some []).
Definition ex_lines : list str :=
  [lit "ignored"; lit "x = 2;"; lit "----------"; lit "x = 1;" ++ [13]; lit "% hi"; lit "----------" ++ [13]; lit "x = 2;";
   lit "----------"; lit "=========="].
Definition ex_rest : str := lit "% unfinished".
(** cut after every third character *)
Fixpoint cut3 (s : str) : list str := match s with a :: b :: c :: r => [a; b; c] :: cut3 r | [] => [] | _ => [s] end.
Definition ex_cs : list str := cut3 (terminated ex_lines ++ ex_rest).

Definition is_lineb (l : str) : bool := forallb (fun c => negb (c =? 10) && negb (c =? 0)) l.
Lemma is_lineb_spec : forall l, is_lineb l = true -> is_line l.
Proof.
  unfold is_lineb. intros l H. rewrite forallb_forall in H. split; intros K; apply H in K; discriminate.
Qed.
Lemma is_linesb_spec : forall ls, forallb is_lineb ls = true -> Forall is_line ls.
Proof. intros ls H. rewrite forallb_forall in H. apply Forall_forall. intros l K. apply is_lineb_spec, H, K. Qed.
Lemma ex_lines_ok : Forall is_line ex_lines /\ is_line ex_rest.
Proof. split; [apply is_linesb_spec|apply is_lineb_spec]; reflexivity. Qed.

Definition going (r : outcome) : option s2o := match r with Going s => Some s | Thrown _ => None end.
Lemma ex_run : exists st, List.concat ex_cs = terminated ex_lines ++ ex_rest /\ List.length ex_cs = 31%nat /\
  feed_all (ex_o true false) ex_e ex_cs (s2o_init (ex_o true false)) = Going st /\
  solutions (s_out st) = [lit "x = 2;" ++ [10]; lit "x = 1;" ++ [10] ++ lit "% hi" ++ [10]] /\
  ev_statuses (s_log st) = [OPT] /\ s_part st = ex_rest /\
  text (ex_o true false) (s_out st) = lit "x = 2;" ++ [10] ++ lit "----------" ++ [10] ++ lit "% hi" ++ [10] ++ lit "," ++ [10] ++
    lit "x = 1;" ++ [10] ++ lit "% hi" ++ [10] ++ lit "----------" ++ [10] ++ lit "==========" ++ [10].
Proof. eexists. vm_compute. repeat split; reflexivity. Qed.

(** a canonicalising run with two status lines prints every solution twice *)
Lemma canon_twice : exists cs st, feed_all (ex_o true true) ex_e cs (s2o_init (ex_o true true)) = Going st /\
  ev_texts (s_log st) = [lit "x = 2;" ++ [10]] /\ solutions (s_out st) = [lit "x = 2;" ++ [10]; lit "x = 2;" ++ [10]].
Proof.
  exists [terminated [lit "i"; lit "x = 2;"; lit "----------"; lit "=====UNKNOWN====="; lit "=========="]].
  eexists. vm_compute. repeat split; reflexivity.
Qed.

(** a 0 in the stream hides the rest of its chunk *)
Lemma nul_dependent : exists o e cs st1 st2, feed_all o e cs (s2o_init o) = Going st1 /\
  feed o e (List.concat cs) (s2o_init o) = Going st2 /\ s_log st1 = [EvStatus OPT] /\ s_log st2 = [].
Proof.
  exists (mkO true true true false [] [] [] [] [] [] [] [] true false false 0 []), ex_e, [[0]; lit "==========" ++ [10]].
  do 2 eexists. vm_compute. repeat split; reflexivity.
Qed.

(** *** interactive runs *)
Definition bm0 : str := lit "<begin>".
Definition em0 : str := lit "<end>".
Definition ex_io : opts := mkO true false false false (lit "----------") [] (lit "==========") [] [] [] [] [] true false false 0 [].

(** the carriage return of a begin marker arrives before the line feed: the marker is echoed and the solution is lost *)
Lemma crlf_split : exists cs ls st1 st2, List.concat cs = terminated ls /\ Forall is_line ls /\
  ifeed_all ex_io ex_e bm0 em0 cs (inter_init ex_io) = IGoing st1 /\
  ifeed_all ex_io ex_e bm0 em0 [List.concat cs] (inter_init ex_io) = IGoing st2 /\
  solutions (s_out (i_inner st2)) = [lit "x = 1;" ++ [10]] /\ solutions (s_out (i_inner st1)) = [] /\
  text ex_io (s_out (i_inner st1)) =
    lit "<begin>" ++ [13; 10] ++ lit "x = 1;" ++ [13; 10] ++ lit "----------" ++ [13; 10] ++ lit "<end>" ++ [13; 10].
Proof.
  set (ls := [lit "<begin>" ++ [13]; lit "x = 1;" ++ [13]; lit "----------" ++ [13]; lit "<end>" ++ [13]]).
  exists [lit "<begin>" ++ [13]; 10 :: terminated (tl ls)], ls. do 2 eexists.
  split; [reflexivity|]. split; [apply is_linesb_spec; reflexivity|]. vm_compute. repeat split; reflexivity.
Qed.
(** a prompt followed by the begin marker on the same line *)
Lemma prompt_split : exists cs ls st1 st2, List.concat cs = terminated ls /\ Forall is_line ls /\
  ifeed_all ex_io ex_e bm0 em0 cs (inter_init ex_io) = IGoing st1 /\
  ifeed_all ex_io ex_e bm0 em0 [List.concat cs] (inter_init ex_io) = IGoing st2 /\
  solutions (s_out (i_inner st1)) = [lit "x = 1;" ++ [10]] /\ solutions (s_out (i_inner st2)) = [].
Proof.
  set (ls := [lit "? <begin>"; lit "x = 1;"; lit "----------"; lit "<end>"]).
  exists [lit "? "; lit "<begin>" ++ 10 :: terminated (tl ls)], ls. do 2 eexists.
  split; [reflexivity|]. split; [apply is_linesb_spec; reflexivity|]. vm_compute. repeat split; reflexivity.
Qed.

Fixpoint suffixes (l : str) : list str := l :: match l with [] => [] | _ :: r => suffixes r end.
Definition unambiguousb (bm l : str) : bool :=
  forallb (fun s => negb (str_eqb s (bm ++ [13]))) (suffixes l) && forallb (fun s => negb (str_eqb s bm)) (tl (suffixes l)).
Lemma suffixes_in : forall p s, In s (suffixes (p ++ s)).
Proof. induction p as [|c p IH]; intros s; cbn; [destruct s; left; reflexivity|right; apply IH]. Qed.
Lemma unambiguousb_spec : forall bm l, unambiguousb bm l = true -> unambiguous bm l.
Proof.
  unfold unambiguousb. intros bm l H p. apply andb_true_iff in H as [A B]. rewrite !forallb_forall in *. split.
  - intros ->. destruct p as [|c p]; [reflexivity|exfalso]. specialize (B bm).
    assert (In bm (tl (suffixes ((c :: p) ++ bm)))) as I by (cbn; apply suffixes_in). apply B in I.
    apply negb_true_iff, str_eqb_neq in I. contradiction.
  - intros ->. specialize (A (bm ++ [13]) (suffixes_in p _)). apply negb_true_iff, str_eqb_neq in A. contradiction.
Qed.

Definition ex_ilines : list str :=
  [lit "hello"; lit "<begin>"; lit "x = 1;" ++ [13]; lit "----------"; lit "<end>" ++ [13]; lit "<beginning>"; lit "bye"].
Lemma ex_inter : exists st, List.concat (cut3 (terminated ex_ilines)) = terminated ex_ilines /\ Forall is_line ex_ilines /\
  Forall (unambiguous bm0) ex_ilines /\
  ifeed_all ex_io ex_e bm0 em0 (cut3 (terminated ex_ilines)) (inter_init ex_io) = IGoing st /\
  text ex_io (s_out (i_inner st)) = lit "hello" ++ [10] ++ lit "x = 1;" ++ [10] ++ lit "----------" ++ [10] ++ lit "<beginning>" ++ [10] ++ lit "bye" ++ [10].
Proof.
  eexists. split; [reflexivity|]. split; [apply is_linesb_spec; reflexivity|]. split.
  - apply Forall_forall. intros l H. apply unambiguousb_spec.
    assert (forallb (unambiguousb bm0) ex_ilines = true) as K by reflexivity. rewrite forallb_forall in K. apply K, H.
  - vm_compute. repeat split; reflexivity.
Qed.

Lemma ex_core : Forall entry [lit "b1"; lit "b1 <= 3"; lit "x"; lit "7"] /\
  resolves (o_assume (ex_o true false)) (lit "b1") (lit "x < y") /\
  resolves (o_assume (ex_o true false)) (lit "b1 <= 3") (lit "(x < y) <= 3") /\
  resolves (o_assume (ex_o true false)) (lit "7") (lit "7").
Proof.
  split.
  - assert (forall s, s <> [] -> is_lineb s = true -> forallb (fun c => negb (c =? 44)) s = true ->
       is_ws (hd 0 s) = false -> is_ws (last s 0) = false -> entry s) as K.
    { intros s N L C H1 H2. split; [exact N|]. split; [|split; [apply is_lineb_spec; exact L|]].
      - rewrite forallb_forall in C. intros I. apply C in I. discriminate.
      - unfold is_ws in *. rewrite !orb_false_iff, !Z.eqb_neq in *. intros c r [->| ->]; [cbn in H1; tauto|]. rewrite last_last in H2. tauto. }
    repeat (constructor; [apply K; [discriminate|reflexivity..]|]). constructor.
  - split; [|split].
    + change (lit "x < y") with (resolve_token (o_assume (ex_o true false)) (lit "b1")). apply resolve_token_spec. discriminate.
    + change (lit "(x < y) <= 3") with (resolve_token (o_assume (ex_o true false)) (lit "b1 <= 3")). apply resolve_token_spec. discriminate.
    + change (lit "7") with (resolve_token (o_assume (ex_o true false)) (lit "7")) at 2. apply resolve_token_spec. discriminate.
Qed.
