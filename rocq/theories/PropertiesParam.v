(** * C87, C88: parameter configuration files *)
Require Import ZArith List Bool Lia.
From Verif Require Import Base StrModel CmdModel CmdSpec ParamModel ParamSpec ParamProofs ParamProofs2.
Import ListNotations.
Open Scope Z_scope.

(** C87.  A parameter file without nested objects gives exactly the arguments its entries stand for, in their order,
    unless a flag is forbidden. *)
Theorem C87_values : forall addr bl neg l a, Forall is_value l -> (forall i f, In i l -> flag_of (entry_flag i) f -> ~ In f bl) ->
  load addr bl neg l = inr a <-> file_args neg l a.
Proof.
  intros addr bl neg l a V B. split; [|now apply load_found]. apply load_ok. eapply Forall_impl; [|exact V]. intros [|] H; [exact I|destruct H].
Qed.
Print Assumptions C87_values.
(** Forbidden flags are refused. *)
Theorem C87_forbidden : forall addr bl neg l a, load addr bl neg l = inr a -> forall i f, In i l -> flag_of (entry_flag i) f -> ~ In f bl.
Proof. exact load_forbidden. Qed.
Print Assumptions C87_forbidden.
(** Full claim: with nested objects, too, the file gives the arguments its entries stand for: the text passed for an
    object splits into the arguments of its entries.  Proved for objects without arrays whose texts have no blank,
    double quote, backslash or control character, with at most three levels. *)
Theorem C87_nested_partial : forall addr bl neg l a, Forall nested_simple l -> load addr bl neg l = inr a -> file_args neg l a.
Proof. exact load_ok. Qed.
Print Assumptions C87_nested_partial.
Theorem C87_object_partial : forall addr l, Forall (simple 2) l -> Exists speaks l -> exists t a, model_to_string addr l = inr t /\ stands_all l a /\ parse_cmd_line t = a.
Proof. exact object_text. Qed.
Print Assumptions C87_object_partial.

(** {"a": [1, true], "-i": false, "f": {"b": "x", "g": {"c": 2}}}: --a 1 --a -n-i --f '--b x --g "--c 2"' *)
Definition no_addr : pval -> str := fun _ => [48].
Definition minus_i (f : str) : option str := if text_dec f [45;105] then Some [45;110;45;105] else None.
Definition sample : list pitem :=
  [Assign [97] (PArr [PNum [49]; PBool true]); Assign [45;105] (PBool false);
   Nested [102] [Assign [98] (PStr [120]); Nested [103] [Assign [99] (PNum [50])]]].
Example C87_nonvacuous : Forall nested_simple sample /\
  load no_addr [] minus_i sample = inr [[45;45;97]; [49]; [45;45;97]; [45;110;45;105]; [45;45;102]; [45;45;98;32;120;32;45;45;103;32;34;45;45;99;32;50;34]] /\
  parse_cmd_line [45;45;98;32;120;32;45;45;103;32;34;45;45;99;32;50;34] = [[45;45;98]; [120]; [45;45;103]; [45;45;99;32;50]].
Proof.
  split; [|split; reflexivity]. assert (C : forall x, In x [98;120;99;50;103] -> clean [x]).
  { intros x I y [<- | []]. unfold is_ctl. cbn [In] in I. lia. }
  constructor; [exact I|]. constructor; [exact I|]. constructor; [|constructor]. split.
  - constructor; [split; apply C; cbn; tauto|]. constructor; [|constructor]. split; [apply C; cbn; tauto|]. split; [left; intros n E; discriminate|]. split; [split; apply C; cbn; tauto|exact I].
  - left. intros n E. discriminate.
Qed.

(** Not so for a string with a blank inside an object: {"f": {"b": "x y"}} passes x and y as separate arguments. *)
Theorem C87_nested_refuted_blank : ~ forall addr l a, load addr [] none l = inr a -> file_args none l a.
Proof.
  intros H. specialize (H no_addr [Nested [102] [Assign [98] (PStr [120;32;121])]] [[45;45;102]; [45;45;98;32;120;32;121]] eq_refl).
  apply file_args_one, stands_nested_inv in H. destruct H as (a & S & P). apply stands_all_value, means_str in S. rewrite S in P. discriminate P.
Qed.
Print Assumptions C87_nested_refuted_blank.
(** An array inside an object passes the addresses of its elements in place of their values, whatever they are. *)
Theorem C87_nested_refuted_array : forall addr, addr (PNum [49]) <> [49] -> word (addr (PNum [49])) -> ~ forall l a, load addr [] none l = inr a -> file_args none l a.
Proof.
  intros addr NA W H. specialize (H [Nested [102] [Assign [98] (PArr [PNum [49]])]] [[45;45;102]; [45;45;98] ++ 32 :: addr (PNum [49])]).
  assert (L : load addr [] none [Nested [102] [Assign [98] (PArr [PNum [49]])]] = inr [[45;45;102]; [45;45;98] ++ 32 :: addr (PNum [49])]) by (cbn; rewrite !app_nil_r; reflexivity).
  specialize (H L). apply file_args_one, stands_nested_inv in H. destruct H as (a & S & E4). apply stands_all_value, means_num1 in S. rewrite S in E4.
  assert (P : parse_cmd_line (join [[45;45;98]; addr (PNum [49])]) = [[45;45;98]; addr (PNum [49])]).
  { apply CmdProofs.C41_words_l; [discriminate|]. constructor; [|constructor; auto]. intros x I. cbn [In] in I. lia. }
  cbn [join] in P. rewrite app_nil_r in P. cbn [app] in *. rewrite P in E4. injection E4 as E4. exact (NA E4).
Qed.
Print Assumptions C87_nested_refuted_array.
(** An object whose entries are all false ends in an exception outside the ones for parameter files. *)
Theorem C87_nested_refuted_false : ~ forall addr l e, Forall (fun i => exists n m, i = Nested n [Assign m (PBool false)]) l -> load addr [] none l = inl e -> e <> OutOfRange.
Proof.
  intros H. apply (H no_addr [Nested [102] [Assign [98] (PBool false)]] OutOfRange); auto. constructor; [|constructor]. eauto.
Qed.
Print Assumptions C87_nested_refuted_false.

(** C88.  References to parameter files in the command line, and in parameter files, are replaced by the arguments of
    the files, in place; arguments of a file are read in the directory of the file; no file is read twice. *)
Theorem C88_inlines : forall read path dir, complete_files read -> forall k args out, complete args -> expand read path dir k [] args [[]] [] = inr out ->
  exists fs, NoDup fs /\ inlined read path dir [] args (placed out [[]]) fs.
Proof. exact expand_inlines. Qed.
Print Assumptions C88_inlines.
(** Every replacement that reads no file twice is carried out. *)
Theorem C88_found : forall read path dir args o fs, NoDup fs -> inlined read path dir [] args o fs ->
  exists k out, expand read path dir k [] args [[]] [] = inr out /\ placed out [[]] = o.
Proof. exact inlined_expands. Qed.
Print Assumptions C88_found.
(** The replacement ends for every command line and all files, even if they refer to each other. *)
Theorem C88_ends : forall read path dir, finite_files read -> forall done todo dirs used, exists n, forall k, (n <= k)%nat -> expand read path dir k done todo dirs used <> inl NoFuel.
Proof. exact expand_ends. Qed.
Print Assumptions C88_ends.

(** a.mpc holds -a and refers to d/b.mpc, which holds -f x *)
Definition a_mpc : str := [97;46;109;112;99].
Definition b_mpc : str := [98;46;109;112;99].
Definition two_files (p : str) : perr + list str :=
  if text_dec p a_mpc then inr [[45;97]; f_param; b_mpc] else if text_dec p b_mpc then inr [[45;102]; [120]] else inl (Unsupported p).
Definition plain_path (f d : str) : str := f.
Definition b_in_d (p : str) : str := if text_dec p b_mpc then [100] else [].
Example C88_nonvacuous : complete_files two_files /\ finite_files two_files /\
  expand two_files plain_path b_in_d 20 [] [[45;115]; a_mpc; [45;118]] [[]] [] = inr [[45;115]; f_push; []; [45;97]; f_push; [100]; [45;102]; [120]; f_pop; f_pop; [45;118]] /\
  placed [[45;115]; f_push; []; [45;97]; f_push; [100]; [45;102]; [120]; f_pop; f_pop; [45;118]] [[]] = [([], [45;115]); ([], [45;97]); ([100], [45;102]); ([100], [120]); ([], [45;118])].
Proof.
  split; [|split; [|split; reflexivity]].
  - intros p vs E. unfold two_files in E. destruct (text_dec p a_mpc); [injection E as <-|destruct (text_dec p b_mpc); [injection E as <-|discriminate]].
    + apply c_arg; try discriminate. apply c_ref; auto; try discriminate. constructor.
    + apply c_arg; try discriminate. apply c_arg; try discriminate. constructor.
  - exists [a_mpc; b_mpc]. intros p vs E. unfold two_files in E. destruct (text_dec p a_mpc); [left; auto|]. destruct (text_dec p b_mpc); [right; left; auto|discriminate].
Qed.
(** A file that is named twice is refused as cyclic although no file refers to itself. *)
Theorem C88_cyclic_refuted : ~ forall read path dir k args p o fs, expand read path dir k [] args [[]] [] = inl (Cyclic p) -> ~ inlined read path dir [] args o fs.
Proof.
  intros H. apply (H two_files plain_path b_in_d 20%nat [b_mpc; b_mpc] b_mpc ([([100], [45;102]); ([100], [120])] ++ [([100], [45;102]); ([100], [120])] ++ []) ([b_mpc] ++ [b_mpc] ++ [])); [reflexivity|].
  assert (B : inlined two_files plain_path b_in_d [100] [[45;102]; [120]] [([100], [45;102]); ([100], [120])] []) by (repeat constructor; discriminate).
  assert (B1 : inlined two_files plain_path b_in_d [] [b_mpc] ([([100], [45;102]); ([100], [120])] ++ []) [b_mpc])
    by (refine (in_mpc two_files plain_path b_in_d [] b_mpc [] [[45;102]; [120]] _ _ [] [] _ _ _ _ eq_refl eq_refl B _); try discriminate; constructor).
  refine (in_mpc two_files plain_path b_in_d [] b_mpc [b_mpc] [[45;102]; [120]] _ _ [] [b_mpc] _ _ _ _ eq_refl eq_refl B B1); discriminate.
Qed.
Print Assumptions C88_cyclic_refuted.
