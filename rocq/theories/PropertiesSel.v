(** * C85, C86: choosing a solver and its default options *)
Require Import ZArith List Bool.
From Verif Require Import Base SelModel SelSpec SelProofs.
Import ListNotations.
Open Scope Z_scope.

(** C85.  For every list of solver configurations and every text of requests (tags with optional versions, separated
    by commas; letter case does not count): the solver that is chosen meets all requests, and it is the first among
    the default solvers of the requested tags if one of these meets the requests, otherwise the first of all that do;
    if the choice is refused, no solver meets the requests. *)
Theorem C85_choice : forall d cs s r rs ts, lower s = joined ts -> last ts [] <> [] -> Forall2 tag_text (r :: rs) ts ->
  match config d (populate d cs) s with
  | Picked i => candidate d cs r rs i /\
      (least (fun j => candidate d cs r rs j /\ preferred d cs (r :: rs) j) i \/
       (forall j, candidate d cs r rs j -> ~ preferred d cs (r :: rs) j) /\ least (candidate d cs r rs) i)
  | NoDefault => False
  | NoTag t => (forall i, ~ candidate d cs r rs i) /\ forall sc, In sc cs -> ~ called d sc (get_tag t)
  | NoTags => forall i, ~ candidate d cs r rs i
  end.
Proof. exact config_text. Qed.
Print Assumptions C85_choice.

(** The empty text asks for the default solver, and is refused if there is none. *)
Theorem C85_empty : forall d cs r i, d [] = Some i -> tag_text r i ->
  match config d (populate d cs) [] with
  | Picked k => candidate d cs r [] k /\
      (least (fun j => candidate d cs r [] j /\ preferred d cs [r] j) k \/
       (forall j, candidate d cs r [] j -> ~ preferred d cs [r] j) /\ least (candidate d cs r []) k)
  | NoDefault => False
  | NoTag t => (forall k, ~ candidate d cs r [] k) /\ forall sc, In sc cs -> ~ called d sc (get_tag t)
  | NoTags => forall k, ~ candidate d cs r [] k
  end.
Proof. exact config_empty. Qed.
Print Assumptions C85_empty.
Theorem C85_no_default : forall d cs, d [] = None -> config d (populate d cs) [] = NoDefault.
Proof. intros d cs. apply config_no_default. Qed.
Print Assumptions C85_no_default.

(** Letter case does not count. *)
Theorem C85_case : forall d cs s, config d (populate d cs) (lower s) = config d (populate d cs) s.
Proof. intros d cs s. apply config_case, lower_twice. Qed.
Print Assumptions C85_case.

(** three solvers: "org.cp" 1.0 [cp,int], "org.mip" 2.0 [mip,int], "org.cp" 1.1 [cp,int] *)
Definition t_cp : str := [99;112].
Definition t_mip : str := [109;105;112].
Definition t_int : str := [105;110;116].
Definition org (t : str) : str := [111;114;103;46] ++ t.
Definition three : list cfg :=
  [Cfg (org t_cp) t_cp [49;46;48] [t_cp; t_int]; Cfg (org t_mip) t_mip [50;46;48] [t_mip; t_int]; Cfg (org t_cp) t_cp [49;46;49] [t_cp; t_int]].
Definition int_mip (t : str) : option str := if str_dec t t_int then Some (org t_mip) else None.
(** "int" gives the default solver for int, "INT,Cp@1.1" the third solver, "int@3" any version, "cp,int@2.0" nothing *)
Example C85_nonvacuous :
  config int_mip (populate int_mip three) t_int = Picked 1 /\
  config int_mip (populate int_mip three) ([73;78;84;44;67;112;64;49;46;49]) = Picked 2 /\
  config int_mip (populate int_mip three) (t_int ++ [64;51]) = Picked 1 /\
  config int_mip (populate int_mip three) (t_cp ++ [44] ++ t_int ++ [64;50;46;48]) = NoTags /\
  Forall2 tag_text [(t_int, []); (t_cp, [49;46;49])] [t_int; t_cp ++ [64;49;46;49]] /\
  lower [73;78;84;44;67;112;64;49;46;49] = joined [t_int; t_cp ++ [64;49;46;49]].
Proof.
  split; [reflexivity|]. split; [reflexivity|]. split; [reflexivity|]. split; [reflexivity|]. split; [|reflexivity].
  repeat constructor; cbn; intuition discriminate.
Qed.

(** Full claim: every solver is found under each of its tags, and with its version; the default solver is found by the
    empty text.  Proved for tags, ids and versions in lower case (and without comma and @, which a request cannot
    contain); refuted below for others. *)
Theorem C85_tag_partial : forall d cs sc t, In sc cs -> called d sc t -> t <> [] -> plain t -> exists i sc', config d (populate d cs) t = Picked i /\ nth_error cs i = Some sc' /\ called d sc' t.
Proof. exact plain_tag. Qed.
Print Assumptions C85_tag_partial.
Theorem C85_version_partial : forall d cs sc t v, In sc cs -> called d sc t -> v = c_version sc -> v <> [] -> plain t -> plain v ->
  exists i sc', config d (populate d cs) (t ++ [64] ++ v) = Picked i /\ nth_error cs i = Some sc' /\ called d sc' t /\ c_version sc' = v.
Proof. exact plain_version. Qed.
Print Assumptions C85_version_partial.
Theorem C85_default_partial : forall d cs sc, In sc cs -> d [] = Some (c_id sc) -> c_id sc <> [] -> plain (c_id sc) ->
  exists i sc', config d (populate d cs) [] = Picked i /\ nth_error cs i = Some sc' /\ called d sc' (c_id sc).
Proof. exact plain_default. Qed.
Print Assumptions C85_default_partial.

(** Not every tag of a solver finds it: tags keep their letter case, the request does not. *)
Theorem C85_tag_refuted : ~ forall d cs sc t, In sc cs -> In t (c_tags sc) -> t <> [] -> Forall (fun c => c <> 44 /\ c <> 64) t -> exists i, config d (populate d cs) t = Picked i.
Proof.
  intros H. destruct (H (fun _ => None) [Cfg (org t_mip) t_mip [49] [[77;73;80;115]]] (Cfg (org t_mip) t_mip [49] [[77;73;80;115]]) [77;73;80;115]) as (i & E);
    [now left|now left|discriminate|repeat constructor; discriminate|]. discriminate E.
Qed.
Print Assumptions C85_tag_refuted.
(** Asking for a solver with its own version does not always give this version, even if it is there. *)
Theorem C85_version_refuted : ~ forall d cs sc i, In sc cs -> Forall (fun c => c <> 44 /\ c <> 64) (c_id sc ++ c_version sc) -> config d (populate d cs) (c_id sc ++ [64] ++ c_version sc) = Picked i ->
  exists sc', nth_error cs i = Some sc' /\ c_version sc' = c_version sc.
Proof.
  intros H. destruct (H (fun _ => None) [Cfg (org t_cp) t_cp [49] []; Cfg (org t_cp) t_cp [50;66] []] (Cfg (org t_cp) t_cp [50;66] []) 0%nat) as (sc' & E & V);
    [right; now left|repeat constructor; discriminate|reflexivity|]. injection E as <-. discriminate V.
Qed.
Print Assumptions C85_version_refuted.
(** The default solver is not always found: its id must be written in lower case. *)
Theorem C85_default_refuted : ~ forall d cs sc, In sc cs -> d [] = Some (c_id sc) -> Forall (fun c => c <> 44 /\ c <> 64) (c_id sc) -> exists i, config d (populate d cs) [] = Picked i.
Proof.
  intros H. destruct (H (fun t => match t with [] => Some (org [67;80]) | _ => None end) [Cfg (org [67;80]) t_cp [49] []] (Cfg (org [67;80]) t_cp [49] [])) as (i & E);
    [now left|reflexivity|repeat constructor; discriminate|]. discriminate E.
Qed.
Print Assumptions C85_default_refuted.

(** C86.  The default options of a solver: each option once, in the order in which the options are first given over all
    configuration files, with the value given last; empty texts are left out. *)
Theorem C86_options : forall xs s, default_options (solver_defaults xs) s =
  filter nonempty (flat_map (fun o => [o; match last_value (given xs s) o with Some v => v | None => [] end]) (firsts (map fst (given xs s)))).
Proof. exact default_options_ok. Qed.
Print Assumptions C86_options.
Theorem C86_once : forall xs s, NoDup (firsts (map fst (given xs s))) /\ forall o, In o (firsts (map fst (given xs s))) <-> exists v, In (s, o, v) xs.
Proof.
  intros xs s. split; [apply firsts_nodup|]. intros o. rewrite firsts_in. unfold given. rewrite map_map, in_map_iff. split.
  - intros (((u, o'), v) & E & I). apply filter_In in I. destruct I as [I F]. cbn [fst snd] in *. subst. destruct (str_dec u s); [|discriminate]. subst. eauto.
  - intros (v & I). exists (s, o, v). split; auto. apply filter_In. split; auto. cbn [fst snd]. destruct (str_dec s s); congruence.
Qed.
Print Assumptions C86_once.
(** "-p" 4, "-f" "", then "-p" 8: -p 8 -f *)
Example C86_nonvacuous : default_options (solver_defaults [(t_cp, [45;112], [52]); (t_mip, [45;97], []); (t_cp, [45;102], []); (t_cp, [45;112], [56])]) t_cp = [[45;112]; [56]; [45;102]].
Proof. reflexivity. Qed.
