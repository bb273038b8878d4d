(** Model of how a solver is chosen (lib/solver_config.cpp): registration of solver configurations under their tags,
    lookup of a solver by the text given with --solver, and default options from configuration files. Texts are lists of bytes. Not modelled:
    reading configuration files, a solver given by the name of a file (.msc). *)
Require Import ZArith List Bool.
From Verif Require Import Base.
Import ListNotations.
Open Scope Z_scope.

Definition str : Type := list Z.
Definition str_dec : forall a b : str, {a = b} + {a <> b} := list_eq_dec Z.eq_dec.
Definition mem (t : str) (l : list str) : bool := if in_dec str_dec t l then true else false.

(** lib/solver_config.cpp:230-236, char_to_lower, string_to_lower, in the C locale *)
Definition lower_char (c : Z) : Z := if (65 <=? c) && (c <=? 90) then c + 32 else c.
Definition lower (s : str) : str := map lower_char s.

(** the parts of a SolverConfig that matter here; tags do not contain "default" (373-378) *)
Record cfg : Type := Cfg { c_id : str; c_name : str; c_version : str; c_tags : list str }.
(** find_last_of and substr, 567-569: what follows the last c *)
Fixpoint after_last (c : Z) (s : str) : option str :=
  match s with
  | [] => None
  | x :: t => match after_last c t with Some r => Some r | None => if x =? c then Some t else None end
  end.
Definition txt_default : str := [100; 101; 102; 97; 117; 108; 116].
(** 562-580: the tags a configuration is registered under; d: _tagDefault *)
Definition all_tags (d : str -> option str) (sc : cfg) : list str :=
  let id := lower (c_id sc) in
  let name := lower (c_name sc) in
  c_tags sc ++ [id] ++
  (match after_last 46 id with Some l => if str_dec l name then [] else [l] | None => [] end) ++
  [name] ++
  (match d [] with Some i => if str_dec i id then [txt_default] else [] | None => [] end).

(** TagMap: positions of the solvers for each tag *)
Definition tagmap : Type := list (str * list nat).
Fixpoint lookup (m : tagmap) (t : str) : option (list nat) :=
  match m with [] => None | (u, l) :: r => if str_dec u t then Some l else lookup r t end.
(** 582-589 *)
Fixpoint add_tag (m : tagmap) (t : str) (i : nat) : tagmap :=
  match m with
  | [] => [(t, [i])]
  | (u, l) :: r => if str_dec u t then (u, l ++ [i]) :: r else (u, l) :: add_tag r t i
  end.
(** 559-590, addConfig *)
Definition add_config (d : str -> option str) (st : list cfg * tagmap) (sc : cfg) : list cfg * tagmap :=
  (fst st ++ [sc], fold_left (fun m t => add_tag m t (length (fst st))) (all_tags d sc) (snd st)).
(** 703-722, populate: all configurations in the order they are found *)
Definition populate (d : str -> option str) (cs : list cfg) : list cfg * tagmap := fold_left (add_config d) cs ([], []).

(** 805-809, std::getline with a separator *)
Fixpoint fields (sep : Z) (s cur : str) : list str :=
  match s with
  | [] => match cur with [] => [] | _ => [cur] end
  | c :: t => if c =? sep then cur :: fields sep t [] else fields sep t (cur ++ [c])
  end.
(** 789-793, get_tag and get_version: the text before and behind the first @ *)
Fixpoint before (c : Z) (s : str) : str := match s with [] => [] | x :: t => if x =? c then [] else x :: before c t end.
Fixpoint behind (c : Z) (s : str) : str := match s with [] => [] | x :: t => if x =? c then t else behind c t end.
Definition get_tag (t : str) : str := before 64 t.
Definition get_version (t : str) : str := behind 64 t.

(** std::set<int> as a list in increasing order *)
Fixpoint set_insert (i : nat) (s : list nat) : list nat :=
  match s with
  | [] => [i]
  | j :: r => if (i <? j)%nat then i :: s else if (i =? j)%nat then s else j :: set_insert i r
  end.
Definition set_of (l : list nat) : list nat := fold_left (fun s i => set_insert i s) l [].
Definition set_inter (a b : list nat) : list nat := filter (fun i => if in_dec Nat.eq_dec i b then true else false) a.

Inductive choice : Type := Picked (i : nat) | NoDefault | NoTag (t : str) | NoTags.
(** 829-834 and 850-856: the solvers of a tag that have the version *)
Definition of_version (sv : list cfg) (v : str) (l : list nat) : list nat :=
  set_of (filter (fun i => match nth_error sv i with Some sc => (if str_dec v [] then true else false) || (if str_dec v (c_version sc) then true else false) | None => false end) l).
(** 845-863, the tags after the first *)
Fixpoint narrow (sv : list cfg) (m : tagmap) (ts : list str) (sel : list nat) : choice + list nat :=
  match ts with
  | [] => inr sel
  | t :: r =>
      match lookup m (get_tag t) with
      | None => inl (NoTag t)
      | Some l =>
          let sel' := set_inter sel (of_version sv (get_version t) l) in
          match sel' with [] => inl NoTags | _ => narrow sv m r sel' end
      end
  end.
(** 841-844, 864-867: the default solvers of the tags *)
Fixpoint defaults (d : str -> option str) (ts : list str) : list str :=
  match ts with [] => [] | t :: r => match d (get_tag t) with Some i => i :: defaults d r | None => defaults d r end end.
(** 869-884 *)
Definition pick (sv : list cfg) (defs : list str) (sel : list nat) : choice :=
  match sel with
  | [] => NoTags      (* not reached *)
  | [i] => Picked i
  | i :: _ =>
      match find (fun j => match nth_error sv j with Some sc => mem (c_id sc) defs | None => false end) sel with
      | Some j => Picked j
      | None => Picked i
      end
  end.
(** 796-885, config, for a text that is not the name of an .msc file *)
Definition config (d : str -> option str) (st : list cfg * tagmap) (s : str) : choice :=
  let tags := fields 44 (lower s) [] in
  match (match tags with [] => d [] | t :: _ => Some t end) with
  | None => NoDefault
  | Some first =>
      match lookup (snd st) (get_tag first) with
      | None => NoTag (get_tag first)
      | Some l =>
          let sel := of_version (fst st) (get_version first) l in
          let sel := match sel with [] => set_of l | _ => sel end in
          match narrow (fst st) (snd st) (tl tags) sel with
          | inl e => e
          | inr sel' => pick (fst st) (defaults d (first :: tl tags)) sel'
          end
      end
  end.

(** 632-660, default options of solvers: three texts, the solver, the option and its value *)
Definition optmap : Type := list (str * list str).
Fixpoint find_opts (m : optmap) (t : str) : option (list str) :=
  match m with [] => None | (u, l) :: r => if str_dec u t then Some l else find_opts r t end.
Fixpoint set_opts (m : optmap) (t : str) (o : list str) : optmap :=
  match m with [] => [(t, o)] | (u, l) :: r => if str_dec u t then (u, o) :: r else (u, l) :: set_opts r t o end.
(** 640-658: the options alternate with their values *)
Fixpoint override (opts : list str) (o v : str) : list str :=
  match opts with
  | a :: b :: r => if str_dec a o then a :: v :: r else a :: b :: override r o v
  | _ => opts ++ [o; v]
  end.
Definition add_default (m : optmap) (x : str * str * str) : optmap :=
  let '(s, o, v) := x in
  match find_opts m s with None => set_opts m s [o; v] | Some l => set_opts m s (override l o v) end.
Definition solver_defaults (xs : list (str * str * str)) : optmap := fold_left add_default xs [].
(** 887-899, defaultOptions *)
Definition default_options (m : optmap) (id : str) : list str :=
  match find_opts m id with Some l => filter (fun t => match t with [] => false | _ => true end) l | None => [] end.
