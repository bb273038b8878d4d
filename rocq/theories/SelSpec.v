(** Independent specification of the choice of a solver. *)
Require Import ZArith List Bool.
From Verif Require Import Base SelModel.
Import ListNotations.
Open Scope Z_scope.

(** the names under which a solver can be asked for: its tags, its id, the part of the id behind its last dot, its
    name, and "default" for the default solver *)
Definition called (d : str -> option str) (sc : cfg) (t : str) : Prop :=
  In t (c_tags sc) \/ t = lower (c_id sc) \/ t = lower (c_name sc) \/
  (exists a, lower (c_id sc) = a ++ 46 :: t /\ ~ In 46 t) \/
  (t = txt_default /\ d [] = Some (lower (c_id sc))).
(** a request: a tag, and a version (empty: any) *)
Definition request : Type := str * str.
Definition fits (sc : cfg) (v : str) : Prop := v = [] \/ v = c_version sc.
Definition meets (d : str -> option str) (sc : cfg) (r : request) : Prop := called d sc (fst r) /\ fits sc (snd r).
(** the first request: its version counts only if some solver with this tag has it *)
Definition meets_first (d : str -> option str) (cs : list cfg) (sc : cfg) (r : request) : Prop :=
  called d sc (fst r) /\ (fits sc (snd r) \/ forall sc', In sc' cs -> called d sc' (fst r) -> ~ fits sc' (snd r)).
(** the solver at position i meets all requests *)
Definition candidate (d : str -> option str) (cs : list cfg) (r : request) (rs : list request) (i : nat) : Prop :=
  exists sc, nth_error cs i = Some sc /\ meets_first d cs sc r /\ Forall (meets d sc) rs.
(** it is the default solver for one of the tags *)
Definition preferred (d : str -> option str) (cs : list cfg) (rs : list request) (i : nat) : Prop :=
  exists sc r, nth_error cs i = Some sc /\ In r rs /\ d (fst r) = Some (c_id sc).
Definition least (P : nat -> Prop) (i : nat) : Prop := P i /\ forall j, P j -> (i <= j)%nat.
(** how a text is read as requests: tags separated by commas, each with an optional version behind @ *)
Definition tag_text (r : request) (t : str) : Prop := ~ In 64 (fst r) /\ ~ In 44 t /\ (t = fst r /\ snd r = [] \/ t = fst r ++ 64 :: snd r).
Fixpoint joined (ts : list str) : str := match ts with [] => [] | [t] => t | t :: r => t ++ 44 :: joined r end.

(** a text in lower case without separators *)
Definition plain (t : str) : Prop := lower t = t /\ Forall (fun c => c <> 44 /\ c <> 64) t.

(** options given for solver s, in order *)
Definition given (xs : list (str * str * str)) (s : str) : list (str * str) :=
  map (fun x => (snd (fst x), snd x)) (filter (fun x => if str_dec (fst (fst x)) s then true else false) xs).
(** the last value given for an option *)
Fixpoint last_value (ps : list (str * str)) (o : str) : option str :=
  match ps with [] => None | (a, v) :: r => match last_value r o with Some w => Some w | None => if str_dec a o then Some v else None end end.
(** the options in the order in which they are first given *)
Fixpoint firsts (l : list str) : list str :=
  match l with [] => [] | o :: r => o :: filter (fun a => if str_dec a o then false else true) (firsts r) end.
Definition nonempty (t : str) : bool := match t with [] => false | _ => true end.
