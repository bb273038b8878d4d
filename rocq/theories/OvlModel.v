(** Model of overload resolution: Model::FnEntry::compare, Model::matchFn and Model::matchFnNamed in
    lib/model.cpp, the checks for ambiguous declarations (lib/model.cpp, lib/typecheck.cpp), and the part of
    the type checker that puts the arguments of a call in order (lib/typecheck.cpp, vCall).

    The two subtype tests, Type::isSubtypeOf with strictEnums ([sub]) and EnvI::isSubtype ([acc]), are
    parameters here; TypeModel models them.  Arguments of bottom type (empty arrays) are left out: then botarg
    stays null and matched stays empty.  The identifier varRedef, whose declaration is a constant, is left out. *)
Require Import ZArith List Bool Arith.
From Verif Require Import Base TypeModel.
Import ListNotations.
Open Scope nat_scope.

(** names are strings of characters *)
Definition str : Type := list Z.
Definition str_eqb (a b : str) : bool := list_eqb Z.eqb a b.

(** A parameter (VarDecl): its name, its type, its default value.  [None]: the identifier is a number
    (Id::hasStr() is false).  [Some []]: a parameter without a name, lib/parser.yxx:894-896.  Expressions are
    numbers. *)
Record param : Type := mkPar { pa_name : option str; pa_ty : ty; pa_def : option nat }.
(** FunctionI: its address, its parameters *)
Record func : Type := mkFn { fn_id : nat; fn_params : list param }.
(** include/minizinc/model.hh:71-79, FnEntry: t and fi *)
Record entry : Type := mkEn { en_t : list ty; en_fi : func }.

Definition same_fi (f g : func) : bool := Nat.eqb (fn_id f) (fn_id g).
Definition param_count (f : func) : nat := length (fn_params f).
(** operator== of vectors of types *)
Definition types_eqb (a b : list ty) : bool := list_eqb ty_eqb a b.
(** the loops that compare param(i)->type() for all i, e.g. lib/model.cpp:1429-1435; the numbers of parameters
    are equal where it is used *)
Definition same_types (f g : func) : bool := types_eqb (map pa_ty (fn_params f)) (map pa_ty (fn_params g)).

(** same_parameter_names, lib/model.cpp:332-347: a difference counts only if both names are strings *)
Fixpoint names_agree (a b : list param) : bool :=
  match a, b with
  | p :: a', q :: b' =>
      match pa_name p, pa_name q with
      | Some x, Some y => str_eqb x y && names_agree a' b'
      | _, _ => names_agree a' b'
      end
  | _, _ => true
  end.
Definition same_names (f g : func) : bool := names_agree (fn_params f) (fn_params g).

Section Resolve.
Variable sub : ty -> ty -> bool.
Variable acc : ty -> ty -> bool.

(** FnEntry::compare, lib/model.cpp:57-83.  The default case of the switch asserts false; the loop would
    go on. *)
Fixpoint types_less (a b : list ty) : bool :=
  match a, b with
  | x :: a', y :: b' =>
      if ty_eqb x y then types_less a' b'
      else if sub x y then true
      else if sub y x then false
      else if (ty_cmp x y =? -1)%Z then true
      else if (ty_cmp x y =? 1)%Z then false
      else types_less a' b'
  | _, _ => false
  end.
Definition entry_less (e1 e2 : entry) : bool :=
  if length (en_t e1) <? length (en_t e2) then true
  else if length (en_t e1) =? length (en_t e2) then types_less (en_t e1) (en_t e2)
  else false.

Definition nth_ty (l : list ty) (j : nat) : ty := nth j l t_unknown.
(** at_least_as_specific, lib/model.cpp:471-479 *)
Definition at_least (a b : list ty) (n : nat) : bool :=
  forallb (fun j => ty_eqb (nth_ty a j) (nth_ty b j) || sub (nth_ty a j) (nth_ty b j)) (seq 0 n).

(** how resolution ends: a declaration, nothing found (null or the error "no function or predicate with this
    signature found"), the error "call is ambiguous" *)
Inductive outcome : Type := Found (f : func) | NotFound | Ambiguous.

(** the test of a candidate against the arguments, lib/model.cpp:1449-1470 *)
Definition defaulted_tail (n : nat) (i : entry) : bool :=
  (n <=? length (en_t i)) && forallb (fun p => match pa_def p with Some _ => true | None => false end) (skipn n (fn_params (en_fi i))).
Definition accepts_args (args : list ty) (ts : list ty) : bool :=
  forallb (fun j => acc (nth_ty args j) (nth_ty ts j)) (seq 0 (length args)).
Definition viable (args : list ty) (i : entry) : bool :=
  defaulted_tail (length args) i && accepts_args args (en_t i).

(** mayDefaultFill, lib/model.cpp:1418 and 1688 *)
Definition may_fill (v : list entry) (n : nat) : bool :=
  match rev v with [] => false | x :: _ => n <? length (en_t x) end.

(** the guard shared by 1421-1422 and 1501-1502: the call was resolved before to d, the candidate is another
    declaration with as many parameters but other names *)
Definition other_names (decl : option func) (anchored : bool) (f : func) : bool :=
  match decl with
  | None => false
  | Some d => negb anchored && negb (same_fi f d) && (param_count f =? param_count d) && negb (same_names f d)
  end.
(** 1421-1439: such a candidate is skipped if it has the same types *)
Definition skipped (decl : option func) (anchored : bool) (i : entry) : bool :=
  other_names decl anchored (en_fi i) && match decl with Some d => same_types (en_fi i) d | None => false end.

(** the loop over the candidates, lib/model.cpp:1420-1488 and 1689-1745.  [ok]: the candidate is considered
    and accepts the arguments; [less]: it is at least as specific *)
Fixpoint scan (ok : entry -> bool) (less : entry -> entry -> bool) (fill : bool) (v : list entry) (best : option entry) : option entry :=
  match v with
  | [] => best
  | i :: v' =>
      if ok i then
        match best with
        | None => if fill then scan ok less fill v' (Some i) else Some i
        | Some b => if less i b && negb (less b i) then scan ok less fill v' (Some i) else scan ok less fill v' best
        end
      else scan ok less fill v' best
  end.

(** Model::matchFn(EnvI&, Call*, bool, bool), lib/model.cpp:1360-1583.  [v]: the bucket of the identifier;
    [decl]: c->decl(); [anchored]: isFnAnchored of it; [throws]: throwIfNotFound. *)
Definition match_fn (decl : option func) (anchored throws : bool) (v : list entry) (args : list ty) : outcome :=
  let shortcut := match v, decl with [x], Some d => same_fi (en_fi x) d | _, _ => false end in
  match shortcut, decl with
  | true, Some d => Found d
  | _, _ =>
    let ok i := negb (skipped decl anchored i) && viable args i in
    let less a b := at_least (en_t a) (en_t b) (length args) in
    match scan ok less (may_fill v (length args)) v None with
    | None => NotFound
    | Some i =>
        let alt := match decl with
                   | Some d => if other_names decl anchored (en_fi i)
                               then find (fun i2 => negb (same_fi (en_fi i2) (en_fi i)) && types_eqb (en_t i2) (en_t i) &&
                                                    (param_count (en_fi i2) =? param_count d) && same_names (en_fi i2) d) v
                               else None
                   | None => None
                   end in
        match alt with
        | Some i2 => Found (en_fi i2)
        | None =>
            if throws && match decl with None => true | Some _ => false end &&
               existsb (fun i2 => negb (same_fi (en_fi i2) (en_fi i)) && types_eqb (en_t i2) (en_t i) && negb (same_names (en_fi i2) (en_fi i))) v
            then Ambiguous
            else Found (en_fi i)
        end
    end
  end.

(** ** Named arguments *)
Definition has_name (n : str) (p : param) : bool := match pa_name p with Some m => str_eqb m n | None => false end.

(** find_param_named, lib/model.cpp:1588-1595: the first parameter of that name at position [from] or later *)
Fixpoint find_from (n : str) (from : nat) (l : list param) : option nat :=
  match l with
  | [] => None
  | p :: l' => if has_name n p then Some from else find_from n (S from) l'
  end.
Definition find_param (f : func) (n : str) (from : nat) : option nat := find_from n from (skipn from (fn_params f)).
(** positional_prefix_has_name, 1598-1605 *)
Definition prefix_has (f : func) (n : str) (until : nat) : bool := existsb (has_name n) (firstn until (fn_params f)).

(** nameCompatible, 1637-1662; [k]: the number of positional arguments *)
Definition name_compatible (k : nat) (names : list str) (f : func) : bool :=
  (k + length names <=? param_count f) &&
  forallb (fun n => negb (prefix_has f n k) && match find_param f n k with Some _ => true | None => false end) names &&
  forallb (fun p => existsb (fun n => has_name n p) names || match pa_def p with Some _ => true | None => false end) (skipn k (fn_params f)).

(** the type that candidate i has for a name *)
Definition ty_named (k : nat) (i : entry) (n : str) : option ty := option_map (nth_ty (en_t i)) (find_param (en_fi i) n k).

(** atLeastAsSpecific, 1667-1684 *)
Definition at_least_named (k : nat) (names : list str) (a b : entry) : bool :=
  at_least (en_t a) (en_t b) k &&
  forallb (fun n => match ty_named k a n, ty_named k b n with
                    | Some x, Some y => ty_eqb x y || sub x y
                    | _, _ => false
                    end) names.

(** 1704-1731: the arguments against the candidate *)
Definition accepts_named (pos : list ty) (named : list (str * ty)) (i : entry) : bool :=
  accepts_args pos (en_t i) &&
  forallb (fun na : str * ty => match ty_named (length pos) i (fst na) with Some t => acc (snd na) t | None => false end) named.

(** Model::matchFnNamed, 1608-1815.  [anch]: isFnAnchored of a declaration. *)
Definition match_named (anch : func -> bool) (skip_anch : bool) (v : list entry) (pos : list ty) (named : list (str * ty)) : outcome :=
  let k := length pos in
  let names := map fst named in
  let hidden f := skip_anch && anch f in
  let ok i := negb (hidden (en_fi i)) && name_compatible k names (en_fi i) && accepts_named pos named i in
  match scan ok (at_least_named k names) (may_fill v (k + length named)) v None with
  | None => NotFound
  | Some i =>
      if existsb (fun i2 => negb (same_fi (en_fi i2) (en_fi i)) && types_eqb (en_t i2) (en_t i) && negb (same_names (en_fi i2) (en_fi i)) &&
                            name_compatible k names (en_fi i2) && negb (hidden (en_fi i2))) v
      then Ambiguous
      else Found (en_fi i)
  end.
End Resolve.

(** TypeChecker::vCall, lib/typecheck.cpp:3091-3113: the arguments in the order of the parameters.  An entry
    [None] would be a null pointer. *)
Definition bind_param (named : list (str * nat)) (p : param) : option nat :=
  match find (fun na : str * nat => has_name (fst na) p) named with
  | Some na => Some (snd na)
  | None => pa_def p
  end.
Definition reorder (f : func) (pos : list nat) (named : list (str * nat)) : list (option nat) :=
  map Some pos ++ map (bind_param named) (skipn (length pos) (fn_params f)).
(** 3144-3155: a call without named arguments *)
Definition complete (f : func) (args : list nat) : list (option nat) :=
  map Some args ++ map pa_def (skipn (length args) (fn_params f)).

(** ** Checks of declarations *)
(** is_nameable, lib/model.cpp:365: a string that does not start with an underscore (character 95) *)
Definition nameable (p : param) : option str :=
  match pa_name p with
  | Some (c :: n) => if Z.eqb c 95 then None else Some (c :: n)
  | Some [] => Some []
  | None => None
  end.
(** ASTStringMap::find *)
Fixpoint lookup (n : str) (m : list (str * param)) : option param :=
  match m with [] => None | (k, p) :: m' => if str_eqb k n then Some p else lookup n m' end.
(** nameable_params, 388-403; None: false is returned *)
Fixpoint nameable_params (ps : list param) (m : list (str * param)) : option (list (str * param)) :=
  match ps with
  | [] => Some m
  | p :: ps' =>
      match nameable p with
      | None => match pa_def p with None => None | Some _ => nameable_params ps' m end
      | Some n => match lookup n m with Some _ => None | None => nameable_params ps' ((n, p) :: m) end
      end
  end.
(** ambiguous_named_call, 415-438.  The loop looks up p->id()->v() of every parameter without a default; such a
    parameter is nameable here, because nameable_params succeeded. *)
Definition ambiguous_named_call (a b : func) : bool :=
  match nameable_params (fn_params a) [], nameable_params (fn_params b) [] with
  | Some pa, Some pb =>
      forallb (fun p => match pa_def p with
                        | Some _ => true
                        | None =>
                            match pa_name p with
                            | None => false
                            | Some n =>
                                match lookup n pa, lookup n pb with
                                | Some x, Some y => ty_eqb (pa_ty x) (pa_ty y)
                                | _, _ => false
                                end
                            end
                        end) (fn_params a ++ fn_params b)
  | _, _ => false
  end.
(** check_parameter_defaults, lib/typecheck.cpp:4512-4537: the part that compares two declarations *)
Definition default_extension (f g : func) : bool :=
  let (s, l) := if param_count f <=? param_count g then (f, g) else (g, f) in
  negb (param_count s =? param_count l) &&
  types_eqb (map pa_ty (fn_params s)) (map pa_ty (firstn (param_count s) (fn_params l))) &&
  forallb (fun p => match pa_def p with Some _ => true | None => false end) (skipn (param_count s) (fn_params l)).
