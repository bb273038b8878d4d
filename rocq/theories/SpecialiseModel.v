(** Model of the specialisation of polymorphic functions (lib/type_specialise.cpp). *)
Require Import List Arith Bool String Ascii.
Require DecimalString DecimalNat Decimal.
Import ListNotations.

(** ** Types of the arguments *)

(** Base types: OtherBase stands for strings, annotations and so on; tuples and records are not modelled. *)
Inductive base : Type := BoolBase | IntBase | FloatBase | OtherBase (k : nat).
(** The type of an argument: base type, enumerated type of each index set and of the elements (0 for none:
    Type::typeId() and, for arrays, the list kept by EnvI::getArrayEnum, type.hh:138-144), and all the rest
    (var/par, opt, set, dimensions). *)
Record aty : Type := mkAty { tbase : base; tindex : nat -> nat; telem : nat; trest : nat }.

(** type_specialise.cpp:24-32 TIOcc: argument number and number of the index set (None for -1) *)
Definition occ : Type := (nat * option nat)%type.

Definition upd {A} (f : nat -> A) (i : nat) (x : A) : nat -> A := fun j => if j =? i then x else f j.

Definition base_eqb (a b : base) : bool :=
  match a, b with
  | BoolBase, BoolBase | IntBase, IntBase | FloatBase, FloatBase => true
  | OtherBase k, OtherBase l => k =? l
  | _, _ => false
  end.

(* :36-47 type_meet; a base type with its enumerated type *)
Definition type_meet (t0 t1 : base * nat) : base * nat :=
  if base_eqb (fst t0) FloatBase || base_eqb (fst t1) FloatBase then (FloatBase, snd t0)
  else if base_eqb (fst t0) IntBase || base_eqb (fst t1) IntBase then
    (IntBase, if snd t0 =? snd t1 then snd t0 else 0)
  else t0.

(* :52-73 base_type *)
Definition base_type (types : nat -> aty) (o : occ) : base * nat :=
  let t := types (fst o) in
  match snd o with
  | None => (tbase t, telem t)
  | Some j => (IntBase, tindex t j)
  end.

(* :75-105 adapt_to_base_type *)
Definition adapt (types : nat -> aty) (o : occ) (bt : base * nat) : nat -> aty :=
  let t := types (fst o) in
  match snd o with
  | None => upd types (fst o)
      (mkAty (fst bt) (tindex t) (if snd bt =? 0 then 0 else telem t) (trest t))
  | Some j => upd types (fst o)
      (mkAty (tbase t) (if snd bt =? 0 then upd (tindex t) j 0 else tindex t) (telem t) (trest t))
  end.

(* :107-129 least_common_supertype; occurrences of the variable recorded so far, in order.  Type::operator!=
   (type.hh:272-276) does not look at the enumerated type, so lcs != prevLcs compares the base types. *)
Definition supertype (types : nat -> aty) (occs : list occ) (cur : occ) : nat -> aty :=
  match occs with
  | [] => types
  | o0 :: _ =>
      let prev := base_type types o0 in
      let lcs := type_meet prev (base_type types cur) in
      let types1 := if base_eqb (fst lcs) (fst prev) then types
                    else fold_left (fun t o => adapt t o lcs) occs types in
      adapt types1 cur lcs
  end.

(** a parameter: the type-inst variables of its index sets and of its elements *)
Record param : Type := mkParam { p_ranges : list (option nat); p_dom : option nat }.

(* :149-158 the occurrences of type-inst variables in one parameter, in the order of the loop *)
Fixpoint range_occs (i j : nat) (l : list (option nat)) : list (nat * occ) :=
  match l with
  | [] => []
  | Some v :: l' => (v, (i, Some j)) :: range_occs i (S j) l'
  | None :: l' => range_occs i (S j) l'
  end.
Definition param_occs (i : nat) (p : param) : list (nat * occ) :=
  range_occs i 0 (p_ranges p) ++ match p_dom p with Some v => [(v, (i, None))] | None => [] end.
Fixpoint all_occs (i : nat) (ps : list param) : list (nat * occ) :=
  match ps with [] => [] | p :: ps' => param_occs i p ++ all_occs (S i) ps' end.

(* the map of occurrences, :34 *)
Fixpoint run_occs (types : nat -> aty) (m : nat -> list occ) (l : list (nat * occ)) : nat -> aty :=
  match l with
  | [] => types
  | (v, o) :: l' => run_occs (supertype types (m v) o) (upd m v (m v ++ [o])) l'
  end.
(* :132-163 instantiated_types.  Simplification: the types of all arguments (:140-148: those of the call for
   parameters with type-inst variables, the declared ones for the others) are set before the loop; the loop
   only touches the types of arguments it has already set. *)
Definition instantiated_types (ps : list param) (types : nat -> aty) : nat -> aty :=
  run_occs types (fun _ => []) (all_occs 0 ps).

(** ** The registry of instances *)

(** A type in a key; kcore stands for base type, set, dimensions.  Simplification: mkPar and mkPresentDeep
    act on the type itself only. *)
Record kty : Type := mkKty { kvar : bool; kopt : bool; kcore : nat; kid : nat }.
Definition mk_par (t : kty) : kty := mkKty false (kopt t) (kcore t) (kid t).
Definition mk_present (t : kty) : kty := mkKty (kvar t) false (kcore t) (kid t).
(* :165-199 InstantiatedItem *)
Definition key : Type := (string * list kty * list string)%type.
Definition kty_eqb (a b : kty) : bool :=
  Bool.eqb (kvar a) (kvar b) && Bool.eqb (kopt a) (kopt b) && (kcore a =? kcore b) && (kid a =? kid b).
Fixpoint list_eqb {A} (eqb : A -> A -> bool) (l l' : list A) : bool :=
  match l, l' with
  | [], [] => true
  | a :: r, b :: r' => eqb a b && list_eqb eqb r r'
  | _, _ => false
  end.
Definition key_eqb (a b : key) : bool :=
  let '(n, ts, ps) := a in let '(n', ts', ps') := b in
  String.eqb n n' && list_eqb kty_eqb ts ts' && list_eqb String.eqb ps ps'.

(* :228-232 *)
Record registry : Type := mkReg { r_map : list (key * nat); r_inst : list key; r_count : nat }.
Definition empty_registry : registry := mkReg [] [] 0.
Fixpoint find_key (k : key) (m : list (key * nat)) : option nat :=
  match m with [] => None | (k', i) :: m' => if key_eqb k k' then Some i else find_key k m' end.
Definition mem_key (k : key) (l : list key) : bool := existsb (key_eqb k) l.

(** a call: name, parameter names of its declaration, instantiated argument types without the Boolean added for
    reification (:251-259) *)
Record kcall : Type := mkCall { c_name : string; c_types : list kty; c_params : list string }.
Definition concrete_key (c : kcall) : key := (c_name c, c_types c, c_params c).
Definition par_key (c : kcall) : key := (c_name c, map mk_par (c_types c), c_params c).
Definition base_key (c : kcall) : key := (c_name c, map mk_present (map mk_par (c_types c)), c_params c).
Record answer : Type := mkAns { a_id : nat; a_exists : bool; a_par_exists : bool }.
(* :235-280 getOrInsert *)
Definition get_or_insert (r : registry) (c : kcall) : registry * answer :=
  let '(m1, n1, i) := match find_key (base_key c) (r_map r) with
                      | Some i => (r_map r, r_count r, i)
                      | None => ((base_key c, r_count r) :: r_map r, S (r_count r), r_count r)
                      end in
  let e := mem_key (concrete_key c) (r_inst r) in
  let inst1 := if e then r_inst r else concrete_key c :: r_inst r in
  let pe := mem_key (par_key c) inst1 in
  let inst2 := if pe then inst1 else par_key c :: inst1 in
  (mkReg m1 inst2 n1, mkAns i e pe).
(* the calls in the order of the agenda, :803-808 *)
Fixpoint serve (r : registry) (l : list kcall) : list answer :=
  match l with
  | [] => []
  | c :: l' => let '(r', a) := get_or_insert r c in a :: serve r' l'
  end.

(** ** Names of instances *)
Definition backslash : ascii := "092"%char.
Definition at_sign : ascii := "@"%char.
(* :690-692 *)
Definition mangle (id : nat) (name : string) : string :=
  String backslash (DecimalString.NilEmpty.string_of_uint (Nat.to_uint id) ++ String at_sign name)%string.
(* std::string::find_first_of('@') and substr *)
Fixpoint after_at (s : string) : option string :=
  match s with
  | EmptyString => None
  | String c s' => if Ascii.eqb c at_sign then Some s' else after_at s'
  end.
(* :813-822 demonomorphise_identifier *)
Definition demangle (s : string) : string :=
  match s with
  | EmptyString => s
  | String c s' => if Ascii.eqb c backslash then match after_at s' with Some r => r | None => s end else s
  end.

(* :862-885 type_demonomorphise_library, the functions outside the standard library *)
Definition has_at (s : string) : bool := match after_at s with Some _ => true | None => false end.
Definition is_mangled (s : string) : bool := match s with String c _ => Ascii.eqb c backslash | EmptyString => false end.
Definition mem (s : string) (l : list string) : bool := existsb (String.eqb s) l.
Definition underscore (s : string) : string := String "_"%char s.
(* :880-882; fuel bounds the number of rounds *)
Fixpoint fresh (fuel : nat) (used : list string) (s : string) : option string :=
  if mem s used then match fuel with O => None | S n => fresh n used (underscore s) end else Some s.
(* ident[0] = '_' *)
Definition first_underscore (s : string) : string :=
  match s with String _ s' => underscore s' | EmptyString => s end.
Fixpoint rename (used : list string) (l : list string) : option (list string) :=
  match l with
  | [] => Some []
  | s :: l' =>
      if is_mangled s then
        match fresh (List.length used) used (first_underscore s) with
        | None => None
        | Some s' => match rename (s' :: used) l' with None => None | Some r => Some (s' :: r) end
        end
      else match rename used l' with None => None | Some r => Some (s :: r) end
  end.
Definition rename_functions (names : list string) : option (list string) := rename (filter has_at names) names.
