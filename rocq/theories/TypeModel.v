(** Model of MiniZinc types (include/minizinc/type.hh, lib/type.cpp) and of the registry of struct and
    array types (include/minizinc/flatten_internal.hh:141-295, 403-500, lib/flatten.cpp:789-880,
    1250-1305, 1387-1520, 1612-1665).
    Not modelled: the flags _tiExplicit and _otExplicit (only used for printing). *)
Require Import ZArith List Bool.
From Verif Require Import Base.
Import ListNotations.
Open Scope Z_scope.

(* type.hh:28-39 *)
Inductive base : Type := BT_BOOL | BT_INT | BT_FLOAT | BT_STRING | BT_ANN | BT_TUPLE | BT_RECORD | BT_TOP | BT_BOT | BT_UNKNOWN.
Definition bt_num (b : base) : Z :=
  match b with
  | BT_BOOL => 0 | BT_INT => 1 | BT_FLOAT => 2 | BT_STRING => 3 | BT_ANN => 4 | BT_TUPLE => 5 | BT_RECORD => 6
  | BT_TOP => 7 | BT_BOT => 8 | BT_UNKNOWN => 9
  end.
(* static_cast<BaseType> of a 4-bit number; numbers above 9 never occur and are mapped to BT_UNKNOWN *)
Definition bt_of (n : Z) : base :=
  if n =? 0 then BT_BOOL else if n =? 1 then BT_INT else if n =? 2 then BT_FLOAT else if n =? 3 then BT_STRING
  else if n =? 4 then BT_ANN else if n =? 5 then BT_TUPLE else if n =? 6 then BT_RECORD else if n =? 7 then BT_TOP
  else if n =? 8 then BT_BOT else BT_UNKNOWN.
Definition bt_eqb (a b : base) : bool := bt_num a =? bt_num b.
Definition b2z (b : bool) : Z := if b then 1 else 0.

(* type.hh:53-71; ti: true is TI_VAR; st: true is ST_SET; ot: true is OT_OPTIONAL; dim is dim(), i.e. _dim - 1 *)
Record ty : Type := mkT {
  t_bt : base; t_ti : bool; t_st : bool; t_ot : bool; t_cv : bool; t_any : bool; t_id : Z; t_dim : Z }.
(* type.hh:75-85 *)
Definition t_unknown : ty := mkT BT_UNKNOWN false false false false false 0 0.
(* setters, type.hh:93-150; a typeId is stored in 16 bits *)
Definition set_ti (t : ty) (v : bool) : ty := mkT (t_bt t) v (t_st t) (t_ot t) (if v then true else t_cv t) (t_any t) (t_id t) (t_dim t).
Definition set_st (t : ty) (v : bool) : ty := mkT (t_bt t) (t_ti t) v (t_ot t) (t_cv t) (t_any t) (t_id t) (t_dim t).
Definition set_ot (t : ty) (v : bool) : ty := mkT (t_bt t) (t_ti t) (t_st t) v (t_cv t) (t_any t) (t_id t) (t_dim t).
Definition set_cv (t : ty) (v : bool) : ty := mkT (t_bt t) (t_ti t) (t_st t) (t_ot t) v (t_any t) (t_id t) (t_dim t).
Definition set_id (t : ty) (i : Z) : ty := mkT (t_bt t) (t_ti t) (t_st t) (t_ot t) (t_cv t) (t_any t) (i mod 65536) (t_dim t).
Definition set_dim (t : ty) (d : Z) : ty := mkT (t_bt t) (t_ti t) (t_st t) (t_ot t) (t_cv t) (t_any t) (t_id t) d.
(* type.hh:153-205 *)
Definition mk_ty (ti : bool) (b : base) (st : bool) (id dim : Z) : ty := mkT b ti st false ti false id dim.
Definition t_parint (dim : Z) : ty := mk_ty false BT_INT false 0 dim.
Definition t_bot (dim : Z) : ty := mk_ty false BT_BOT false 0 dim.
(* type.hh:265 *)
Definition structBT (t : ty) : bool := bt_eqb (t_bt t) BT_TUPLE || bt_eqb (t_bt t) BT_RECORD.
Definition isunknown (t : ty) : bool := bt_eqb (t_bt t) BT_UNKNOWN.
Definition isbot (t : ty) : bool := bt_eqb (t_bt t) BT_BOT.
Definition istuple (t : ty) : bool := (t_dim t =? 0) && negb (t_st t) && bt_eqb (t_bt t) BT_TUPLE.
Definition isSet (t : ty) : bool := (t_dim t =? 0) && t_st t.
Definition isOptBot (t : ty) : bool := negb (t_st t) && bt_eqb (t_bt t) BT_BOT && t_ot t.

(* type.hh:267-270 *)
Definition ty_eqb (a b : ty) : bool :=
  Bool.eqb (t_ti a) (t_ti b) && bt_eqb (t_bt a) (t_bt b) && Bool.eqb (t_st a) (t_st b) && Bool.eqb (t_ot a) (t_ot b) &&
  (t_dim a =? t_dim b) && (negb (structBT a) || (t_id a =? t_id b)).
(* type.hh:274-281 *)
Definition toInt (t : ty) : Z :=
  Z.shiftl (1 - b2z (t_st t)) 26 + Z.shiftl (bt_num (t_bt t)) 22 + Z.shiftl (b2z (t_ti t)) 21 + Z.shiftl (b2z (t_ot t)) 20 +
  Z.shiftl (t_id t) 4 + (if t_dim t =? -1 then 1 else if t_dim t =? 0 then 0 else t_dim t + 1).
(* type.hh:282-294 *)
Definition fromInt (i : Z) : ty :=
  let d := Z.land i 7 in
  mkT (bt_of (Z.land (Z.shiftr i 22) 15)) (Z.land (Z.shiftr i 21) 1 =? 1) (1 - Z.land (Z.shiftr i 26) 1 =? 1)
      (Z.land (Z.shiftr i 20) 1 =? 1) false false (Z.land (Z.shiftr i 4) 4095)
      (if d =? 0 then 0 else if d =? 1 then -1 else d - 1).
(* type.hh:376 *)
Definition ty_cmp (a b : ty) : Z := if toInt a <? toInt b then -1 else if toInt a >? toInt b then 1 else 0.

(** ** Registry *)
(* flatten_internal.hh:204-214: concatenated names, and the offset of its name and the type of every field *)
Record rec : Type := mkR { r_names : list Z; r_fields : list (Z * ty) }.
(* EnvI::_tupleTypes, _recordTypes, _arrayEnumDecls.  The hash maps hold exactly the elements of the
   vectors (with their positions); looking up a key is modelled as a search of the vector. *)
Record env : Type := mkE { e_tuples : list (list ty); e_records : list rec; e_arrays : list (list Z) }.
Definition e_init : env := mkE [] [] [].

Definition len {A : Type} (l : list A) : Z := Z.of_nat (length l).
Definition at_ {A : Type} (l : list A) (i : Z) : res A :=
  if i <? 0 then UB else match nth_error l (Z.to_nat i) with Some x => Ok x | None => UB end.
Definition last_ (l : list Z) : res Z := match l with [] => UB | _ => Ok (last l 0) end.
Fixpoint list_eqb {A : Type} (f : A -> A -> bool) (a b : list A) : bool :=
  match a, b with
  | [], [] => true
  | x :: a, y :: b => f x y && list_eqb f a b
  | _, _ => false
  end.
Fixpoint find_idx {A : Type} (f : A -> bool) (l : list A) (i : Z) : option Z :=
  match l with [] => None | x :: l => if f x then Some i else find_idx f l (i + 1) end.

(* decimal digits of a non-negative number, as printed by operator<< *)
Fixpoint dec_fuel (f : nat) (n : Z) : list Z :=
  match f with
  | O => []
  | S f => if n <? 10 then [48 + n] else dec_fuel f (n / 10) ++ [48 + n mod 10]
  end.
Definition dec (n : Z) : list Z := dec_fuel (S (Z.to_nat (Z.log2 n))) n.
(* flatten.cpp:1262-1268: the key of an array type: every id followed by '.' *)
Definition array_key (ids : list Z) : list Z := flat_map (fun i => dec i ++ [46]) ids.
(* flatten.cpp:1261-1282 *)
Definition register_array (e : env) (ids : list Z) : env * Z :=
  if forallb (fun i => i =? 0) ids then (e, 0)
  else
    match find_idx (fun k => list_eqb Z.eqb (array_key k) (array_key ids)) (e_arrays e) 0 with
    | Some i => (e, i + 1)
    | None => (mkE (e_tuples e) (e_records e) (e_arrays e ++ [ids]), len (e_arrays e) + 1)
    end.
(* flatten.cpp:1283-1286 *)
Definition get_array (e : env) (i : Z) : res (list Z) := at_ (e_arrays e) (i - 1).

(* flatten_internal.hh:171-181 *)
Definition tuple_eqb (a b : list ty) : bool := list_eqb (fun x y => ty_cmp x y =? 0) a b.
(* flatten.cpp:1288-1303 *)
Definition register_tuple (e : env) (fields : list ty) : env * Z :=
  match find_idx (fun k => tuple_eqb k fields) (e_tuples e) 0 with
  | Some i => (e, i + 1)
  | None => (mkE (e_tuples e ++ [fields]) (e_records e) (e_arrays e), len (e_tuples e) + 1)
  end.
(* flatten.cpp:836-848 RecordType::RecordType *)
Fixpoint offsets (o : Z) (fields : list (list Z * ty)) : list (Z * ty) :=
  match fields with [] => [] | (n, t) :: fs => (o, t) :: offsets (o + len n) fs end.
Definition mk_rec (fields : list (list Z * ty)) : rec := mkR (flat_map fst fields) (offsets 0 fields).
(* flatten.cpp:862-871 RecordType::a from another record type *)
Definition rec_retype (r : rec) (ts : list ty) : rec :=
  mkR (r_names r) (map (fun p => (fst (fst p), snd p)) (combine (r_fields r) ts)).
(* std::string::substr *)
Definition substr (s : list Z) (pos n : Z) : list Z := firstn (Z.to_nat n) (skipn (Z.to_nat pos) s).
(* flatten_internal.hh:224-230 *)
Definition fieldName (r : rec) (i : nat) : list Z :=
  match nth_error (r_fields r) i with
  | Some (o, _) =>
      match nth_error (r_fields r) (S i) with
      | Some (o2, _) => substr (r_names r) o (o2 - o)
      | None => skipn (Z.to_nat o) (r_names r)
      end
  | None => []
  end.
(* flatten_internal.hh:248-259 *)
Definition rec_eqb (a b : rec) : bool :=
  list_eqb Z.eqb (r_names a) (r_names b) &&
  list_eqb (fun x y => (fst x =? fst y) && (ty_cmp (snd x) (snd y) =? 0)) (r_fields a) (r_fields b).
(* flatten.cpp:1663-1677, 1679-1690 *)
Definition register_rec (e : env) (r : rec) : env * Z :=
  match find_idx (fun k => rec_eqb k r) (e_records e) 0 with
  | Some i => (e, i + 1)
  | None => (mkE (e_tuples e) (e_records e ++ [r]) (e_arrays e), len (e_records e) + 1)
  end.

(* flatten_internal.hh:481-490, 500-510: the id of the struct type of a type *)
Definition struct_id (e : env) (t : ty) : res Z :=
  if t_id t =? 0 then UB
  else if negb (t_dim t =? 0) then do ids <- get_array e (t_id t); last_ ids
  else Ok (t_id t).
Definition get_tuple (e : env) (t : ty) : res (list ty) := do i <- struct_id e t; at_ (e_tuples e) (i - 1).
Definition get_record (e : env) (t : ty) : res rec := do i <- struct_id e t; at_ (e_records e) (i - 1).
Definition rec_types (r : rec) : list ty := map snd (r_fields r).
Definition rec_names (r : rec) : list (list Z) := map (fieldName r) (seq 0 (length (r_fields r))).

(** ** Subtyping *)
Fixpoint sub_list (sub : ty -> ty -> res bool) (a b : list ty) : res bool :=
  match a, b with
  | [], [] => Ok true
  | x :: a, y :: b => do r <- sub x y; if r then sub_list sub a b else Ok false
  | _, _ => Ok false
  end.
(* flatten_internal.hh:183-193 *)
Definition tuple_sub (sub : ty -> ty -> res bool) (a b : list ty) : res bool :=
  if negb (len b =? len a) then Ok false else sub_list sub a b.
(* flatten_internal.hh:261-275; fields of equal numbers *)
Fixpoint rec_sub_list (sub : ty -> ty -> res bool) (a b : list (list Z * ty)) : res bool :=
  match a, b with
  | [], [] => Ok true
  | (n, x) :: a, (m, y) :: b =>
      if negb (list_eqb Z.eqb n m) then Ok false
      else do r <- sub x y; if r then rec_sub_list sub a b else Ok false
  | _, _ => Ok false
  end.
Definition rec_sub (sub : ty -> ty -> res bool) (a b : rec) : res bool :=
  if negb (len (r_fields b) =? len (r_fields a)) then Ok false
  else rec_sub_list sub (combine (rec_names a) (rec_types a)) (combine (rec_names b) (rec_types b)).

(* type.cpp:20-55 *)
Definition btSubtype (sub : ty -> ty -> res bool) (e : env) (t0 t1 : ty) (strict : bool) : res bool :=
  let sw := match t_bt t0 with
            | BT_BOOL => bt_eqb (t_bt t1) BT_INT || bt_eqb (t_bt t1) BT_FLOAT
            | BT_INT => bt_eqb (t_bt t1) BT_FLOAT
            | BT_BOT => true
            | _ => false
            end in
  if bt_eqb (t_bt t0) (t_bt t1) then
    if bt_eqb (t_bt t0) BT_TUPLE then
      if t_id t0 =? t_id t1 then Ok true
      else do a <- get_tuple e t0; do b <- get_tuple e t1; tuple_sub sub a b
    else if bt_eqb (t_bt t0) BT_RECORD then
      if t_id t0 =? t_id t1 then Ok true
      else do a <- get_record e t0; do b <- get_record e t1; rec_sub sub a b
    else if negb strict || negb (t_dim t0 =? 0) || (t_id t0 =? t_id t1) || (t_id t1 =? 0) then Ok true
    else Ok sw
  else Ok sw.
(* ot() == OT_PRESENT || ot() == t.ot() *)
Definition ot_sub (a b : ty) : bool := negb (t_ot a) || Bool.eqb (t_ot a) (t_ot b).
(* type.hh:332-373 *)
Fixpoint isSubtypeOf (fuel : nat) (e : env) (a t : ty) (strict : bool) : res bool :=
  match fuel with
  | O => Err OutOfFuel
  | S fuel =>
      let bts s := btSubtype (fun x y => isSubtypeOf fuel e x y s) e a t s in
      do c1 <- (if (t_dim a =? 0) && negb (t_dim t =? 0) && t_st a && negb (t_st t) && negb (bt_eqb (t_bt a) BT_FLOAT) then
                  do m <- (if isbot a then Ok true
                           else do b <- bts false; Ok (b || bt_eqb (t_bt t) BT_TOP));
                  Ok (m && negb (t_ti a) && ot_sub a t)
                else Ok false);
      if c1 then Ok true
      else if negb (t_dim a =? t_dim t) && ((t_dim a =? 0) || negb (t_dim t =? -1)) then Ok false
      else if t_any a then Ok (t_any t)
      else if t_any t then Ok true
      else
        do c2 <- (if Bool.eqb (t_ti a) (t_ti t) then do b <- bts strict; Ok (b && Bool.eqb (t_st a) (t_st t)) else Ok false);
        if c2 then Ok (ot_sub a t)
        else
          do c3 <- (if negb (t_ti a) then do b <- bts strict; Ok (b && Bool.eqb (t_st a) (t_st t)) else Ok false);
          if c3 then Ok (ot_sub a t)
          else if negb (t_ti a) && isbot t then Ok true
          else if (Bool.eqb (t_ti a) (t_ti t) || negb (t_ti a)) && isbot a && (Bool.eqb (t_st a) (t_st t) || negb (t_st a))
          then Ok (ot_sub a t)
          else if bt_eqb (t_bt t) BT_TOP && ot_sub a t && (negb (t_st t) || Bool.eqb (t_st a) (t_st t)) && (negb (t_ti a) || t_ti t)
          then Ok true
          else Ok false
  end.

(* flatten.cpp:1592-1600 getTransparentType *)
Definition getTransparentType (e : env) (t : ty) : res ty :=
  if istuple t then
    do tt <- get_tuple e t;
    match tt with
    | [a; b] => Ok (if isunknown b then a else t)
    | _ => Ok t
    end
  else Ok t.
(* flatten.cpp:1622-1661 EnvI::isSubtype *)
Fixpoint idx_sub (a b : list Z) : res bool :=
  match a with
  | [] | [_] => Ok true
  | x :: a' => do y <- at_ b 0; if negb (y =? 0) && negb (x =? y) then Ok false else idx_sub a' (tl b)
  end.
Definition env_isSubtype (fuel : nat) (e : env) (t10 t2 : ty) (strict : bool) : res bool :=
  do t1 <- (if istuple t10 && negb (t_dim t2 =? 0) then getTransparentType e t10 else Ok t10);
  do s <- isSubtypeOf fuel e t1 t2 strict;
  if negb s then Ok false
  else
    do c <- (if strict && bt_eqb (t_bt t1) BT_INT && (t_dim t1 =? 0) && negb (t_dim t2 =? 0) && negb (t_id t2 =? 0) then
               do ids <- get_array e (t_id t2); do l <- last_ ids;
               Ok (negb (negb (l =? 0) && negb (t_id t1 =? l)))
             else Ok true);
    if negb c then Ok false
    else if strict && bt_eqb (t_bt t1) BT_INT && negb (t_dim t1 =? 0) && negb (t_id t1 =? t_id t2) then
      if t_id t1 =? 0 then Ok (isbot t1)
      else if negb (t_id t2 =? 0) then
        do ids1 <- get_array e (t_id t1); do ids2 <- get_array e (t_id t2);
        if negb (len ids1 =? len ids2) then
          if t_dim t2 =? -1 then
            if isbot t1 then Ok true else do l1 <- last_ ids1; do l2 <- last_ ids2; Ok (l1 =? l2)
          else Ok false
        else
          do ok <- idx_sub ids1 ids2;
          if negb ok then Ok false
          else do l1 <- last_ ids1; do l2 <- last_ ids2;
               Ok (negb (negb (isbot t1) && negb (l2 =? 0) && negb (l1 =? l2)))
      else Ok true
    else Ok true.

(* flatten.cpp:801-824 TupleType::matchesBT *)
Fixpoint matchesBT_fields (m : ty -> ty -> res bool) (a b : list ty) : res bool :=
  match a, b with
  | x :: a, y :: b =>
      if negb (isbot x) || negb (isbot y) then matchesBT_fields m a b
      else if negb (bt_eqb (t_bt y) BT_TOP) && negb (bt_eqb (t_bt x) (t_bt y)) then Ok false
      else do r <- m x y; if r then matchesBT_fields m a b else Ok false
  | _, _ => Ok true
  end.
Fixpoint matchesBT (fuel : nat) (e : env) (a b : list ty) : res bool :=
  match fuel with
  | O => Err OutOfFuel
  | S fuel =>
      if negb (len b =? len a) then Ok false
      else matchesBT_fields (fun x y =>
             if bt_eqb (t_bt x) BT_TUPLE then do p <- get_tuple e x; do q <- get_tuple e y; matchesBT fuel e p q
             else if bt_eqb (t_bt x) BT_RECORD then
               do p <- get_record e x; do q <- get_record e y; matchesBT fuel e (rec_types p) (rec_types q)
             else Ok true) a b
  end.

(** ** Common types *)
(* type.cpp:207-221 *)
Definition elemType (e : env) (t : ty) : res ty :=
  if t_dim t =? 0 then Ok t
  else
    let el := set_dim (set_id t 0) 0 in
    if t_id t =? 0 then Ok el
    else do ids <- get_array e (t_id t); do l <- last_ ids; Ok (set_id el l).
(* arrayEnumIds.back() = x *)
Definition set_last (l : list Z) (x : Z) : res (list Z) := match l with [] => UB | _ => Ok (removelast l ++ [x]) end.
(* type.cpp:223-250 *)
Definition arrType (e : env) (dimTy elemTy : ty) : res (env * ty) :=
  let ret := set_dim (set_id elemTy 0) (t_dim dimTy) in
  if (t_id dimTy =? 0) && (t_id elemTy =? 0) then Ok (e, ret)
  else if (t_id dimTy =? 0) && (t_dim dimTy =? t_dim elemTy) then Ok (e, elemTy)
  else
    do ids <- (if negb (t_id dimTy =? 0) then get_array e (t_id dimTy) else Ok (repeat 0 (Z.to_nat (t_dim dimTy + 1))));
    do el <- (if negb (t_dim elemTy =? 0) && negb (t_id elemTy =? 0) then do l <- get_array e (t_id elemTy); last_ l
              else Ok (t_id elemTy));
    do ids <- set_last ids el;
    let (e', i) := register_array e ids in
    Ok (e', set_id ret i).
(* type.cpp:299-304, flatten.cpp:1427-1433: keep the ids that agree *)
Fixpoint meet_ids (a b : list Z) : res (list Z) :=
  match a with
  | [] => Ok []
  | x :: a => do y <- at_ b 0; do r <- meet_ids a (tl b); Ok ((if x =? y then x else 0) :: r)
  end.
Fixpoint common_list (ct : env -> ty -> ty -> res (env * ty)) (e : env) (a b : list ty) : res (env * option (list ty)) :=
  match a, b with
  | x :: a, y :: b =>
      do ' (e1, c) <- ct e x y;
      if isunknown c then Ok (e1, None)
      else
        do ' (e2, r) <- common_list ct e1 a b;
        match r with None => Ok (e2, None) | Some r => Ok (e2, Some (c :: r)) end
  | _, _ => Ok (e, Some [])
  end.
(* the end of commonTuple and commonRecord, flatten.cpp:1421-1448, 1491-1518; id is the new struct id *)
Definition finish_struct (e : env) (t1 t2 : ty) (id : Z) : res (env * ty) :=
  do ' (e, id) <- (if negb (t_dim t1 =? 0) then
                   do a <- get_array e (t_id t1); do b <- get_array e (t_id t2);
                   do m <- meet_ids (firstn (Z.to_nat (t_dim t1)) a) b;
                   Ok (register_array e (m ++ [id]))
                 else Ok (e, id));
  let t := set_cv (set_id t1 id) (t_cv t1 || t_cv t2) in
  if t_ot t || t_ot t2 then if t_ti t || t_ti t2 then Ok (e, t_unknown) else Ok (e, set_ot t true)
  else Ok (e, t).
(* flatten.cpp:1387-1449, ignoreTuple1Dim = false *)
Definition commonTuple (ct : env -> ty -> ty -> res (env * ty)) (e : env) (t1 t2 : ty) : res (env * ty) :=
  if ty_eqb t1 t2 then Ok (e, t1)
  else if isunknown t1 || isunknown t2 then Ok (e, t_unknown)
  else if negb (t_dim t1 =? t_dim t2) then Ok (e, t_unknown)
  else
    do a <- get_tuple e t1; do b <- get_tuple e t2;
    if negb (len a =? len b) then Ok (e, t_unknown)
    else
      do ' (e, c) <- common_list ct e a b;
      match c with
      | None => Ok (e, t_unknown)
      | Some c => let (e, id) := register_tuple e c in finish_struct e t1 t2 id
      end.
(* flatten.cpp:1451-1519, ignoreRecord1Dim = false; the names are compared before any common type is computed *)
Definition commonRecord (ct : env -> ty -> ty -> res (env * ty)) (e : env) (t1 t2 : ty) : res (env * ty) :=
  if ty_eqb t1 t2 then Ok (e, t1)
  else if isunknown t1 || isunknown t2 then Ok (e, t_unknown)
  else if negb (t_dim t1 =? t_dim t2) then Ok (e, t_unknown)
  else
    do a <- get_record e t1; do b <- get_record e t2;
    if negb (len (r_fields a) =? len (r_fields b)) then Ok (e, t_unknown)
    else if negb (list_eqb (list_eqb Z.eqb) (rec_names a) (rec_names b)) then Ok (e, t_unknown)
    else
      do ' (e, c) <- common_list ct e (rec_types a) (rec_types b);
      match c with
      | None => Ok (e, t_unknown)
      | Some c => let (e, id) := register_rec e (mk_rec (combine (rec_names a) c)) in finish_struct e t1 t2 id
      end.
(* type.cpp:252-363 *)
Fixpoint commonType (fuel : nat) (e : env) (t1 t2 : ty) (strict : bool) : res (env * ty) :=
  match fuel with
  | O => Err OutOfFuel
  | S fuel =>
      if (ty_eqb t1 t2 && (t_id t1 =? t_id t2)) || ty_eqb t2 (t_bot 0) then Ok (e, set_cv t1 (t_cv t1 || t_cv t2))
      else if ty_eqb t1 (t_bot 0) then Ok (e, t2)
      else
        do ' (e, t1, t2) <-
          (if isSet t1 && (t_dim t2 =? 1) then do ' (e, t) <- arrType e (t_parint 1) (set_st t1 false); Ok (e, t, t2)
           else if isSet t2 && (t_dim t1 =? 1) then do ' (e, t) <- arrType e (t_parint 1) (set_st t2 false); Ok (e, t1, t)
           else Ok (e, t1, t2));
        if isunknown t1 || isunknown t2 || negb (t_dim t1 =? t_dim t2) ||
           (negb (Bool.eqb (t_st t1) (t_st t2)) && negb (isbot t1) && negb (isbot t2)) then Ok (e, t_unknown)
        else if negb (t_dim t1 =? 0) then
          do x1 <- elemType e t1; do e1 <- getTransparentType e x1;
          do x2 <- elemType e t2; do e2 <- getTransparentType e x2;
          do ' (e, el) <- commonType fuel e e1 e2 strict;
          if isunknown el then Ok (e, t_unknown)
          else
            let (e, el) := if negb (t_dim el =? 0) then
                             let (e, w) := register_tuple e [el; t_unknown] in
                             (e, set_id (mk_ty false BT_TUPLE false 0 0) w)
                           else (e, el) in
            if negb (t_id t1 =? 0) && negb (t_id t2 =? 0) then
              do a1 <- get_array e (t_id t1); do a2 <- get_array e (t_id t2);
              do m <- meet_ids a1 a2;
              do m <- set_last m (t_id el);
              let (e, i) := register_array e m in
              Ok (e, set_id (set_dim (set_id el 0) (t_dim t1)) i)
            else arrType e (t_parint (t_dim t1)) el
        else if structBT t1 && negb (t_ti t1) && isOptBot t2 then Ok (e, set_ot t1 true)
        else if structBT t2 && negb (t_ti t2) && isOptBot t1 then Ok (e, set_ot t2 true)
        else if (structBT t1 || structBT t2) && negb (bt_eqb (t_bt t1) (t_bt t2)) then Ok (e, t_unknown)
        else if bt_eqb (t_bt t1) BT_TUPLE then commonTuple (fun e a b => commonType fuel e a b strict) e t1 t2
        else if bt_eqb (t_bt t1) BT_RECORD then commonRecord (fun e a b => commonType fuel e a b strict) e t1 t2
        else
          do s21 <- btSubtype (fun _ _ => Ok false) e t2 t1 strict;
          do common <- (if s21 then Ok (Some t1)
                        else do s12 <- btSubtype (fun _ _ => Ok false) e t1 t2 strict; Ok (if s12 then Some t2 else None));
          match common with
          | None => Ok (e, t_unknown)
          | Some c =>
              let c := if negb (t_id t1 =? t_id t2) && negb (isbot t1) && negb (isbot t2) then set_id c 0 else c in
              let c := if negb (Bool.eqb (t_ti t1) (t_ti t2)) then set_ti c true else c in
              let c := if negb (Bool.eqb (t_ot t1) (t_ot t2)) then set_ot c true else c in
              let c := set_cv c (t_cv t1 || t_cv t2) in
              if t_ti c && t_ot c && t_st c then Ok (e, t_unknown) else Ok (e, c)
          end
  end.
