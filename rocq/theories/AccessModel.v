(** Model of array access and of comprehensions, include/minizinc/eval_par.hh:55-410 and lib/eval_par.cpp:983-1011. *)
Require Import ZArith List Bool.
From Verif Require Import Base IntValModel ArrModel.
Import ListNotations.
Open Scope Z_scope.

Section Access.
Variable E : Type.

(** result of eval_arrayaccess on an array literal: the element, or ArrayAccessSucess::fail with the dimension, its bounds and
    the index *)
Inductive access_out := Found (e : E) | Outside (dim lo hi : Z) (ix : IntVal).

(** eval_par.hh:61-64: the product of all widths, in int *)
Fixpoint dim_product (a : arr E) (n : nat) (i realdim : Z) : res Z :=
  match n with
  | O => Ok realdim
  | S n => do w <- awidth a i; do d <- i32 (realdim * w); dim_product a n (i + 1) d
  end.

(** eval_par.hh:65-74 *)
Fixpoint walk (a : arr E) (n : nat) (idx : list IntVal) (i realdim : Z) (realidx : IntVal) : res (IntVal + Z * Z * Z * IntVal) :=
  match n with
  | O => Ok (inl realidx)
  | S n =>
      match idx with
      | [] => UB
      | ix :: idx =>
          do lo <- amin a i; do hi <- amax a i;
          if iv_lt ix (ofZ lo) || iv_gt ix (ofZ hi) then Ok (inr (i, lo, hi, ix))
          else
            do w <- width lo hi;
            if w =? 0 then UB
            else
              let realdim := Z.quot realdim w in
              do off <- iv_sub ix (ofZ lo);
              do t <- iv_mul off (ofZ realdim);
              do s <- add_assign realidx t;
              walk a n idx (i + 1) realdim s
      end
  end.

(** eval_par.hh:57-77 eval_arrayaccess(env, al, idx, success) *)
Definition access (a : arr E) (idx : list IntVal) : res access_out :=
  do realdim <- dim_product a (Z.to_nat (dims a)) 0 1;
  do r <- walk a (Z.to_nat (dims a)) idx 0 realdim (ofZ 0);
  match r with
  | inr (i, lo, hi, ix) => Ok (Outside i lo hi ix)
  | inl realidx => do z <- toInt realidx; do e <- get a (u32 z); Ok (Found e)
  end.

(** eval_par.cpp:986-997: indices that may be absent (None) *)
Fixpoint indices (a : arr E) (idx : list (option IntVal)) (i : Z) : res (list IntVal) :=
  match idx with
  | [] => Ok []
  | o :: r =>
      do x <- (match o with Some x => Ok x | None => do lo <- amin a i; Ok (ofZ lo) end);
      do xs <- indices a r (i + 1); Ok (x :: xs)
  end.
Definition absent (o : option IntVal) : bool := match o with None => true | Some _ => false end.

(** eval_par.cpp:983-1011: None is the literal <> *)
Definition eval_access (a : arr E) (idx : list (option IntVal)) : res (option E) :=
  do ixs <- indices a idx 0;
  if forallb absent idx then Ok None
  else
    do r <- access a ixs;
    match r with
    | Outside _ _ _ _ => Err EvalError
    | Found e => Ok (if existsb absent idx then None else Some e)
    end.
End Access.
Arguments Found {E}. Arguments Outside {E}. Arguments dim_product {E}. Arguments walk {E}. Arguments access {E}.
Arguments indices {E}. Arguments eval_access {E}.

(** ** Indexed comprehensions *)
(** conversion to int (of two's complement integers) *)
Definition to_int32 (z : Z) : Z := (z + 2 ^ 31) mod 2 ^ 32 - 2 ^ 31.
(** std::min and std::max on IntVal *)
Definition std_min (a b : IntVal) : IntVal := if iv_lt b a then b else a.
Definition std_max (a b : IntVal) : IntVal := if iv_lt a b then b else a.
Definition iv_minus_infinity : IntVal := mkIV (-1) true.

(** EvaluatedCompTmp, eval_par.hh:156-169, for elements of type T.  The vector indexes is kept per element. *)
Record comp_tmp (T : Type) := mkT { t_a : list T; t_indexes : list (list Z); t_min : list IntVal; t_max : list IntVal }.
Arguments mkT {T}. Arguments t_a {T}. Arguments t_indexes {T}. Arguments t_min {T}. Arguments t_max {T}.
Definition tmp_init {T} (dim : nat) : comp_tmp T := mkT [] [] (repeat iv_infinity dim) (repeat iv_minus_infinity dim).

(** eval_par.hh:215-222: one generated element with its index tuple *)
Fixpoint put_index (mn mx ix : list IntVal) : res (list Z * list IntVal * list IntVal) :=
  match ix, mn, mx with
  | x :: ix, m :: mn, n :: mx =>
      do z <- toInt x;
      do ' (r, mn', mx') <- put_index mn mx ix;
      Ok (to_int32 z :: r, std_min m x :: mn', std_max n x :: mx')
  | [], [], [] => Ok ([], [], [])
  | _, _, _ => UB
  end.
Definition put_element {T} (t : comp_tmp T) (ix : list IntVal) (v : T) : res (comp_tmp T) :=
  do ' (r, mn, mx) <- put_index (t_min t) (t_max t) ix;
  Ok (mkT (t_a t ++ [v]) (t_indexes t ++ [r]) mn mx).
Fixpoint put_all {T} (t : comp_tmp T) (l : list (list IntVal * T)) : res (comp_tmp T) :=
  match l with
  | [] => Ok t
  | (ix, v) :: l => do t' <- put_element t ix v; put_all t' l
  end.

(** eval_par.hh:359-379: from the last dimension to the first; size, dimSize, dims, and whether the loop was left *)
Fixpoint sizes (mn mx : list IntVal) : res (IntVal * list Z * list (Z * Z) * bool) :=
  match mn, mx with
  | m :: mn, n :: mx =>
      do ' (size, ds, dims, stop) <- sizes mn mx;
      if stop then Ok (size, 0 :: ds, (0, 0) :: dims, true)
      else if iv_eq m iv_infinity && iv_eq n iv_minus_infinity then Ok (ofZ 0, 0 :: ds, (0, 0) :: dims, true)
      else if negb (isFinite m) || negb (isFinite n) then Err EvalError
      else if iv_gt m n then Ok (ofZ 0, 0 :: ds, (0, 0) :: dims, true)
      else
        do d <- iv_sub n m; do s <- iv_add d (ofZ 1);
        do z <- toInt size;
        do size <- mul_assign size s;
        do lo <- toInt m; do hi <- toInt n;
        Ok (size, z :: ds, (to_int32 lo, to_int32 hi) :: dims, false)
  | _, _ => Ok (ofZ 1, [], [], false)
  end.

(** eval_par.hh:392-397 *)
Fixpoint place_index (ix : list Z) (mn : list IntVal) (ds : list Z) (idx : Z) : res Z :=
  match ix, mn, ds with
  | x :: ix, m :: mn, d :: ds =>
      do c <- iv_sub (ofZ x) m;
      do c <- mul_assign c (ofZ d);
      do z <- toInt c;
      do idx <- i32 (idx + to_int32 z);
      place_index ix mn ds idx
  | _, _, _ => Ok idx
  end.
Definition set_nth {A} (l : list A) (i : Z) (x : A) : res (list A) :=
  do _ <- at_ l i; Ok (firstn (Z.to_nat i) l ++ x :: skipn (S (Z.to_nat i)) l).
(** eval_par.hh:388-404; elements not yet assigned are None *)
Fixpoint place {T} (mn : list IntVal) (ds : list Z) (ixs : list (list Z)) (vs : list T) (seen : list bool) (a : list (option T))
  : res (list (option T)) :=
  match ixs, vs with
  | ix :: ixs, v :: vs =>
      do idx <- place_index ix mn ds 0;
      do s <- at_ seen idx;
      if s then Err EvalError
      else
        do seen <- set_nth seen idx true;
        do a <- set_nth a idx (Some v);
        place mn ds ixs vs seen a
  | _, _ => Ok a
  end.

(** eval_par.hh:358-404: the array of an indexed comprehension *)
Definition arrange {T} (t : comp_tmp T) : res (list (option T) * list (Z * Z)) :=
  do ' (size, ds, dims, _) <- sizes (t_min t) (t_max t);
  if iv_ne size (ofZ (len (t_a t))) then Err EvalError
  else
    let dims := if iv_eq size (ofZ 0) then map (fun _ => (1, 0)) dims else dims in
    do a <- place (t_min t) ds (t_indexes t) (t_a t) (map (fun _ => false) (t_a t)) (map (fun _ => None) (t_a t));
    Ok (a, dims).

(** the comprehension that generates the elements l with their index tuples of length dim *)
Definition indexed_comp {T} (dim : nat) (l : list (list IntVal * T)) : res (list (option T) * list (Z * Z)) :=
  do t <- put_all (tmp_init dim) l; arrange t.

(** ** Enumeration of generators *)
Section Comp.
Variable val : Type.   (* evaluated expressions *)
Definition store := nat -> option val.   (* e() of the declarations of generator variables *)
Definition supd (s : store) (d : nat) (v : option val) : store := fun x => if Nat.eqb x d then v else s x.

(** the state: the declarations, and the trail with its marks (None), from its back (lib/gc.cpp:680-698) *)
Record cstate := mkCS { cs_store : store; cs_trail : list (option (nat * option val)) }.
Definition mark (s : cstate) : cstate := mkCS (cs_store s) (None :: cs_trail s).
(** VarDecl::trail, lib/ast.cpp:1049-1054 *)
Definition trail (d : nat) (s : cstate) : cstate := mkCS (cs_store s) (Some (d, cs_store s d) :: cs_trail s).
Definition assign (d : nat) (v : val) (s : cstate) : cstate := mkCS (supd (cs_store s) d (Some v)) (cs_trail s).
Fixpoint untrail_loop (t : list (option (nat * option val))) (s : store) : option cstate :=
  match t with
  | [] => None
  | None :: r => Some (mkCS s r)
  | Some (d, v) :: r => untrail_loop r (supd s d v)
  end.

(** a generator: d1,...,dn in e where w, or the assignment d = e (in(gen) == nullptr, the expression is where(gen)).
    The expressions are evaluated in the current declarations: an array or the increasing list of the values of a set; an error
    (also for an infinite set, eval_par.hh:273-275) is None.  A where-clause of var type is not evaluated here
    (eval_par.hh:208-211) and is None. *)
Inductive gen :=
| GIn (ds : list nat) (e : store -> option (list val)) (w : option (store -> option bool))
| GAsn (d : nat) (e : store -> option val).

(** the element expression *)
Variable T : Type.
Variable body : store -> option T.

Inductive run_out := Done (s : cstate) (a : list T) | Thrown (s : cstate) | Undefined.

(** GC::untrail at the end, eval_par.hh:257 *)
Definition finish (o : run_out) : run_out :=
  match o with
  | Done s a => match untrail_loop (cs_trail s) (cs_store s) with Some s' => Done s' a | None => Undefined end
  | _ => o
  end.

(** eval_comp_set and eval_comp_array with the list of values, eval_par.hh:269-298: call f for every value *)
Fixpoint each (l : list val) (f : val -> cstate -> list T -> run_out) (s : cstate) (a : list T) : run_out :=
  match l with
  | [] => Done s a
  | v :: l => match f v s a with Done s' a' => each l f s' a' | o => o end
  end.

(** eval_comp_array(env, eval, e, gen, id, i, in, a), eval_par.hh:179-259, for the variables ds of one generator from id on; k is
    what happens behind the where-clause *)
Fixpoint gen_ids (ds : list nat) (l : list val) (w : option (store -> option bool)) (k : cstate -> list T -> run_out)
  (s : cstate) (a : list T) : run_out :=
  match ds with
  | [] => Undefined
  | d :: ds' =>
      each l (fun v s a =>
        let s := assign d v (trail d (mark s)) in
        finish
          match ds' with
          | [] =>
              match w with
              | None => k s a
              | Some w => match w (cs_store s) with
                          | None => Thrown s
                          | Some true => k s a
                          | Some false => Done s a
                          end
              end
          | _ => gen_ids ds' l w k s a
          end) s a
  end.

Fixpoint gens (gs : list gen) (s : cstate) (a : list T) : run_out :=
  match gs with
  | [] => match body (cs_store s) with None => Thrown s | Some t => Done s (a ++ [t]) end
  | GIn ds e w :: gs =>
      match e (cs_store s) with
      | None => Thrown s
      | Some l => gen_ids ds l w (gens gs) s a
      end
  | GAsn d e :: gs =>
      let s := trail d (mark s) in
      match e (cs_store s) with
      | None => Thrown s
      | Some v => finish (gens gs (assign d v s) a)
      end
  end.
End Comp.
Arguments mkCS {val}. Arguments cs_store {val}. Arguments cs_trail {val}. Arguments supd {val}.
Arguments GIn {val}. Arguments GAsn {val}. Arguments Done {val T}. Arguments Thrown {val T}. Arguments Undefined {val T}.
Arguments gens {val T}. Arguments gen_ids {val T}. Arguments each {val T}. Arguments finish {val T}.
Arguments mark {val}. Arguments trail {val}. Arguments assign {val}. Arguments untrail_loop {val}.
