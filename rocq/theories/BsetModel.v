(** Model of the builtins on arrays of integer sets (lib/builtins.cpp:2988-3053).  An array is the list of the
    values of its elements; the evaluation of the elements is not modelled (C69). *)
Require Import ZArith List Bool.
From Verif Require Import Base IntValModel SetModel.
Import ListNotations.
Open Scope Z_scope.

(** lib/builtins.cpp:2988-3002 b_array_union; the loop starts again with the first element *)
Fixpoint union_loop (acc : iset) (l : list iset) : res iset :=
  match l with
  | [] => Ok acc
  | s :: l => do u <- set_union acc s; union_loop u l
  end.
Definition array_union (l : list iset) : res iset :=
  match l with
  | [] => Ok []                            (* 2991-2993 *)
  | s :: _ => union_loop s l               (* 2994-3001 *)
  end.

(** What the for loop of b_array_intersect does with the interval [min, max]: leave by "goto done", by
    "goto restart" with a new interval, or through the end of the loop. *)
Inductive scan_out : Type :=
| Done
| Again (mn mx : IntVal)
| Through (mn mx : IntVal).

(** lib/builtins.cpp:3018-3038 the for loop.  [l] holds the sets in the order in which the loop visits them,
    from the last to the first.  3021-3023 are [skip_below] (SetModel.v). *)
Fixpoint scan (l : list iset) (mn mx : IntVal) : scan_out :=
  match l with
  | [] => Through mn mx
  | s :: l =>
      match skip_below s mn with
      | [] => Done                                                 (* 3024-3026 *)
      | (a, b) :: _ =>
          if iv_gt a mx then Again a b                           (* 3027-3031 *)
          else scan l (if iv_lt mn a then a else mn)               (* 3033-3035 *)
                      (if iv_gt mx b then b else mx)               (* 3036-3038 *)
      end
  end.

(** lib/builtins.cpp:3014-3043 the while loop.  The iterator i0r is never advanced: i0r() is true and i0r.max()
    is [max0], the end of the first range, all the time.  One unit of fuel is one execution of the for loop; the
    C++ code has no such bound. *)
Fixpoint meet_loop (fuel : nat) (l : list iset) (max0 mn mx : IntVal) (ranges : iset) : res iset :=
  match fuel with
  | O => Err OutOfFuel
  | S n =>
      match scan l mn mx with
      | Done => Ok ranges                                          (* 3044-3045 *)
      | Again a b => meet_loop n l max0 a b ranges
      | Through a b =>
          do next <- iv_add b (ofZ 2);                             (* 3040-3042 *)
          meet_loop n l max0 next max0 (ranges ++ [(a, b)])
      end
  end.

(** lib/builtins.cpp:3004-3053 b_array_intersect *)
Definition array_intersect (fuel : nat) (l : list iset) : res iset :=
  match l with
  | [] => Err EvalError                                            (* 3049-3052 *)
  | [] :: _ => Ok []                                               (* 3046-3048 *)
  | ((a0, b0) :: _) :: _ => meet_loop fuel (rev l) b0 a0 b0 []
  end.
