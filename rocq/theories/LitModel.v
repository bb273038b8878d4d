(** Model of the storage of literals and source locations on 64-bit platforms
    (include/minizinc/ast.hh:366-595, include/minizinc/ast.hpp:58-187, lib/ast.cpp:53-100).
    Pointers and unsigned 64-bit integers are numbers below 2^64. *)
Require Import ZArith List Bool.
From Verif Require Import Base IntValModel.
Import ListNotations.
Open Scope Z_scope.

Definition u64 (z : Z) : Z := z mod 2 ^ 64.

(** ** Tagged pointers *)
(* ast.hh:574-592, 498-526 with sizeof(double) <= sizeof(void* ) *)
Definition isUnboxedVal (p : Z) : bool := negb (Z.land p 3 =? 0).
Definition isUnboxedInt (p : Z) : bool := Z.land p 3 =? 2.
Definition isUnboxedFloatVal (p : Z) : bool := Z.land p 1 =? 1.
Definition isTagged (p : Z) : bool := if isUnboxedVal p then false else Z.land p 7 =? 4.
Definition tag (p : Z) : Z := Z.lor p 4.
Definition untag (p : Z) : Z := if isUnboxedVal p then p else Z.ldiff p 4.

(* ast.hh:427-440 intToUnboxedInt, pointerBits = 64; None is nullptr *)
Definition maxUnboxedVal : Z := Z.shiftl 1 (64 - 3) - 1.
Definition intToUnboxedInt (i : Z) : option Z :=
  if (i <? - maxUnboxedVal) || (i >? maxUnboxedVal) then None
  else
    let j := if i <? 0 then - i else i in
    let p := Z.lor (u64 (Z.shiftl j 3)) 2 in
    Some (if i <? 0 then Z.lor p 4 else p).
(* ast.hh:410-419 unboxedIntToIntVal; x & ~m is Z.ldiff x m *)
Definition unboxedIntToIntVal (p : Z) : IntVal :=
  let i := Z.ldiff p 7 in
  let pos := Z.land p 4 =? 0 in
  if pos then ofZ (Z.shiftr i 3) else ofZ (- Z.shiftr i 3).

(* ast.hh:471-496 doubleToUnboxedFloatVal; a double is given by its 64 bits *)
Definition doubleToUnboxedFloatVal (bits : Z) : option Z :=
  let exponent := Z.shiftr (Z.land bits (Z.shiftl 2047 52)) 52 in
  let go (e : Z) : option Z :=
    let sign := negb (Z.land bits (Z.shiftl 1 63) =? 0) in
    let b1 := Z.ldiff bits (Z.shiftl 2047 52) in
    let b2 := Z.lor (u64 (Z.shiftl b1 1)) 1 in
    Some (Z.lor (Z.lor b2 (Z.shiftl (if sign then 1 else 0) 63)) (u64 (Z.shiftl e 53))) in
  if negb (exponent =? 0) then
    if (exponent <? 513) || (exponent >? 1534) then None else go (exponent - 512)
  else go exponent.
(* ast.hh:454-470 unboxedFloatToFloatVal; the result is the bits of the double *)
Definition unboxedFloatToFloatVal (p : Z) : Z :=
  let bits := Z.shiftr p 1 in
  let exponent := Z.shiftr (Z.land bits (Z.shiftl 1023 52)) 52 in
  let exponent := if negb (exponent =? 0) then exponent + 512 else exponent in
  let sign := if negb (Z.land bits (Z.shiftl 1 62) =? 0) then 1 else 0 in
  Z.lor (Z.lor (Z.shiftl sign 63) (Z.shiftl exponent 52)) (Z.land bits 4503599627370495).

(* ast.hh:595-599 Expression::eid: the kind of an expression; [None] is read from the node itself *)
Inductive kind : Type := KIntLit | KFloatLit | KNode.
Definition eid (p : Z) : kind :=
  if isUnboxedInt p then KIntLit else if isUnboxedFloatVal p then KFloatLit else KNode.

(** ** Literals *)
(* What is stored in a boxed literal node *)
Inductive boxed : Type := BInt (v : IntVal) | BFloat (bits : Z).
(* The heap of boxed literals and Constants::integerMap / floatMap.  A map entry whose WeakRef is null
   is the same as no entry (ast.hpp:71, 179).  Float keys are compared by value; the keys that reach
   the map are normal numbers, for which this is equality of the bits. *)
Record lit_state : Type := mkLS {
  ls_heap : Z -> option boxed;
  ls_imap : IntVal -> option Z;
  ls_fmap : Z -> option Z }.
Definition ls_init : lit_state := mkLS (fun _ => None) (fun _ => None) (fun _ => None).
Definition put (h : Z -> option boxed) (a : Z) (b : boxed) : Z -> option boxed := fun x => if x =? a then Some b else h x.

(* ast.hpp:62-83 IntLit::a; [addr] is the address a new node gets *)
Definition intlit_a (st : lit_state) (v : IntVal) (addr : Z) : lit_state * Z :=
  match (if isFinite v then intToUnboxedInt (iv_v v) else None) with
  | Some p => (st, p)
  | None =>
      match ls_imap st v with
      | None =>
          (mkLS (put (ls_heap st) addr (BInt v)) (fun w => if iv_eq w v then Some addr else ls_imap st w) (ls_fmap st), addr)
      | Some p => (st, p)
      end
  end.
(* ast.hh:677-679 IntLit::v; None: not an integer literal *)
Definition intlit_v (st : lit_state) (p : Z) : option IntVal :=
  if isUnboxedInt p then Some (unboxedIntToIntVal p)
  else match ls_heap st p with Some (BInt v) => Some v | _ => None end.

(* ast.hpp:170-191 FloatLit::a on a finite FloatVal *)
Definition floatlit_a (st : lit_state) (bits : Z) (addr : Z) : lit_state * Z :=
  match doubleToUnboxedFloatVal bits with
  | Some p => (st, p)
  | None =>
      match ls_fmap st bits with
      | None =>
          (mkLS (put (ls_heap st) addr (BFloat bits)) (ls_imap st) (fun b => if b =? bits then Some addr else ls_fmap st b), addr)
      | Some p => (st, p)
      end
  end.
(* ast.hh:699-701 FloatLit::v *)
Definition floatlit_v (st : lit_state) (p : Z) : option Z :=
  if isUnboxedFloatVal p then Some (unboxedFloatToFloatVal p)
  else match ls_heap st p with Some (BFloat b) => Some b | _ => None end.

(* a garbage collection frees the nodes in [dead]; weak references to them become null (C25) *)
Definition collect (st : lit_state) (dead : Z -> bool) : lit_state :=
  let live (o : option Z) := match o with Some a => if dead a then None else Some a | None => None end in
  mkLS (fun a => if dead a then None else ls_heap st a) (fun v => live (ls_imap st v)) (fun b => live (ls_fmap st b)).

(** ** Locations *)
(* ast.hh:168-189 LocVec: the combined layout has 2 words, the other one 5 *)
Inductive locvec : Type :=
| Loc2 (file : Z) (combined : IntVal)
| Loc5 (file : Z) (first_line last_line first_column last_column : IntVal).

(* unsigned int arithmetic *)
Definition u32 (z : Z) : Z := z mod 2 ^ 32.

(* ast.cpp:53-100 LocVec::a, pointerBits >= 64; arguments are unsigned ints *)
Definition locvec_a (file fl fc ll_ lc : Z) : locvec :=
  if (fl <? 2 ^ 20) && (u32 (ll_ - fl) <? 2 ^ 20) && (fc <? 2 ^ 10) && (lc <? 2 ^ 10) then
    let c0 := fl in
    let c1 := Z.lor c0 (Z.shiftl (u32 (ll_ - fl)) 20) in
    let c2 := Z.lor c1 (Z.shiftl fc (20 + 20)) in
    let c3 := Z.lor c2 (Z.shiftl lc (20 + 20 + 10)) in
    Loc2 file (ofZ c3)
  else Loc5 file (ofZ fl) (ofZ ll_) (ofZ fc) (ofZ lc).
(* ast.hh:207-213 Location constructor; the constructor from a ParserLocation (216-219) is locvec_a *)
Definition location (file fl fc ll_ lc : Z) : res locvec :=
  if ll_ <? fl then Err InternalError else Ok (locvec_a file fl fc ll_ lc).

(* ast.hpp:95-168; the combined literal is never negative, so ui.u = ui.i *)
Definition loc_file (l : locvec) : Z := match l with Loc2 f _ => f | Loc5 f _ _ _ _ => f end.
Definition loc_first_line (l : locvec) : Z :=
  match l with
  | Loc2 _ c => u32 (Z.land (iv_v c) 1048575)
  | Loc5 _ a _ _ _ => u32 (iv_v a)
  end.
Definition loc_last_line (l : locvec) : Z :=
  match l with
  | Loc2 _ c => u32 (Z.land (iv_v c) 1048575 + Z.land (Z.shiftr (iv_v c) 20) 1048575)
  | Loc5 _ _ b _ _ => u32 (iv_v b)
  end.
Definition loc_first_column (l : locvec) : Z :=
  match l with
  | Loc2 _ c => u32 (Z.land (Z.shiftr (iv_v c) (20 + 20)) 1023)
  | Loc5 _ _ _ c _ => u32 (iv_v c)
  end.
Definition loc_last_column (l : locvec) : Z :=
  match l with
  | Loc2 _ c => u32 (Z.land (Z.shiftr (iv_v c) (20 + 20 + 10)) 1023)
  | Loc5 _ _ _ _ d => u32 (iv_v d)
  end.
(* the integers stored in the node *)
Definition loc_ints (l : locvec) : list IntVal :=
  match l with Loc2 _ c => [c] | Loc5 _ a b c d => [a; b; c; d] end.

(* ast.hh:192-200 Location::_locInfo holds the address of the LocVec and the "introduced" flag in bit 0;
   lv() (ast.hh:196-200), isIntroduced (ast.hh:243), introduce (ast.cpp:144-151) *)
Definition loc_lv (t : Z) : Z := Z.ldiff t 1.
Definition loc_isIntroduced (t : Z) : bool := (t =? 0) || negb (Z.land t 1 =? 0).
Definition loc_introduce (t : Z) : Z := if t =? 0 then t else Z.lor t 1.
