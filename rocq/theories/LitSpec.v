(** Independent specification for the storage of literals and locations. *)
Require Import ZArith List Bool.
From Verif Require Import Base IntValModel IntValSpec LitModel.
Import ListNotations.
Open Scope Z_scope.

(** a node address: what the allocator returns *)
Definition node_address (a : Z) : Prop := 0 < a < 2 ^ 64 /\ a mod 8 = 0.
Definition free_address (st : lit_state) (a : Z) : Prop := node_address a /\ ls_heap st a = None.

(** the bits of a double that is not infinite or NaN *)
Definition finite_double (b : Z) : Prop := 0 <= b < 2 ^ 64 /\ (b / 2 ^ 52) mod 2 ^ 11 <> 2047.

(** what a program can do with literals, and what it can still hold a pointer to afterwards *)
Inductive event : Type :=
| MakeInt (v : IntVal) (addr : Z)
| MakeFloat (bits : Z) (addr : Z)
| Collect (dead : Z -> bool).
Definition possible (st : lit_state) (e : event) : Prop :=
  match e with
  | MakeInt v addr => wf v /\ free_address st addr
  | MakeFloat b addr => finite_double b /\ free_address st addr
  | Collect _ => True
  end.
Definition after (st : lit_state) (e : event) : lit_state :=
  match e with
  | MakeInt v addr => fst (intlit_a st v addr)
  | MakeFloat b addr => fst (floatlit_a st b addr)
  | Collect dead => collect st dead
  end.
Inductive history : lit_state -> list event -> lit_state -> Prop :=
| hist_nil : forall st, history st [] st
| hist_cons : forall st e es st', possible st e -> history (after st e) es st' -> history st (e :: es) st'.
(** the pointer is not freed by any collection of the history *)
Definition kept (p : Z) (es : list event) : Prop := forall dead, In (Collect dead) es -> dead p = false.
(** a state of the running program *)
Definition reachable (st : lit_state) : Prop := exists es, history ls_init es st.

Definition u32_range (z : Z) : Prop := 0 <= z < 2 ^ 32.
