(** Specification for C23, C24 and C25: abstract machines that know nothing of trails, lists and rings. *)
Require Import ZArith List Bool Lia.
From Verif Require Import Base RootModel.
Import ListNotations.
Open Scope Z_scope.

(** ** C23.  A stack of frames; a frame remembers for each location the value it had when it was first saved in that frame *)
Definition frame := Z -> option val.
Definition fsave (f : frame) (l : Z) (v : val) : frame :=
  fun x => if x =? l then (match f x with Some w => Some w | None => Some v end) else f x.
Definition undo (f : frame) (m : cells) : cells := fun x => match f x with Some v => v | None => m x end.
(** [None]: there is no mark to return to.  Saving outside of all marks has no effect. *)
Definition abs_step (o : trail_op) (s : list frame * cells) : option (list frame * cells) :=
  let '(fs, m) := s in
  match o with
  | OMark => Some ((fun _ => None) :: fs, m)
  | OTrail l => match fs with [] => Some ([], m) | f :: r => Some (fsave f l (m l) :: r, m) end
  | OSet l v => Some (fs, fun x => if x =? l then v else m x)
  | OUntrail => match fs with [] => None | f :: r => Some (r, undo f m) end
  end.
Fixpoint abs_run (ops : list trail_op) (s : list frame * cells) : option (list frame * cells) :=
  match ops with
  | [] => Some s
  | o :: r => match abs_step o s with None => None | Some s' => abs_run r s' end
  end.

(** Sections of a history in which every mark is matched by an untrail and every write is preceded by a save of the location
    in the same section or in the enclosing ones up to the mark: trailed writes *)
Inductive trailed : list trail_op -> Prop :=
| trailed_nil : trailed []
| trailed_write : forall l v r, trailed r -> trailed (OTrail l :: OSet l v :: r)
| trailed_save : forall l r, trailed r -> trailed (OTrail l :: r)
| trailed_nest : forall b r, trailed b -> trailed r -> trailed (OMark :: b ++ OUntrail :: r).

(** ** C24.  The handles that exist with the pointer each of them holds *)
Definition held := Z -> option val.
Definition hold (m : held) (a : Z) (v : option val) : held := fun x => if x =? a then v else m x.
Definition free_addr (a : Z) (m : held) : Prop := a <> 0 /\ m a = None.
Inductive held_step : held -> ka_op -> held -> Prop :=
| hs_new : forall m a e, free_addr a m -> held_step m (KNew a e) (hold m a (Some e))
| hs_del : forall m a e, m a = Some e -> held_step m (KDel a) (hold m a None)
| hs_copy : forall m a b e, free_addr a m -> m b = Some e -> held_step m (KCopy a b) (hold m a (Some e))
| hs_move : forall m a b e, free_addr a m -> m b = Some e -> held_step m (KMove a b) (hold (hold m a (Some e)) b (Some VNull))
| hs_assign : forall m a b d e, m a = Some d -> m b = Some e -> held_step m (KAssign a b) (hold m a (Some e)).
Inductive held_run : held -> list ka_op -> held -> Prop :=
| hr_nil : forall m, held_run m [] m
| hr_cons : forall m o m1 r m2, held_step m o m1 -> held_run m1 r m2 -> held_run m (o :: r) m2.

(** ** Markers: the set of markers that exist *)
Definition exist := Z -> bool.
Inductive exist_step : exist -> marker_op -> exist -> Prop :=
| es_add : forall m a, a <> 0 -> m a = false -> exist_step m (MAdd a) (fun x => if x =? a then true else m x)
| es_rem : forall m a, m a = true -> exist_step m (MRemove a) (fun x => if x =? a then false else m x).
Inductive exist_run : exist -> list marker_op -> exist -> Prop :=
| er_nil : forall m, exist_run m [] m
| er_cons : forall m o m1 r m2, exist_step m o m1 -> exist_run m1 r m2 -> exist_run m (o :: r) m2.

(** ** C25.  What the property asks for: every weak reference has a target, which is dropped when its node is collected *)
Definition weak_target (alive : Z -> bool) (v : val) : val :=
  match v with VNode x => if alive x then VNode x else VNull | _ => v end.

(** Histories of weak references, with the intended pointer of each of them.  Nodes are allocated at fresh addresses and only
    pointers to allocated nodes are stored. *)
Definition val_alive (alive : Z -> bool) (v : val) : Prop := match v with VNode x => alive x = true | _ => True end.
Inductive weak_step : held * (Z -> bool) -> wr_op -> held * (Z -> bool) -> Prop :=
| ws_node : forall d al x, al x = false -> weak_step (d, al) (WNode x) (d, fun y => if y =? x then true else al y)
| ws_new : forall d al a e, free_addr a d -> val_alive al e -> weak_step (d, al) (WNew a e) (hold d a (Some e), al)
| ws_del : forall d al a e, d a = Some e -> weak_step (d, al) (WDel a) (hold d a None, al)
| ws_copy : forall d al a b e, free_addr a d -> d b = Some e -> weak_step (d, al) (WCopy a b) (hold d a (Some e), al)
| ws_assign : forall d al a b v e, d a = Some v -> d b = Some e -> weak_step (d, al) (WAssign a b) (hold d a (Some e), al)
| ws_collect : forall d al keep, weak_step (d, al) (WCollect keep) (fun a => option_map (weak_target keep) (d a), fun x => al x && keep x).
Inductive weak_run : held * (Z -> bool) -> list wr_op -> held * (Z -> bool) -> Prop :=
| wrn_nil : forall s, weak_run s [] s
| wrn_cons : forall s o s1 r s2, weak_step s o s1 -> weak_run s1 r s2 -> weak_run s (o :: r) s2.

(** The restriction: in every collection of the history the target of the reference that is first in the collector's list (the
    one registered last) survives *)
Definition head_survives (keep : Z -> bool) (s : hlist) : Prop :=
  forall h x, hl_m s (hl_head s) = Some h -> h_e h = VNode x -> keep x = true.
Fixpoint heads_survive (fuel : nat) (ops : list wr_op) (st : hlist * (Z -> bool)) : Prop :=
  match ops with
  | [] => True
  | o :: r => match o with WCollect keep => head_survives keep (fst st) | _ => True end /\
              forall st', wr_step fuel o st = Ok st' -> heads_survive fuel r st'
  end.
Definition no_copies (ops : list wr_op) : Prop :=
  forall o, In o ops -> match o with WCopy _ _ | WAssign _ _ => False | _ => True end.
