(** What the property of the automatic collection says. *)
From Coq Require Import List.
From Verif Require Import HistModel HistSpec.
Import ListNotations.

Section WithStates.
Context {V A : Type}.
(** Worlds reached as in [reachable] by a client that does not touch the setting. *)
Inductive untouched : world V A -> ghost V -> Prop :=
| untouched_init r : r <> null -> untouched (init_world r) ghost0
| untouched_step w g x w' :
    untouched w g -> (forall b, x <> SetAutoGc b) -> permitted w g x -> step w x = Ok w' -> births_alive w' (gstep g w x) ->
    untouched w' (gstep g w x).

(** A timepoint is [needed] for those in [roots]: it is one of them or above one of them. *)
Definition needed (h : heap) (roots : tp -> Prop) (t : tp) : Prop := exists u, roots u /\ reaches h u t.

(** Whether an operation may remove timepoints: a collection is asked for, the
    history starts anew, or it is automatic and a timepoint is unpinned or made
    while browsing. *)
Definition may_collect (w : world V A) (x : op V A) : bool :=
  match x with
  | NextTimepoint _ _ => match w_brow w with Some _ => w_auto w | None => false end
  | Unpin _ _ => w_auto w
  | Collect _ | Reset _ => true
  | _ => false
  end.

(** An operation that leaves the current timepoint without making one under it. *)
Definition leaves (x : op V A) : bool :=
  match x with Undo _ | Redo _ | GoWithoutRemembering _ | GoAndRemember _ => true | _ => false end.

(** The current timepoint is needed for one that is pinned or remembered. *)
Definition anchored (w : world V A) : Prop := needed (w_heap w) (fun u => In u (w_pins w) \/ In u (w_hist w)) (w_cur w).

(** Worlds reached by a client that does not touch the setting, and remembers or
    pins the current timepoint, or one under it, before leaving it. *)
Inductive careful : world V A -> ghost V -> Prop :=
| careful_init r : r <> null -> careful (init_world r) ghost0
| careful_step w g x w' :
    careful w g -> (forall b, x <> SetAutoGc b) -> (leaves x = true -> anchored w) ->
    permitted w g x -> step w x = Ok w' -> births_alive w' (gstep g w x) -> careful w' (gstep g w x).
End WithStates.
