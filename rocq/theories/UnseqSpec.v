(** What the property of unsequenced loops says: in which orders their parts may happen. *)
From Coq Require Import List.
From Verif Require Import HistModel HistSpec UnseqModel.
Import ListNotations.

(** [l] has all the parts of the calls, those of each call in their order. *)
Inductive interleaved {X : Type} : list (list X) -> list X -> Prop :=
| interleaved_end calls : Forall (fun c => c = []) calls -> interleaved calls []
| interleaved_next before x call after l :
    interleaved (before ++ call :: after) l -> interleaved (before ++ (x :: call) :: after) (x :: l).

(** The orders of the loop that erases the states of the objects, while those in [dying] are destroyed
    at any moment. *)
Definition erasing_order (regs dying : list oid) (l : list part) : Prop :=
  interleaved (map erasing regs ++ map (fun o => [Die o]) dying) l.
(** ... and of the loop that asks them to jump. *)
Definition asking_order (t : tp) (regs : list oid) (l : list part) : Prop := interleaved (map (asking t) regs) l.

Section WithStates.
Context {V A : Type}.
(** What an operation may do: its loops run in some orders, which may depend on anything. *)
Definition may_step (w : world V A) (x : op V A) (r : outcome (world V A)) : Prop :=
  exists (erasings : list oid -> world V A -> list part) (askings : tp -> world V A -> list part),
    (forall dying v, erasing_order (w_regs v) dying (erasings dying v))
    /\ (forall t v, asking_order t (w_regs v) (askings t v))
    /\ r = step_with (fun dying v => collector_with (erasings dying v) v) (fun t v => go_with (askings t v) t v) w x.
(** Worlds reached as in [reachable], with loops in any orders. *)
Inductive reachable_unsequenced : world V A -> ghost V -> Prop :=
| unsequenced_init r : r <> null -> reachable_unsequenced (init_world r) ghost0
| unsequenced_step w g x w' :
    reachable_unsequenced w g -> permitted w g x -> may_step w x (Ok w') -> births_alive w' (gstep g w x) ->
    reachable_unsequenced w' (gstep g w x).
End WithStates.
