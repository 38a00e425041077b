(** Specification side of the history: a reference machine that stores a full
    snapshot of every object at every timepoint, for ever, with timepoints
    numbered by serials that are never reused.  No proofs in this file. *)
From Coq Require Import List Arith Bool.
From Verif Require Import HistModel.
Import ListNotations.

(** [reaches h t u]: [u] is [t] or is met when following parents from [t]. *)
Inductive reaches (h : heap) : tp -> tp -> Prop :=
| reaches_self t p : In (t, p) h -> reaches h t t
| reaches_parent t p u : In (t, p) h -> reaches h p u -> reaches h t u.

Section WithStates.
Context {V A : Type}.

(** The reference machine. *)
Record ghost := mkGhost {
  g_n : nat;                          (* next serial *)
  g_ser : tp -> nat;                  (* serial of a live timepoint *)
  g_path : nat -> list nat;           (* serial, parent's serial, ..., root's *)
  g_snap : nat -> oid -> option V;    (* full snapshot: None = not existing yet *)
  g_made : oid -> option (tp * V);    (* objects ever constructed *)
  g_first : oid -> option V;          (* objects ever registered, initial state *)
  g_born : oid -> nat;                (* serial of the creation timepoint of registered objects *)
  g_wrote : list (oid * nat)          (* who wrote at which serial *)
}.

Definition upd {X} (f : nat -> X) (k : nat) (x : X) : nat -> X :=
  fun k' => if k' =? k then x else f k'.

Definition ghost0 : ghost :=
  mkGhost 1 (fun _ => 0) (fun _ => [0]) (fun _ _ => None) (fun _ => None) (fun _ => None) (fun _ => 0) [].

(** Writing [v] at [s]: every snapshot of [s] and of the timepoints derived
    from [s] now holds [v]. *)
Definition snap_write (g : ghost) (s : nat) (o : oid) (v : V) : nat -> oid -> option V :=
  fun u o' => if (o' =? o) && mem s (g_path g u) then Some v else g_snap g u o'.

(** The reference machine's reaction to an operation done in world [w]. *)
Definition gstep (g : ghost) (w : world V A) (x : op V A) : ghost :=
  match x with
  | NextTimepoint a _ =>
      (* the new timepoint starts as a copy of the current one *)
      let c := g_ser g (w_cur w) in
      mkGhost (S (g_n g)) (upd (g_ser g) a (g_n g)) (upd (g_path g) (g_n g) (g_n g :: g_path g c))
              (upd (g_snap g) (g_n g) (g_snap g c)) (g_made g) (g_first g) (g_born g) (g_wrote g)
  | Create o _ t v =>
      mkGhost (g_n g) (g_ser g) (g_path g) (g_snap g) (upd (g_made g) o (Some (t, v))) (g_first g) (g_born g) (g_wrote g)
  | TakeCareOf o =>
      match g_made g o with
      | Some (t, v) =>
          mkGhost (g_n g) (g_ser g) (g_path g) (snap_write g (g_ser g t) o v) (g_made g)
                  (upd (g_first g) o (Some v)) (upd (g_born g) o (g_ser g t)) ((o, g_ser g t) :: g_wrote g)
      | None => g
      end
  | SetState o t v =>
      if mem o (w_regs w) then
        mkGhost (g_n g) (g_ser g) (g_path g) (snap_write g (g_ser g t) o v) (g_made g) (g_first g) (g_born g)
                ((o, g_ser g t) :: g_wrote g)
      else g
  | _ => g
  end.

(** An object the Caretaker knows and that is not destroyed. *)
Definition tracked (w : world V A) (o : oid) : Prop :=
  In o (w_regs w) /\ assoc o (w_objs w) <> None.

(** No tracked object outlives its creation timepoint (identified by its
    serial: another timepoint allocated at the same address does not count). *)
Definition births_alive (w : world V A) (g : ghost) : Prop :=
  forall o, tracked w o -> exists t, alive (w_heap w) t = true /\ g_ser g t = g_born g o.

(** [t] is live and on the branch of the current timepoint. *)
Definition on_branch (w : world V A) (t : tp) : Prop := reaches (w_heap w) (w_cur w) t.

(** What a client may do:
    - the allocator returns a free non-null address;
    - object identities are fresh;
    - an object is registered once, before being written, on the current branch;
    - a registered object is written on the current branch, once per timepoint;
    - jump targets are live or null. *)
Definition permitted (w : world V A) (g : ghost) (x : op V A) : Prop :=
  match x with
  | NextTimepoint a dying =>
      a <> null /\
      forall w1, stop_browsing_user_history dying w = Ok w1 -> alive (w_heap w1) a = false
  | Create o _ _ _ => g_made g o = None
  | TakeCareOf o =>
      g_first g o = None /\ assoc o (w_objs w) <> None /\
      (forall t v, g_made g o = Some (t, v) -> on_branch w t)
  | SetState o t _ => tracked w o /\ on_branch w t /\ ~ In (o, g_ser g t) (g_wrote g)
  | Read o => tracked w o
  | GoWithoutRemembering t | GoAndRemember t => t = null \/ alive (w_heap w) t = true
  | _ => True
  end.

(** Worlds reached by permitted operations from a new Caretaker, when objects
    never outlive their creation timepoint. *)
Inductive reachable : world V A -> ghost -> Prop :=
| reach_init r : r <> null -> reachable (init_world r) ghost0
| reach_step w g x w' :
    reachable w g -> permitted w g x -> step w x = Ok w' -> births_alive w' (gstep g w x) ->
    reachable w' (gstep g w x).

(** What the snapshot machine reports for an object at a timepoint: its
    snapshot there or, before it exists, its initial state. *)
Definition snapshot (g : ghost) (t : tp) (o : oid) : option V :=
  match g_snap g (g_ser g t) o with
  | Some v => Some v
  | None => g_first g o
  end.

End WithStates.
Arguments ghost V : clear implicits.
