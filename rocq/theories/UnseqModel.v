(** Model of the loops that run with std::execution::unseq in src/utils/state_management.cpp and
    src/utils/tree_node.cpp: the calls for distinct elements are not sequenced with one another, so
    that their parts may happen in any order that keeps the order of the parts of each call.  In
    HistModel.v these loops are sequential.  No proofs in this file.

    Simplifications: those of HistModel.v; what is not split further is a part: a jump, the erasing of
    the states, the erasing of the ordered timepoints, the request of a jump, the destruction of an
    object.  [weak_ptr::lock] is done at each part: an object destroyed in between takes no part. *)
From Coq Require Import List Arith Bool.
From Verif Require Import HistModel.
Import ListNotations.

(** The parts of a call to [Originator::erase] (state_management.hpp 241-257), a call to
    [Originator::go] (212-214), and the destruction of an object whose last shared_ptr was in a state
    that another object erased. *)
Inductive part := Jump (o : oid) | Drop_states (o : oid) | Drop_order (o : oid) | Ask (o : oid) (t : tp) | Die (o : oid).

Section WithStates.
Context {V A : Type}.

(** hpp 245-250 *)
Definition erasable (ts : list tp) (x : orig V) (t : tp) : bool :=
  if (t =? o_init x) || (t =? o_cur x) then false else mem t ts.
(** hpp 252-254 *)
Definition drop_states (ts : list tp) (x : orig V) : orig V :=
  mkOrig (o_const x) (o_init x) (o_cur x) (o_lazy x) (filter (fun kv => negb (erasable ts x (fst kv))) (o_states x)) (o_order x).
(** hpp 255-257 *)
Definition drop_order (ts : list tp) (x : orig V) : orig V :=
  mkOrig (o_const x) (o_init x) (o_cur x) (o_lazy x) (o_states x) (filter (fun k => negb (erasable ts x k)) (o_order x)).

(** What a part does to an object, if it is there (cpp 64-65, 217-218). *)
Definition on_object (o : oid) (f : orig V -> outcome (orig V)) (objs : list (oid * orig V)) : outcome (list (oid * orig V)) :=
  match assoc o objs with
  | None => Ok objs
  | Some x => do x' <- f x; Ok (update_obj o x' objs)
  end.
Definition do_part (h : heap) (ts : list tp) (p : part) (objs : list (oid * orig V)) : outcome (list (oid * orig V)) :=
  match p with
  | Jump o => on_object o (actually_go h) objs
  | Drop_states o => on_object o (fun x => Ok (drop_states ts x)) objs
  | Drop_order o => on_object o (fun x => Ok (drop_order ts x)) objs
  | Ask o t => on_object o (fun x => Ok (go t x)) objs
  | Die o => Ok (filter (fun e => negb (fst e =? o)) objs)
  end.
Fixpoint do_parts (h : heap) (ts : list tp) (l : list part) (objs : list (oid * orig V)) : outcome (list (oid * orig V)) :=
  match l with [] => Ok objs | p :: r => do objs' <- do_part h ts p objs; do_parts h ts r objs' end.

(** cpp 64-65, 217-218: one call. *)
Definition erasing (o : oid) : list part := [Jump o; Drop_states o; Drop_order o].
Definition asking (t : tp) (o : oid) : list part := [Ask o t].

(** cpp 40-80, but for the loop of step 3: [order] are its parts as they happen, with the destructions
    it brings about. *)
Definition collector_with (order : list part) (w : world V A) : outcome (world V A) :=
  if forallb (alive (w_heap w)) (w_pins w ++ w_hist w ++ [w_cur w]) then
    let rm := gc_remove w in
    do objs <- do_parts (w_heap w) rm order (w_objs w);
    Ok (mkWorld (w_auto w)
                (erase_from_descendants (w_heap w) (w_root w) rm)
                (w_root w) (w_cur w)
                (filter (fun o => match assoc o objs with Some _ => true | None => false end) (w_regs w))
                (w_pins w) (w_hist w) (w_brow w)
                (filter (fun e => negb (mem (fst e) rm)) (w_ann w))
                objs)
  else UB.

(** cpp 213-224, likewise. *)
Definition go_with (order : list part) (t : tp) (w : world V A) : outcome (world V A * bool) :=
  if t =? null then Ok (w, false)
  else if alive (w_heap w) t then
    if root_of (w_heap w) t =? w_root w then
      do objs <- do_parts (w_heap w) [] order (w_objs w);
      Ok (set_objs (set_cur w t) objs, true)
    else Ok (w, false)
  else UB.

(** tree_node.cpp 105-112: [order a] are the ancestors of the other node as they are compared with
    [a]. *)
Definition common_ancestor_with (order : tp -> list tp) (h : heap) (a : tp) (include_themselves : bool) : tp :=
  match find (fun x => existsb (Nat.eqb x) (order x)) (ancestors h include_themselves a) with
  | Some x => x
  | None => null
  end.

(** ** Operations
    Those of HistModel.v that run an unsequenced loop, for a collector [gc] and a jump [jump]; same
    lines of state_management.cpp. *)
Context (gc : list oid -> world V A -> outcome (world V A)) (jump : tp -> world V A -> outcome (world V A * bool)).

(** 30-37 *)
Definition reset_with (dying : list oid) (w : world V A) : outcome (world V A) :=
  gc dying (mkWorld (w_auto w) (w_heap w) (w_root w) (w_root w) [] [] (firstn 1 (w_hist w)) None (w_ann w) (w_objs w)).
(** 83-92 *)
Definition stop_browsing_with (dying : list oid) (w : world V A) : outcome (world V A) :=
  match w_brow w with
  | Some k =>
      let w' := set_hist w (firstn (S k) (w_hist w)) None in
      if w_auto w' then gc dying w' else Ok w'
  | None => Ok w
  end.
(** 110-114 *)
Definition make_next_timepoint_with (dying : list oid) (a : tp) (w : world V A) : outcome (world V A) :=
  do w1 <- stop_browsing_with dying w;
  if alive (w_heap w1) (w_cur w1)
  then Ok (set_cur (set_heap w1 (add_child (w_heap w1) (w_cur w1) a)) a)
  else UB.
(** 227-232 *)
Definition go_and_remember_with (t : tp) (w : world V A) : outcome (world V A * bool) :=
  do r <- jump t w;
  if snd r then Ok (remember_current_timepoint (fst r), true) else Ok r.
(** 140-143 and 154-157 *)
Definition browse_to_with (k : nat) (w : world V A) : outcome (world V A) :=
  let t := nth k (w_hist w) null in
  let w1 := set_hist (set_cur w t) (w_hist w) (if k =? length (w_hist w) - 1 then None else Some k) in
  do r <- jump t w1; Ok (fst r).
(** 127-144 *)
Definition undo_with (n : nat) (w : world V A) : outcome (world V A) :=
  if (n =? 0) || negb (can_undo n w) then Ok w
  else match w_brow w with
       | Some k => browse_to_with (k - n) w
       | None =>
           let n' := if last (w_hist w) null =? w_cur w then n else n - 1 in
           browse_to_with (length (w_hist w) - 1 - n') w
       end.
(** 147-158 *)
Definition redo_with (n : nat) (w : world V A) : outcome (world V A) :=
  if (n =? 0) || negb (can_redo n w) then Ok w
  else match w_brow w with
       | Some k => browse_to_with (Nat.min (length (w_hist w) - 1) (k + n)) w
       | None => UB
       end.
(** 190-194 *)
Definition unpin_with (dying : list oid) (t : tp) (w : world V A) : outcome (world V A) :=
  let w' := set_pins w (filter (fun x => negb (x =? t)) (w_pins w)) in
  if w_auto w' then gc dying w' else Ok w'.

(** The operations of HistModel.v; those that are not here run no such loop. *)
Definition step_with (w : world V A) (x : op V A) : outcome (world V A) :=
  match x with
  | NextTimepoint a dying => make_next_timepoint_with dying a w
  | Undo n => undo_with n w
  | Redo n => redo_with n w
  | GoWithoutRemembering t => do r <- jump t w; Ok (fst r)
  | GoAndRemember t => do r <- go_and_remember_with t w; Ok (fst r)
  | Unpin t dying => unpin_with dying t w
  | Collect dying => gc dying w
  | Reset dying => reset_with dying w
  | _ => step w x
  end.
End WithStates.
