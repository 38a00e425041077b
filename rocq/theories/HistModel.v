(** Model of src/utils/tree_node.cpp and src/utils/state_management.{hpp,cpp}:
    history tree, Caretaker and Originators.  No proofs in this file.

    Simplifications, valid for the whole file:
    - a [Timepoint*] is an address, a [nat]; [0] is [nullptr].  The allocator is
      adversarial: the address of a new timepoint is an input of the operation
      (it must be free), so addresses may be reused after a collection;
    - an originator (object) has an identity [oid], never reused (the control
      block of its [shared_ptr] outlives the [weak_ptr]s);
    - destruction of objects (last [shared_ptr] dropped) is an input of the
      operation: [Expire], or the [dying] list of the operations that collect;
    - [std::execution::unseq] loops are sequential. *)
From Coq Require Import List Arith Bool.
Import ListNotations.

Notation tp := nat (only parsing).
Notation oid := nat (only parsing).
Definition null : tp := 0.

(** Outcome of a C++ call: normal, undefined behaviour (freed or null
    timepoint dereferenced), or std::terminate (exception out of a noexcept
    function: [states.at] of a missing key). *)
Inductive outcome (X : Type) := Ok (x : X) | UB | Abort.
Arguments Ok {X} x.
Arguments UB {X}.
Arguments Abort {X}.

Definition bind {X Y} (m : outcome X) (f : X -> outcome Y) : outcome Y :=
  match m with Ok x => f x | UB => UB | Abort => Abort end.
Notation "'do' x <- m ; f" := (bind m (fun x => f)) (at level 200, x name, m at level 100, f at level 200).

Definition mem (x : nat) (l : list nat) : bool := existsb (Nat.eqb x) l.

Fixpoint assoc {X} (k : nat) (l : list (nat * X)) : option X :=
  match l with
  | [] => None
  | (k', x) :: r => if k =? k' then Some x else assoc k r
  end.

(** * TreeNode (tree_node.hpp 22-55)
    The set of allocated nodes, newest first, each with its [_parent]. *)
Definition heap := list (tp * tp).

Definition alive (h : heap) (t : tp) : bool := mem t (map fst h).

(** tree_node.cpp 51-61, [ancestors(true)]: the node, its parent, ... up to the
    root.  The parent of a node is older than the node, so one scan from the
    newest to the oldest node finds the whole path.  [[]] if the node is not
    allocated (the caller checks [alive], else undefined behaviour). *)
Fixpoint ancestors_self (h : heap) (t : tp) : list tp :=
  match h with
  | [] => []
  | (x, p) :: r => if x =? t then x :: ancestors_self r p else ancestors_self r t
  end.

(** tree_node.cpp 51-61, both values of [include_itself]. *)
Definition ancestors (h : heap) (include_itself : bool) (t : tp) : list tp :=
  if include_itself then ancestors_self h t else tl (ancestors_self h t).

(** tree_node.cpp 43-48 *)
Definition root_of (h : heap) (t : tp) : tp := last (ancestors_self h t) null.

(** tree_node.cpp 105-112; [null] when there is none. *)
Definition common_ancestor (h : heap) (a b : tp) (include_themselves : bool) : tp :=
  match find (fun x => mem x (ancestors h include_themselves b)) (ancestors h include_themselves a) with
  | Some x => x
  | None => null
  end.

(** tree_node.cpp 120-128 *)
Definition is_descendant_of (h : heap) (t node : tp) : bool := mem node (ancestors h false t).

(** tree_node.cpp 131-133 *)
Definition is_ancestor_of (h : heap) (t node : tp) : bool := is_descendant_of h node t.

(** tree_node.cpp 92-102.  Simplified: the order of the result (depth first in
    the code) is that of [h]; the only caller puts the result in a set.  The
    depth first order is modelled in TreeModel.v. *)
Definition cluster (h : heap) (include_itself : bool) (t : tp) : list tp :=
  filter (fun x => mem t (ancestors h include_itself x)) (map fst h).

(** tree_node.cpp 81-88: children found in [nodes] are destroyed with their
    whole subtree, then the remaining children are visited. *)
Definition erase_from_descendants (h : heap) (t : tp) (nodes : list tp) : heap :=
  filter (fun e => negb (mem t (ancestors h false (fst e))
                         && existsb (fun x => mem x nodes && mem t (ancestors h false x))
                                    (ancestors h true (fst e)))) h.

(** tree_node.cpp 27-29: [a] is the address given by the allocator. *)
Definition add_child (h : heap) (t a : tp) : heap := (a, t) :: h.

Section WithStates.
Context {V A : Type}.  (* object states; annotations *)

(** * Originator (state_management.hpp 110-146) *)
Record orig := mkOrig {
  o_const : bool;                 (* is State const-qualified (all domain states are) *)
  o_init : tp;                    (* init_timepoint *)
  o_cur : tp;                     (* current_timepoint *)
  o_lazy : option tp;             (* lazy_go *)
  o_states : list (tp * V);       (* states, kept in insertion order *)
  o_order : list tp               (* ordered_timepoints *)
}.

(** state_management.hpp 166-172 (and 176-182 with State()) *)
Definition new_orig (const : bool) (t : tp) (v : V) : orig :=
  mkOrig const t t None [(t, v)] [t].

(** state_management.hpp 228-234: scan of [ordered_timepoints], last inserted
    first.  Each visited entry and the target are dereferenced. *)
Fixpoint scan (h : heap) (t : tp) (rev_order : list tp) : outcome (option tp) :=
  match rev_order with
  | [] => Ok None
  | it :: r =>
      if alive h it && alive h t then
        if common_ancestor h it t true =? it then Ok (Some it) else scan h t r
      else UB
  end.

(** state_management.hpp 223-237 *)
Definition actually_go (h : heap) (o : orig) : outcome orig :=
  match o_lazy o with
  | None => Ok o
  | Some t =>
      let at_ c := mkOrig (o_const o) (o_init o) c None (o_states o) (o_order o) in
      if t =? null then Ok (at_ (o_init o))
      else do r <- scan h t (rev (o_order o));
           match r with
           | Some it => Ok (at_ it)
           | None => Ok (at_ (o_init o))
           end
  end.

(** state_management.hpp 212-214 *)
Definition go (t : tp) (o : orig) : orig :=
  mkOrig (o_const o) (o_init o) (o_cur o) (Some t) (o_states o) (o_order o).

(** state_management.hpp 241-257 *)
Definition erase (h : heap) (ts : list tp) (o : orig) : outcome orig :=
  do o' <- actually_go h o;
  let is_erasable t := if (t =? o_init o') || (t =? o_cur o') then false else mem t ts in
  Ok (mkOrig (o_const o') (o_init o') (o_cur o') (o_lazy o')
             (filter (fun kv => negb (is_erasable (fst kv))) (o_states o'))
             (filter (fun k => negb (is_erasable k)) (o_order o'))).

(** state_management.hpp 279-292 *)
Definition set_state (t : tp) (v : V) (o : orig) : orig :=
  if negb (mem t (o_order o)) then
    mkOrig (o_const o) (o_init o) t None
           (match assoc t (o_states o) with
            | None => o_states o ++ [(t, v)]       (* map::emplace: keeps an existing entry *)
            | Some _ => o_states o
            end)
           (o_order o ++ [t])
  else if o_const o then o
  else mkOrig (o_const o) (o_init o) (o_cur o) (o_lazy o)
              (filter (fun kv => negb (fst kv =? t)) (o_states o) ++ [(t, v)])
              (o_order o).

(** state_management.hpp 198-207: the state reported, and the object after its
    pending jump is done. *)
Definition get_current_state (h : heap) (o : orig) : outcome (orig * V) :=
  do o' <- actually_go h o;
  match assoc (o_cur o') (o_states o') with
  | Some v => Ok (o', v)
  | None => Abort
  end.

(** * Caretaker (state_management.hpp 43-93) and the live objects *)
Record world := mkWorld {
  w_auto : bool;                  (* auto_gc *)
  w_heap : heap;                  (* nodes owned by history_root *)
  w_root : tp;                    (* history_root *)
  w_cur : tp;                     (* current_timepoint *)
  w_regs : list oid;              (* originators *)
  w_pins : list tp;               (* pinned_timepoints *)
  w_hist : list tp;               (* user_history, oldest first *)
  w_brow : option nat;            (* user_history_browser: index of the browsed
                                     element.  A reverse_iterator designates the
                                     element before its base(); it is never kept
                                     equal to rbegin() (undo/redo reset it). *)
  w_ann : list (tp * A);          (* annotations *)
  w_objs : list (oid * orig)      (* objects alive *)
}.

Definition set_objs (w : world) objs :=
  mkWorld (w_auto w) (w_heap w) (w_root w) (w_cur w) (w_regs w) (w_pins w) (w_hist w) (w_brow w) (w_ann w) objs.
Definition set_cur (w : world) c :=
  mkWorld (w_auto w) (w_heap w) (w_root w) c (w_regs w) (w_pins w) (w_hist w) (w_brow w) (w_ann w) (w_objs w).
Definition set_hist (w : world) hist brow :=
  mkWorld (w_auto w) (w_heap w) (w_root w) (w_cur w) (w_regs w) (w_pins w) hist brow (w_ann w) (w_objs w).
Definition set_heap (w : world) h :=
  mkWorld (w_auto w) h (w_root w) (w_cur w) (w_regs w) (w_pins w) (w_hist w) (w_brow w) (w_ann w) (w_objs w).
Definition set_pins (w : world) pins :=
  mkWorld (w_auto w) (w_heap w) (w_root w) (w_cur w) (w_regs w) pins (w_hist w) (w_brow w) (w_ann w) (w_objs w).
Definition set_ann (w : world) ann :=
  mkWorld (w_auto w) (w_heap w) (w_root w) (w_cur w) (w_regs w) (w_pins w) (w_hist w) (w_brow w) ann (w_objs w).
Definition set_regs (w : world) regs :=
  mkWorld (w_auto w) (w_heap w) (w_root w) (w_cur w) regs (w_pins w) (w_hist w) (w_brow w) (w_ann w) (w_objs w).
Definition set_auto (w : world) b :=
  mkWorld b (w_heap w) (w_root w) (w_cur w) (w_regs w) (w_pins w) (w_hist w) (w_brow w) (w_ann w) (w_objs w).

(** state_management.cpp 22-27; [r] is the address of the root. *)
Definition init_world (r : tp) : world :=
  mkWorld true [(r, null)] r r [] [] [r] None [] [].

(** Replace the object [o] by [f] of it, wherever it is. *)
Definition update_obj (o : oid) (x : orig) (objs : list (oid * orig)) : list (oid * orig) :=
  map (fun e => if fst e =? o then (fst e, x) else e) objs.

(** state_management.cpp 63-66: erase on each registered object still alive. *)
Fixpoint erase_all (h : heap) (ts : list tp) (regs : list oid) (objs : list (oid * orig))
  : outcome (list (oid * orig)) :=
  match regs with
  | [] => Ok objs
  | o :: r =>
      match assoc o objs with
      | None => erase_all h ts r objs
      | Some x => do x' <- erase h ts x; erase_all h ts r (update_obj o x' objs)
      end
  end.

(** state_management.cpp 42-51: the timepoints to keep. *)
Definition gc_keep (w : world) : list tp :=
  flat_map (ancestors (w_heap w) true) (w_pins w ++ w_hist w ++ [w_cur w]).

(** state_management.cpp 57-60 *)
Definition gc_remove (w : world) : list tp :=
  filter (fun t => negb (mem t (gc_keep w))) (cluster (w_heap w) false (w_root w)).

(** state_management.cpp 40-80.  [dying] are the objects whose last shared_ptr
    is held by a state erased in step 3. *)
Definition garbage_collector (dying : list oid) (w : world) : outcome world :=
  if forallb (alive (w_heap w)) (w_pins w ++ w_hist w ++ [w_cur w]) then
    let rm := gc_remove w in
    do objs <- erase_all (w_heap w) rm (w_regs w) (w_objs w);
    let objs' := filter (fun e => negb (mem (fst e) dying)) objs in
    Ok (mkWorld (w_auto w)
                (erase_from_descendants (w_heap w) (w_root w) rm)
                (w_root w) (w_cur w)
                (filter (fun o => match assoc o objs' with Some _ => true | None => false end) (w_regs w))
                (w_pins w) (w_hist w) (w_brow w)
                (filter (fun e => negb (mem (fst e) rm)) (w_ann w))
                objs')
  else UB.

(** state_management.cpp 30-37 *)
Definition reset (dying : list oid) (w : world) : outcome world :=
  garbage_collector dying
    (mkWorld (w_auto w) (w_heap w) (w_root w) (w_root w) [] [] (firstn 1 (w_hist w)) None (w_ann w) (w_objs w)).

(** state_management.cpp 83-92 *)
Definition stop_browsing_user_history (dying : list oid) (w : world) : outcome world :=
  match w_brow w with
  | Some k =>
      let w' := set_hist w (firstn (S k) (w_hist w)) None in
      if w_auto w' then garbage_collector dying w' else Ok w'
  | None => Ok w
  end.

(** state_management.cpp 110-114; [a] is the address given by the allocator. *)
Definition make_next_timepoint (dying : list oid) (a : tp) (w : world) : outcome world :=
  do w1 <- stop_browsing_user_history dying w;
  if alive (w_heap w1) (w_cur w1)
  then Ok (set_cur (set_heap w1 (add_child (w_heap w1) (w_cur w1) a)) a)
  else UB.

(** state_management.cpp 117-124; the object is known to belong to this
    Caretaker and not to be null. *)
Definition take_care_of (o : oid) (w : world) : outcome world :=
  match assoc o (w_objs w) with
  | None => Ok w
  | Some x =>
      if o_init x =? null then Ok w
      else if alive (w_heap w) (o_init x) then
        if root_of (w_heap w) (o_init x) =? w_root w
        then Ok (set_regs w (w_regs w ++ [o])) else Ok w
      else UB
  end.

(** state_management.cpp 213-224; the boolean result is the second component. *)
Definition go_without_remembering (t : tp) (w : world) : outcome (world * bool) :=
  if t =? null then Ok (w, false)
  else if alive (w_heap w) t then
    if root_of (w_heap w) t =? w_root w then
      Ok (set_objs (set_cur w t)
            (map (fun e => if mem (fst e) (w_regs w) then (fst e, go t (snd e)) else e) (w_objs w)), true)
    else Ok (w, false)
  else UB.

(** state_management.cpp 207-210 ([user_history] is never empty). *)
Definition remember_current_timepoint (w : world) : world :=
  if last (w_hist w) null =? w_cur w then w
  else set_hist w (w_hist w ++ [w_cur w]) (w_brow w).

(** state_management.cpp 227-232 *)
Definition go_and_remember (t : tp) (w : world) : outcome (world * bool) :=
  do r <- go_without_remembering t w;
  if snd r then Ok (remember_current_timepoint (fst r), true) else Ok r.

(** state_management.cpp 161-174: the distance from the browser to rend() is
    its index plus one. *)
Definition can_undo (n : nat) (w : world) : bool :=
  if n =? 0 then false
  else match w_brow w with
       | Some k => n <? S k
       | None => n <=? (if last (w_hist w) null =? w_cur w
                        then length (w_hist w) - 1 else length (w_hist w))
       end.

(** state_management.cpp 177-187 *)
Definition can_redo (n : nat) (w : world) : bool :=
  if n =? 0 then false
  else match w_brow w with
       | Some k => n <=? length (w_hist w) - 1 - k
       | None => false
       end.

(** state_management.cpp 140-143 and 154-157: end of undo and redo, with the
    browser on index [k]. *)
Definition browse_to (k : nat) (w : world) : outcome world :=
  let t := nth k (w_hist w) null in
  let w1 := set_hist (set_cur w t) (w_hist w)
                     (if k =? length (w_hist w) - 1 then None else Some k) in
  do r <- go_without_remembering t w1; Ok (fst r).

(** state_management.cpp 127-144.  std::ranges::advance stops at
    prev(rend()), i.e. index 0 (truncated subtraction). *)
Definition undo (n : nat) (w : world) : outcome world :=
  if (n =? 0) || negb (can_undo n w) then Ok w
  else match w_brow w with
       | Some k => browse_to (k - n) w
       | None =>
           let n' := if last (w_hist w) null =? w_cur w then n else n - 1 in
           browse_to (length (w_hist w) - 1 - n') w
       end.

(** state_management.cpp 147-158.  std::ranges::advance stops at rbegin(). *)
Definition redo (n : nat) (w : world) : outcome world :=
  if (n =? 0) || negb (can_redo n w) then Ok w
  else match w_brow w with
       | Some k => browse_to (Nat.min (length (w_hist w) - 1) (k + n)) w
       | None => UB                       (* *user_history_browser of nullopt *)
       end.

(** state_management.cpp 190-194 *)
Definition unpin (dying : list oid) (t : tp) (w : world) : outcome world :=
  let w' := set_pins w (filter (fun x => negb (x =? t)) (w_pins w)) in
  if w_auto w' then garbage_collector dying w' else Ok w'.

(** state_management.cpp 197-204 *)
Definition pin_current_timepoint (w : world) : world :=
  if mem (w_cur w) (w_pins w) then w else set_pins w (w_pins w ++ [w_cur w]).

(** state_management.cpp 235-237: map::emplace keeps an existing entry. *)
Definition annotate_current_timepoint (a : A) (w : world) : world :=
  match assoc (w_cur w) (w_ann w) with
  | Some _ => w
  | None => set_ann w (w_ann w ++ [(w_cur w, a)])
  end.

(** state_management.cpp 240-245 *)
Definition get_annotation (t : tp) (w : world) : option A := assoc t (w_ann w).

(** state_management.hpp 156-162; [null] when there is none. *)
Definition find_first_ancestor_with_annotation_that
    (p : A -> bool) (include_itself : bool) (w : world) : tp :=
  match find (fun t => match assoc t (w_ann w) with Some a => p a | None => false end)
             (ancestors (w_heap w) include_itself (w_cur w)) with
  | Some t => t
  | None => null
  end.

(** state_management.cpp 248-252 *)
Definition find_first_ancestor_with_annotation (include_itself : bool) (w : world) : tp :=
  find_first_ancestor_with_annotation_that (fun _ => true) include_itself w.

(** * Operations a client can perform *)
Inductive op :=
| NextTimepoint (a : tp) (dying : list oid)      (* make_next_timepoint *)
| Create (o : oid) (const : bool) (t : tp) (v : V)  (* construction of an Originator *)
| TakeCareOf (o : oid)
| SetState (o : oid) (t : tp) (v : V)
| Read (o : oid)                                 (* get_current_state *)
| Undo (n : nat)
| Redo (n : nat)
| GoWithoutRemembering (t : tp)
| GoAndRemember (t : tp)
| RememberCurrent
| PinCurrent
| Unpin (t : tp) (dying : list oid)
| Annotate (a : A)
| Collect (dying : list oid)                     (* garbage_collector *)
| SetAutoGc (b : bool)
| Expire (o : oid)                               (* last shared_ptr dropped *)
| Reset (dying : list oid).

Definition step (w : world) (x : op) : outcome world :=
  match x with
  | NextTimepoint a dying => make_next_timepoint dying a w
  | Create o const t v => Ok (set_objs w (w_objs w ++ [(o, new_orig const t v)]))
  | TakeCareOf o => take_care_of o w
  | SetState o t v =>
      match assoc o (w_objs w) with
      | Some x => Ok (set_objs w (update_obj o (set_state t v x) (w_objs w)))
      | None => UB                               (* use of a destroyed object *)
      end
  | Read o =>
      match assoc o (w_objs w) with
      | Some x => do r <- get_current_state (w_heap w) x;
                  Ok (set_objs w (update_obj o (fst r) (w_objs w)))
      | None => UB
      end
  | Undo n => undo n w
  | Redo n => redo n w
  | GoWithoutRemembering t => do r <- go_without_remembering t w; Ok (fst r)
  | GoAndRemember t => do r <- go_and_remember t w; Ok (fst r)
  | RememberCurrent => Ok (remember_current_timepoint w)
  | PinCurrent => Ok (pin_current_timepoint w)
  | Unpin t dying => unpin dying t w
  | Annotate a => Ok (annotate_current_timepoint a w)
  | Collect dying => garbage_collector dying w
  | SetAutoGc b => Ok (set_auto w b)
  | Expire o => Ok (set_objs w (filter (fun e => negb (fst e =? o)) (w_objs w)))
  | Reset dying => reset dying w
  end.

(** The state an object reports in a world. *)
Definition report (w : world) (o : oid) : outcome V :=
  match assoc o (w_objs w) with
  | Some x => do r <- get_current_state (w_heap w) x; Ok (snd r)
  | None => UB
  end.

End WithStates.
Arguments orig V : clear implicits.
Arguments world V A : clear implicits.
Arguments op V A : clear implicits.
