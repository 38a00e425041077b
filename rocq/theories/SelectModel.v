(** Model of selecting nodes in the graph view: src/ui/qt/utils/nodegraph/highlightable.cpp,
    node.cpp 55-94 and 231-238, src/ui/qt/processing_view/processing_scene.cpp 326-385 and
    421-470.  No proofs in this file.

    Simplifications, for the whole file:
    - those of SceneModel.v;
    - of Qt there is: an item is visible if neither it nor an item around it is hidden;
      [setSelected] does nothing on an item that is not visible or already so;
      an item that gets invisible gets unselected, and these one after the other in the order
      of [nodes]; selectionChanged is emitted after each change of an item;
    - the titles, ports and frames of a node, which follow it, are left out, and so is the
      structure view, which follows the selection and is not allowed to change it
      (processing_scene.cpp 443-445 and 459);
    - [fuel] bounds the walks; [Running] if it is exceeded. *)
From Coq Require Import List Arith Bool.
From Verif Require Import IntervalModel ManagerModel BoardModel SceneModel.
Import ListNotations.

(** Selected nodes (QGraphicsItem), [by_items] and [_is_highlighted] of each
    (highlightable.hpp), and the hidden nodes (QGraphicsItem::hide). *)
Record view_state := mk_view
  { vs_selected : nat -> bool;
    vs_by : nat -> list nat;
    vs_lit : nat -> bool;
    vs_hidden : nat -> bool }.
Definition upd {A : Type} (f : nat -> A) (n : nat) (x : A) : nat -> A := fun m => if (m =? n)%nat then x else f m.

(** The view just made: no node is selected or hidden. *)
Definition fresh : view_state := mk_view (fun _ => false) (fun _ => []) (fun _ => false) (fun _ => false).

(** highlightable.cpp 20-34, of node [n]; [by] is never null for a node. *)
Definition set_highlighted (value : bool) (by_item : nat) (st : view_state) (n : nat) : view_state :=
  let others := filter (fun m => negb (m =? by_item)%nat) (vs_by st n) in
  if value
  then mk_view (vs_selected st) (upd (vs_by st) n (by_item :: others)) (upd (vs_lit st) n true) (vs_hidden st)
  else mk_view (vs_selected st) (upd (vs_by st) n others)
         (upd (vs_lit st) n (match others with [] => false | _ => vs_lit st n end)) (vs_hidden st).

(** node.cpp 68-79. *)
Definition item_change (fuel : nat) (sc : scene) (value : bool) (st : view_state) (n : nat) : run view_state :=
  let st := if value then set_highlighted false n st n else st in
  let! ch := get_chain fuel sc n in
  Done (fold_left (set_highlighted value n) ch st).

(** node.cpp 82-94: the part about highlighting, if the node is selected. *)
Definition mouse_release (fuel : nat) (sc : scene) (st : view_state) (n : nat) : run view_state :=
  if vs_selected st n then
    let! ch := get_chain fuel sc n in Done (fold_left (set_highlighted true n) ch st)
  else Done st.

(** QGraphicsItem::isVisible. *)
Fixpoint is_visible (fuel : nat) (sc : scene) (st : view_state) (n : nat) : run bool :=
  match fuel with
  | O => Running
  | S fuel =>
      if vs_hidden st n then Done false
      else
        let! nd := read (sc_nodes sc) n in
        match nd_inside nd with None => Done true | Some m => is_visible fuel sc st m end
  end.

(** QGraphicsItem::setSelected. *)
Definition set_selected (fuel : nat) (sc : scene) (value : bool) (st : view_state) (n : nat) : run view_state :=
  let! can := is_visible fuel sc st n in
  let value := value && can in
  if Bool.eqb (vs_selected st n) value then Done st
  else
    let! st := item_change fuel sc value st n in
    Done (mk_view (upd (vs_selected st) n value) (vs_by st) (vs_lit st) (vs_hidden st)).

Definition every_node (sc : scene) : list nat := seq 0 (length (sc_nodes sc)).
(** processing_scene.cpp 326-333 and 336-343. *)
Definition selected_nodes (sc : scene) (st : view_state) : list nat := filter (vs_selected st) (every_node sc).
Definition highlighted_nodes (sc : scene) (st : view_state) : list nat := filter (vs_lit st) (every_node sc).

Definition set_hidden (value : bool) (st : view_state) (n : nat) : view_state :=
  mk_view (vs_selected st) (vs_by st) (vs_lit st) (upd (vs_hidden st) n value).

(** node.cpp 231-238. *)
Fixpoint show_after_parents (fuel : nat) (sc : scene) (st : view_state) (n : nat) : run view_state :=
  match fuel with
  | O => Running
  | S fuel =>
      let! seen := is_visible (S fuel) sc st n in
      if seen then Done st
      else
        let! nd := read (sc_nodes sc) n in
        let! st := match nd_inside nd with None => Done st | Some m => show_after_parents fuel sc st m end in
        Done (set_hidden false st n)
  end.

(** The parts below are run twice: with [then_] doing nothing, for the time
    [is_display_selected_chain_locked] is set, and with [then_] being what on_selectionChanged does. *)
Section Selection.
Context (then_ : view_state -> run view_state).

Definition change (fuel : nat) (sc : scene) (value : bool) (st : view_state) (n : nat) : run view_state :=
  let! st' := set_selected fuel sc value st n in
  if Bool.eqb (vs_selected st n) (vs_selected st' n) then Done st' else then_ st'.

(** QGraphicsItem::hide: [n] and what is in it get unselected. *)
Definition hide (fuel : nat) (sc : scene) (st : view_state) (n : nat) : run view_state :=
  for_each (fun st m =>
      let! seen := is_visible fuel sc st m in
      if seen then Done st else change fuel sc false st m)
    (every_node sc) (set_hidden true st n).

(** processing_scene.cpp 346-355, with [are_visible] and without. *)
Definition hide_all (fuel : nat) (sc : scene) (st : view_state) : run view_state :=
  for_each (hide fuel sc) (every_node sc) st.
Definition show_all (fuel : nat) (sc : scene) (st : view_state) : run view_state :=
  for_each (show_after_parents fuel sc) (every_node sc) st.

(** QGraphicsScene::clearSelection: the signal is emitted once, after all. *)
Definition clear_selection (fuel : nat) (sc : scene) (st : view_state) : run view_state :=
  match selected_nodes sc st with
  | [] => Done st
  | l => let! st := for_each (set_selected fuel sc false) l st in then_ st
  end.

(** processing_scene.cpp 421-438. *)
Definition display_chain (fuel : nat) (sc : scene) (st : view_state) : run view_state :=
  let selected := selected_nodes sc st in
  let highlighted := highlighted_nodes sc st in
  let! st := hide_all fuel sc st in
  let! st := clear_selection fuel sc st in
  let! st := for_each (show_after_parents fuel sc) (selected ++ highlighted) st in
  for_each (change fuel sc true) selected st.
End Selection.

(** processing_scene.cpp 441-455 in the mode SELECTED_CHAIN: the lock is set meanwhile. *)
Definition on_selection_changed (fuel : nat) (sc : scene) (st : view_state) : run view_state :=
  display_chain (fun st => Done st) fuel sc st.

(** processing_scene.cpp 371-388: the display mode is set by the user, without the lock. *)
Definition switch_to_selected_chain (fuel : nat) (sc : scene) (st : view_state) : run view_state :=
  display_chain (on_selection_changed fuel sc) fuel sc st.
Definition switch_to_everything (fuel : nat) (sc : scene) (st : view_state) : run view_state := show_all fuel sc st.

(** processing_scene.cpp 458-470, by the positions of the nodes found in [index]; [mode] is
    what on_selectionChanged does in the display mode set. *)
Definition select_counterparts (mode : view_state -> run view_state) (fuel : nat) (sc : scene) (l : list nat) (st : view_state) : run view_state :=
  let! st := clear_selection mode fuel sc st in
  for_each (fun st n => let! st := show_after_parents fuel sc st n in change mode fuel sc true st n) l st.

(** What the user does in the view: a click on a node (Qt), with [value] whether it gets
    selected; releasing the button; a selection in the structure view; the key Escape
    (main_window.cpp 733-737); the buttons of the display modes (main_window.cpp 299-315).  The
    mode STRUCTURE_VIEW is left out. *)
Inductive gesture :=
| Click (value : bool) (n : nat) | Release (n : nat) | Elsewhere (l : list nat) | Escape
| Show_selected_chain | Show_everything.
(** The state of the view, with whether the mode is SELECTED_CHAIN. *)
Definition looked := (bool * view_state)%type.
Definition in_mode (chain_mode : bool) (fuel : nat) (sc : scene) (st : view_state) : run view_state :=
  if chain_mode then on_selection_changed fuel sc st else Done st.
Definition gesture_done (fuel : nat) (sc : scene) (x : looked) (g : gesture) : run looked :=
  let '(c, st) := x in
  match g with
  | Click value n => let! st := change (in_mode c fuel sc) fuel sc value st n in Done (c, st)
  | Release n => let! st := mouse_release fuel sc st n in Done (c, st)
  | Elsewhere l => let! st := select_counterparts (in_mode c fuel sc) fuel sc l st in Done (c, st)
  | Escape => let! st := clear_selection (in_mode c fuel sc) fuel sc st in Done (c, st)
  | Show_selected_chain => let! st := switch_to_selected_chain fuel sc st in Done (true, st)
  | Show_everything => let! st := switch_to_everything fuel sc st in Done (false, st)
  end.
(** From a new view on, whose mode is set first (processing_view.cpp 121-122). *)
Definition gestures_done (fuel : nat) (sc : scene) (chain_mode : bool) (l : list gesture) : run looked :=
  for_each (gesture_done fuel sc) ((if chain_mode then Show_selected_chain else Show_everything) :: l) (chain_mode, fresh).
