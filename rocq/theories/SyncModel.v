(** Model of the selection that goes from one view to the others: the graph of a timepoint and its
    three scenes of the structure view, src/ui/qt/processing_view/processing_scene.cpp 421-470,
    src/ui/qt/structure_view/structure_scene.cpp 321-419, src/ui/qt/main_window.cpp 613-621.
    No proofs in this file.

    Simplifications, for the whole file:
    - an item is its entity, a number; its visibility in the structure view is an input, its
      visibility in the graph is that of SelectModel.v: a node is shown right before it is selected
      here, so that it can be (processing_scene.cpp 432-439 and 464-466);
    - of Qt there is: [setSelected] does nothing on an item already so, and on one that is not
      visible; selectionChanged is emitted after each change of an item, once for a
      [clearSelection] or a change by the mouse, and not if nothing changed; an item that gets
      invisible gets unselected; slots are called at once, in the order of the connections;
    - the items selected are given in the order they were selected (Qt: in any order);
    - [Lines] sets the visibility of all items of a plane, then unselects those hidden one by one
      (the code: the lines of one direction, then of the other);
    - the mode of the graph stays the same; switching it is in SelectModel.v (C75). *)
From Coq Require Import List Arith Bool.
From Verif Require Import GeomModel DisplayModel.
Import ListNotations.

(** Which entities have an item: the [index] of the graph (processing_scene.hpp) and of the scene of
    each plane (structure_scene.hpp). *)
Record items := mkItems { in_graph : nat -> bool; in_scene : Plane -> nat -> bool }.

(** The items selected in the graph and in each scene, is_select_counterparts_locked of each,
    is_display_selected_chain_locked, whether the mode is SELECTED_CHAIN, and which items of the scenes
    are visible. *)
Record sync := mkSync {
  sy_graph : list nat;
  sy_scene : planes3 (list nat);
  sy_glock : bool;
  sy_slock : planes3 bool;
  sy_dlock : bool;
  sy_chain : bool;
  sy_visible : Plane -> nat -> bool
}.
Definition at_plane {X} (s : planes3 X) (p : Plane) (x : X) : planes3 X :=
  match p with
  | PYZ => mkPlanes x (on_zx s) (on_xy s)
  | PZX => mkPlanes (on_yz s) x (on_xy s)
  | PXY => mkPlanes (on_yz s) (on_zx s) x
  end.
Definition set_graph l st := mkSync l (sy_scene st) (sy_glock st) (sy_slock st) (sy_dlock st) (sy_chain st) (sy_visible st).
Definition set_scene p l st := mkSync (sy_graph st) (at_plane (sy_scene st) p l) (sy_glock st) (sy_slock st) (sy_dlock st) (sy_chain st) (sy_visible st).
Definition set_glock b st := mkSync (sy_graph st) (sy_scene st) b (sy_slock st) (sy_dlock st) (sy_chain st) (sy_visible st).
Definition set_slock p b st := mkSync (sy_graph st) (sy_scene st) (sy_glock st) (at_plane (sy_slock st) p b) (sy_dlock st) (sy_chain st) (sy_visible st).
Definition set_dlock b st := mkSync (sy_graph st) (sy_scene st) (sy_glock st) (sy_slock st) b (sy_chain st) (sy_visible st).
Definition set_visible p f st := mkSync (sy_graph st) (sy_scene st) (sy_glock st) (sy_slock st) (sy_dlock st) (sy_chain st)
  (fun q e => match p, q with PYZ, PYZ | PZX, PZX | PXY, PXY => f e | _, _ => sy_visible st q e end).

(** QGraphicsItem::isSelected. *)
Definition is_in (e : nat) (l : list nat) : bool := existsb (Nat.eqb e) l.
Definition without (e : nat) (l : list nat) : list nat := filter (fun x => negb (x =? e)) l.

(** The slots. *)
Inductive slot :=
  | Graph_changed                                (* processing_scene.cpp 441-455, on_selectionChanged *)
  | Graph_counterparts (l : list nat)            (* processing_scene.cpp 458-470, select_counterparts *)
  | Display_chain                                (* processing_scene.cpp 421-438, display_selected_chain *)
  | Scene_changed (p : Plane)                    (* structure_scene.cpp 399-404, on_selectionChanged *)
  | Scene_counterparts (p : Plane) (l : list nat). (* structure_scene.cpp 407-417, select_counterparts *)

(** A loop over a list, that ends with the first call that does not. *)
Fixpoint each {A} (f : A -> sync -> option sync) (l : list A) (st : sync) : option sync :=
  match l with
  | [] => Some st
  | x :: r => match f x st with Some st' => each f r st' | None => None end
  end.
Definition chain_of (a b : sync -> option sync) (st : sync) : option sync :=
  match a st with Some st' => b st' | None => None end.
Notation "a ;; b" := (chain_of a b) (at level 61, right associativity).
Definition then_set (f : sync -> sync) (st : sync) : option sync := Some (f st).

(** The slot [c] called; [None] if calls are nested deeper than [depth].
    - QGraphicsScene::clearSelection, QGraphicsItem::setSelected and hide call the slot of
      selectionChanged of their scene if something changes;
    - the signal of the graph goes to the scenes of the three planes (main_window.cpp 614-617), that
      of each scene to the graph (618-620). *)
Fixpoint call (w : items) (depth : nat) (c : slot) (st : sync) : option sync :=
  match depth with
  | O => None
  | S depth =>
      let changed_graph := call w depth Graph_changed in
      let changed_scene p := call w depth (Scene_changed p) in
      let clear_graph st := match sy_graph st with [] => Some st | _ => changed_graph (set_graph [] st) end in
      let clear_scene p st := match on_plane (sy_scene st) p with [] => Some st | _ => changed_scene p (set_scene p [] st) end in
      let select_node e st := if is_in e (sy_graph st) then Some st else changed_graph (set_graph (sy_graph st ++ [e]) st) in
      let hide_node e st := if is_in e (sy_graph st) then changed_graph (set_graph (without e (sy_graph st)) st) else Some st in
      let select_item p e st :=
        if negb (sy_visible st p e) || is_in e (on_plane (sy_scene st) p) then Some st
        else changed_scene p (set_scene p (on_plane (sy_scene st) p ++ [e]) st) in
      match c with
      | Graph_changed =>
          let l := sy_graph st in
          (then_set (set_glock true)
           ;; each (fun p => call w depth (Scene_counterparts p l)) [PYZ; PZX; PXY]
           ;; then_set (set_glock false)
           ;; fun st =>
                if sy_chain st && negb (sy_dlock st)
                then (then_set (set_dlock true) ;; call w depth Display_chain ;; then_set (set_dlock false)) st
                else Some st) st
      | Graph_counterparts l =>
          if sy_glock st then Some st
          else (clear_graph ;; each (fun e st => if in_graph w e then select_node e st else Some st) l) st
      | Display_chain =>
          let l := sy_graph st in
          (each hide_node l ;; clear_graph ;; each select_node l) st
      | Scene_changed p =>
          (then_set (set_slock p true)
           ;; (fun st => call w depth (Graph_counterparts (on_plane (sy_scene st) p)) st)
           ;; then_set (set_slock p false)) st
      | Scene_counterparts p l =>
          if on_plane (sy_slock st) p then Some st
          else (clear_scene p ;; each (fun e st => if in_scene w p e then select_item p e st else Some st) l) st
      end
  end.

(** What the user does to the selection: items of the scene of a plane get selected or unselected
    (structure_scene.cpp 355-396), nodes of the graph do (QGraphicsScene; main_window.cpp 733-736),
    lines get shown or hidden in the three scenes (structure_view.cpp 156-159, structure_scene.cpp
    321-343).  Nothing is selected that has no item or is not visible.  [None] if calls are nested too
    deep. *)
Inductive gesture :=
  | In_scene (p : Plane) (l : list nat)
  | In_graph (l : list nat)
  | Lines (f : Plane -> nat -> bool).

Definition same_list (l l' : list nat) : bool := forallb (fun e => is_in e l') l && forallb (fun e => is_in e l) l'.
(** Hiding an item that is selected. *)
Definition hide_item (w : items) (depth : nat) (p : Plane) (e : nat) (st : sync) : option sync :=
  if is_in e (on_plane (sy_scene st) p) then call w depth (Scene_changed p) (set_scene p (without e (on_plane (sy_scene st) p)) st) else Some st.
Definition gesture_on (w : items) (depth : nat) (g : gesture) (st : sync) : option sync :=
  match g with
  | In_scene p l =>
      let l := nodup Nat.eq_dec (filter (fun e => in_scene w p e && sy_visible st p e) l) in
      if same_list l (on_plane (sy_scene st) p) then Some st else call w depth (Scene_changed p) (set_scene p l st)
  | In_graph l =>
      let l := nodup Nat.eq_dec (filter (in_graph w) l) in
      if same_list l (sy_graph st) then Some st else call w depth Graph_changed (set_graph l st)
  | Lines f =>
      each (fun p st =>
        each (fun e st => if f p e then Some st else hide_item w depth p e st) (on_plane (sy_scene st) p) (set_visible p (f p) st))
        [PYZ; PZX; PXY] st
  end.
Fixpoint gestures (w : items) (depth : nat) (l : list gesture) (st : sync) : option sync :=
  match l with
  | [] => Some st
  | g :: r => match gesture_on w depth g st with Some st' => gestures w depth r st' | None => None end
  end.
(** The scenes just made. *)
Definition unselected (chain : bool) (visible : Plane -> nat -> bool) : sync :=
  mkSync [] (all_planes []) false (all_planes false) false chain visible.
