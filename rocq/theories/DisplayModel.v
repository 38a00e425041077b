(** Model of what the two views of the window show of a document at its different timepoints:
    the plane, the mesh lines, the mode of the graph and its wires.
    src/ui/qt/main_window.cpp, structure_view/structure_view.cpp and structure_scene.cpp,
    processing_view/processing_view.cpp and processing_scene.cpp.  No proofs in this file.

    Simplifications, valid for the whole file:
    - a timepoint is a number; which one is current after an undo, a redo, a step or an edition is an
      input (GuiModel.v says which one it is);
    - a scene is the settings it has been given: its items are those of StructureModel.v and
      SceneModel.v; zoom, rotation, selection and style are left out;
    - an action whose button is disabled does nothing. *)
From Coq Require Import List Arith Bool.
From Verif Require Import GeomModel HistModel StructureModel.
Import ListNotations.
(** ** Scenes *)

(** structure_scene.cpp 346-348: what each of the scenes of the three planes has been told
    of its lines (structure_view.hpp, StructureState). *)
Record planes3 (X : Type) := mkPlanes { on_yz : X; on_zx : X; on_xy : X }.
Arguments mkPlanes {X}. Arguments on_yz {X}. Arguments on_zx {X}. Arguments on_xy {X}.
(** space.hpp 19 and the operator[] of PlaneSpace. *)
Definition on_plane {X} (s : planes3 X) (p : Plane) : X :=
  match p with PYZ => on_yz s | PZX => on_zx s | PXY => on_xy s end.
(** space.hpp 19: the first of a PlaneSpace. *)
Definition front {X} (s : planes3 X) : X := on_yz s.
Definition all_planes {X} (x : X) : planes3 X := mkPlanes x x x.

(** processing_scene.hpp, DisplayMode. *)
Inductive mode := EVERYTHING | STRUCTURE_VIEW | SELECTED_CHAIN.
(** utils/nodegraph/wire.hpp 23, Wire::Style. *)
Inductive wires := DIRECT | CURVED.
(** processing_scene.hpp 138-140, and the style of the wires of the scene. *)
Record graph := mkGraph {
  gr_mode : mode;
  gr_plane : Plane;
  gr_axes : ViewAxis -> bool;
  gr_wires : wires
}.
(** processing_scene.cpp 357-361, 364-368, 371-388, 72-77. *)
Definition graph_set_axes (a : ViewAxis -> bool) (g : graph) : graph := mkGraph (gr_mode g) (gr_plane g) a (gr_wires g).
Definition graph_set_plane (p : Plane) (g : graph) : graph := mkGraph (gr_mode g) p (gr_axes g) (gr_wires g).
Definition graph_set_mode (m : mode) (g : graph) : graph := mkGraph m (gr_plane g) (gr_axes g) (gr_wires g).
Definition graph_set_wires (w : wires) (g : graph) : graph := mkGraph (gr_mode g) (gr_plane g) (gr_axes g) w.
(** processing_scene.cpp 45-53 and 67-69.  The wires take the style of the view right after. *)
Definition new_graph (w : wires) : graph := mkGraph SELECTED_CHAIN PXY (fun _ => true) w.

(** processing_scene.cpp 396-418: the frames that display_structure_view leaves visible. *)
Definition plane_frame (g : graph) (p : Plane) : bool :=
  match gr_plane g, p with PYZ, PYZ | PZX, PZX | PXY, PXY => true | _, _ => false end.
Definition axis_frame (g : graph) (ax : Axis3) : bool :=
  match view_of_axis (gr_plane g) ax with
  | Some v => gr_axes g (reverse_view v)
  | None => false
  end.

(** ** Maps of timepoints *)

(** std::map::emplace, try_emplace: a key already there keeps its value. *)
Definition emplace {X} (t : nat) (x : X) (l : list (nat * X)) : list (nat * X) :=
  match assoc t l with Some _ => l | None => l ++ [(t, x)] end.
(** A change of the element of a key. *)
Fixpoint alter {X} (t : nat) (f : X -> X) (l : list (nat * X)) : list (nat * X) :=
  match l with
  | [] => []
  | (k, x) :: r => if t =? k then (k, f x) :: r else (k, x) :: alter t f r
  end.
(** A pointer compared with the timepoint [t]; [None] is nullptr. *)
Definition is_at (c : option nat) (t : nat) : bool := match c with Some k => k =? t | None => false end.
(** std::map::at, which throws. *)
Definition at_cur {X} (c : option nat) (l : list (nat * X)) : outcome (nat * X) :=
  match c with
  | Some t => match assoc t l with Some x => Ok (t, x) | None => Abort end
  | None => Abort
  end.

(** ** The structure view *)

(** structure_view.hpp: board != nullptr, displayed_plane, current_timepoint, states, and the scene
    in the QGraphicsView. *)
Record structure := mkStructure {
  st_board : bool;
  st_plane : Plane;
  st_cur : option nat;
  st_states : list (nat * planes3 visibility);
  st_scene : option (nat * Plane)
}.
(** structure_view.cpp 44-51 *)
Definition new_structure : structure := mkStructure false PXY None [] None.
(** structure_view.cpp 63-65 *)
Definition structure_init (v : structure) : structure := mkStructure true (st_plane v) (st_cur v) (st_states v) (st_scene v).
(** structure_view.cpp 68-75: deleting a scene takes it out of the QGraphicsView. *)
Definition structure_clear (v : structure) : structure := mkStructure false (st_plane v) None [] None.
(** structure_view.cpp 151-153 *)
Definition structure_visibility (v : structure) : outcome visibility :=
  do s <- at_cur (st_cur v) (st_states v); Ok (front (snd s)).
(** structure_view.cpp 156-159 *)
Definition structure_set_visibility (m : visibility) (v : structure) : outcome structure :=
  do s <- at_cur (st_cur v) (st_states v);
  Ok (mkStructure (st_board v) (st_plane v) (st_cur v) (alter (fst s) (fun _ => all_planes m) (st_states v)) (st_scene v)).
(** structure_view.cpp 162-166 *)
Definition structure_set_plane (p : Plane) (v : structure) : outcome structure :=
  do s <- at_cur (st_cur v) (st_states v);
  Ok (mkStructure (st_board v) p (st_cur v) (st_states v) (Some (fst s, p))).
(** structure_view.cpp 210-215, when the timepoint is known. *)
Definition structure_show (t : nat) (v : structure) : structure :=
  if is_at (st_cur v) t then v
  else match assoc t (st_states v) with
       | Some _ => mkStructure (st_board v) (st_plane v) (Some t) (st_states v) (Some (t, st_plane v))
       | None => v
       end.
(** structure_view.cpp 200-202: the scene that is in the QGraphicsView.  [UB] if it is not one of the
    scenes of the view: it would have been deleted. *)
Definition structure_shown (v : structure) : outcome (option visibility) :=
  match st_scene v with
  | Some (t, p) => match assoc t (st_states v) with Some s => Ok (Some (on_plane s p)) | None => UB end
  | None => Ok None
  end.
(** structure_view.cpp 190-207; the lines of a new scene are all visible (structure_scene.cpp 73). *)
Definition structure_make (t : nat) (v : structure) : outcome structure :=
  if negb (st_board v) then Ok v
  else
    do c <- structure_shown v;
    let s := all_planes (match c with Some m => m | None => FULL end) in
    Ok (structure_show t (mkStructure (st_board v) (st_plane v) (st_cur v) (emplace t s (st_states v)) (st_scene v))).
(** structure_view.cpp 210-221 *)
Definition structure_go (t : nat) (v : structure) : outcome structure :=
  if is_at (st_cur v) t then Ok v
  else match assoc t (st_states v) with
       | Some _ => Ok (structure_show t v)
       | None => structure_make t v
       end.

(** ** The graph view *)

(** processing_view.hpp: board != nullptr, wire_style, plane_displayed_on_structure_view,
    axes_displayed_on_structure_view, current_timepoint, states, and the scene in the QGraphicsView. *)
Record processing := mkProcessing {
  pr_board : bool;
  pr_wires : wires;
  pr_plane : Plane;
  pr_axes : ViewAxis -> bool;
  pr_cur : option nat;
  pr_states : list (nat * graph);
  pr_scene : option nat
}.
(** processing_view.cpp 19-25 *)
Definition new_processing : processing := mkProcessing false CURVED PXY (fun _ => true) None [] None.
(** processing_view.cpp 36-38 *)
Definition processing_init (v : processing) : processing :=
  mkProcessing true (pr_wires v) (pr_plane v) (pr_axes v) (pr_cur v) (pr_states v) (pr_scene v).
(** processing_view.cpp 41-47 *)
Definition processing_clear (v : processing) : processing :=
  mkProcessing false (pr_wires v) (pr_plane v) (pr_axes v) None [] None.
(** processing_view.cpp 75-77 *)
Definition processing_mode (v : processing) : outcome mode :=
  do s <- at_cur (pr_cur v) (pr_states v); Ok (gr_mode (snd s)).
(** processing_view.cpp 80-82 *)
Definition processing_set_mode (m : mode) (v : processing) : outcome processing :=
  do s <- at_cur (pr_cur v) (pr_states v);
  Ok (mkProcessing (pr_board v) (pr_wires v) (pr_plane v) (pr_axes v) (pr_cur v) (alter (fst s) (graph_set_mode m) (pr_states v)) (pr_scene v)).
(** processing_view.cpp 85-88 *)
Definition processing_set_axes (a : ViewAxis -> bool) (v : processing) : outcome processing :=
  do s <- at_cur (pr_cur v) (pr_states v);
  Ok (mkProcessing (pr_board v) (pr_wires v) (pr_plane v) a (pr_cur v) (alter (fst s) (graph_set_axes a) (pr_states v)) (pr_scene v)).
(** processing_view.cpp 91-94 *)
Definition processing_set_plane (p : Plane) (v : processing) : outcome processing :=
  do s <- at_cur (pr_cur v) (pr_states v);
  Ok (mkProcessing (pr_board v) (pr_wires v) p (pr_axes v) (pr_cur v) (alter (fst s) (graph_set_plane p) (pr_states v)) (pr_scene v)).
(** processing_view.cpp 97-101 *)
Definition processing_set_wires (w : wires) (v : processing) : processing :=
  mkProcessing (pr_board v) w (pr_plane v) (pr_axes v) (pr_cur v) (map (fun s => (fst s, graph_set_wires w (snd s))) (pr_states v)) (pr_scene v).
(** processing_view.cpp 132-137, when the timepoint is known. *)
Definition processing_show (t : nat) (v : processing) : processing :=
  if is_at (pr_cur v) t then v
  else match assoc t (pr_states v) with
       | Some _ => mkProcessing (pr_board v) (pr_wires v) (pr_plane v) (pr_axes v) (Some t) (pr_states v) (Some t)
       | None => v
       end.
(** processing_view.cpp 121-122: the scene that is in the QGraphicsView. *)
Definition processing_shown (v : processing) : outcome (option graph) :=
  match pr_scene v with
  | Some t => match assoc t (pr_states v) with Some g => Ok (Some g) | None => UB end
  | None => Ok None
  end.
(** processing_view.cpp 110-129 *)
Definition processing_make (t : nat) (v : processing) : outcome processing :=
  if negb (pr_board v) then Ok v
  else
    do c <- processing_shown v;
    let g := new_graph (pr_wires v) in
    let g := match c with Some s => graph_set_mode (gr_mode s) g | None => g end in
    let g := graph_set_wires (pr_wires v) (graph_set_plane (pr_plane v) (graph_set_axes (pr_axes v) g)) in
    Ok (processing_show t (mkProcessing (pr_board v) (pr_wires v) (pr_plane v) (pr_axes v) (pr_cur v) (emplace t g (pr_states v)) (pr_scene v))).
(** processing_view.cpp 132-142 *)
Definition processing_go (t : nat) (v : processing) : outcome processing :=
  if is_at (pr_cur v) t then Ok v
  else match assoc t (pr_states v) with
       | Some _ => Ok (processing_show t v)
       | None => processing_make t v
       end.

(** ** The window *)

(** The views, whether the buttons are enabled, and the button pressed in each of the groups
    bg_plane, bg_show_mesh, bg_show_processing and bg_wires of main_window.ui. *)
Record display := mkDisplay {
  d_open : bool;
  d_structure : structure;
  d_processing : processing;
  d_plane : Plane;
  d_mesh : visibility;
  d_mode : mode;
  d_wires : wires
}.
(** main_window.cpp 66-71, main_window.ui 109, 206, 420, 592. *)
Definition new_display : display := mkDisplay false new_structure new_processing PXY FULL SELECTED_CHAIN CURVED.

(** main_window.cpp 211-226: a click checks the button, then the slot runs. *)
Definition click_plane (p : Plane) (d : display) : outcome display :=
  do s <- structure_set_plane p (d_structure d);
  do q <- processing_set_plane p (d_processing d);
  Ok (mkDisplay (d_open d) s q p (d_mesh d) (d_mode d) (d_wires d)).
(** main_window.cpp 272-297 *)
Definition click_mesh (m : visibility) (d : display) : outcome display :=
  do s <- structure_set_visibility m (d_structure d);
  do q <- processing_set_axes (graph_axes m) (d_processing d);
  Ok (mkDisplay (d_open d) s q (d_plane d) m (d_mode d) (d_wires d)).
(** main_window.cpp 300-315 *)
Definition click_mode (m : mode) (d : display) : outcome display :=
  do q <- processing_set_mode m (d_processing d);
  Ok (mkDisplay (d_open d) (d_structure d) q (d_plane d) (d_mesh d) m (d_wires d)).
(** main_window.cpp 318-325 *)
Definition click_wires (w : wires) (d : display) : outcome display :=
  Ok (mkDisplay (d_open d) (d_structure d) (processing_set_wires w (d_processing d)) (d_plane d) (d_mesh d) (d_mode d) w).
(** main_window.cpp 715-723 *)
Definition page_up (p : Plane) : Plane := match p with PXY => PZX | PZX => PYZ | PYZ => PXY end.
(** main_window.cpp 724-732 *)
Definition page_down (p : Plane) : Plane := match p with PXY => PYZ | PZX => PXY | PYZ => PZX end.
(** main_window.cpp 696-711 *)
Definition update_pressing (d : display) : outcome display :=
  do m <- structure_visibility (d_structure d);
  do k <- processing_mode (d_processing d);
  Ok (mkDisplay (d_open d) (d_structure d) (d_processing d) (d_plane d) m k (d_wires d)).
(** main_window.cpp 608-633 *)
Definition make_display (t : nat) (d : display) : outcome display :=
  do s <- structure_make t (d_structure d);
  do q <- processing_make t (d_processing d);
  Ok (mkDisplay (d_open d) s q (d_plane d) (d_mesh d) (d_mode d) (d_wires d)).
(** main_window.cpp 598-605 *)
Definition go_display (t : nat) (d : display) : outcome display :=
  do s <- structure_go t (d_structure d);
  do q <- processing_go t (d_processing d);
  update_pressing (mkDisplay (d_open d) s q (d_plane d) (d_mesh d) (d_mode d) (d_wires d)).
(** main_window.cpp 587-595 *)
Definition go_or_make_display (t : nat) (d : display) : outcome display :=
  match assoc t (st_states (d_structure d)), assoc t (pr_states (d_processing d)) with
  | Some _, Some _ => go_display t d
  | _, _ => make_display t d
  end.
(** main_window.cpp 177-182, 138 and 150: whether the parser succeeds is an input. *)
Definition open_display (r : option nat) (d : display) : outcome display :=
  let s := structure_clear (d_structure d) in
  let q := processing_clear (d_processing d) in
  match r with
  | None => Ok (mkDisplay false s q (d_plane d) (d_mesh d) (d_mode d) (d_wires d))
  | Some t => make_display t (mkDisplay true (structure_init s) (processing_init q) (d_plane d) (d_mesh d) (d_mode d) (d_wires d))
  end.

(** What the user does: a click on a button, a key, an undo, a redo or a step that leads to the
    timepoint [t] ([Go]), an edition that does ([Edit], main_window.cpp 636-654), a file opened
    ([Some t]: read and meshed at the timepoint [t], or not readable). *)
Inductive action :=
  | ClickPlane (p : Plane) | ClickMesh (m : visibility) | ClickMode (m : mode) | ClickWires (w : wires)
  | PageUp | PageDown | Go (t : nat) | Edit (t : nat) | Open (r : option nat).

Definition act (a : action) (d : display) : outcome display :=
  match a with
  | Open r => open_display r d
  | _ =>
      if negb (d_open d) then Ok d
      else match a with
           | ClickPlane p => click_plane p d
           | ClickMesh m => click_mesh m d
           | ClickMode m => click_mode m d
           | ClickWires w => click_wires w d
           | PageUp => click_plane (page_up (d_plane d)) d
           | PageDown => click_plane (page_down (d_plane d)) d
           | Go t => go_or_make_display t d
           | Edit t => make_display t d
           | Open r => Ok d
           end
  end.

Fixpoint acts (l : list action) (d : display) : outcome display :=
  match l with
  | [] => Ok d
  | a :: r => do d' <- act a d; acts r d'
  end.
