(** Model of the structure view: what src/ui/qt/structure_view/structure_view.cpp 224-262
    draws of a board in the scene of a plane, with structure_scene.cpp 117-264 and the
    constructors of structure_*.cpp, and which mesh lines are shown
    (structure_scene.cpp 321-343, main_window.cpp 272-297).  No proofs in this file.

    Simplifications, for the whole file:
    - those of BoardModel.v, and a qreal is exact;
    - an [Entity const*] is as in SceneModel.v;
    - colours, widths of pens, names, texts and stacking are left out, and so is Qt:
      a [QGraphicsLineItem], ... is the figure it is made with;
    - [sceneRect()] (structure_view.cpp 238), which Qt works out, is a parameter. *)
From Coq Require Import List Arith Bool QArith.
From Verif Require Import IntervalModel ManagerModel GeomModel BoardModel SceneModel.
Import ListNotations.
Local Open Scope Q_scope.

(** QRectF. *)
Record rect := mk_rect { r_left : Q; r_top : Q; r_right : Q; r_bottom : Q }.

(** structure_meshline.cpp 21-22, and the same lines of structure_meshline_policy.cpp
    21-22 and 41-42, structure_interval.cpp 22-23, structure_conflict_colinear_edges.cpp
    22-23, structure_conflict_diagonal_or_circular_zone.cpp 22-23,
    structure_conflict_too_close_meshline_policies.cpp 22-23. *)
Definition grown (r : rect) : rect :=
  let side := qmax (r_right r - r_left r) (r_bottom r - r_top r) in
  let m := side * 2 in
  mk_rect (r_left r - m) (r_top r - m) (r_right r + m) (r_bottom r + m).

(** QLineF, QRectF of two corners, QPolygonF, the ellipse in a QRectF of a corner and
    sizes. *)
Inductive figure :=
| Line (a b : point)
| Band (a b : point)
| Shape (l : list point)
| Ellipse (corner : point) (width height : Q).

(** structure_meshline.cpp 24-35, structure_meshline_policy.cpp 24-35,
    structure_conflict_colinear_edges.cpp 25-36,
    structure_conflict_too_close_meshline_policies.cpp 25-36, of the coordinate. *)
Definition line_at (axis : ViewAxis) (r : rect) (x : Q) : figure :=
  let r := grown r in
  match axis with
  | VH => Line (mk_pt (r_left r) x) (mk_pt (r_right r) x)
  | VV => Line (mk_pt x (r_bottom r)) (mk_pt x (r_top r))
  end.
(** structure_interval.cpp 25-42, structure_conflict_diagonal_or_circular_zone.cpp 26-37,
    of the two coordinates. *)
Definition band_at (axis : ViewAxis) (r : rect) (x y : Q) : figure :=
  let r := grown r in
  match axis with
  | VH => Band (mk_pt (r_left r) x) (mk_pt (r_right r) y)
  | VV => Band (mk_pt x (r_bottom r)) (mk_pt y (r_top r))
  end.

(** structure_meshline_policy.cpp 44-61. *)
Definition policy_offsets (p : mlp) : Q * Q :=
  let d := p_d p in
  match p_policy p with
  | ONELINE => (0, 0)
  | HALFS => (d / 2, - d / 2)
  | THIRDS =>
      match p_normal p with
      | NMAX => ((2 # 3) * d, - (1 # 3) * d)
      | NMIN => ((1 # 3) * d, - (2 # 3) * d)
      | NNONE => (0, 0)
      end
  end.

(** The groups of structure_scene.hpp 87-95, two for each kind that has an axis. *)
Inductive group :=
| GEdges | GPolygons | GAngles
| GColinear (v : ViewAxis) | GZones (v : ViewAxis) | GClose (v : ViewAxis)
| GIntervals (v : ViewAxis) | GLines (v : ViewAxis) | GPolicies (v : ViewAxis).

(** The styles of structure_style.hpp that tell objects of a kind apart. *)
Inductive style := Plain | Enabled (x : bool) | Crossed (h v : bool).

(** An item: its object (also its key in [index]), its group, its figure, those painted
    besides, its style. *)
Record item := mk_item
  { it_entity : entity; it_group : group; it_figure : figure; it_more : list figure; it_style : style }.

(** structure_polygon.cpp 24-31 ([first()] of no points is undefined), structure_scene.cpp
    154-190. *)
Definition draw_polygon (b : board) (i : nat) : run item :=
  let! g := read (b_polygons b) i in
  match g_points g with
  | [] => Dangling
  | p :: _ => Done (mk_item (EPolygon i) GPolygons (Shape (g_points g ++ [p])) [] Plain)
  end.
(** structure_edge.cpp 21, structure_scene.cpp 144-151. *)
Definition draw_edge (b : board) (i : nat) : run item :=
  let! e := read (b_edges b) i in
  Done (mk_item (EEdge i) GEdges (Line (s0 (e_seg e)) (s1 (e_seg e))) [] Plain).
(** structure_angle.cpp 19-36: the disc and the cross. *)
Definition diameter : Q := 5.
Definition draw_angle (b : board) (i : nat) : run item :=
  let! a := read (b_angles b) i in
  let x := px (a_point a) in
  let y := py (a_point a) in
  Done (mk_item (EAngle i) GAngles
    (Ellipse (mk_pt (x - diameter / 2) (y - diameter / 2)) diameter diameter)
    [Line (mk_pt x (y + diameter / 2)) (mk_pt x (y - diameter / 2));
     Line (mk_pt (x + diameter / 2) y) (mk_pt (x - diameter / 2) y)]
    (* structure_scene.cpp 120-138 *)
    (Crossed (a_h a) (a_v a))).

(** structure_meshline.cpp 20-36, structure_scene.cpp 237-245: [view_axis] is that of the objects, [meshline_axis] that
    of their lines. *)
Definition draw_line (b : board) (ax : Axis3) (v : ViewAxis) (r : rect) (i : nat) : run item :=
  let! x := read (ax_lines (on_axis (b_axes b) ax)) i in
  let m := reverse_view v in
  Done (mk_item (ELine ax i) (GLines m) (line_at m r x) [] Plain).
(** structure_meshline_policy.cpp 20-83, structure_scene.cpp 248-264. *)
Definition draw_policy (b : board) (ax : Axis3) (v : ViewAxis) (r : rect) (i : nat) : run item :=
  let! p := read (ax_policies (on_axis (b_axes b) ax)) i in
  let m := reverse_view v in
  let o := policy_offsets p in
  Done (mk_item (EPolicy ax i) (GPolicies m) (line_at m r (p_coord p))
          [line_at m r (p_coord p + fst o); line_at m r (p_coord p + snd o)] (Enabled (p_enabled p))).
(** structure_interval.cpp 21-43, structure_scene.cpp 226-234. *)
Definition draw_interval (b : board) (ax : Axis3) (v : ViewAxis) (r : rect) (i : nat) : run item :=
  let! s := read (ax_segments (on_axis (b_axes b) ax)) i in
  let! before := read (ax_policies (on_axis (b_axes b) ax)) (sg_before s) in
  let! after := read (ax_policies (on_axis (b_axes b) ax)) (sg_after s) in
  let m := reverse_view v in
  Done (mk_item (EInterval ax i) (GIntervals m) (band_at m r (p_coord before) (p_coord after)) [] Plain).
(** structure_conflict_colinear_edges.cpp 21-37 ([edges[0]] of no edges is undefined),
    structure_scene.cpp 193-201. *)
Definition draw_colinear (b : board) (ax : Axis3) (v : ViewAxis) (r : rect) (i : nat) : run item :=
  let! c := read (on_axis (b_ce b) ax) i in
  match ce_edges c with
  | [] => Dangling
  | j :: _ =>
      let! e := read (b_edges b) j in
      let m := reverse_view v in
      let x := match m with VH => py (s0 (e_seg e)) | VV => px (s0 (e_seg e)) end in
      Done (mk_item (EColinear ax i) (GColinear m) (line_at m r x) [] Plain)
  end.
(** structure_conflict_diagonal_or_circular_zone.cpp 21-38, with
    conflict_diagonal_or_circular_zone.cpp 40-51, structure_scene.cpp 204-212. *)
Definition draw_zone (b : board) (ax : Axis3) (v : ViewAxis) (r : rect) (i : nat) : run item :=
  let! z := read (on_axis (b_zones b) ax) i in
  let! w := zone_of b ax z in
  let m := reverse_view v in
  Done (mk_item (EZone ax i) (GZones m) (band_at m r (z_min w) (z_max w)) [] Plain).
(** structure_conflict_too_close_meshline_policies.cpp 21-47 (a null [solution] is
    dereferenced), structure_scene.cpp 215-223. *)
Definition draw_close (b : board) (ax : Axis3) (v : ViewAxis) (r : rect) (i : nat) : run item :=
  let! c := read (ax_conflicts (on_axis (b_axes b) ax)) i in
  match tc_solution c with
  | None => Dangling
  | Some s =>
      let! q := read (ax_policies (on_axis (b_axes b) ax)) s in
      let! x := read (ax_policies (on_axis (b_axes b) ax)) (tc_a c) in
      let! y := read (ax_policies (on_axis (b_axes b) ax)) (tc_b c) in
      let m := reverse_view v in
      Done (mk_item (EClose ax i) (GClose m) (line_at m r (p_coord q))
              [line_at m r (p_coord x); line_at m r (p_coord y)] Plain)
  end.

(** The positions in a list. *)
Definition indices {A : Type} (l : list A) : list nat := seq 0 (length l).

(** structure_view.cpp 241-259. *)
Definition populate_axis (b : board) (p : Plane) (r : rect) (ax : Axis3) : run (list item) :=
  match view_of_axis p ax with
  | None => Done []
  | Some v =>
      let! lines := collect (draw_line b ax v r) (indices (ax_lines (on_axis (b_axes b) ax))) in
      let! policies := collect (draw_policy b ax v r) (indices (ax_policies (on_axis (b_axes b) ax))) in
      let! intervals := collect (draw_interval b ax v r) (indices (ax_segments (on_axis (b_axes b) ax))) in
      let! colinear := collect (draw_colinear b ax v r) (indices (on_axis (b_ce b) ax)) in
      let! zones := collect (draw_zone b ax v r) (indices (on_axis (b_zones b) ax)) in
      let! close := collect (draw_close b ax v r) (indices (ax_conflicts (on_axis (b_axes b) ax))) in
      Done (lines ++ policies ++ intervals ++ colinear ++ zones ++ close)
  end.
(** structure_view.cpp 228-233. *)
Definition populate_polygon (b : board) (i : nat) : run (list item) :=
  let! x := draw_polygon b i in
  let! g := read (b_polygons b) i in
  let! es := collect (draw_edge b) (g_edges g) in
  Done (x :: es).
(** structure_view.cpp 226-260, in a scene that is empty (structure_view.cpp 194-199). *)
Definition populate (b : board) (p : Plane) (r : rect) : run (list item) :=
  let! polygons := collect (populate_polygon b) (polygons_of b p) in
  let! angles := collect (draw_angle b) (angles_of b p) in
  let! axes := collect (populate_axis b p r) [axes_table p VH; axes_table p VV] in
  Done (concat polygons ++ angles ++ concat axes).

(** ** What is shown *)

(** structure_scene.hpp 56-61. *)
Inductive visibility := NONE | VERTICAL | HORIZONTAL | FULL.
(** structure_scene.cpp 321-343: only lines are ever hidden. *)
Definition is_shown (m : visibility) (x : item) : bool :=
  match it_group x with
  | GLines VH => match m with HORIZONTAL | FULL => true | _ => false end
  | GLines VV => match m with VERTICAL | FULL => true | _ => false end
  | _ => true
  end.
(** main_window.cpp 272-297: what each button gives to the graph view as well. *)
Definition graph_axes (m : visibility) (v : ViewAxis) : bool :=
  match m, v with
  | FULL, _ => true
  | HORIZONTAL, VH => true
  | HORIZONTAL, VV => false
  | VERTICAL, VH => false
  | VERTICAL, VV => true
  | NONE, _ => false
  end.
(** processing_scene.cpp 405-414: whether the frame of an axis is shown in the graph view,
    when it shows what the structure view does. *)
Definition frame_shown (m : visibility) (p : Plane) (ax : Axis3) : bool :=
  match view_of_axis p ax with
  | Some v => graph_axes m (reverse_view v)
  | None => false
  end.
