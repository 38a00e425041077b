(** Boards on which a run is expected to end: what C56 asks for. *)
From Coq Require Import List QArith Qabs.
From Verif Require Import IntervalModel ManagerModel GeomModel GeomSpec BoardModel.
Import ListNotations.
Open Scope Q_scope.

(** Every polygon is made of something. *)
Definition materials_known (b : board) : Prop := forall k g, nth_error (b_polygons b) k = Some g -> g_material g <> None.

(** The corners of a box. *)
Definition is_box (l : list point) : Prop := exists p q, l = box_points p q.
Definition only_boxes (b : board) : Prop := forall k g, nth_error (b_polygons b) k = Some g -> is_box (g_points g).

(** The ends of an edge are the same point, or are not mixed up with each other: a
    tolerance apart along an axis, or two tolerances apart in some coordinate. *)
Definition ends_apart (s : seg) : Prop :=
  let dx := Qabs (px (s0 s) - px (s1 s)) in
  let dy := Qabs (py (s0 s) - py (s1 s)) in
  (dx == 0 /\ dy == 0) \/ (dy == 0 /\ equality_tolerance <= dx) \/ (dx == 0 /\ equality_tolerance <= dy)
  \/ 2 * equality_tolerance <= dx \/ 2 * equality_tolerance <= dy.
Definition edges_long (b : board) : Prop := forall i e, nth_error (b_edges b) i = Some e -> ends_apart (e_seg e).

(** Vertices are at the same height or two tolerances apart. *)
Definition heights_apart (l : list point) : Prop :=
  forall v w, In v l -> In w l -> py v == py w \/ 2 * equality_tolerance <= Qabs (py v - py w).
Definition locatable (b : board) : Prop := forall k g, nth_error (b_polygons b) k = Some g -> is_box (g_points g) \/ heights_apart (g_points g).
