(** The words used to state what the structure view shows.  No proofs in this file. *)
From Coq Require Import List Arith QArith.
From Verif Require Import IntervalModel ManagerModel ManagerSpec GeomModel GeomSpec BoardModel BoardSpec SceneModel SceneSpec StructureModel.
Import ListNotations.
Local Open Scope Q_scope.

(** The coordinate along an axis of a point drawn in a plane, if the axis is in the plane. *)
Definition coordinate (p : Plane) (ax : Axis3) (q : point) : option Q :=
  match p, ax with
  | PYZ, AY => Some (px q) | PYZ, AZ => Some (py q)
  | PZX, AZ => Some (px q) | PZX, AX => Some (py q)
  | PXY, AX => Some (px q) | PXY, AY => Some (py q)
  | PYZ, AX | PZX, AY | PXY, AZ => None
  end.
Definition contains (p : Plane) (ax : Axis3) : Prop := match p, ax with PYZ, AX | PZX, AY | PXY, AZ => False | _, _ => True end.

(** The objects of the board that a plane is to show: its polygons with their sides, its angles,
    and everything on its two axes.  Edges in polygons are not shown. *)
Definition drawn_in (b : board) (p : Plane) (x : entity) : Prop :=
  on_board b x /\
  match x with
  | EPolygon i => exists g, nth_error (b_polygons b) i = Some g /\ g_plane g = p
  | EEdge i => exists j g, nth_error (b_polygons b) j = Some g /\ g_plane g = p /\ In i (g_edges g)
  | EAngle i => exists a, nth_error (b_angles b) i = Some a /\ a_plane a = p
  | EInPolygon _ _ => False
  | EColinear a _ | EClose a _ | EZone a _ | EPolicy a _ | EInterval a _ | ELine a _ => contains p a
  end.

Definition between (x y c : Q) : Prop := x <= c <= y \/ y <= c <= x.

(** The points that a figure covers. *)
Definition covers (f : figure) (q : point) : Prop :=
  match f with
  | Line a b => on_seg (mk_seg a b) q
  | Band a b => between (px a) (px b) (px q) /\ between (py a) (py b) (py q)
  | Shape l => exists a b, consecutive l a b /\ on_seg (mk_seg a b) q
  | Ellipse c w h =>
      let x := 2 * (px q - px c) - w in
      let y := 2 * (py q - py c) - h in
      x * x * (h * h) + y * y * (w * w) <= w * w * (h * h)
  end.

(** The rectangle of the scene, and around it on each side twice its width, or twice its
    height. *)
Definition proper (r : rect) : Prop := r_left r <= r_right r /\ r_top r <= r_bottom r.
Definition in_sight (r : rect) (q : point) : Prop :=
  exists m, (m = r_right r - r_left r \/ m = r_bottom r - r_top r)
    /\ r_left r - 2 * m <= px q <= r_right r + 2 * m /\ r_top r - 2 * m <= py q <= r_bottom r + 2 * m.

(** All that has its coordinate along the axis equal to [x]. *)
Definition level_with (p : Plane) (ax : Axis3) (x : Q) (q : point) : Prop := exists c, coordinate p ax q = Some c /\ c == x.

(** The points of plane [p] where the object is. *)
Definition located (b : board) (p : Plane) (x : entity) (q : point) : Prop :=
  match x with
  | EPolygon i => exists g j e, nth_error (b_polygons b) i = Some g /\ In j (g_edges g) /\ edge_at b j e /\ on_seg (e_seg e) q
  | EEdge i => exists e, edge_at b i e /\ on_seg (e_seg e) q
  (* a disc *)
  | EAngle i => exists a, nth_error (b_angles b) i = Some a
      /\ (px q - px (a_point a)) * (px q - px (a_point a)) + (py q - py (a_point a)) * (py q - py (a_point a)) <= (5 # 2) * (5 # 2)
  | ELine ax i => exists x, nth_error (ax_lines (on_axis (b_axes b) ax)) i = Some x /\ level_with p ax x q
  | EPolicy ax i => exists y, policy_at (on_axis (b_axes b) ax) i y /\ level_with p ax (p_coord y) q
  | EInterval ax i => exists s y z c, nth_error (ax_segments (on_axis (b_axes b) ax)) i = Some s
      /\ policy_at (on_axis (b_axes b) ax) (sg_before s) y /\ policy_at (on_axis (b_axes b) ax) (sg_after s) z
      /\ coordinate p ax q = Some c /\ between (p_coord y) (p_coord z) c
  (* where its first edge is, in the plane of the edge *)
  | EColinear ax i => exists k j e y, nth_error (on_axis (b_ce b) ax) i = Some k /\ hd_error (ce_edges k) = Some j /\ edge_at b j e
      /\ coordinate (e_plane e) ax (s0 (e_seg e)) = Some y /\ level_with p ax y q
  (* from its first angle to its last *)
  | EZone ax i => exists z f u v y y' c, nth_error (on_axis (b_zones b) ax) i = Some z /\ hd_error (dz_angles z) = Some f
      /\ nth_error (b_angles b) f = Some u /\ nth_error (b_angles b) (last (dz_angles z) f) = Some v
      /\ coordinate (a_plane u) ax (a_point u) = Some y /\ coordinate (a_plane v) ax (a_point v) = Some y'
      /\ coordinate p ax q = Some c /\ between y y' c
  (* where the policy is that the two were replaced with *)
  | EClose ax i => exists k s y, nth_error (ax_conflicts (on_axis (b_axes b) ax)) i = Some k /\ tc_solution k = Some s
      /\ policy_at (on_axis (b_axes b) ax) s y /\ level_with p ax (p_coord y) q
  | EInPolygon _ _ => False
  end.
(** All the edges of the conflict are in the plane. *)
Definition at_home (b : board) (p : Plane) (x : entity) : Prop :=
  forall ax i k j e, x = EColinear ax i -> nth_error (on_axis (b_ce b) ax) i = Some k -> In j (ce_edges k) -> edge_at b j e -> e_plane e = p.

(** Going through every point that has its coordinate along the axis equal to [x], among those in
    sight. *)
Definition line_of (p : Plane) (ax : Axis3) (r : rect) (x : Q) (f : figure) : Prop :=
  forall q, proper r -> in_sight r q -> covers f q <-> level_with p ax x q.

(** The style of an item tells what is enabled. *)
Definition told_of (b : board) (x : entity) (s : style) : Prop :=
  match x with
  | EPolicy ax i => exists y, policy_at (on_axis (b_axes b) ax) i y /\ s = Enabled (p_enabled y)
  | EAngle i => exists a, nth_error (b_angles b) i = Some a /\ s = Crossed (a_h a) (a_v a)
  | _ => s = Plain
  end.

(** A line that goes from side to side of the scene. *)
Definition horizontal (f : figure) : Prop := match f with Line a b => py a = py b /\ px a < px b | _ => False end.
Definition upright (f : figure) : Prop := match f with Line a b => px a = px b /\ py b < py a | _ => False end.
(** A rectangle that is not a point. *)
Definition some_size (r : rect) : Prop := proper r /\ (r_left r < r_right r \/ r_top r < r_bottom r).
