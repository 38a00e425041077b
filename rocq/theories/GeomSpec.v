(** Plain geometry on the rational plane, used to state C36-C40.  Nothing here
    refers to a function of the model; only the data types are shared. *)
From Coq Require Import List Bool QArith Qabs Qminmax.
From Verif Require Import IntervalModel ManagerModel GeomModel.
Import ListNotations.
Open Scope Q_scope.

(** Two points with the same coordinates. *)
Definition same_pt (p q : point) : Prop := px p == px q /\ py p == py q.

(** A closed range, a closed box and the inside of a box. *)
Definition in_range (b : box1) (x : Q) : Prop := lo b <= x <= hi b.
Definition in_box (b : box) (p : point) : Prop := xmin b <= px p <= xmax b /\ ymin b <= py p <= ymax b.
Definition inside (b : box) (p : point) : Prop := xmin b < px p < xmax b /\ ymin b < py p < ymax b.

(** [p] is a point of the closed segment [s]. *)
Definition on_seg (s : seg) (p : point) : Prop :=
  exists t, 0 <= t <= 1
    /\ px p == px (s0 s) + t * (px (s1 s) - px (s0 s))
    /\ py p == py (s0 s) + t * (py (s1 s) - py (s0 s)).

(** All points are in the box and every side is reached: the smallest box. *)
Definition tight (b : box) (l : list point) : Prop :=
  (forall p, In p l -> in_box b p)
  /\ (exists p, In p l /\ px p == xmin b) /\ (exists p, In p l /\ px p == xmax b)
  /\ (exists p, In p l /\ py p == ymin b) /\ (exists p, In p l /\ py p == ymax b).

(** The consecutive pairs of a closed chain of points, the last one first. *)
Fixpoint chain (prev : point) (l : list point) : list (point * point) :=
  match l with [] => [] | p :: r => (prev, p) :: chain p r end.
Definition sides (l : list point) : list (point * point) :=
  match l with [] => [] | p :: _ => chain (last l p) l end.

(** Twice the signed area of the triangle [a], [b], [c]: positive if [c] is on
    the left of the line from [a] to [b]. *)
Definition cross (a b c : point) : Q :=
  (px b - px a) * (py c - py a) - (py b - py a) * (px c - px a).

(** Convex polygon run counterclockwise, clockwise: every point is on the left
    (right) of every side, or on it. *)
Definition convex_ccw (l : list point) : Prop :=
  forall a b c, In (a, b) (sides l) -> In c l -> 0 <= cross a b c.
Definition convex_cw (l : list point) : Prop :=
  forall a b c, In (a, b) (sides l) -> In c l -> cross a b c <= 0.

(** The unit vector of a normal in the plane of drawing. *)
Definition normal_vec (n : Normal) : point :=
  match n with
  | Nxmin => mk_pt (-1) 0 | Nxmax => mk_pt 1 0
  | Nymin => mk_pt 0 (-1) | Nymax => mk_pt 0 1
  | _ => mk_pt 0 0
  end.
Definition moved (p : point) (n : Normal) (x : Q) : point :=
  mk_pt (px p + x * px (normal_vec n)) (py p + x * py (normal_vec n)).

(** The box with the opposite corners [p] and [q], in any order. *)
Definition hull (p q : point) : box :=
  mk_box (Qmin (px p) (px q)) (Qmax (px p) (px q)) (Qmin (py p) (py q)) (Qmax (py p) (py q)).

(** The other orientation. *)
Definition opposite (r : Rotation) : Rotation := match r with CW => CCW | CCW => CW | COLINEAR => COLINEAR end.

(** An exactly horizontal (vertical) segment, and the level it lies at. *)
Definition level (v : ViewAxis) (p : point) : Q := match v with VH => py p | VV => px p end.
Definition along (v : ViewAxis) (p : point) : Q := match v with VH => px p | VV => py p end.
Definition straight (v : ViewAxis) (s : seg) : Prop :=
  level v (s0 s) == level v (s1 s)
  /\ equality_tolerance <= Qabs (along v (s1 s) - along v (s0 s)).
Definition same_line (v : ViewAxis) (a b : seg) : Prop := level v (s0 a) == level v (s0 b).

(** Not a slanted segment taken for a straight one because of the tolerance. *)
Definition exact (s : seg) : Prop :=
  (Qabs (px (s1 s) - px (s0 s)) < equality_tolerance -> px (s0 s) == px (s1 s))
  /\ (Qabs (py (s1 s) - py (s0 s)) < equality_tolerance -> py (s0 s) == py (s1 s)).

(** Away from the tolerance band of the box [b]: the box is not thinner than
    (twice) the tolerance, and the point is far enough from the four lines
    carrying its sides, with respect to the sizes of the box. *)
Definition clear_of (b : box) (p : point) : Prop :=
  let t := 2 * equality_tolerance in
  t <= xmax b - xmin b /\ t <= ymax b - ymin b
  /\ forall d, In d [px p - xmin b; px p - xmax b; py p - ymin b; py p - ymax b] ->
  t <= Qabs d /\ t <= Qabs d * (xmax b - xmin b) /\ t <= Qabs d * (ymax b - ymin b).

(** The same answer, up to the representation of the rationals. *)
Definition same_side (x y : option (Q * Q)) : Prop :=
  match x, y with
  | Some (a, b), Some (c, d) => a == c /\ b == d
  | None, None => True
  | _, _ => False
  end.

Definition same_seg (x y : option seg) : Prop :=
  match x, y with
  | Some a, Some b => same_pt (s0 a) (s0 b) /\ same_pt (s1 a) (s1 b)
  | None, None => True
  | _, _ => False
  end.


(** Twice the signed area of a polygon: the triangles from [o] to the sides. *)
Definition twice_area (o : point) (l : list point) : Q :=
  fold_right (fun s a => cross o (fst s) (snd s) + a) 0 (sides l).

Definition translated (v p : point) : point := mk_pt (px p + px v) (py p + py v).

(** Two points that are taken for the same. *)
Definition close (p q : point) : Prop :=
  Qabs (px p - px q) < equality_tolerance /\ Qabs (py p - py q) < equality_tolerance.
