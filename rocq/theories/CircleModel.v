(** Model of the points of a circle, src/domain/geometrics/polygon.cpp 213-231, and of the sense of
    a polygon, 64-90, on real numbers.  No proofs in this file.

    Simplifications, for the whole file: doubles are real numbers, and [sin], [cos] and [numbers::pi]
    are those of mathematics. *)
From Coq Require Import List Arith Reals.
From Verif Require GeomModel.
Import ListNotations.
Open Scope R_scope.
Open Scope bool_scope.

(** A point (geometrics/point.hpp). *)
Record rpoint := mkR { rx : R; ry : R }.

(** polygon.cpp 219-220. *)
Definition slices (n : nat) : nat := match n with O => 1 | S _ => n end.
(** polygon.cpp 222. *)
Definition slice_angle (n : nat) : R := (PI / 2) / INR (slices n).
(** polygon.cpp 215-231. *)
Definition circle_to_points (c : rpoint) (r : R) (n : nat) : list rpoint :=
  map (fun i => let a := slice_angle n * INR i in mkR (rx c + r * cos a) (ry c + r * sin a)) (seq 0 (slices n * 4)).

(** polygon.cpp 68-77: the sum of what each pair of points adds to left_sum and takes from it by
    right_sum, halved. *)
Definition term (p q : rpoint) : R := rx p * ry q - rx q * ry p.
Fixpoint terms (first : rpoint) (l : list rpoint) : R :=
  match l with
  | [] => 0
  | p :: r => term p (match r with [] => first | q :: _ => q end) + terms first r
  end.
Definition signed_area (l : list rpoint) : R := match l with [] => 0 | first :: _ => 1 / 2 * terms first l end.

(** coord.cpp 28-30, with 1e-8 of global.hpp 40. *)
Definition tolerance : R := / 100000000.
Definition same_coord (a b : R) : bool := if Rlt_dec (Rabs (a - b)) tolerance then true else false.
(** polygon.cpp 68-89. *)
Definition sense (l : list rpoint) : GeomModel.Rotation :=
  if same_coord (signed_area l) 0 then GeomModel.COLINEAR else if Rlt_dec 0 (signed_area l) then GeomModel.CCW else GeomModel.CW.
(** segment.cpp 75-85, of the segment from [p] to [q]. *)
Definition axis_of_side (p q : rpoint) : GeomModel.SegAxis :=
  let vx := same_coord (rx q - rx p) 0 in
  let vy := same_coord (ry q - ry p) 0 in
  if vx && vy then GeomModel.SPOINT else if vx then GeomModel.SV else if vy then GeomModel.SH else GeomModel.SDIAG.
(** polygon.cpp 97-113: the bounding box, from the first point; no box without points (undefined). *)
Record rbox := mkB { bx0 : R; bx1 : R; by0 : R; by1 : R }.
Definition grow (b : rbox) (p : rpoint) : rbox :=
  mkB (if Rlt_dec (rx p) (bx0 b) then rx p else bx0 b) (if Rlt_dec (bx1 b) (rx p) then rx p else bx1 b)
      (if Rlt_dec (ry p) (by0 b) then ry p else by0 b) (if Rlt_dec (by1 b) (ry p) then ry p else by1 b).
Definition bounding (l : list rpoint) : option rbox :=
  match l with [] => None | p :: _ => Some (fold_left grow l (mkB (rx p) (rx p) (ry p) (ry p))) end.
