(** What the properties of CircleModel.v are about. *)
From Coq Require Import List Arith Reals.
From Verif Require Import CircleModel.
Import ListNotations.
Open Scope R_scope.

(** The square of the distance of two points. *)
Definition apart2 (p q : rpoint) : R := (rx p - rx q) * (rx p - rx q) + (ry p - ry q) * (ry p - ry q).
(** [q] comes after [p] in the closed polygon [l]. *)
Definition side (l : list rpoint) (p q : rpoint) : Prop :=
  exists i, nth_error l i = Some p /\ nth_error l (S i mod length l) = Some q.
(** Positive if one turns left from [p] to [q] seen from [o]. *)
Definition turn (o p q : rpoint) : R := (rx p - rx o) * (ry q - ry o) - (rx q - rx o) * (ry p - ry o).
(** The point at [t] on the way from [p] to [q]. *)
Definition along (p q : rpoint) (t : R) : rpoint := mkR (rx p + t * (rx q - rx p)) (ry p + t * (ry q - ry p)).
(** The box whose sides all touch the points of [l], and no point of [l] is out of. *)
Definition tight_box (b : rbox) (l : list rpoint) : Prop :=
  (forall p, In p l -> bx0 b <= rx p <= bx1 b /\ by0 b <= ry p <= by1 b)
  /\ (exists p, In p l /\ rx p = bx0 b) /\ (exists p, In p l /\ rx p = bx1 b)
  /\ (exists p, In p l /\ ry p = by0 b) /\ (exists p, In p l /\ ry p = by1 b).
