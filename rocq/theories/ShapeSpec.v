(** Boards of rectilinear polygons on a grid, and what shows of a side: the words of C67.
    No proofs in this file. *)
From Coq Require Import List ZArith QArith Qabs.
From Verif Require Import IntervalModel ManagerModel GeomModel GeomSpec BoardModel BoardSpec LocateSpec.
Import ListNotations.
Open Scope Q_scope.

(** Each side goes along an axis, or is a point. *)
Definition rectilinear (l : list point) : Prop := forall a b, In (a, b) (sides l) -> px a == px b \/ py a == py b.
(** All polygons are so, on the grid of 1/N. *)
Definition shaped (N : positive) (b : board) : Prop :=
  forall k g, nth_error (b_polygons b) k = Some g -> rectilinear (g_points g) /\ forall v, In v (g_points g) -> grid_point N v.

(** The point of the side [i] is not seen: a polygon that may hide the side, at its
    height and of its priority or above, has it, up to the tolerance. *)
Definition hidden (b : board) (i : nat) (q : point) : Prop :=
  exists k g q', may_hide b i k /\ nth_error (b_polygons b) k = Some g /\ in_polygon (g_points g) q' /\ close q q'.
(** Some point of it is seen. *)
Definition seen (b : board) (i : nat) : Prop := exists e q, edge_at b i e /\ on_seg (e_seg e) q /\ ~ hidden b i q.

(** The side is one of a polygon that does not go round as much area in a way as in the
    other. *)
Definition has_area (b : board) (i : nat) : Prop :=
  exists k g, nth_error (b_polygons b) k = Some g /\ In i (g_edges g) /\ ~ twice_area (mk_pt 0 0) (g_points g) == 0.
