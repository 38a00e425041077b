(** Boards of boxes whose sides can be told apart, and what shows of a side: the words of
    C64.  No proofs in this file. *)
From Coq Require Import List QArith Qabs.
From Verif Require Import IntervalModel ManagerModel GeomModel GeomSpec BoardModel BoardSpec.
Import ListNotations.
Open Scope Q_scope.

(** Coordinates that are the same, or apart: two lengths of that size make an area that
    is not taken for nothing. *)
Definition spacing : Q := 1 # 5000.
Definition same_or_apart (x y : Q) : Prop := x == y \/ spacing <= Qabs (x - y).
(** The vertices of the polygons of a plane have such coordinates. *)
Definition spaced (b : board) : Prop :=
  forall k l g h v w, nth_error (b_polygons b) k = Some g -> nth_error (b_polygons b) l = Some h -> g_plane g = g_plane h ->
    In v (g_points g) -> In w (g_points h) -> same_or_apart (px v) (px w) /\ same_or_apart (py v) (py w).

(** The box with these vertices has the point, border included. *)
Definition box_has (l : list point) (q : point) : Prop := exists a c, l = box_points a c /\ in_box (hull a c) q.
(** The point of the side [i] is not seen: a polygon that may hide the side, at its
    height and of its priority or above, has it, up to the tolerance. *)
Definition unseen (b : board) (i : nat) (q : point) : Prop :=
  exists k g q', may_hide b i k /\ nth_error (b_polygons b) k = Some g /\ box_has (g_points g) q' /\ close q q'.
(** Some point of it is seen. *)
Definition shows (b : board) (i : nat) : Prop := exists e q, edge_at b i e /\ on_seg (e_seg e) q /\ ~ unseen b i q.
