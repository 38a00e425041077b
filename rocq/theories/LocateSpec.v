(** What it is for a point to be in a polygon of any shape: the even-odd rule.  No proofs
    in this file. *)
From Coq Require Import List Bool ZArith QArith.
From Verif Require Import IntervalModel GeomModel GeomSpec.
Import ListNotations.
Open Scope Q_scope.

(** Going right from [p], level, one goes through the side from [a] to [b]: [p] is
    between their heights, the lower one included, and on the left of the side. *)
Definition on_right (p : point) (s : point * point) : bool :=
  let (a, b) := s in
  (Qle_bool (py a) (py p) && Qltb (py p) (py b) && Qltb 0 (cross a b p))
  || (Qle_bool (py b) (py p) && Qltb (py p) (py a) && Qltb 0 (cross b a p)).

(** Through an odd number of sides of the closed chain of points. *)
Definition enclosed (l : list point) (p : point) : Prop := Nat.odd (length (filter (on_right p) (sides l))) = true.

Definition on_border (l : list point) (p : point) : Prop := exists a b, In (a, b) (sides l) /\ on_seg (mk_seg a b) p.

(** In the polygon, border included. *)
Definition in_polygon (l : list point) (p : point) : Prop := on_border l p \/ enclosed l p.

(** The same rule along the half line from [p] of direction [w]: the side of that line a
    point is on, going through a side, and the number of sides being odd. *)
Definition side_of (w p v : point) : Q := px w * (py v - py p) - py w * (px v - px p).
Definition passes (w p : point) (s : point * point) : bool :=
  let (a, b) := s in
  if Qltb 0 (side_of w p a) then negb (Qltb 0 (side_of w p b)) && Qltb (cross a b p) 0
  else Qltb 0 (side_of w p b) && Qltb 0 (cross a b p).
Definition parity (w : point) (l : list point) (p : point) : bool := Nat.odd (length (filter (passes w p) (sides l))).

(** How far a point is in a direction. *)
Definition reach (w v : point) : Q := px w * px v + py w * py v.

(** Coordinates that are whole numbers of [1/N]. *)
Definition on_grid (N : positive) (x : Q) : Prop := exists k, x == k # N.
Definition grid_point (N : positive) (p : point) : Prop := on_grid N (px p) /\ on_grid N (py p).
