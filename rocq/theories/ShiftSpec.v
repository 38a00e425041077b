(** The words used to state that moving a design moves its mesh.  No proofs in this file. *)
From Coq Require Import List Arith Bool QArith.
From Verif Require Import IntervalModel ManagerModel GeomModel BoardModel.
Import ListNotations.
Local Open Scope Q_scope.

(** How far to move along each axis. *)
Definition displacement : Type := Axis3 -> Q.

(** What a file describes of a shape: polygon.hpp without the name and the type. *)
Record shape := mk_shape { sh_plane : Plane; sh_material : option Mat; sh_priority : nat; sh_z : box1; sh_points : list point }.

(** The axis a plane is flat along. *)
Definition flat_along (p : Plane) : Axis3 := match p with PYZ => AX | PZX => AY | PXY => AZ end.

Definition move_point (d : displacement) (p : Plane) (x : point) : point :=
  match p with
  | PYZ => mk_pt (px x + d AY) (py x + d AZ)
  | PZX => mk_pt (px x + d AZ) (py x + d AX)
  | PXY => mk_pt (px x + d AX) (py x + d AY)
  end.
Definition move_shape (d : displacement) (s : shape) : shape :=
  mk_shape (sh_plane s) (sh_material s) (sh_priority s)
    (mk_box1 (lo (sh_z s) + d (flat_along (sh_plane s))) (hi (sh_z s) + d (flat_along (sh_plane s))))
    (map (move_point d (sh_plane s)) (sh_points s)).
Definition move_fixed (d : displacement) (s : space (list Q)) : space (list Q) :=
  mk_space (map (fun x => x + d AX) (sp_0 s)) (map (fun x => x + d AY) (sp_1 s)) (map (fun x => x + d AZ) (sp_2 s)).

(** A whole run: the shapes are added one after the other, then all the steps. *)
Definition draw (l : list shape) (b : board) : run board :=
  for_each (fun b s => add_polygon (sh_plane s) (sh_material s) (sh_priority s) (sh_z s) (sh_points s) b) l b.
Definition mesh_of (fuel : nat) (g : params) (dp : diag_params) (srt : sort_by) (srt' : sorter) (ang : point -> point -> Q)
    (fixed : space (list Q)) (background : option Mat) (l : list shape) : run board :=
  let! b := draw l (empty_board background) in
  let! b := policies_of_board fuel g dp srt ang fixed b in
  lines_of_board fuel g srt' b.

(** Sorting looks at the elements through the comparison only: two lists that compare
    in the same way, element by element, are put in the same order. *)
Definition only_compares (srt : sort_by) : Prop :=
  forall (A B : Type) (R : A -> B -> Prop) (less : A -> A -> bool) (less' : B -> B -> bool) l l',
  Forall2 R l l' -> (forall x x' y y', R x x' -> R y y' -> less x y = less' x' y') -> Forall2 R (srt A less l) (srt B less' l').
Definition only_compares_keys (srt : sorter) : Prop :=
  forall (A B : Type) (R : A -> B -> Prop) (key : A -> Q) (key' : B -> Q) l l',
  Forall2 R l l' -> (forall x x' y y', R x x' -> R y y' -> (key x <= key y <-> key' x' <= key' y')) -> Forall2 R (srt A key l) (srt B key' l').

(** The angle between two vectors depends on the values of their coordinates. *)
Definition of_values (ang : point -> point -> Q) : Prop :=
  forall u u' v v', px u == px u' -> py u == py u' -> px v == px v' -> py v == py v' -> ang u v == ang u' v'.

(** The same lines, [t] further. *)
Definition moved_lines (t : Q) (l l' : list Q) : Prop := Forall2 (fun x y => y == x + t) l l'.

(** The same policies, [t] further. *)
Definition moved_policy (t : Q) (p q : mlp) : Prop :=
  p_coord q == p_coord p + t /\ p_policy q = p_policy p /\ p_normal q = p_normal p /\ p_enabled q = p_enabled p /\ p_d q == p_d p.
Definition moved_zone (t : Q) (z y : zone) : Prop := z_min y == z_min z + t /\ z_max y == z_max z + t /\ z_dmax y == z_dmax z.

(** The two runs end in the same way, and if they do, as [R] says. *)
Definition same_end {A B : Type} (R : A -> B -> Prop) (m : run A) (m' : run B) : Prop :=
  match m, m' with
  | Done x, Done y => R x y
  | Running, Running | Dangling, Dangling => True
  | _, _ => False
  end.

(** The same axis, [t] further. *)
Definition moved_axis (t : Q) (ax ax' : axis) : Prop :=
  Forall2 (moved_policy t) (ax_policies ax) (ax_policies ax') /\ moved_lines t (ax_lines ax) (ax_lines ax').

(** The mirror image of policies, and of lines. *)
Definition mirror_normal (n : MNormal) : MNormal := match n with NMIN => NMAX | NMAX => NMIN | NNONE => NNONE end.
Definition mirror_policy (p : mlp) : mlp := mk_mlp (- p_coord p) (p_policy p) (mirror_normal (p_normal p)) (p_enabled p) (p_d p).
Definition mirror_lines (l : list Q) : list Q := rev (map Qopp l).

(** The same design in a unit [k] times smaller. *)
Definition scale_shape (k : Q) (s : shape) : shape :=
  mk_shape (sh_plane s) (sh_material s) (sh_priority s) (mk_box1 (k * lo (sh_z s)) (k * hi (sh_z s)))
    (map (fun x => mk_pt (k * px x) (k * py x)) (sh_points s)).
Definition scale_params (k : Q) (g : params) : params := mk_params (k * g_proximity_limit g) (g_smoothness g) (g_lmin g) (k * g_dmax g).
Definition scale_diag (k : Q) (g : diag_params) : diag_params := mk_diag_params (k * dp_dmax g) (dp_minimal g).
