(** The words used to state what dialogs and steps do to a board.  No proofs in this
    file. *)
From Coq Require Import List QArith.
From Verif Require Import IntervalModel ManagerModel GeomModel BoardModel EditModel.
From Verif Require AppModel.
Import ListNotations.

(** The lines of an axis. *)
Definition lines_on (b : board) (ax : Axis3) : list Q := ax_lines (on_axis (b_axes b) ax).

(** A file is opened and all the steps are run. *)
Definition opened (tl : tools) (b : board) (x : settings) (ss : session) : Prop := run_all_steps tl (loaded b x) = Done ss.

(** No diagonal zone. *)
Definition without_zones (b : board) : Prop := forall ax, on_axis (b_zones b) ax = [].

(** No two policies were too close. *)
Definition without_conflicts (b : board) : Prop := forall ax, ax_conflicts (on_axis (b_axes b) ax) = [].

(** The dialogs of edges, angles and intervals. *)
Definition local (x : dialog) : bool := match x with DEdge _ _ _ | DAngle _ _ _ | DInterval _ _ _ _ _ _ _ => true | _ => false end.
Definition is_policy (x : dialog) : bool := match x with DPolicy _ _ _ _ _ _ => true | _ => false end.
(** All dialogs but that of angles. *)
Definition not_angle (x : dialog) : bool := match x with DAngle _ _ _ => false | _ => true end.

(** A sort that only looks at the results of the comparison. *)
Definition natural (srt : sort_by) : Prop :=
  forall (A B : Type) (f : A -> B) (less : A -> A -> bool) (less' : B -> B -> bool) (l : list A),
    (forall x y, less' (f x) (f y) = less x y) -> srt B less' (map f l) = map f (srt A less l).

(** Two boards with the same polygons, edges, conflicts, zones, policies, intervals and
    lines, and the same angles, meshed alike, but for the policy an angle remembers. *)
Definition forget_policy (a : angle) : angle := mk_angle (a_plane a) (a_point a) (a_e0 a) (a_e1 a) (a_value a) (a_h a) (a_v a) None.
Definition same_result (b c : board) : Prop :=
  c = set_angles b (b_angles c) /\ map forget_policy (b_angles c) = map forget_policy (b_angles b).

(** Boards where no line is fixed by the user. *)
Definition no_fixed (tl : tools) : Prop := forall ax, on_axis (tl_fixed tl) ax = [].

(** The boards before the last step, and what a sequence of dialogs of intervals writes
    there. *)
Definition before_mesh (tl : tools) (b : board) (x : settings) (b1 : board) : Prop :=
  exists ss, run_list tl (removelast (AppModel.that_and_after AppModel.ADJUST_EDGE_TO_MATERIAL)) (loaded b x) = Done ss /\ ss_board ss = b1.
Inductive interval_writes : list dialog -> board -> board -> Prop :=
| no_writes b : interval_writes [] b b
| a_write ax i dmax lmin_b smoothness_b lmin_a smoothness_a l b y b' :
    ManagerModel.edit_interval (on_axis (b_axes b) ax) i dmax lmin_b smoothness_b lmin_a smoothness_a = Done y ->
    interval_writes l (set_axes b (set_axis (b_axes b) ax y)) b' ->
    interval_writes (DInterval ax i dmax lmin_b smoothness_b lmin_a smoothness_a :: l) b b'.
Definition is_interval (x : dialog) : bool := match x with DInterval _ _ _ _ _ _ _ => true | _ => false end.

(** "Previous step" [n] times. *)
Fixpoint previous_steps (tl : tools) (n : nat) (ss : session) : session :=
  match n with
  | O => ss
  | S n => previous_steps tl n (previous_step tl ss)
  end.
