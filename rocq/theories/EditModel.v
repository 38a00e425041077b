(** Model of what the dialogs of src/ui/qt/edit and the buttons "previous step" and
    "next step" do to the board: src/ui/qt/main_window.cpp 537-562 and 636-654,
    src/app/openemsh.cpp, on top of BoardModel.v.  No proofs in this file.

    Where HistModel.v and AppModel.v have a tree of timepoints and objects with any
    states, this file has the board of BoardModel.v, and keeps of the tree what going
    back to a step needs: the annotated ancestors of the current timepoint, with the
    board there.

    Simplifications, for the whole file:
    - those of BoardModel.v;
    - undo and redo (GuiModel.v) are left out, and so is garbage collection: the window
      pins the timepoint of each run;
    - the texts of the dialogs are left out: the values are inputs. *)
From Coq Require Import List Arith Bool QArith Qabs.
From Verif Require Import IntervalModel ManagerModel GeomModel BoardModel.
From Verif Require AppModel.
Import AppModel(Step(..), Step_eqb, next, that_and_after).
Import ListNotations.
Open Scope Q_scope.

(** domain/global.hpp: the state of the global parameters, which is reverted like that
    of the board. *)
Record settings := mk_settings { st_params : params; st_diag : diag_params }.

(** What the model is parameterised by, see BoardModel.v: fuel, sorts, angles, and the
    lines fixed by the user on each axis. *)
Record tools := mk_tools
  { tl_fuel : nat; tl_sort_by : sort_by; tl_sorter : sorter; tl_angle : point -> point -> Q; tl_fixed : space (list Q) }.

Section WithTools.
Context (tl : tools).

(** openemsh.cpp 169-183: a step.  Simplified: the intervals of a zone are looked for
    when it is solved, step SOLVE_DIAG_ZONES_INTERVALS, and not one step before.  The
    ones found by former runs, which a zone keeps since it is not reverted
    (conflict_diagonal_or_circular_zone.cpp 33-37), are not intervals of the board any
    more. *)
Definition do_step (x : settings) (s : Step) (b : board) : run board :=
  let g := st_params x in
  let d := st_diag x in
  let srt := tl_sort_by tl in
  match s with
  | ADJUST_EDGE_TO_MATERIAL => for_each (adjust_edges_to_materials srt) all_planes b
  | DETECT_DIAG_ANGLES => for_each (detect_diagonal_angles (tl_angle tl)) all_planes b
  | DETECT_DIAG_ZONES => for_each (detect_diagonal_zones g d srt) all_planes b
  | SOLVE_DIAG_ZONES_ANGLES => for_each (solve_diagonal_angles d) all_axes b
  | DETECT_CONFLICT_EIP => for_each (detect_edges_in_polygons (tl_fuel tl) srt) all_planes b
  | DETECT_CONFLICT_CE => for_each detect_colinear_edges all_planes b
  | ADD_FIXED_MLP => on_each_axis (fun ax y => Done (add_fixed_policies g y (on_axis (tl_fixed tl) ax))) b
  | SOLVE_ALL_EIP => for_each (auto_solve_all_edge_in_polygon srt) all_planes b
  | SOLVE_ALL_CE => for_each (auto_solve_all_colinear_edges g) all_axes b
  | DETECT_INDIVIDUAL_EDGES => for_each (detect_individual_edges g) all_planes b
  | DETECT_AND_SOLVE_TCMLP => on_each_axis (fun _ => detect_and_solve_too_close (tl_fuel tl) g (tl_sorter tl)) b
  | DETECT_INTERVALS => on_each_axis (fun _ => detect_intervals g (tl_sorter tl)) b
  | DETECT_INTERVALS_PER_DIAG_ZONES => Done b
  | SOLVE_DIAG_ZONES_INTERVALS =>
      on_each_axis (fun ax y => let! zs := collect (zone_of b ax) (on_axis (b_zones b) ax) in Done (apply_zones zs y)) b
  | MESH => on_each_axis (fun _ => mesh_axis (tl_fuel tl) (tl_sorter tl)) b
  end.

(** ** Which steps make timepoints *)

Definition size_on_axes {A : Type} (f : A -> nat) (s : space A) : nat := (f (sp_0 s) + f (sp_1 s) + f (sp_2 s))%nat.
Definition not_reversed (e : edge) : edge :=
  mk_edge (e_plane e) (e_seg e) (e_normal e) (e_to_mesh e) false (e_conflicts e) (e_solves e) (e_policy e).
Definition zone_count (b : board) : nat := size_on_axes (@length _) (b_zones b).
Definition conflict_count (b : board) : nat := size_on_axes (@length _) (b_eip b).
Definition overlap_count (b : board) : nat := size_on_axes (fun l => length (flat_map ei_overlaps l)) (b_eip b).
Definition colinear_count (b : board) : nat := size_on_axes (fun l => length (flat_map ce_edges l)) (b_ce b).
Definition policy_count (b : board) : nat := size_on_axes (fun x => length (ax_policies x)) (b_axes b).
Definition close_count (b : board) : nat := size_on_axes (fun x => length (ax_conflicts x)) (b_axes b).

(** board.cpp 498-505. *)
Definition individual (e : edge) : bool :=
  match seg_coord (s0 (e_seg e)) (seg_axis (e_seg e)), axis_of_seg (e_plane e) (seg_axis (e_seg e)) with
  | Some _, Some _ => negb (existsb is_ce (e_conflicts e)) && e_to_mesh e
  | _, _ => false
  end.

(** Does the step [s], from [b] to [b'], call make_next_timepoint?
    - board.cpp 240-245: for each edge found, even if it is reversed already; being
      reversed does not matter to the test of the edge;
    - 254, 614, meshline_policy_manager.cpp 130, 164, 191: always;
    - conflict_manager.cpp 208: for each zone, and each call adds one;
    - conflict_diagonal_or_circular_zone.cpp 60, 85: for each zone;
    - conflict_manager.cpp 60, 68, 80, 136, 149: when edges or overlaps are added;
    - conflict_edge_in_polygon.cpp 82: for each conflict;
    - conflict_colinear_edges.cpp 73: for each policy added;
    - board.cpp 509, 529: for each edge or angle;
    - conflict_manager.cpp 185: when a conflict is added. *)
Definition creates (s : Step) (b b' : board) : bool :=
  match s with
  | ADJUST_EDGE_TO_MATERIAL =>
      match for_each (adjust_edges_to_materials (tl_sort_by tl)) all_planes (set_edges b (map not_reversed (b_edges b))) with
      | Done c => existsb e_to_reverse (b_edges c)
      | _ => false
      end
  | DETECT_DIAG_ANGLES | ADD_FIXED_MLP | DETECT_INTERVALS | DETECT_INTERVALS_PER_DIAG_ZONES | MESH => true
  | DETECT_DIAG_ZONES => (zone_count b <? zone_count b')%nat
  | SOLVE_DIAG_ZONES_ANGLES | SOLVE_DIAG_ZONES_INTERVALS => (0 <? zone_count b)%nat
  | DETECT_CONFLICT_EIP => (overlap_count b <? overlap_count b')%nat
  | DETECT_CONFLICT_CE => (colinear_count b <? colinear_count b')%nat
  | SOLVE_ALL_EIP => (0 <? conflict_count b)%nat
  | SOLVE_ALL_CE => (policy_count b <? policy_count b')%nat
  | DETECT_INDIVIDUAL_EDGES => existsb individual (b_edges b) || negb (Nat.eqb (length (b_angles b)) 0)
  | DETECT_AND_SOLVE_TCMLP => (close_count b <? close_count b')%nat
  end.

(** ** Going back *)

(** The objects of [now] in place of those of [before], as far as there are some. *)
Fixpoint kept {A : Type} (before now : list A) : list A :=
  match before, now with
  | _ :: r, y :: t => y :: kept r t
  | _, _ => before
  end.

(** The policies of fixed lines of an axis are the first ones: ADD_FIXED_MLP is the
    first step to add policies. *)
Definition fixed_count (coords : list Q) : nat :=
  length (ax_policies (add_fixed_policies (mk_params 0 0 0 0) (mk_axis [] [] [] []) coords)).

(** state_management.cpp 213-224 (go_without_remembering) from [now] to a timepoint where
    the board was [before]: the objects the Caretaker takes care of get their former
    state back.  It does not take care of the board itself (board.cpp 136-174) nor of the
    angles (268, 301): the angles stay; nor of zones (conflict_manager.cpp 231): those
    there were then keep the state of now; nor of policies of fixed lines, which have a
    null timepoint (board.cpp 97, meshline_policy_manager.cpp 64-67). *)
Definition revert_axis (before now : axis) (fixed : nat) : axis :=
  set_policies before (kept (firstn fixed (ax_policies before)) (ax_policies now) ++ skipn fixed (ax_policies before)).
Definition revert (before now : board) : board :=
  let axis ax := revert_axis (on_axis (b_axes before) ax) (on_axis (b_axes now) ax) (fixed_count (on_axis (tl_fixed tl) ax)) in
  let zones ax := kept (on_axis (b_zones before) ax) (on_axis (b_zones now) ax) in
  set_axes (set_zones (set_angles before (b_angles now)) (mk_space (zones AX) (zones AY) (zones AZ)))
           (mk_space (axis AX) (axis AY) (axis AZ)).

(** The board and the parameters at the current timepoint, the annotation of the current
    timepoint, and its annotated ancestors with the board and the parameters there,
    nearest first. *)
Record session := mk_session
  { ss_board : board;
    ss_settings : settings;
    ss_here : option Step;
    ss_past : list (Step * (board * settings)) }.

(** app/openemsh.cpp 118-127: parsed, no step done. *)
Definition loaded (b : board) (x : settings) : session := mk_session b x None [].

(** state_management.cpp 109-113: a new timepoint, that has no annotation. *)
Definition leave (ss : session) : list (Step * (board * settings)) :=
  match ss_here ss with
  | Some s => (s, (ss_board ss, ss_settings ss)) :: ss_past ss
  | None => ss_past ss
  end.

(** openemsh.cpp 161-166 and state_management.cpp 235-237: a timepoint that has an
    annotation keeps it. *)
Definition annotate (s : Step) (ss : session) : session :=
  mk_session (ss_board ss) (ss_settings ss) (match ss_here ss with Some t => Some t | None => Some s end) (ss_past ss).
Definition run_step (s : Step) (ss : session) : run session :=
  let ss := annotate s ss in
  let! b := do_step (ss_settings ss) s (ss_board ss) in
  Done (if creates s (ss_board ss) b then mk_session b (ss_settings ss) None (leave ss)
        else mk_session b (ss_settings ss) (ss_here ss) (ss_past ss)).
Fixpoint run_list (l : list Step) (ss : session) : run session :=
  match l with
  | [] => Done ss
  | s :: r => let! ss := run_step s ss in run_list r ss
  end.
(** openemsh.cpp 189-207. *)
Definition run_all_steps (ss : session) : run session := run_list (that_and_after ADJUST_EDGE_TO_MATERIAL) ss.

(** state_management.hpp 155-162: the nearest of the ancestors annotated with [s]. *)
Fixpoint find_before (s : Step) (past : list (Step * (board * settings))) : option (board * settings * list (Step * (board * settings))) :=
  match past with
  | [] => None
  | (t, x) :: r => if Step_eqb t s then Some (x, r) else find_before s r
  end.
(** openemsh.cpp 228-235; nothing is done if there is none (state_management.cpp 213-224). *)
Definition go_before (s : Step) (ss : session) : session :=
  match find_before s (ss_past ss) with
  | Some (b, x, past) => mk_session (revert b (ss_board ss)) x (Some s) past
  | None => ss
  end.

(** main_window.cpp 548-553, openemsh.cpp 238-241. *)
Definition previous_step (ss : session) : session :=
  match ss_past ss with
  | (s, (b, x)) :: past => mk_session (revert b (ss_board ss)) x (Some s) past
  | [] => ss
  end.
(** main_window.cpp 557-562, openemsh.cpp 210-220. *)
Definition next_step (ss : session) : run session :=
  match ss_past ss with
  | (t, _) :: _ => match next t with Some s => run_step s ss | None => Done ss end
  | [] => run_step ADJUST_EDGE_TO_MATERIAL ss
  end.

(** ** Dialogs *)

(** state_management.hpp 295-298 (set_next_state): [b], [x] after the object is written. *)
Definition next_state (b : board) (x : settings) (ss : session) : session := mk_session b x None (leave ss).

(** main_window.cpp 650-654: [edit] is given the session gone back to. *)
Definition edit_from (s : Step) (edit : session -> run session) (ss : session) : run session :=
  let! ss := edit (go_before s ss) in
  run_list (that_and_after s) ss.

Definition write_edge (b : board) (i : nat) (e : edge) : run board := let! l := write (b_edges b) i e in Done (set_edges b l).
Definition write_angle (b : board) (i : nat) (a : angle) : run board := let! l := write (b_angles b) i a in Done (set_angles b l).
Definition on_one_axis (ax : Axis3) (f : axis -> run axis) (b : board) : run board :=
  let! y := f (on_axis (b_axes b) ax) in Done (set_axes b (set_axis (b_axes b) ax y)).
Definition edit_board (f : board -> run board) (ss : session) : run session :=
  let! b := f (ss_board ss) in Done (next_state b (ss_settings ss) ss).

(** edit_model_edge.cpp 30-43: the state is read before going back, all of it is written
    after. *)
Definition edit_edge (i : nat) (to_mesh to_reverse : bool) (ss : session) : run session :=
  let! e := read (b_edges (ss_board ss)) i in
  let e := mk_edge (e_plane e) (e_seg e) (e_normal e) to_mesh to_reverse (e_conflicts e) (e_solves e) (e_policy e) in
  edit_from DETECT_CONFLICT_EIP (edit_board (fun b => write_edge b i e)) ss.

(** edit_model_angle.cpp 30-43. *)
Definition edit_angle (i : nat) (h v : bool) (ss : session) : run session :=
  let! a := read (b_angles (ss_board ss)) i in
  let a := mk_angle (a_plane a) (a_point a) (a_e0 a) (a_e1 a) (a_value a) h v (a_policy a) in
  edit_from DETECT_CONFLICT_EIP (edit_board (fun b => write_angle b i a)) ss.

(** edit_model_meshline_policy.cpp 49-87; all the state is in the dialog but for links to
    conflicts, which ManagerModel.v leaves out. *)
Definition edit_policy (ax : Axis3) (i : nat) (policy : Policy) (normal : MNormal) (enabled : bool) (d : Q) (ss : session) : run session :=
  if inconsistent policy normal then Done ss
  else edit_from DETECT_INTERVALS
         (edit_board (on_one_axis ax (fun y => ManagerModel.edit_policy y i policy normal enabled d))) ss.

(** edit_model_interval.cpp 42-58.  Simplified: [ls] is that of the interval gone back to
    instead of that of the interval shown; it is computed again before it is read
    (interval.cpp 360, 365). *)
Definition edit_interval (ax : Axis3) (i : nat) (dmax : Q) (lmin_b : nat) (smoothness_b : Q) (lmin_a : nat) (smoothness_a : Q)
    (ss : session) : run session :=
  edit_from MESH (edit_board (on_one_axis ax (fun y => ManagerModel.edit_interval y i dmax lmin_b smoothness_b lmin_a smoothness_a))) ss.

(** edit_model_conflict_too_close_meshline_policies.cpp 29-41: [is_enabled] of the conflict
    is read by no step; only a timepoint is made. *)
Definition edit_too_close (ss : session) : run session :=
  edit_from DETECT_AND_SOLVE_TCMLP (edit_board (fun b => Done b)) ss.

(** edit_model_conflict_diagonal_or_circular_zone.cpp 34-51: zones are not reverted. *)
Definition edit_zone (ax : Axis3) (i : nat) (lmin : nat) (dmax minimal : Q) (ss : session) : run session :=
  let! z := read (on_axis (b_zones (ss_board ss)) ax) i in
  let s := if Qeq_bool minimal (dz_minimal z) then SOLVE_DIAG_ZONES_INTERVALS else SOLVE_DIAG_ZONES_ANGLES in
  edit_from s (edit_board (fun b => let! l := write (on_axis (b_zones b) ax) i (mk_diag_zone dmax lmin minimal (dz_angles z)) in
                                    Done (set_zones b (set_axis (b_zones b) ax l)))) ss.

(** edit_model_global.cpp 39-64; what the dialog makes of its fields is in InfraModel.v. *)
Definition edit_global (x : settings) (ss : session) : run session :=
  edit_from DETECT_DIAG_ZONES (fun ss => Done (next_state (ss_board ss) x ss)) ss.

(** The dialogs, with the values the user leaves in them. *)
Inductive dialog :=
| DEdge (i : nat) (to_mesh to_reverse : bool)
| DAngle (i : nat) (h v : bool)
| DPolicy (ax : Axis3) (i : nat) (policy : Policy) (normal : MNormal) (enabled : bool) (d : Q)
| DInterval (ax : Axis3) (i : nat) (dmax : Q) (lmin_b : nat) (smoothness_b : Q) (lmin_a : nat) (smoothness_a : Q)
| DTooClose
| DZone (ax : Axis3) (i : nat) (lmin : nat) (dmax minimal : Q)
| DGlobal (x : settings).
Definition edit (x : dialog) (ss : session) : run session :=
  match x with
  | DEdge i m r => edit_edge i m r ss
  | DAngle i h v => edit_angle i h v ss
  | DPolicy ax i p n e d => edit_policy ax i p n e d ss
  | DInterval ax i d lb sb la sa => edit_interval ax i d lb sb la sa ss
  | DTooClose => edit_too_close ss
  | DZone ax i l d m => edit_zone ax i l d m ss
  | DGlobal x => edit_global x ss
  end.
Fixpoint edits (l : list dialog) (ss : session) : run session :=
  match l with
  | [] => Done ss
  | x :: r => let! ss := edit x ss in edits r ss
  end.
Fixpoint next_steps (n : nat) (ss : session) : run session :=
  match n with
  | O => Done ss
  | S n => let! ss := next_step ss in next_steps n ss
  end.
End WithTools.
