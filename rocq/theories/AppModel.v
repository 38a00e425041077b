(** Model of src/app/steps.hpp and src/app/openemsh.cpp: the pipeline of steps
    on top of the Caretaker.  No proofs in this file. *)
From Coq Require Import List Arith Bool.
From Verif Require Import HistModel.
Import ListNotations.

(** steps.hpp 16-32 *)
Inductive Step :=
| ADJUST_EDGE_TO_MATERIAL
| DETECT_DIAG_ANGLES
| DETECT_DIAG_ZONES
| SOLVE_DIAG_ZONES_ANGLES
| DETECT_CONFLICT_EIP
| DETECT_CONFLICT_CE
| ADD_FIXED_MLP
| SOLVE_ALL_EIP
| SOLVE_ALL_CE
| DETECT_INDIVIDUAL_EDGES
| DETECT_AND_SOLVE_TCMLP
| DETECT_INTERVALS
| DETECT_INTERVALS_PER_DIAG_ZONES
| SOLVE_DIAG_ZONES_INTERVALS
| MESH.

Definition Step_eq_dec (a b : Step) : {a = b} + {a <> b}.
Proof. decide equality. Defined.
Definition Step_eqb (a b : Step) : bool := if Step_eq_dec a b then true else false.

(** steps.hpp 36-57 *)
Definition index (step : option Step) : nat :=
  match step with
  | None => 0
  | Some s =>
      match s with
      | ADJUST_EDGE_TO_MATERIAL => 1
      | DETECT_DIAG_ANGLES => 2
      | DETECT_DIAG_ZONES => 3
      | SOLVE_DIAG_ZONES_ANGLES => 4
      | DETECT_CONFLICT_EIP => 5
      | DETECT_CONFLICT_CE => 6
      | ADD_FIXED_MLP => 7
      | SOLVE_ALL_EIP => 8
      | SOLVE_ALL_CE => 9
      | DETECT_INDIVIDUAL_EDGES => 10
      | DETECT_AND_SOLVE_TCMLP => 11
      | DETECT_INTERVALS => 12
      | DETECT_INTERVALS_PER_DIAG_ZONES => 13
      | SOLVE_DIAG_ZONES_INTERVALS => 14
      | MESH => 15
      end
  end.

(** steps.hpp 60-62 *)
Definition index_max : nat := index (Some MESH).

(** openemsh.cpp 23-58 *)
Definition next (step : Step) : option Step :=
  match step with
  | ADJUST_EDGE_TO_MATERIAL => Some DETECT_DIAG_ANGLES
  | DETECT_DIAG_ANGLES => Some DETECT_DIAG_ZONES
  | DETECT_DIAG_ZONES => Some SOLVE_DIAG_ZONES_ANGLES
  | SOLVE_DIAG_ZONES_ANGLES => Some DETECT_CONFLICT_EIP
  | DETECT_CONFLICT_EIP => Some DETECT_CONFLICT_CE
  | DETECT_CONFLICT_CE => Some ADD_FIXED_MLP
  | ADD_FIXED_MLP => Some SOLVE_ALL_EIP
  | SOLVE_ALL_EIP => Some SOLVE_ALL_CE
  | SOLVE_ALL_CE => Some DETECT_INDIVIDUAL_EDGES
  | DETECT_INDIVIDUAL_EDGES => Some DETECT_AND_SOLVE_TCMLP
  | DETECT_AND_SOLVE_TCMLP => Some DETECT_INTERVALS
  | DETECT_INTERVALS => Some DETECT_INTERVALS_PER_DIAG_ZONES
  | DETECT_INTERVALS_PER_DIAG_ZONES => Some SOLVE_DIAG_ZONES_INTERVALS
  | SOLVE_DIAG_ZONES_INTERVALS => Some MESH
  | MESH => None
  end.

(** The order of the [case] labels of openemsh.cpp 66-80: from a label, all the
    statements below are executed (fallthrough). *)
Definition case_labels : list Step :=
  [ ADJUST_EDGE_TO_MATERIAL; DETECT_DIAG_ANGLES; DETECT_DIAG_ZONES; SOLVE_DIAG_ZONES_ANGLES;
    DETECT_CONFLICT_EIP; DETECT_CONFLICT_CE; ADD_FIXED_MLP; SOLVE_ALL_EIP; SOLVE_ALL_CE;
    DETECT_INDIVIDUAL_EDGES; DETECT_AND_SOLVE_TCMLP; DETECT_INTERVALS;
    DETECT_INTERVALS_PER_DIAG_ZONES; SOLVE_DIAG_ZONES_INTERVALS; MESH ].

(** A switch with fallthrough: skip to the label. *)
Fixpoint from_label (step : Step) (labels : list Step) : list Step :=
  match labels with
  | [] => []
  | l :: r => if Step_eqb l step then l :: r else from_label step r
  end.

(** openemsh.cpp 61-85 (a std::set, here a list) *)
Definition that_and_after (step : Step) : list Step := from_label step case_labels.

Section WithStates.
Context {V : Type}.
Notation world := (world V Step).
Notation op := (op V Step).

(** Execute Caretaker operations in sequence. *)
Fixpoint perform (xs : list op) (w : world) : outcome world :=
  match xs with
  | [] => Ok w
  | x :: r => do w' <- step w x; perform r w'
  end.

(** What the board does to the history during each step: not modelled here,
    it is any function from the situation to a list of operations (see
    AppSpec.v for what is assumed of it). *)
Definition behaviour := Step -> world -> list op.

(** openemsh.cpp 161-166, [handle]: annotate, then do the step.  The second
    component lists the steps done so far, each with the timepoint current when
    it started; it is there to state properties, the code has no such thing. *)
Definition handle (board : behaviour) (steps : list Step) (s : Step)
    (acc : world * list (Step * tp)) : outcome (world * list (Step * tp)) :=
  let '(w, trace) := acc in
  if existsb (Step_eqb s) steps then
    let w1 := annotate_current_timepoint s w in
    do w2 <- perform (board s w1) w1;
    Ok (w2, trace ++ [(s, w_cur w)])
  else Ok acc.

(** openemsh.cpp 168-183: the calls to [handle], in the order of the source. *)
Definition handled : list Step :=
  [ ADJUST_EDGE_TO_MATERIAL; DETECT_DIAG_ANGLES; DETECT_DIAG_ZONES; SOLVE_DIAG_ZONES_ANGLES;
    DETECT_CONFLICT_EIP; DETECT_CONFLICT_CE; ADD_FIXED_MLP; SOLVE_ALL_EIP; SOLVE_ALL_CE;
    DETECT_INDIVIDUAL_EDGES; DETECT_AND_SOLVE_TCMLP; DETECT_INTERVALS;
    DETECT_INTERVALS_PER_DIAG_ZONES; SOLVE_DIAG_ZONES_INTERVALS; MESH ].

Fixpoint handle_all (board : behaviour) (steps hs : list Step)
    (acc : world * list (Step * tp)) : outcome (world * list (Step * tp)) :=
  match hs with
  | [] => Ok acc
  | s :: r => do acc' <- handle board steps s acc; handle_all board steps r acc'
  end.

(** openemsh.cpp 160-186 *)
Definition run (board : behaviour) (steps : list Step) (w : world) : outcome (world * list (Step * tp)) :=
  do r <- handle_all board steps handled (w, []);
  Ok (remember_current_timepoint (fst r), snd r).

(** openemsh.cpp 189-207 *)
Definition run_all_steps (board : behaviour) (w : world) : outcome (world * list (Step * tp)) :=
  run board
    [ ADJUST_EDGE_TO_MATERIAL; DETECT_DIAG_ANGLES; DETECT_DIAG_ZONES; SOLVE_DIAG_ZONES_ANGLES;
      DETECT_CONFLICT_EIP; DETECT_CONFLICT_CE; ADD_FIXED_MLP; SOLVE_ALL_EIP; SOLVE_ALL_CE;
      DETECT_INDIVIDUAL_EDGES; DETECT_AND_SOLVE_TCMLP; DETECT_INTERVALS;
      DETECT_INTERVALS_PER_DIAG_ZONES; SOLVE_DIAG_ZONES_INTERVALS; MESH ] w.

(** The annotation of the nearest annotated ancestor; [get_annotation] of
    nullptr finds nothing. *)
Definition annotation_found (include_itself : bool) (w : world) : option Step :=
  get_annotation (find_first_ancestor_with_annotation include_itself w) w.

(** openemsh.cpp 210-220 *)
Definition run_next_step (board : behaviour) (w : world) : outcome (world * list (Step * tp)) :=
  match annotation_found false w with
  | Some a =>
      match next a with
      | Some s => run board [s] w
      | None => Ok (w, [])
      end
  | None => run board [ADJUST_EDGE_TO_MATERIAL] w
  end.

(** openemsh.cpp 223-225 *)
Definition run_from_step (board : behaviour) (s : Step) (w : world) : outcome (world * list (Step * tp)) :=
  run board (that_and_after s) w.

(** openemsh.cpp 228-235 *)
Definition go_before (s : Step) (w : world) : outcome world :=
  do r <- go_without_remembering
            (find_first_ancestor_with_annotation_that (fun a => Step_eqb a s) false w) w;
  Ok (fst r).

(** openemsh.cpp 238-241 *)
Definition go_before_previous_step (w : world) : outcome world :=
  do r <- go_and_remember (find_first_ancestor_with_annotation false w) w;
  Ok (fst r).

(** openemsh.cpp 244-251 *)
Definition can_run_a_next_step (w : world) : bool :=
  match annotation_found false w with
  | Some a => match next a with Some _ => true | None => false end
  | None => true
  end.

(** openemsh.cpp 254-256 *)
Definition can_go_before (w : world) : bool :=
  negb (find_first_ancestor_with_annotation false w =? null).

(** openemsh.cpp 259-266 *)
Definition get_current_step (w : world) : option Step := annotation_found true w.

(** ui/qt/main_window.cpp 650-654 and 636-640 (without the display): [edit] is the
    modification of the edited object. *)
Definition handle_edition_from (board : behaviour) (from : Step) (edit : world -> list op) (w : world)
  : outcome (world * list (Step * tp)) :=
  do w1 <- go_before from w;
  do w2 <- perform (edit w1) w1;
  run_from_step board from w2.
End WithStates.

(** * Output guard (main.cpp, cli.cpp, openemsh.cpp) *)

(** openemsh.hpp 40-44 *)
Inductive OutputFormat := CSX | PLANTUML | PRETTYPRINT.

(** openemsh.hpp 28-47, the fields used here.  A path is a number; [0] is the
    empty path. *)
Record app_params := mkParams {
  p_input : nat;
  p_output : nat;
  p_force : bool;
  p_format : OutputFormat
}.

(** cli.cpp 215-218 (final_callback): the output defaults to the input. *)
Definition final_callback (p : app_params) : app_params :=
  mkParams (p_input p) (if p_output p =? 0 then p_input p else p_output p) (p_force p) (p_format p).

(** openemsh.cpp 130-137; [grid] is [has_grid_already] of the parsed board. *)
Definition is_about_overwriting (exists_ : nat -> bool) (grid : bool) (p : app_params) : bool :=
  negb (p_force p)
  && match p_format p with CSX => true | _ => false end
  && (exists_ (p_output p) || ((p_input p =? p_output p) && grid)).

(** openemsh.cpp 140-157: the files written.  [loads] tells whether the input
    can be loaded again by the serializer (serializer_to_csx.cpp 76-82). *)
Definition write (loads : bool) (p : app_params) : list nat :=
  match p_format p with
  | CSX => if loads then [p_output p] else []
  | PLANTUML => [p_output p]
  | PRETTYPRINT => []
  end.

(** main.cpp 36-66 (not gui): the files written by a run.  Simplified: nothing
    else changes the file system during the run, the run itself does not fail. *)
Definition main_cli (exists_ : nat -> bool) (parses loads grid : bool) (args : app_params) : list nat :=
  let p := final_callback args in
  if negb parses then []
  else if is_about_overwriting exists_ grid p then []
  else write loads p.
