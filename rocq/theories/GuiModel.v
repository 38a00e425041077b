(** Model of src/ui/qt/main_window.cpp: what the user can do to a document in
    the window, on top of the pipeline (AppModel.v) and of the history
    (HistModel.v); and of the caches of processing_view/processing_view.cpp and
    structure_view/structure_view.cpp.  No proofs in this file.

    Simplifications, valid for the whole file:
    - the drawing itself (items, layout, selection, zoom, style) is not modelled:
      a scene is the list of the states the objects had when it was drawn;
    - the three planes of the structure view are drawn together, one scene
      stands for the three;
    - the answers of the user, of the file system and of the parser are inputs;
    - an action whose button is disabled does nothing; modal dialogs exclude any
      other action while they are shown. *)
From Coq Require Import List Arith Bool.
From Verif Require Import HistModel AppModel.
Import ListNotations.

(** app/openemsh.hpp 28-47: a path is a number, [0] is the empty path. *)
Definition path := nat.

(** utils/logger.hpp, Logger::UserAction: the answers used here. *)
Inductive answer := CANCEL | SAVE | CLOSE.
Definition is_save (a : answer) : bool := match a with SAVE => true | _ => false end.

(** The board of a document.  [doc_id] and [doc_path] (the file it was parsed
    from) are there to state properties.  [doc_lines] is the object that owns
    the lines (domain/board.hpp, line_policy_manager), [doc_params] the global
    parameters. *)
Record doc := mkDoc {
  doc_id : nat;
  doc_path : path;
  doc_lines : oid;
  doc_params : oid
}.

Section WithStates.
Context {V : Type}.
Notation world := (world V Step).
Notation op := (op V Step).

(** What is in a file: something written by others, or (serializer_to_csx.cpp
    76-131) the structure of the file [geometry] with the lines and the
    parameters of a document. *)
Inductive content := Foreign | Saved (geometry : path) (d : doc) (lines params : V).

(** The state of an object is read (state_management.hpp 198-207). *)
Definition read (o : oid) (w : world) : outcome (world * V) :=
  match assoc o (w_objs w) with
  | Some x => do r <- get_current_state (w_heap w) x;
              Ok (set_objs w (update_obj o (fst r) (w_objs w)), snd r)
  | None => UB
  end.

(** processing_view.cpp 145-216 and structure_view.cpp 224-300 (populate).
    Simplified: every object alive is read once, in the order of creation; the
    code reads those of the board. *)
Definition scene := list (oid * V).

Fixpoint draw (os : list oid) (w : world) : outcome (world * scene) :=
  match os with
  | [] => Ok (w, [])
  | o :: r =>
      do y <- read o w;
      do z <- draw r (fst y);
      Ok (fst z, (o, snd y) :: snd z)
  end.

(** processing_view.hpp and structure_view.hpp: board != nullptr,
    current_timepoint, states, and the scene set in the QGraphicsView. *)
Record view := mkView {
  vw_board : bool;
  vw_cur : tp;
  vw_states : list (tp * scene);
  vw_scene : option scene
}.

(** structure_view.cpp 44-49 (and processing_view.cpp, the same) *)
Definition new_view : view := mkView false null [] None.

(** structure_view.cpp 63-65, processing_view.cpp, the same *)
Definition init_view (v : view) : view := mkView true (vw_cur v) (vw_states v) (vw_scene v).

(** structure_view.cpp 68-75, processing_view.cpp, the same: deleting a scene
    removes it from the QGraphicsView. *)
Definition clear_view (v : view) : view := mkView false null [] None.

(** structure_view.cpp 185-187, processing_view.cpp 104-106: [states.at]. *)
Definition view_state (v : view) : outcome scene :=
  match assoc (vw_cur v) (vw_states v) with Some s => Ok s | None => Abort end.

(** structure_view.cpp 210-218 and processing_view.cpp 132-138, when the
    timepoint is known. *)
Definition show (t : tp) (v : view) : view :=
  if vw_cur v =? t then v
  else match assoc t (vw_states v) with
       | Some s => mkView (vw_board v) t (vw_states v) (Some s)
       | None => v
       end.

(** structure_view.cpp 190-207 and processing_view.cpp 110-129: [emplace] keeps
    the scene of a timepoint already drawn. *)
Definition make_view (v : view) (w : world) : outcome (view * world) :=
  if negb (vw_board v) then Ok (v, w)
  else
    do r <- draw (map fst (w_objs w)) w;
    let states := match assoc (w_cur w) (vw_states v) with
                  | Some _ => vw_states v
                  | None => vw_states v ++ [(w_cur w, snd r)]
                  end in
    Ok (show (w_cur w) (mkView (vw_board v) (vw_cur v) states (vw_scene v)), fst r).

(** structure_view.cpp 210-221 and processing_view.cpp 132-142 *)
Definition go_view (v : view) (w : world) : outcome (view * world) :=
  if vw_cur v =? w_cur w then Ok (v, w)
  else match assoc (w_cur w) (vw_states v) with
       | Some _ => Ok (show (w_cur w) v, w)
       | None => make_view v w
       end.

(** main_window.hpp, with the part of app/openemsh.hpp it drives, the files and
    whether the window is closed.  [wn_open] is the argument of the last
    update_board_dependant_buttons_visibility; [wn_docs] counts the documents
    (there to state properties). *)
Record window := mkWindow {
  wn_params : app_params;         (* oemsh.params *)
  wn_csx : path;                  (* csx_file *)
  wn_unsaved : bool;              (* is_unsaved *)
  wn_open : bool;
  wn_undo : bool;                 (* is a_undo enabled, and so on *)
  wn_redo : bool;
  wn_prev : bool;
  wn_next : bool;
  wn_doc : option doc;            (* oemsh.board *)
  wn_docs : nat;
  wn_world : world;
  wn_structure : view;
  wn_processing : view;
  wn_files : list (path * content);
  wn_closed : bool
}.

Definition set_params (wn : window) p :=
  mkWindow p (wn_csx wn) (wn_unsaved wn) (wn_open wn) (wn_undo wn) (wn_redo wn) (wn_prev wn) (wn_next wn)
    (wn_doc wn) (wn_docs wn) (wn_world wn) (wn_structure wn) (wn_processing wn) (wn_files wn) (wn_closed wn).
Definition set_csx (wn : window) p :=
  mkWindow (wn_params wn) p (wn_unsaved wn) (wn_open wn) (wn_undo wn) (wn_redo wn) (wn_prev wn) (wn_next wn)
    (wn_doc wn) (wn_docs wn) (wn_world wn) (wn_structure wn) (wn_processing wn) (wn_files wn) (wn_closed wn).
Definition set_unsaved (wn : window) b :=
  mkWindow (wn_params wn) (wn_csx wn) b (wn_open wn) (wn_undo wn) (wn_redo wn) (wn_prev wn) (wn_next wn)
    (wn_doc wn) (wn_docs wn) (wn_world wn) (wn_structure wn) (wn_processing wn) (wn_files wn) (wn_closed wn).
Definition set_world (wn : window) w :=
  mkWindow (wn_params wn) (wn_csx wn) (wn_unsaved wn) (wn_open wn) (wn_undo wn) (wn_redo wn) (wn_prev wn) (wn_next wn)
    (wn_doc wn) (wn_docs wn) w (wn_structure wn) (wn_processing wn) (wn_files wn) (wn_closed wn).
Definition set_views (wn : window) s p :=
  mkWindow (wn_params wn) (wn_csx wn) (wn_unsaved wn) (wn_open wn) (wn_undo wn) (wn_redo wn) (wn_prev wn) (wn_next wn)
    (wn_doc wn) (wn_docs wn) (wn_world wn) s p (wn_files wn) (wn_closed wn).
Definition set_files (wn : window) f :=
  mkWindow (wn_params wn) (wn_csx wn) (wn_unsaved wn) (wn_open wn) (wn_undo wn) (wn_redo wn) (wn_prev wn) (wn_next wn)
    (wn_doc wn) (wn_docs wn) (wn_world wn) (wn_structure wn) (wn_processing wn) f (wn_closed wn).
Definition set_closed (wn : window) :=
  mkWindow (wn_params wn) (wn_csx wn) (wn_unsaved wn) (wn_open wn) (wn_undo wn) (wn_redo wn) (wn_prev wn) (wn_next wn)
    (wn_doc wn) (wn_docs wn) (wn_world wn) (wn_structure wn) (wn_processing wn) (wn_files wn) true.
Definition set_buttons (wn : window) undo redo prev next :=
  mkWindow (wn_params wn) (wn_csx wn) (wn_unsaved wn) (wn_open wn) undo redo prev next
    (wn_doc wn) (wn_docs wn) (wn_world wn) (wn_structure wn) (wn_processing wn) (wn_files wn) (wn_closed wn).
Definition set_open (wn : window) b :=
  mkWindow (wn_params wn) (wn_csx wn) (wn_unsaved wn) b (wn_undo wn) (wn_redo wn) (wn_prev wn) (wn_next wn)
    (wn_doc wn) (wn_docs wn) (wn_world wn) (wn_structure wn) (wn_processing wn) (wn_files wn) (wn_closed wn).
Definition set_doc (wn : window) d :=
  mkWindow (wn_params wn) (wn_csx wn) (wn_unsaved wn) (wn_open wn) (wn_undo wn) (wn_redo wn) (wn_prev wn) (wn_next wn)
    (Some d) (S (wn_docs wn)) (wn_world wn) (wn_structure wn) (wn_processing wn) (wn_files wn) (wn_closed wn).

(** main_window.cpp 657-685 *)
Definition update_board_dependant_buttons_visibility (b : bool) (wn : window) : window :=
  set_buttons (set_open wn b) b b b b.

(** main_window.cpp 688-693 *)
Definition update_navigation_buttons_visibility (wn : window) : window :=
  let w := wn_world wn in
  set_buttons wn (can_undo 1 w) (can_redo 1 w) (can_go_before w) (can_run_a_next_step w).

(** main_window.cpp 160-166 with false: reads the lines of the board. *)
Definition update_cell_number (wn : window) : outcome window :=
  match wn_doc wn with
  | Some d => do r <- read (doc_lines d) (wn_world wn); Ok (set_world wn (fst r))
  | None => UB
  end.

(** main_window.cpp 696-712: both views are asked for their current state. *)
Definition update_show_buttons_pressing (wn : window) : outcome window :=
  do _ <- view_state (wn_structure wn);
  do _ <- view_state (wn_processing wn);
  Ok wn.

(** main_window.cpp 608-634.  Simplified: the connections of signals are not
    modelled; they look up the scenes just made. *)
Definition make_current_state_view (wn : window) : outcome window :=
  do s <- make_view (wn_structure wn) (pin_current_timepoint (wn_world wn));
  do p <- make_view (wn_processing wn) (snd s);
  update_cell_number (update_navigation_buttons_visibility (set_views (set_world wn (snd p)) (fst s) (fst p))).

(** main_window.cpp 598-605 *)
Definition go_to_current_state (wn : window) : outcome window :=
  do s <- go_view (wn_structure wn) (wn_world wn);
  do p <- go_view (wn_processing wn) (snd s);
  do wn' <- update_cell_number
             (update_navigation_buttons_visibility (set_views (set_world wn (snd p)) (fst s) (fst p)));
  update_show_buttons_pressing wn'.

(** std::map::contains *)
Definition contains (t : tp) (v : view) : bool :=
  match assoc t (vw_states v) with Some _ => true | None => false end.

(** main_window.cpp 587-596 *)
Definition go_to_or_make_current_state (wn : window) : outcome window :=
  let t := w_cur (wn_world wn) in
  do wn' <- (if contains t (wn_structure wn) && contains t (wn_processing wn)
             then go_to_current_state wn
             else make_current_state_view wn);
  Ok (set_unsaved wn' true).

(** main_window.cpp 636-647: [ran] is the outcome of run_from_step or of
    run_all_steps. *)
Definition after_run (ran : outcome (world * list (Step * tp))) (wn : window) : outcome window :=
  do r <- ran;
  do wn' <- make_current_state_view (set_world wn (fst r));
  Ok (set_unsaved wn' true).

(** main_window.cpp 650-654 *)
Definition edition_from (board : @behaviour V) (from : Step) (edit : world -> list op) (wn : window) : outcome window :=
  do w1 <- go_before from (wn_world wn);
  do w2 <- perform (edit w1) w1;
  after_run (run_from_step board from w2) (set_world wn w2).

(** main_window.cpp 237-245: both views are asked for their current state. *)
Definition fit (wn : window) : outcome window :=
  do _ <- view_state (wn_processing wn);
  do _ <- view_state (wn_structure wn);
  Ok wn.

(** The objects of [os] are destroyed. *)
Definition expire (os : list oid) : list op := map Expire os.

(** What parsing a file does to the history, and the owner of the lines and the
    global parameters of the board if it succeeds. *)
Definition parsing := world -> list op * option (oid * oid).

(** main_window.cpp 128-157, with app/openemsh.cpp 118-127: the former board is
    destroyed when it is replaced, a board whose parsing fails is destroyed at
    once. *)
Definition parse_and_display (parse : parsing) (board : @behaviour V) (wn : window) : outcome (window * bool) :=
  if wn_csx wn =? 0 then Ok (wn, false)
  else
    let old := map fst (w_objs (wn_world wn)) in
    do w0 <- reset [] (wn_world wn);
    do w1 <- perform (fst (parse w0)) w0;
    match snd (parse w0) with
    | None =>
        do w2 <- perform (expire (filter (fun o => negb (mem o old)) (map fst (w_objs w1)))) w1;
        Ok (update_board_dependant_buttons_visibility false (set_world wn w2), false)
    | Some (lines, params) =>
        do w2 <- perform (expire old) w1;
        let wn1 := update_board_dependant_buttons_visibility true
                     (set_doc (set_world wn (remember_current_timepoint w2))
                              (mkDoc (wn_docs wn) (p_input (wn_params wn)) lines params)) in
        let wn2 := set_views wn1 (init_view (wn_structure wn1)) (init_view (wn_processing wn1)) in
        do wn3 <- after_run (run_all_steps board (wn_world wn2)) wn2;
        Ok (wn3, true)
    end.

(** app/openemsh.cpp 103-115 *)
Definition set_input p i := mkParams i (p_output p) (p_force p) (p_format p).
Definition set_output p o := mkParams (p_input p) o (p_force p) (p_format p).
Definition set_output_format p f := mkParams (p_input p) (p_output p) (p_force p) f.

(** What happens when a file is saved: the answer to "different from the input
    file", the answer to "you are about overwriting", can the input be loaded
    again, does writing the output succeed, has the input a grid already. *)
Record saving := mkSaving {
  sv_different : answer;
  sv_overwrite : answer;
  sv_loads : bool;
  sv_saves : bool;
  sv_grid : bool
}.

Definition put (p : path) (c : content) (files : list (path * content)) : list (path * content) := (p, c) :: files.

Definition file_exists (wn : window) (p : path) : bool :=
  match assoc p (wn_files wn) with Some _ => true | None => false end.

(** app/openemsh.cpp 140-144 and serializer_to_csx.cpp 76-131, with the CSX
    format: nothing is done, and an error is returned, if the input can not be
    loaded; else the result of save_file is ignored (130).  Simplified: the
    lines and the parameters are always written (with_meshlines and
    with_oemsh_params, the defaults), and so are the three axes. *)
Definition write_csx (loads saves : bool) (wn : window) : outcome (window * bool) :=
  match wn_doc wn with
  | None => UB
  | Some d =>
      if negb loads then Ok (wn, false)
      else
        do l <- read (doc_lines d) (wn_world wn);
        do p <- read (doc_params d) (fst l);
        let wn' := set_world wn (fst p) in
        Ok (if saves
            then set_files wn' (put (p_output (wn_params wn))
                                    (Saved (p_input (wn_params wn)) d (snd l) (snd p)) (wn_files wn))
            else wn', true)
  end.

(** main_window.cpp 385-418.  Simplified: is_about_overwriting reads the state
    of the global parameters when the output does not exist; not modelled. *)
Definition save_csx_file (s : saving) (wn : window) : outcome window :=
  let wn1 := set_params wn (set_output_format (wn_params wn) CSX) in
  if is_about_overwriting (file_exists wn1) (sv_grid s) (wn_params wn1) && negb (is_save (sv_overwrite s))
  then Ok wn1
  else
    do r <- write_csx (sv_loads s) (sv_saves s) wn1;
    Ok (if snd r then set_unsaved (fst r) false else fst r).

(** main_window.cpp 421-442 *)
Definition file_save (s : saving) (wn : window) : outcome window :=
  if p_output (wn_params wn) =? 0 then
    save_csx_file s (set_params wn (set_output (wn_params wn) (wn_csx wn)))
  else if negb (wn_csx wn =? p_output (wn_params wn)) then
    if is_save (sv_different s)
    then save_csx_file s (set_csx wn (p_output (wn_params wn)))
    else Ok wn
  else save_csx_file s wn.

(** main_window.cpp 445-463 *)
Definition file_save_as (choice : option path) (s : saving) (wn : window) : outcome window :=
  match choice with
  | None => Ok wn
  | Some p => save_csx_file s (set_params (set_csx wn p) (set_output (wn_params wn) p))
  end.

(** main_window.cpp 466-525: [tmp] is the name given by QTemporaryFile, it is
    not used by another file (else QTemporaryFile takes another name). *)
Definition appcsxcad (tmp : path) (opens loads saves : bool) (wn : window) : outcome window :=
  if negb opens || file_exists wn tmp then Ok wn
  else
    let before := wn_params wn in
    let wn1 := set_files (set_params wn (set_output_format (set_output before tmp) CSX))
                         (put tmp Foreign (wn_files wn)) in
    do r <- write_csx loads saves wn1;
    Ok (set_params (fst r) before).

(** main_window.cpp 366-382 *)
Definition file_open (choice : option path) (parse : parsing) (board : @behaviour V) (wn : window) : outcome window :=
  match choice with
  | None => Ok wn
  | Some p =>
      let wn1 := set_views (set_csx wn p) (clear_view (wn_structure wn)) (clear_view (wn_processing wn)) in
      do r <- parse_and_display parse board (set_params wn1 (set_input (wn_params wn1) p));
      if snd r then fit (fst r) else Ok (fst r)
  end.

(** main_window.cpp 742-758: [a] is the answer to "closing an unsaved
    document". *)
Definition close_event (a : answer) (s : saving) (wn : window) : outcome window :=
  if wn_unsaved wn then
    match a with
    | CANCEL => Ok wn
    | SAVE => do wn' <- file_save s wn; Ok (set_closed wn')
    | CLOSE => Ok (set_closed wn)
    end
  else Ok (set_closed wn).

(** What the user can do. *)
Inductive action :=
| OpenFile (choice : option path) (parse : parsing) (board : @behaviour V)
| FitView
| LookAt                          (* planes, mesh visibility, display mode, zoom... *)
| SaveFile (s : saving)
| SaveFileAs (choice : option path) (s : saving)
| RunAppCSXCAD (tmp : path) (opens loads saves : bool)
| EditFrom (from : Step) (edit : world -> list op) (board : @behaviour V)
| PrevStep
| NextStep (board : @behaviour V)
| UndoStep
| RedoStep
| CloseWindow (a : answer) (s : saving).

(** main_window.ui and main_window.cpp 657-693: is the button enabled?  Nothing
    disables a_file_open nor a_fit. *)
Definition enabled (wn : window) (a : action) : bool :=
  match a with
  | OpenFile _ _ _ | FitView | CloseWindow _ _ => true
  | LookAt | SaveFile _ | SaveFileAs _ _ | RunAppCSXCAD _ _ _ _ | EditFrom _ _ _ => wn_open wn
  | PrevStep => wn_prev wn
  | NextStep _ => wn_next wn
  | UndoStep => wn_undo wn
  | RedoStep => wn_redo wn
  end.

(** main_window.cpp: the slots of the actions.  PrevStep, NextStep, UndoStep and
    RedoStep are 548-578; LookAt stands for 248-363 and 208-224, which ask both
    views for their current state. *)
Definition act (a : action) (wn : window) : outcome window :=
  if wn_closed wn || negb (enabled wn a) then Ok wn
  else match a with
       | OpenFile choice parse board => file_open choice parse board wn
       | FitView => fit wn
       | LookAt => update_show_buttons_pressing wn
       | SaveFile s => file_save s wn
       | SaveFileAs choice s => file_save_as choice s wn
       | RunAppCSXCAD tmp opens loads saves => appcsxcad tmp opens loads saves wn
       | EditFrom from edit board => edition_from board from edit wn
       | PrevStep => do w <- go_before_previous_step (wn_world wn); go_to_or_make_current_state (set_world wn w)
       | NextStep board => do r <- run_next_step board (wn_world wn); go_to_or_make_current_state (set_world wn (fst r))
       | UndoStep => do w <- undo 1 (wn_world wn); go_to_or_make_current_state (set_world wn w)
       | RedoStep => do w <- redo 1 (wn_world wn); go_to_or_make_current_state (set_world wn w)
       | CloseWindow a s => close_event a s wn
       end.

(** main_window.cpp 57-123: a new window.  [r] is the address of the root of
    the history. *)
Definition new_window (r : tp) (p : app_params) (files : list (path * content)) : window :=
  mkWindow p (p_input p) false false false false false false None 0 (init_world r) new_view new_view files false.

(** main.cpp 76-84: the window is shown, then the input is parsed.  The command
    line gives an output by default (cli.cpp 215-218). *)
Definition launch (r : tp) (args : app_params) (files : list (path * content))
    (parse : parsing) (board : @behaviour V) : outcome window :=
  do x <- parse_and_display parse board (new_window r (final_callback args) files);
  Ok (fst x).
End WithStates.
Arguments window V : clear implicits.
Arguments action V : clear implicits.
Arguments content V : clear implicits.
Arguments view V : clear implicits.
Arguments scene V : clear implicits.
