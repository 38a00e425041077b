(** What is assumed of the board, of the editions and of the parser in the
    properties of the window, and the words used to state them.  No proofs in
    this file. *)
From Coq Require Import List Arith Bool.
From Verif Require Import HistModel HistSpec AppModel GuiModel.
Import ListNotations.

Section WithStates.
Context {V : Type}.
Notation world := (world V Step).
Notation op := (op V Step).
Notation ghost := (ghost V).
Notation window := (window V).
Notation action := (action V).

(** An object of the document itself (as opposed to what the steps create): it
    is registered, and was created at the root of the history. *)
Definition root_object (w : world) (o : oid) : Prop :=
  In o (w_regs w) /\ exists x, assoc o (w_objs w) = Some x /\ o_init x = w_root w.

(** * What is assumed of the operations
    [new] are the timepoints created since the window started to act.
    - each operation is permitted (HistSpec.v), and no object outlives its
      creation timepoint;
    - an object is registered, and written, at one of the new timepoints: the
      domain code always calls [make_next_timepoint] before writing;
    - the objects of the document itself last. *)
Definition disciplined (w : world) (new : list tp) (x : op) : Prop :=
  match x with
  | TakeCareOf o => forall y, assoc o (w_objs w) = Some y -> In (o_init y) new
  | SetState _ t _ => In t new
  | Unpin _ _ | Collect _ | SetAutoGc _ | Reset _ => False
  | _ => True
  end.

Definition new_after (new : list tp) (x : op) : list tp :=
  match x with NextTimepoint a _ => a :: new | _ => new end.

Fixpoint obeys (w : world) (g : ghost) (new : list tp) (xs : list op) : Prop :=
  match xs with
  | [] => True
  | x :: r =>
      permitted w g x /\ disciplined w new x /\
      forall w', step w x = Ok w' ->
        births_alive w' (gstep g w x) /\
        (forall o, root_object w o -> assoc o (w_objs w') <> None) /\
        obeys w' (gstep g w x) (new_after new x) r
  end.

(** The reference machine after a list of operations. *)
Fixpoint gperform (g : ghost) (w : world) (xs : list op) : ghost :=
  match xs with
  | [] => g
  | x :: r => match step w x with Ok w' => gperform (gstep g w x) w' r | _ => g end
  end.

(** * The operations an action makes on the history
    Those of [run] (annotations, what the board does, final remembering)... *)
Fixpoint run_ops (board : @behaviour V) (steps hs : list Step) (w : world) : list op :=
  match hs with
  | [] => [RememberCurrent]
  | s :: r =>
      if existsb (Step_eqb s) steps then
        let w1 := annotate_current_timepoint s w in
        Annotate s :: board s w1 ++
        match perform (board s w1) w1 with Ok w2 => run_ops board steps r w2 | _ => [] end
      else run_ops board steps r w
  end.

(** ... those of parse_and_display, once the history is reset; [old] are the
    objects alive before; the destruction of a board that could not be parsed is
    not in the list... *)
Definition parse_ops (parse : parsing) (board : @behaviour V) (old : list oid) (w0 : world) : list op :=
  fst (parse w0) ++
  match perform (fst (parse w0)) w0 with
  | Ok w1 =>
      match snd (parse w0) with
      | None => []
      | Some _ =>
          expire old ++ RememberCurrent ::
          match perform (expire old) w1 with
          | Ok w2 => run_ops board handled handled (remember_current_timepoint w2)
          | _ => []
          end
      end
  | _ => []
  end.

(** ... and those of each action: the drawing, which only reads, and the pin of
    the timepoint drawn are not in the list. *)
Definition action_ops (wn : window) (a : action) : list op :=
  let w := wn_world wn in
  if wn_closed wn || negb (enabled wn a) then []
  else match a with
       | OpenFile (Some p) parse board =>
           if p =? 0 then []
           else match reset [] w with
                | Ok w0 => parse_ops parse board (map fst (w_objs w)) w0
                | _ => []
                end
       | EditFrom from edit board =>
           GoWithoutRemembering (find_first_ancestor_with_annotation_that (fun a => Step_eqb a from) false w) ::
           match go_before from w with
           | Ok w1 =>
               edit w1 ++
               match perform (edit w1) w1 with
               | Ok w2 => run_ops board (that_and_after from) handled w2
               | _ => []
               end
           | _ => []
           end
       | PrevStep => [GoAndRemember (find_first_ancestor_with_annotation false w)]
       | NextStep board =>
           match annotation_found false w with
           | Some a => match next a with Some s => run_ops board [s] handled w | None => [] end
           | None => run_ops board [ADJUST_EDGE_TO_MATERIAL] handled w
           end
       | UndoStep => [Undo 1]
       | RedoStep => [Redo 1]
       | _ => []
       end.

(** The history on which the operations of an action are made, and the
    timepoints considered as new there: opening a file resets the history. *)
Definition reset_history (w : world) : world := match reset [] w with Ok w0 => w0 | _ => w end.

Definition start (wn : window) (a : action) : world * list tp :=
  match a with
  | OpenFile (Some p) _ _ =>
      if wn_closed wn || (p =? 0) then (wn_world wn, [])
      else (reset_history (wn_world wn), [w_root (wn_world wn)])
  | _ => (wn_world wn, [])
  end.

(** The parser gives new objects that belong to the document. *)
Definition parses_well (w0 : world) (parse : parsing) : Prop :=
  forall w1 l p, perform (fst (parse w0)) w0 = Ok w1 -> snd (parse w0) = Some (l, p) ->
  root_object w1 l /\ root_object w1 p.

(** The dialog to open a file gives a path (QFileDialog::ExistingFile). *)
Definition careful (wn : window) (g : ghost) (a : action) : Prop :=
  obeys (fst (start wn a)) g (snd (start wn a)) (action_ops wn a) /\
  match a with
  | OpenFile (Some p) parse _ => p <> 0 /\ parses_well (reset_history (wn_world wn)) parse
  | _ => True
  end.

(** * Sessions
    The window is launched, then the user acts, by actions that satisfy [P].  The
    second component is the reference machine of HistSpec.v; it is there to state
    what is assumed. *)
Inductive session_where (P : action -> Prop) : window -> ghost -> Prop :=
| session_launched r args files parse board wn :
    r <> null ->
    obeys (init_world r) ghost0 [r] (parse_ops parse board [] (init_world r)) ->
    parses_well (init_world r) parse ->
    launch r args files parse board = Ok wn ->
    session_where P wn (if p_input args =? 0 then ghost0
                        else gperform ghost0 (init_world r) (parse_ops parse board [] (init_world r)))
| session_acted wn g a wn' :
    session_where P wn g -> careful wn g a -> P a -> act a wn = Ok wn' ->
    session_where P wn' (gperform g (fst (start wn a)) (action_ops wn a)).

Definition session : window -> ghost -> Prop := session_where (fun _ => True).

(** * What a scene should be
    The objects of the current point of the history: tracked, and created at
    the current timepoint or above. *)
Definition exists_now (w : world) (o : oid) : Prop :=
  In o (w_regs w) /\ exists x, assoc o (w_objs w) = Some x /\ on_branch w (o_init x).

(** The scene has every object that exists now, and gives the tracked objects
    the state they report now. *)
Definition depicts (sc : scene V) (w : world) : Prop :=
  (forall o, exists_now w o -> In o (map fst sc)) /\
  (forall o v, In (o, v) sc -> tracked w o -> report w o = Ok v).

(** * What a saved file should be
    The file [p] holds the document [d]: its own structure, with its current
    lines and parameters. *)
Definition holds (wn : window) (p : path) (d : doc) : Prop :=
  exists l q, assoc p (wn_files wn) = Some (Saved (doc_path d) d l q) /\
    report (wn_world wn) (doc_lines d) = Ok l /\ report (wn_world wn) (doc_params d) = Ok q.

(** Saving to the disk works. *)
Definition reliable (a : action) : Prop :=
  match a with
  | SaveFile s | SaveFileAs _ s | CloseWindow _ s => sv_saves s = true
  | RunAppCSXCAD _ _ _ saves => saves = true
  | _ => True
  end.

(** The user agreed to overwrite a file during the action. *)
Definition agreed (a : action) : Prop :=
  match a with
  | SaveFile s | SaveFileAs _ s => sv_overwrite s = SAVE
  | CloseWindow SAVE s => sv_overwrite s = SAVE
  | _ => False
  end.
End WithStates.
