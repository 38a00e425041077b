(** Model of the dialog of a mesh line policy: its table and the combo boxes in it,
    src/ui/qt/edit/edit_delegate.cpp, edit_model_meshline_policy.cpp and edit_model.hpp.
    No proofs in this file.

    Simplifications, for the whole file:
    - a text that stands for a value of an enumeration is that value (infra/utils/to_string.cpp
      41-58 are one-to-one); the field of d is the number its text stands for, if any;
    - of Qt there is: only cells that are editable get an editor; only choices that are enabled can
      be chosen in a combo box; which cells are painted, and when, is an input;
      QStyledItemDelegate::setEditorData puts the text of the cell in the combo box, which goes to
      the choice with that text if there is one. *)
From Coq Require Import List Bool QArith.
From Verif Require Import IntervalModel ManagerModel.
Import ListNotations.

(** The columns "Old value" and "New value" (edit_model.cpp 86-89, edit_model.hpp 32). *)
Inductive column := Old | New.
Record both (X : Type) := mkBoth { in_old : X; in_new : X }.
Arguments mkBoth {X}. Arguments in_old {X}. Arguments in_new {X}.
Definition in_column {X} (b : both X) (c : column) : X := match c with Old => in_old b | New => in_new b end.
Definition to_column {X} (b : both X) (c : column) (x : X) : both X :=
  match c with Old => mkBoth x (in_new b) | New => mkBoth (in_old b) x end.

(** QStandardItem: the data of role UserRole + 1, the text once there is one, ItemIsEditable. *)
Record cell (T : Type) := mkCell { c_value : T; c_text : option T; c_editable : bool }.
Arguments mkCell {T}. Arguments c_value {T}. Arguments c_text {T}. Arguments c_editable {T}.

(** EditModelMeshlinePolicy, the new values of its two last rows, and the members of EditDelegate
    (edit_delegate.hpp 28-29), as the column of the cell. *)
Record table := mkTable {
  t_policy : both (cell Policy);
  t_normal : both (cell MNormal);
  t_enabled : bool;
  t_d : option Q;
  t_at_policy : option column;
  t_at_normal : option column
}.
Definition set_policies x t := mkTable x (t_normal t) (t_enabled t) (t_d t) (t_at_policy t) (t_at_normal t).
Definition set_normals x t := mkTable (t_policy t) x (t_enabled t) (t_d t) (t_at_policy t) (t_at_normal t).

(** edit_model_meshline_policy.cpp 27-46 and edit_model.hpp 56-100: [d] is the number shown. *)
Definition cells {T} (x : T) : both (cell T) := mkBoth (mkCell x None false) (mkCell x None true).
Definition open_dialog (policy : Policy) (normal : MNormal) (enabled : bool) (d : option Q) : table :=
  mkTable (cells policy) (cells normal) enabled d None None.

(** edit_delegate.cpp 200-220 (paint). *)
Definition painted {T} (x : cell T) : cell T := mkCell (c_value x) (Some (c_value x)) (c_editable x).
Definition paint_policy (c : column) (t : table) : table :=
  mkTable (to_column (t_policy t) c (painted (in_column (t_policy t) c))) (t_normal t) (t_enabled t) (t_d t) (Some c) (t_at_normal t).
Definition paint_normal (c : column) (t : table) : table :=
  mkTable (t_policy t) (to_column (t_normal t) c (painted (in_column (t_normal t) c))) (t_enabled t) (t_d t) (t_at_policy t) (Some c).

(** edit_delegate.cpp 138-155 (setEditorData): what the combo box is on when it opens. *)
Definition opened_on {T} (x : cell T) : T := match c_text x with Some y => y | None => c_value x end.
(** edit_delegate.cpp 104-126 (createEditor): the normals that can be chosen. *)
Definition allowed (t : table) (n : MNormal) : bool :=
  match t_at_policy t with
  | None => true
  | Some c =>
      match c_value (in_column (t_policy t) c), n with
      | THIRDS, NNONE => false
      | THIRDS, _ => true
      | _, NNONE => true
      | _, _ => false
      end
  end.

(** edit_delegate.cpp 167-188 (setModelData, enforce_coherent_normal_regarding_current_policy). *)
Definition enforce (p : Policy) (t : table) : table :=
  match t_at_normal t with
  | None => t
  | Some c =>
      let x := in_column (t_normal t) c in
      match p with
      | ONELINE | HALFS => set_normals (to_column (t_normal t) c (mkCell NNONE (c_text x) false)) t
      | THIRDS =>
          match c_value x with
          | NNONE => set_normals (to_column (t_normal t) c (mkCell NMIN (c_text x) true)) t
          | _ => t
          end
      end
  end.
(** edit_delegate.cpp 158-197 (setModelData). *)
Definition written {T} (y : T) (x : cell T) : cell T := mkCell y (Some y) (c_editable x).
Definition commit_policy (c : column) (p : Policy) (t : table) : table :=
  enforce p (set_policies (to_column (t_policy t) c (written p (in_column (t_policy t) c))) t).
Definition commit_normal (c : column) (n : MNormal) (t : table) : table :=
  set_normals (to_column (t_normal t) c (written n (in_column (t_normal t) c))) t.

(** What happens in the dialog: a cell is painted; the user opens a combo box, chooses something or
    not, and leaves it; checks or types. *)
Inductive event :=
  | Paint_policy (c : column)
  | Paint_normal (c : column)
  | Pick_policy (c : column) (choice : option Policy)
  | Pick_normal (c : column) (choice : option MNormal)
  | Check (b : bool)
  | Type_d (d : option Q).
Definition happen (e : event) (t : table) : table :=
  match e with
  | Paint_policy c => paint_policy c t
  | Paint_normal c => paint_normal c t
  | Pick_policy c choice =>
      let x := in_column (t_policy t) c in
      if c_editable x then commit_policy c (match choice with Some p => p | None => opened_on x end) t else t
  | Pick_normal c choice =>
      let x := in_column (t_normal t) c in
      if c_editable x
      then commit_normal c (match choice with Some n => if allowed t n then n else opened_on x | None => opened_on x end) t
      else t
  | Check b => mkTable (t_policy t) (t_normal t) b (t_d t) (t_at_policy t) (t_at_normal t)
  | Type_d d => mkTable (t_policy t) (t_normal t) (t_enabled t) d (t_at_policy t) (t_at_normal t)
  end.

(** edit_model_meshline_policy.cpp 49-87 (commit), on the button OK: what the policy is given, if
    anything; the dialog closes anyway (edit_dialog.cpp 36-41). *)
Definition accept (t : table) : option (Policy * MNormal * bool * Q) :=
  let p := c_value (in_new (t_policy t)) in
  let n := c_value (in_new (t_normal t)) in
  match t_d t with
  | Some d => if inconsistent p n then None else Some (p, n, t_enabled t, d)
  | None => None
  end.
