(** What the properties of DisplayModel.v are about, in terms of what the user does and sees. *)
From Coq Require Import List Arith Bool.
From Verif Require Import GeomModel HistModel StructureModel DisplayModel.
Import ListNotations.

(** The window as it starts, then the actions of [l] in turn. *)
Definition session (l : list action) (d : display) : Prop := acts l new_display = Ok d.

(** In the structure view the user sees the plane [p] of the timepoint [t], with the lines [m]. *)
Definition sees_plane (d : display) (t : nat) (p : Plane) (m : visibility) : Prop :=
  st_scene (d_structure d) = Some (t, p)
  /\ exists s, assoc t (st_states (d_structure d)) = Some s /\ on_plane s p = m.
(** In the graph view the user sees the scene [g] of the timepoint [t]. *)
Definition sees_graph (d : display) (t : nat) (g : graph) : Prop :=
  pr_scene (d_processing d) = Some t /\ assoc t (pr_states (d_processing d)) = Some g.
(** The scene of the plane [p] at [t] has been drawn, and shows the lines [m]; [g] is the graph drawn at [t]. *)
Definition drawn_plane (d : display) (t : nat) (p : Plane) (m : visibility) : Prop :=
  exists s, assoc t (st_states (d_structure d)) = Some s /\ on_plane s p = m.
Definition drawn_graph (d : display) (t : nat) (g : graph) : Prop :=
  assoc t (pr_states (d_processing d)) = Some g.

(** Are the mesh lines of the axis [ax] visible in the plane [p]?  The lines of the axis that runs to
    the right are upright, the lines of the axis that runs up are level. *)
Definition lines_visible (m : visibility) (p : Plane) (ax : Axis3) : Prop :=
  (ax = axis_of_view p VH /\ (m = VERTICAL \/ m = FULL))
  \/ (ax = axis_of_view p VV /\ (m = HORIZONTAL \/ m = FULL)).

(** A graph that follows the structure view has the frames of what that view shows: one plane, and the
    axes whose lines are visible. *)
Definition in_step (p : Plane) (m : visibility) (g : graph) : Prop :=
  (forall q, plane_frame g q = true <-> q = p)
  /\ (forall ax, axis_frame g ax = true <-> lines_visible m p ax).

(** The last file opened could be read. *)
Definition opened (a : action) (o : bool) : bool :=
  match a with Open (Some _) => true | Open None => false | _ => o end.
Definition is_open (l : list action) : bool := fold_left (fun o a => opened a o) l false.

(** The plane chosen last, while a document was open; the keys go around the three planes. *)
Definition choose_plane (s : bool * Plane) (a : action) : bool * Plane :=
  (opened a (fst s),
   if negb (fst s) then snd s
   else match a with
        | ClickPlane p => p
        | PageUp => match snd s with PXY => PZX | PZX => PYZ | PYZ => PXY end
        | PageDown => match snd s with PXY => PYZ | PYZ => PZX | PZX => PXY end
        | _ => snd s
        end).
Definition chosen_plane (l : list action) : Plane := snd (fold_left choose_plane l (false, PXY)).
(** The wires chosen last, while a document was open. *)
Definition choose_wires (s : bool * wires) (a : action) : bool * wires :=
  (opened a (fst s),
   if negb (fst s) then snd s else match a with ClickWires w => w | _ => snd s end).
Definition chosen_wires (l : list action) : wires := snd (fold_left choose_wires l (false, CURVED)).
(** The mesh lines chosen last, while a document was open. *)
Definition choose_mesh (s : bool * visibility) (a : action) : bool * visibility :=
  (opened a (fst s),
   if negb (fst s) then snd s else match a with ClickMesh m => m | _ => snd s end).
Definition chosen_mesh (l : list action) : visibility := snd (fold_left choose_mesh l (false, FULL)).

(** No file is opened. *)
Definition no_open (l : list action) : Prop := forall r, ~ In (Open r) l.
(** [seen] are the timepoints shown so far: an edition leads to a new one ([edits]); nothing leads back
    to one of them ([onward]). *)
Fixpoint edits (seen : list nat) (l : list action) : Prop :=
  match l with
  | [] => True
  | Edit t :: r => ~ In t seen /\ edits (t :: seen) r
  | Go t :: r => edits (t :: seen) r
  | Open (Some t) :: r => edits [t] r
  | Open None :: r => edits [] r
  | _ :: r => edits seen r
  end.
Fixpoint onward (seen : list nat) (l : list action) : Prop :=
  match l with
  | [] => True
  | Edit t :: r | Go t :: r => ~ In t seen /\ onward (t :: seen) r
  | Open _ :: r => False
  | _ :: r => onward seen r
  end.
(** The timepoints shown during a session, since the last file was opened. *)
Definition visit (s : bool * list nat) (a : action) : bool * list nat :=
  (opened a (fst s),
   match a with
   | Open (Some t) => [t]
   | Open None => []
   | Go t | Edit t => if fst s then t :: snd s else snd s
   | _ => snd s
   end).
Definition visited (l : list action) : list nat := snd (fold_left visit l (false, [])).

(** The buttons pressed are those of what is seen. *)
Definition buttons_tell (d : display) : Prop :=
  forall t p m g, sees_plane d t p m -> sees_graph d t g -> d_mesh d = m /\ d_mode d = gr_mode g.
