(** What the properties of SyncModel.v are about. *)
From Coq Require Import List Arith Bool.
From Verif Require Import GeomModel DisplayModel SyncModel.
Import ListNotations.

Definition selected_in (st : sync) (p : Plane) (e : nat) : Prop := In e (on_plane (sy_scene st) p).
Definition selected_node (st : sync) (e : nat) : Prop := In e (sy_graph st).
(** The entity [e] has an item in the plane [p], and it can be seen. *)
Definition selectable (w : items) (st : sync) (p : Plane) (e : nat) : Prop := in_scene w p e = true /\ sy_visible st p e = true.

(** Whatever has an item in the structure view has a node. *)
Definition covered (w : items) : Prop := forall p e, in_scene w p e = true -> in_graph w e = true.

(** No scene is ignoring the others. *)
Definition released (st : sync) : Prop :=
  sy_glock st = false /\ sy_dlock st = false /\ forall p, on_plane (sy_slock st) p = false.

(** What is selected in the scenes is what is selected in the graph, if it can be seen there. *)
Definition agree (w : items) (st : sync) : Prop :=
  forall p e, selected_in st p e <-> selected_node st e /\ selectable w st p e.

(** What the user wants selected, and what of it there is: in a scene, and in the graph. *)
Definition wanted_in (w : items) (st : sync) (p : Plane) (l : list nat) (e : nat) : Prop := In e l /\ selectable w st p e.
Definition wanted_node (w : items) (l : list nat) (e : nat) : Prop := In e l /\ in_graph w e = true.

(** One gesture, and a session: the gestures of [l], from scenes just made; the calls being nested
    as deep as it takes. *)
Definition does (w : items) (g : gesture) (st st' : sync) : Prop := exists depth, gesture_on w depth g st = Some st'.
Definition selecting (w : items) (chain : bool) (visible : Plane -> nat -> bool) (l : list gesture) (st : sync) : Prop :=
  exists depth, gestures w depth l (unselected chain visible) = Some st.
