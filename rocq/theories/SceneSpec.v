(** The words used to state what the graph view shows.  No proofs in this file. *)
From Coq Require Import List Arith QArith Relations.Relation_Operators.
From Verif Require Import IntervalModel ManagerModel ManagerSpec GeomModel BoardModel BoardSpec EditModel SceneModel.
Import ListNotations.

(** The objects of the board; an edge is one if it is a side of a polygon. *)
Definition on_board (b : board) (x : entity) : Prop :=
  match x with
  | EPolygon i => (i < length (b_polygons b))%nat
  | EEdge i => exists j g, nth_error (b_polygons b) j = Some g /\ In i (g_edges g)
  | EAngle i => (i < length (b_angles b))%nat
  | EColinear a i => (i < length (on_axis (b_ce b) a))%nat
  | EInPolygon p i => (i < length (on_plane (b_eip b) p))%nat
  | EClose a i => (i < length (ax_conflicts (on_axis (b_axes b) a)))%nat
  | EZone a i => (i < length (on_axis (b_zones b) a))%nat
  | EPolicy a i => (i < length (ax_policies (on_axis (b_axes b) a)))%nat
  | EInterval a i => (i < length (ax_segments (on_axis (b_axes b) a)))%nat
  | ELine a i => (i < length (ax_lines (on_axis (b_axes b) a)))%nat
  end.

(** [comes_from b k y x]: [y] was made out of [x]. *)
Inductive comes_from (b : board) (k : links) : entity -> entity -> Prop :=
| edge_from_solution i e c : edge_at b i e -> e_solves e = Some c -> comes_from b k (EEdge i) (conflict_entity c)
| angle_from_edge i a j : nth_error (b_angles b) i = Some a -> j = a_e0 a \/ j = a_e1 a -> comes_from b k (EAngle i) (EEdge j)
| colinear_from_edge a i c j : nth_error (on_axis (b_ce b) a) i = Some c -> In j (ce_edges c) -> comes_from b k (EColinear a i) (EEdge j)
| in_polygon_from_edge p i c : eip_at b p i c -> comes_from b k (EInPolygon p i) (EEdge (ei_edge c))
| in_polygon_from_polygon p i c o : eip_at b p i c -> In o (ei_overlaps c) -> comes_from b k (EInPolygon p i) (EPolygon (ov_polygon o))
| close_from_policy a i c j : nth_error (ax_conflicts (on_axis (b_axes b) a)) i = Some c -> j = tc_a c \/ j = tc_b c ->
    comes_from b k (EClose a i) (EPolicy a j)
| zone_from_angle a i z j : nth_error (on_axis (b_zones b) a) i = Some z -> In j (dz_angles z) -> comes_from b k (EZone a i) (EAngle j)
| policy_from_origin a i p x : policy_at (on_axis (b_axes b) a) i p -> In x (lk_origins k a i) -> comes_from b k (EPolicy a i) x
| interval_from_zone a i s j : nth_error (ax_segments (on_axis (b_axes b) a)) i = Some s -> In j (lk_zones k a i) ->
    comes_from b k (EInterval a i) (EZone a j)
| interval_from_policy a i s j : nth_error (ax_segments (on_axis (b_axes b) a)) i = Some s -> j = sg_before s \/ j = sg_after s ->
    comes_from b k (EInterval a i) (EPolicy a j)
| line_from_interval a i x j : nth_error (ax_lines (on_axis (b_axes b) a)) i = Some x -> lk_interval k a i = Some j ->
    comes_from b k (ELine a i) (EInterval a j)
| line_from_policy a i x j : nth_error (ax_lines (on_axis (b_axes b) a)) i = Some x -> lk_policy k a i = Some j ->
    comes_from b k (ELine a i) (EPolicy a j).

(** Node [n] stands for the object [x]. *)
Definition stands_for (sc : scene) (n : nat) (x : entity) : Prop :=
  exists nd, nth_error (sc_nodes sc) n = Some nd /\ nd_what nd = Thing x.

(** A wire goes from node [m] to node [n]. *)
Definition wired (sc : scene) (m n : nat) : Prop := exists w, In w (sc_wires sc) /\ w_from w = m /\ w_to w = n.

(** Following wires, one at least, one gets from [m] to [n]. *)
Definition leads_to (sc : scene) : nat -> nat -> Prop := clos_trans_1n nat (wired sc).

(** Every object exists that a link leads to, and origins of policies are edges, angles,
    colinear edges or too close policies. *)
Definition origin_kind (x : entity) : Prop :=
  match x with EEdge _ | EAngle _ | EColinear _ _ | EClose _ _ => True | _ => False end.
Definition links_sound (b : board) (k : links) : Prop :=
  (forall a i x, (i < length (ax_policies (on_axis (b_axes b) a)))%nat -> In x (lk_origins k a i) -> on_board b x /\ origin_kind x) /\
  (forall a i j, (i < length (ax_segments (on_axis (b_axes b) a)))%nat -> In j (lk_zones k a i) -> on_board b (EZone a j)) /\
  (forall a i j, (i < length (ax_lines (on_axis (b_axes b) a)))%nat -> lk_interval k a i = Some j -> on_board b (EInterval a j)) /\
  (forall a i j, (i < length (ax_lines (on_axis (b_axes b) a)))%nat -> lk_policy k a i = Some j -> on_board b (EPolicy a j)).

(** A policy that has too close policies as origin is what they were replaced with. *)
Definition solutions_sound (b : board) (k : links) : Prop :=
  forall a i c j, (i < length (ax_policies (on_axis (b_axes b) a)))%nat -> In (EClose c j) (lk_origins k a i) ->
    c = a /\ exists t, nth_error (ax_conflicts (on_axis (b_axes b) a)) j = Some t /\ tc_solution t = Some i.

(** What the user does once a file is open. *)
Inductive deed := Run_steps | Previous | Next | Use (x : dialog).
Definition perform (tl : tools) (x : deed) (ss : session) : run session :=
  match x with
  | Run_steps => run_all_steps tl ss
  | Previous => Done (previous_step tl ss)
  | Next => next_step tl ss
  | Use d => edit tl d ss
  end.
Fixpoint perform_all (tl : tools) (l : list deed) (ss : session) : run session :=
  match l with
  | [] => Done ss
  | x :: r => let! ss := perform tl x ss in perform_all tl r ss
  end.
(** All but the dialog of edges, which writes the pointers an edge had before going back. *)
Definition not_edge_dialog (x : deed) : bool := match x with Use (DEdge _ _ _) => false | _ => true end.

(** [ss] is what the deeds [l] made of the board [b] of an opened file; sorting sorts. *)
Definition reached (tl : tools) (b : board) (x : settings) (l : list deed) (ss : session) : Prop :=
  built b /\ permutes (tl_sort_by tl) /\ sorts (tl_sorter tl) /\ perform_all tl l (loaded b x) = Done ss.

(** [y] was made out of [x], both on the board. *)
Definition made_of (b : board) (k : links) (y x : entity) : Prop := on_board b y /\ on_board b x /\ comes_from b k y x.
(** ... or out of something made out of [x], and so on. *)
Definition descends_from (b : board) (k : links) : entity -> entity -> Prop := clos_trans_1n entity (made_of b k).

Definition a_policy (x : entity) : Prop := match x with EPolicy _ _ => True | _ => False end.
Definition too_close_ones (x : entity) : Prop := match x with EClose _ _ => True | _ => False end.

(** The frame that an object is drawn in: that of its plane, of its polygon, of its axis. *)
Definition belongs_in (b : board) (x : entity) (w : what) : Prop :=
  match x with
  | EPolygon i => exists g, nth_error (b_polygons b) i = Some g /\ w = Plane_ (g_plane g)
  | EEdge i => exists j g, nth_error (b_polygons b) j = Some g /\ In i (g_edges g) /\ w = Thing (EPolygon j)
  | EAngle i => exists a, nth_error (b_angles b) i = Some a /\ w = Plane_ (a_plane a)
  | EInPolygon p _ => w = Plane_ p
  | EColinear a _ | EClose a _ | EZone a _ | EPolicy a _ | EInterval a _ | ELine a _ => w = Axis_ a
  end.
