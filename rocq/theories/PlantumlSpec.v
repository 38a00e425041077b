(** The words used to state what the state diagram of a board says.  No proofs in this file. *)
From Coq Require Import String Ascii List Arith QArith Sorting.Sorted.
From Verif Require Import IntervalModel ManagerModel ManagerSpec GeomModel BoardModel BoardSpec EditModel InfraModel SceneModel SceneSpec PlantumlModel.
Import ListNotations.
Local Open Scope string_scope.

(** The objects that the diagram has a state for: all but angles and zones. *)
Definition shown_kind (x : entity) : Prop := match x with EAngle _ | EZone _ _ => False | _ => True end.
Definition shown (b : board) (x : entity) : Prop := on_board b x /\ shown_kind x.

(** A state, and those around it, the innermost first. *)
Definition declared : Type := (name * list name)%type.
(** The states of a text read from its top, [around] being those still open; nothing if a
    closing brace is one too many, or if one is missing. *)
Fixpoint outline (l : list stmt) (around : list name) : option (list declared) :=
  match l with
  | [] => match around with [] => Some [] | _ => None end
  | Open _ n _ :: r => option_map (cons (n, around)) (outline r (n :: around))
  | Pin x q :: r => option_map (cons (Pin_name x q, around)) (outline r around)
  | Close :: r => match around with [] => None | _ :: rest => outline r rest end
  | Field _ _ :: r | Arrow _ _ _ _ :: r => outline r around
  | Start :: _ | Finish :: _ => None
  end.

Definition is_named (w : what) (n : name) : Prop :=
  match w with Plane_ p => n = Plane_name p | Axis_ a => n = Axis_name a | Thing x => n = Whole x end.

(** Planes and axes are outermost, objects are in what they belong to, pins in their object. *)
Definition in_its_frame (b : board) (n : name) (around : list name) : Prop :=
  match n with
  | Plane_name _ | Axis_name _ => around = []
  | Whole x => exists w m r, around = m :: r /\ belongs_in b x w /\ is_named w m
  | Pin_name x _ => exists r, around = Whole x :: r
  end.
(** Where arrows start, and where they end. *)
Definition way_out (n : name) : Prop := match n with Whole _ | Pin_name _ Output => True | _ => False end.
Definition way_in (n : name) : Prop := match n with Whole _ | Pin_name _ Input | Pin_name _ (Input_no _) => True | _ => False end.

(** An end of an arrow is at the object, or at one of its pins. *)
Definition end_at (x : entity) (n : name) : Prop := n = Whole x \/ exists q, n = Pin_name x q.
Definition arrow (l : list stmt) (y z : entity) : Prop :=
  exists from style to rest, In (Arrow from style to rest) l /\ end_at y from /\ end_at z to.

Definition a_conflict (x : entity) : Prop :=
  match x with EColinear _ _ | EInPolygon _ _ | EClose _ _ => True | _ => False end.
Definition of_the_mesh (x : entity) : Prop := match x with EInterval _ _ | ELine _ _ => True | _ => False end.

(** Between which objects there is to be an arrow: to conflicts, intervals and lines from
    what they were made out of; to an edge in a polygon, also from the edges there; from
    there, back to the edge; from the other conflicts, to their solution; from an edge, to
    the policy made for it only. *)
Inductive drawn_from (b : board) (k : links) : entity -> entity -> Prop :=
| drawn_made z y : comes_from b k z y -> shown_kind y -> a_conflict z \/ of_the_mesh z -> drawn_from b k z y
| drawn_overlap p i c o j : eip_at b p i c -> In o (ei_overlaps c) -> ov_edge o = Some j -> drawn_from b k (EInPolygon p i) (EEdge j)
| drawn_back p i c : eip_at b p i c -> drawn_from b k (EEdge (ei_edge c)) (EInPolygon p i)
| drawn_colinear a i c j : nth_error (on_axis (b_ce b) a) i = Some c -> ce_policy c = Some j -> drawn_from b k (EPolicy a j) (EColinear a i)
| drawn_close a i c j : nth_error (ax_conflicts (on_axis (b_axes b) a)) i = Some c -> tc_solution c = Some j ->
    drawn_from b k (EPolicy a j) (EClose a i)
| drawn_origin a i p j : policy_at (on_axis (b_axes b) a) i p -> lk_origins k a i = [EEdge j] -> drawn_from b k (EPolicy a i) (EEdge j).

(** The words for the values of the enumerations. *)
Definition rotation_word (r : Rotation) : string := match r with CW => "CW" | CCW => "CCW" | COLINEAR => "COLINEAR" end.
Definition side_word (n : Normal) : string :=
  match n with
  | Nxmin => "XMIN" | Nxmax => "XMAX" | Nymin => "YMIN" | Nymax => "YMAX" | Nzmin => "ZMIN" | Nzmax => "ZMAX" | Nnone => "NONE"
  end.
Definition normal_word (n : MNormal) : string := match n with NMIN => "MIN" | NMAX => "MAX" | NNONE => "NONE" end.
Definition policy_word (p : Policy) : string := match p with ONELINE => "ONELINE" | HALFS => "HALFS" | THIRDS => "THIRDS" end.
Definition truth_word (x : bool) : string := if x then "true" else "false".

(** What stands inside the state of an object. *)
Inductive says (b : board) : entity -> string -> Prop :=
| says_rotation i g : nth_error (b_polygons b) i = Some g -> says b (EPolygon i) ("rotation = " ++ rotation_word (detect_rotation (g_points g)))
| says_edge_normal i e : on_board b (EEdge i) -> edge_at b i e -> says b (EEdge i) ("Normal = " ++ side_word (e_normal e))
| says_edge_mesh i e : on_board b (EEdge i) -> edge_at b i e -> says b (EEdge i) ("To mesh = " ++ truth_word (e_to_mesh e))
| says_colinear_edge a i c j e : nth_error (on_axis (b_ce b) a) i = Some c -> In j (ce_edges c) -> edge_at b j e ->
    says b (EColinear a i) ("Normal = " ++ side_word (e_normal e) ++ if e_to_mesh e then " enabled" else " disabled")
| says_colinear_policy a i c j p : nth_error (on_axis (b_ce b) a) i = Some c -> ce_policy c = Some j -> policy_at (on_axis (b_axes b) a) j p ->
    says b (EColinear a i) ("Solution.policy = " ++ policy_word (p_policy p))
| says_colinear_normal a i c j p : nth_error (on_axis (b_ce b) a) i = Some c -> ce_policy c = Some j -> policy_at (on_axis (b_axes b) a) j p ->
    says b (EColinear a i) ("Solution.normal = " ++ normal_word (p_normal p))
| says_policy_normal a i p : policy_at (on_axis (b_axes b) a) i p -> says b (EPolicy a i) ("Normal = " ++ normal_word (p_normal p))
| says_policy_enabled a i p : policy_at (on_axis (b_axes b) a) i p -> says b (EPolicy a i) ("Is enabled = " ++ truth_word (p_enabled p))
| says_policy_policy a i p : policy_at (on_axis (b_axes b) a) i p -> says b (EPolicy a i) ("Policy = " ++ policy_word (p_policy p))
| says_policy_d a i p : policy_at (on_axis (b_axes b) a) i p -> says b (EPolicy a i) ("d = " ++ to_string (p_d p))
| says_interval_dmax a i s : nth_error (ax_segments (on_axis (b_axes b) a)) i = Some s -> says b (EInterval a i) ("dmax = " ++ to_string (iv_dmax (sg_iv s)))
| says_before_lmin a i s : nth_error (ax_segments (on_axis (b_axes b) a)) i = Some s ->
    says b (EInterval a i) ("before.lmin = " ++ whole_string (sd_lmin (iv_before (sg_iv s))))
| says_before_smoothness a i s : nth_error (ax_segments (on_axis (b_axes b) a)) i = Some s ->
    says b (EInterval a i) ("before.smoothness = " ++ to_string (sd_smoothness (iv_before (sg_iv s))))
| says_after_lmin a i s : nth_error (ax_segments (on_axis (b_axes b) a)) i = Some s ->
    says b (EInterval a i) ("after.lmin = " ++ whole_string (sd_lmin (iv_after (sg_iv s))))
| says_after_smoothness a i s : nth_error (ax_segments (on_axis (b_axes b) a)) i = Some s ->
    says b (EInterval a i) ("after.smoothness = " ++ to_string (sd_smoothness (iv_after (sg_iv s))))
| says_coord a i x : nth_error (ax_lines (on_axis (b_axes b) a)) i = Some x -> says b (ELine a i) ("Coord = " ++ to_string x).

(** The colours: red is what makes no line. *)
Inductive coloured (b : board) : entity -> string -> Prop :=
| edge_off i e : edge_at b i e -> e_to_mesh e = false -> coloured b (EEdge i) " #red"
| edge_on i e : edge_at b i e -> e_to_mesh e = true -> e_conflicts e <> [] -> coloured b (EEdge i) " #green"
| edge_alone i e : edge_at b i e -> e_to_mesh e = true -> e_conflicts e = [] -> coloured b (EEdge i) " #chartreuse"
| in_polygon_off p i c e : eip_at b p i c -> edge_at b (ei_edge c) e -> e_to_mesh e = false -> coloured b (EInPolygon p i) " #red"
| in_polygon_on p i c e : eip_at b p i c -> edge_at b (ei_edge c) e -> e_to_mesh e = true -> coloured b (EInPolygon p i) " #green"
| policy_off a i p : policy_at (on_axis (b_axes b) a) i p -> p_enabled p = false -> coloured b (EPolicy a i) " #red"
| policy_on a i p : policy_at (on_axis (b_axes b) a) i p -> p_enabled p = true -> coloured b (EPolicy a i) " #green"
| plain x : match x with EEdge _ | EInPolygon _ _ | EPolicy _ _ => False | _ => True end -> coloured b x "".
Definition titled (named : nat -> string) (x : entity) : string :=
  match x with
  | EPolygon i => "Polygon " ++ named i
  | EEdge _ => "Edge"
  | EColinear _ _ => "Conflict ColinearEdges"
  | EInPolygon _ _ => "Conflict EdgeInPolygon"
  | EClose _ _ => "Conflict TooCloseMeshlinePolicies"
  | EPolicy _ _ => "MeshlinePolicy"
  | EInterval _ _ => "Interval"
  | ELine _ _ => "Meshline"
  | EAngle _ | EZone _ _ => ""
  end.

(** The objects with a state, from the top. *)
Fixpoint listed (l : list stmt) : list entity :=
  match l with
  | [] => []
  | Open _ (Whole x) _ :: r => x :: listed r
  | _ :: r => listed r
  end.
(** The coordinates of those that are policies of the axis. *)
Definition listed_coords (b : board) (a : Axis3) (l : list stmt) : list Q :=
  flat_map (fun x => match x with
                     | EPolicy c i => if axis_eqb c a then map p_coord (maybe (nth_error (ax_policies (on_axis (b_axes b) a)) i)) else []
                     | _ => []
                     end) (listed l).

(** A policy has one origin at most, and a conflict that is its origin has it as solution. *)
Definition origins_sound (b : board) (k : links) : Prop :=
  solutions_sound b k /\
  forall a i, (i < length (ax_policies (on_axis (b_axes b) a)))%nat ->
    (length (lk_origins k a i) <= 1)%nat /\
    forall c j, In (EColinear c j) (lk_origins k a i) -> c = a /\ exists t, nth_error (on_axis (b_ce b) a) j = Some t /\ ce_policy t = Some i.

(** ** The text *)

Fixpoint chars (s : string) : list ascii := match s with EmptyString => [] | String c r => c :: chars r end.
(** The lines of a text, each ended by a line feed; the rest behind the last is dropped. *)
Fixpoint lines_loop (s : string) (line : list ascii) : list (list ascii) :=
  match s with
  | EmptyString => []
  | String c r => if Ascii.eqb c (ascii_of_nat 10) then rev line :: lines_loop r [] else lines_loop r (c :: line)
  end.
Definition lines_of_text (s : string) : list (list ascii) := lines_loop s [].

(** What is between the first two quotation marks of a line. *)
Fixpoint until_quote (l : list ascii) : option (list ascii * list ascii) :=
  match l with
  | [] => None
  | c :: r => if Ascii.eqb c (ascii_of_nat 34) then Some ([], r) else option_map (fun x => (c :: fst x, snd x)) (until_quote r)
  end.
Definition quoted (l : list ascii) : option (list ascii) :=
  match until_quote l with
  | Some (_, r) => option_map fst (until_quote r)
  | None => None
  end.

(** No line feed, no quotation mark. *)
Definition one_line (s : string) : Prop := ~ In (ascii_of_nat 10) (chars s).
Definition unquoted (s : string) : Prop := ~ In (ascii_of_nat 34) (chars s).

(** Objects have different numbers. *)
Definition told_apart (b : board) (ident : entity -> nat) : Prop :=
  forall x y, shown b x -> shown b y -> ident x = ident y -> x = y.
