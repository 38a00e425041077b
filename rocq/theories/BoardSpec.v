(** The words used to state the properties of the board: materials, colinear edges,
    edges in polygons, individual edges, diagonal zones.  No proofs in this file. *)
From Coq Require Import List Arith Bool QArith Qabs Sorting.Sorted Sorting.Permutation.
From Verif Require Import IntervalModel ManagerModel ManagerSpec GeomModel GeomSpec BoardModel.
Import ListNotations.
Open Scope Q_scope.

(** What is expected of std::sort: nothing, unless the comparison is a strict weak order
    on the elements. *)
Definition weak_order {A : Type} (less : A -> A -> bool) (l : list A) : Prop :=
  (forall x, In x l -> less x x = false) /\
  (forall x y z, In x l -> In y l -> In z l -> less x y = true -> less y z = true -> less x z = true) /\
  (forall x y z, In x l -> In y l -> In z l -> less x y = false -> less y z = false -> less x z = false).
Definition sorts_by (srt : sort_by) : Prop :=
  forall A (less : A -> A -> bool) l, weak_order less l ->
    Permutation l (srt A less l) /\ StronglySorted (fun x y => less y x = false) (srt A less l).

(** The maximal runs of consecutive elements that satisfy [f]. *)
Inductive maximal_runs {A : Type} (f : A -> bool) : list A -> list (list A) -> Prop :=
| runs_none gap : Forall (fun x => f x = false) gap -> maximal_runs f gap []
| runs_last gap r : Forall (fun x => f x = false) gap -> r <> [] -> Forall (fun x => f x = true) r ->
    maximal_runs f (gap ++ r) [r]
| runs_more gap r x rest rs : Forall (fun x => f x = false) gap -> r <> [] -> Forall (fun x => f x = true) r ->
    f x = false -> maximal_runs f rest rs -> maximal_runs f (gap ++ r ++ x :: rest) (r :: rs).

(** PORT > CONDUCTOR > DIELECTRIC > AIR. *)
Definition rank (m : Mat) : nat := match m with PORT => 3 | CONDUCTOR => 2 | DIELECTRIC => 1 | AIR => 0 end.

(** Priority first, then material. *)
Definition above (x y : Mat * nat) : Prop := (snd y < snd x)%nat \/ (snd y = snd x /\ (rank (fst y) <= rank (fst x))%nat).

(** A polygon of the plane, other than the current one and at its height, whose box
    meets the box of the segment. *)
Definition ambient (b : board) (p : Plane) (s : seg) (current : option (nat * polygon)) (x : Mat * nat) : Prop :=
  exists i g, nth_error (b_polygons b) i = Some g /\ g_plane g = p /\ g_material g = Some (fst x) /\ g_priority g = snd x
    /\ (forall j c, current = Some (j, c) -> i <> j /\ exists z, in_range (g_z g) z /\ in_range (g_z c) z)
    /\ exists q, in_box (g_bounding g) q /\ in_box (seg_bounding s) q.

(** The side an edge faces, once reversed if it has to be. *)
Definition faces (e : edge) : MNormal :=
  match e_normal e, e_to_reverse e with
  | Nxmin, false | Nymin, false | Nzmin, false | Nxmax, true | Nymax, true | Nzmax, true => NMIN
  | Nxmax, false | Nymax, false | Nzmax, false | Nxmin, true | Nymin, true | Nzmin, true => NMAX
  | Nnone, _ => NNONE
  end.

(** Some meshed edge of the list faces that side. *)
Definition some_faces (l : list edge) (n : MNormal) : Prop := exists e, In e l /\ e_to_mesh e = true /\ faces e = n.

(** The same edge turned around. *)
Definition flipped (e : edge) : edge :=
  mk_edge (e_plane e) (e_seg e) (e_normal e) (e_to_mesh e) (negb (e_to_reverse e)) (e_conflicts e) (e_solves e) (e_policy e).
Definition swapped (n : MNormal) : MNormal := match n with NMIN => NMAX | NMAX => NMIN | NNONE => NNONE end.

(** The edge at address [i]. *)
Definition edge_at (b : board) (i : nat) (e : edge) : Prop := nth_error (b_edges b) i = Some e.

(** Straight edges of one plane, along the same view axis and at coordinates that are
    taken for the same. *)
Definition colinear_edges (e f : edge) : Prop :=
  e_plane e = e_plane f /\ exists v, seg_axis (e_seg e) = segaxis_of_view v /\ seg_axis (e_seg f) = segaxis_of_view v
    /\ Qabs (level v (s0 (e_seg e)) - level v (s0 (e_seg f))) < equality_tolerance.
Definition colinear_at (b : board) (i j : nat) : Prop :=
  exists e f, edge_at b i e /\ edge_at b j f /\ colinear_edges e f.

(** The conflict of colinear edges number [n] of the axis is made of the edges [c]. *)
Definition ce_at (b : board) (ax : Axis3) (n : nat) (c : list nat) : Prop :=
  exists x, nth_error (on_axis (b_ce b) ax) n = Some x /\ ce_edges x = c.

(** Before detection. *)
Definition no_ce (b : board) : Prop :=
  (forall ax, on_axis (b_ce b) ax = []) /\
  (forall i e, edge_at b i e -> forall ax n, ~ In (InCE ax n) (e_conflicts e)).

(** An edge but for its conflicts of colinear edges. *)
Definition without_ce (e : edge) : edge :=
  mk_edge (e_plane e) (e_seg e) (e_normal e) (e_to_mesh e) (e_to_reverse e)
    (filter (fun c => match c with InCE _ _ => false | InEIP _ _ => true end) (e_conflicts e)) (e_solves e) (e_policy e).
(** Nothing else is different. *)
Definition same_but_ce (b b' : board) : Prop :=
  b_polygons b' = b_polygons b /\ map without_ce (b_edges b') = map without_ce (b_edges b) /\ b_angles b' = b_angles b
  /\ b_background b' = b_background b /\ b_eip b' = b_eip b /\ b_zones b' = b_zones b /\ b_axes b' = b_axes b.

(** The policy that fits a group of edges. *)
Definition fits (l : list edge) (policy : Policy) (normal : MNormal) : Prop :=
  match policy with
  | ONELINE => normal = NNONE /\ some_faces l NNONE
  | HALFS => normal = NNONE /\ ~ some_faces l NNONE /\ some_faces l NMIN /\ some_faces l NMAX
  | THIRDS => normal <> NNONE /\ some_faces l normal /\ ~ some_faces l NNONE /\ ~ some_faces l (swapped normal)
  end.

(** The edges at these addresses. *)
Definition edges_at (b : board) (c : list nat) (es : list edge) : Prop := Forall2 (edge_at b) c es.

(** The policies for a list of conflicts: one at the line of the first edge for each
    conflict that has a meshed edge. *)
Inductive policies_for (g : params) (b : board) : list (list nat) -> list mlp -> Prop :=
| policies_none : policies_for g b [] []
| policies_skip c cs l es : edges_at b c es -> (forall e, In e es -> e_to_mesh e = false) ->
    policies_for g b cs l -> policies_for g b (c :: cs) l
| policies_one c cs l e es v policy normal : edges_at b c (e :: es) -> seg_axis (e_seg e) = segaxis_of_view v ->
    fits (e :: es) policy normal -> policies_for g b cs l ->
    policies_for g b (c :: cs) (mk_mlp (level v (s0 (e_seg e))) policy normal true (g_dmax g / 2) :: l).

(** Being colinear is transitive, although being closer than the tolerance is not in
    general. *)
Definition transitive_at (b : board) : Prop := forall i j k, colinear_at b i j -> colinear_at b j k -> colinear_at b i k.

(** The conflict of an edge in polygons number [n] of the plane. *)
Definition eip_at (b : board) (p : Plane) (n : nat) (c : in_polygon) : Prop := nth_error (on_plane (b_eip b) p) n = Some c.

(** The overlap is with the inside of a polygon, or with an edge that faces another side. *)
Definition other_side (b : board) (e : edge) (o : Overlap) : Prop :=
  match ov_edge o with
  | None => True
  | Some j => exists f, edge_at b j f /\ e_normal f <> e_normal e
  end.
(** The overlap is with the inside of a polygon, or with an existing edge. *)
Definition overlap_exists (b : board) (o : Overlap) : Prop := forall j, ov_edge o = Some j -> exists f, edge_at b j f.

(** A range of the line of the edge. *)
Definition range_of (v : ViewAxis) (e : edge) (o : Overlap) : Prop :=
  straight v (ov_range o) /\ same_line v (e_seg e) (ov_range o).
(** A range of the edge, from its first end to its last one. *)
Definition forward_in (v : ViewAxis) (e : edge) (o : Overlap) : Prop :=
  0 < (along v (s1 (e_seg e)) - along v (s0 (e_seg e))) * (along v (s1 (ov_range o)) - along v (s0 (ov_range o)))
  /\ forall q, on_seg (ov_range o) q -> on_seg (e_seg e) q.
Definition covered_by (l : list Overlap) (s : seg) : Prop := forall q, on_seg s q -> exists o, In o l /\ on_seg (ov_range o) q.
(** Up to the tolerance. *)
Definition nearly_covered_by (l : list Overlap) (s : seg) : Prop :=
  forall q, on_seg s q -> exists o q', In o l /\ on_seg (ov_range o) q' /\ close q q'.

(** The edge but for whether it is meshed and the conflict that said so. *)
Definition without_solution (e : edge) : edge :=
  mk_edge (e_plane e) (e_seg e) (e_normal e) true (e_to_reverse e) (e_conflicts e) None (e_policy e).
(** The edges and the conflict of one plane are all that may differ. *)
Definition same_but_solutions (p : Plane) (b b' : board) : Prop :=
  b_polygons b' = b_polygons b /\ map without_solution (b_edges b') = map without_solution (b_edges b) /\ b_angles b' = b_angles b
  /\ b_background b' = b_background b /\ b_ce b' = b_ce b /\ b_zones b' = b_zones b /\ b_axes b' = b_axes b
  /\ forall p', p' <> p -> on_plane (b_eip b') p' = on_plane (b_eip b) p'.

(** Polygon [g] may hide edge [i]: another polygon of the plane at its height, of the
    same priority or a higher one. *)
Definition may_hide (b : board) (i g : nat) : Prop :=
  exists k ga gb, nth_error (b_polygons b) k = Some ga /\ nth_error (b_polygons b) g = Some gb /\ k <> g /\ In i (g_edges ga)
    /\ g_plane ga = g_plane gb /\ (g_priority ga <= g_priority gb)%nat /\ exists z, in_range (g_z ga) z /\ in_range (g_z gb) z.

(** Before detection. *)
Definition no_eip (b : board) (p : Plane) : Prop :=
  on_plane (b_eip b) p = []
  /\ (forall i e n, edge_at b i e -> ~ In (InEIP p n) (e_conflicts e))
  /\ (forall i g n, nth_error (b_polygons b) i = Some g -> ~ In (InEIP p n) (g_conflicts g)).

(** An edge and a polygon but for the conflicts of edges in polygons of the plane. *)
Definition other_conflicts (p : Plane) (l : list cref) : list cref :=
  filter (fun c => match c with InCE _ _ => true | InEIP p' _ => negb (plane_eqb p' p) end) l.
Definition without_eip (p : Plane) (e : edge) : edge :=
  mk_edge (e_plane e) (e_seg e) (e_normal e) (e_to_mesh e) (e_to_reverse e) (other_conflicts p (e_conflicts e)) (e_solves e) (e_policy e).
Definition without_eip_g (p : Plane) (g : polygon) : polygon :=
  mk_polygon (g_plane g) (g_material g) (g_priority g) (g_z g) (g_points g) (g_bounding g) (g_edges g) (other_conflicts p (g_conflicts g)).
Definition same_but_eip (p : Plane) (b b' : board) : Prop :=
  map (without_eip_g p) (b_polygons b') = map (without_eip_g p) (b_polygons b)
  /\ map (without_eip p) (b_edges b') = map (without_eip p) (b_edges b)
  /\ b_angles b' = b_angles b /\ b_background b' = b_background b /\ b_ce b' = b_ce b /\ b_zones b' = b_zones b /\ b_axes b' = b_axes b
  /\ forall p', p' <> p -> on_plane (b_eip b') p' = on_plane (b_eip b) p'.

(** Conflicts know their edge and polygons, and the other way around. *)
Definition eip_links (b : board) (p : Plane) : Prop :=
  (forall i e n, edge_at b i e -> In (InEIP p n) (e_conflicts e) <-> exists c, eip_at b p n c /\ ei_edge c = i)
  /\ (forall k g n, nth_error (b_polygons b) k = Some g ->
        In (InEIP p n) (g_conflicts g) <-> exists c o, eip_at b p n c /\ In o (ei_overlaps c) /\ ov_polygon o = k).

(** The edges of the polygons of a plane are edges of the plane. *)
Definition edges_in_place (b : board) : Prop :=
  forall k g, nth_error (b_polygons b) k = Some g -> forall i, In i (g_edges g) -> exists e, edge_at b i e /\ e_plane e = g_plane g.

(** No edge has two conflicts. *)
Definition one_each (b : board) (p : Plane) : Prop :=
  forall n n' c c', eip_at b p n c -> eip_at b p n' c' -> ei_edge c = ei_edge c' -> n = n'.

(** Conflicts have an edge and overlaps, and what they refer to exists. *)
Definition well_formed_eip (b : board) (p : Plane) : Prop :=
  forall n c, eip_at b p n c -> ei_overlaps c <> [] /\ (exists e, edge_at b (ei_edge c) e) /\ (forall o, In o (ei_overlaps c) -> overlap_exists b o).

(** A sort that returns what it was given, in some order: what any comparison gives. *)
Definition permutes (srt : sort_by) : Prop := forall A (less : A -> A -> bool) l, Permutation l (srt A less l).

(** The boards that polygons added to an empty board make. *)
Inductive built : board -> Prop :=
| built_empty background : built (empty_board background)
| built_more p m priority z points b b' : built b -> add_polygon p m priority z points b = Done b' -> built b'.

(** An edge and a polygon as they are made. *)
Definition fresh_edge (e : edge) : Prop :=
  e_to_mesh e = true /\ e_to_reverse e = false /\ e_conflicts e = [] /\ e_solves e = None /\ e_policy e = None.
(** The edges of the polygon are its sides, each with its normal. *)
Definition proper_polygon (b : board) (g : polygon) : Prop :=
  g_conflicts g = [] /\ tight (g_bounding g) (g_points g)
  /\ exists es, edges_at b (g_edges g) es /\ (forall e, In e es -> e_plane e = g_plane g)
     /\ map e_seg es = map (fun pq => mk_seg (fst pq) (snd pq)) (sides (g_points g))
     /\ polygon_edges (g_points g) = Done (map (fun e => (e_seg e, e_normal e)) es).
(** Each edge belongs to one polygon. *)
Definition edges_owned (b : board) : Prop :=
  (forall i e, edge_at b i e -> exists k g, nth_error (b_polygons b) k = Some g /\ In i (g_edges g))
  /\ (forall i k k' g g', nth_error (b_polygons b) k = Some g -> nth_error (b_polygons b) k' = Some g' -> In i (g_edges g) -> In i (g_edges g') -> k = k').

(** The edge moved outwards by twice the tolerance. *)
Definition beyond (e : edge) : seg :=
  mk_seg (moved (s0 (e_seg e)) (e_normal e) (2 * equality_tolerance)) (moved (s1 (e_seg e)) (e_normal e) (2 * equality_tolerance)).
(** What is there, besides the polygon [g] at address [k] that has the edge [e]: the
    material of a polygon nothing is above, else the background. *)
Definition material_beyond (b : board) (k : nat) (g : polygon) (e : edge) (m : Mat) : Prop :=
  (exists x, ambient b (g_plane g) (beyond e) (Some (k, g)) x /\ fst x = m
     /\ forall y, ambient b (g_plane g) (beyond e) (Some (k, g)) y -> above x y)
  \/ (forall x, ~ ambient b (g_plane g) (beyond e) (Some (k, g)) x) /\ b_background b = Some m.

(** The edge but for whether it is reversed. *)
Definition without_reverse (e : edge) : edge :=
  mk_edge (e_plane e) (e_seg e) (e_normal e) (e_to_mesh e) false (e_conflicts e) (e_solves e) (e_policy e).
Definition same_but_reverse (b b' : board) : Prop :=
  map without_reverse (b_edges b') = map without_reverse (b_edges b)
  /\ b_polygons b' = b_polygons b /\ b_angles b' = b_angles b /\ b_background b' = b_background b
  /\ b_ce b' = b_ce b /\ b_eip b' = b_eip b /\ b_zones b' = b_zones b /\ b_axes b' = b_axes b.
(** The edge [i] of a polygon of the plane is inside of a material that outranks it. *)
Definition outranked (b : board) (p : Plane) (i : nat) (e : edge) : Prop :=
  exists k g m o, nth_error (b_polygons b) k = Some g /\ g_plane g = p /\ In i (g_edges g) /\ e_normal e <> Nnone
    /\ g_material g = Some m /\ material_beyond b k g e o /\ (rank m < rank o)%nat.

(** Edge [i] of the plane is to have a line of its own on the axis: it is straight and
    across the axis, meshed, with no colinear edge known, and faces one side. *)
Definition lonely (b : board) (p : Plane) (ax : Axis3) (i : nat) : Prop :=
  exists e v, edge_at b i e /\ e_plane e = p /\ seg_axis (e_seg e) = segaxis_of_view v /\ ax = axis_of_view p (reverse_view v)
    /\ e_to_mesh e = true /\ (forall a n, ~ In (InCE a n) (e_conflicts e)) /\ faces e <> NNONE.
Definition own_policy (g : params) (b : board) (i : nat) (x : mlp) : Prop :=
  exists e v, edge_at b i e /\ seg_axis (e_seg e) = segaxis_of_view v
    /\ x = mk_mlp (level v (s0 (e_seg e))) THIRDS (faces e) true (g_dmax g / 2).
(** The policy of an angle on an axis, [v] being the view axis. *)
Definition angle_policy (g : params) (v : ViewAxis) (a : angle) (x : mlp) : Prop :=
  x = mk_mlp (along v (a_point a)) HALFS NNONE (match v with VH => a_h a | VV => a_v a end) (g_dmax g / 2).

(** Edges and angles but for their policies. *)
Definition without_policy (e : edge) : edge :=
  mk_edge (e_plane e) (e_seg e) (e_normal e) (e_to_mesh e) (e_to_reverse e) (e_conflicts e) (e_solves e) None.
Definition without_policy_a (a : angle) : angle :=
  mk_angle (a_plane a) (a_point a) (a_e0 a) (a_e1 a) (a_value a) (a_h a) (a_v a) None.
Definition same_but_policies (b b' : board) : Prop :=
  map without_policy (b_edges b') = map without_policy (b_edges b) /\ map without_policy_a (b_angles b') = map without_policy_a (b_angles b)
  /\ b_polygons b' = b_polygons b /\ b_background b' = b_background b /\ b_ce b' = b_ce b /\ b_eip b' = b_eip b /\ b_zones b' = b_zones b.
(** Policies are added to an axis, and that is all. *)
Definition gains (l : list mlp) (x x' : axis) : Prop :=
  ax_policies x' = ax_policies x ++ l /\ ax_conflicts x' = ax_conflicts x /\ ax_segments x' = ax_segments x /\ ax_lines x' = ax_lines x.

(** Some meshed edge colinear with edge [i] (itself included) faces that side. *)
Definition class_faces (b : board) (i : nat) (n : MNormal) : Prop :=
  exists j f, edge_at b j f /\ colinear_at b i j /\ e_to_mesh f = true /\ faces f = n.
(** The policy that fits the edges colinear with edge [i]. *)
Definition class_fits (b : board) (i : nat) (policy : Policy) (normal : MNormal) : Prop :=
  match policy with
  | ONELINE => normal = NNONE /\ class_faces b i NNONE
  | HALFS => normal = NNONE /\ ~ class_faces b i NNONE /\ class_faces b i NMIN /\ class_faces b i NMAX
  | THIRDS => normal <> NNONE /\ class_faces b i normal /\ ~ class_faces b i NNONE /\ ~ class_faces b i (swapped normal)
  end.
(** Edge [i] is straight and across the axis, at that coordinate. *)
Definition across (b : board) (ax : Axis3) (i : nat) (x : Q) : Prop :=
  exists e v, edge_at b i e /\ seg_axis (e_seg e) = segaxis_of_view v /\ ax = axis_of_view (e_plane e) (reverse_view v) /\ x = level v (s0 (e_seg e)).
(** The policy on the axis of the edges colinear with edge [i]. *)
Definition class_policy (g : params) (b : board) (ax : Axis3) (i : nat) (x : mlp) : Prop :=
  across b ax i (p_coord x) /\ class_fits b i (p_policy x) (p_normal x) /\ p_enabled x = true /\ p_d x = g_dmax g / 2.
(** Edge [i] is to have a line on the axis: it is meshed, and it faces one side or is
    not the only one there. *)
Definition needs_line (b : board) (ax : Axis3) (i : nat) : Prop :=
  (exists x, across b ax i x) /\ exists e, edge_at b i e /\ e_to_mesh e = true
    /\ (faces e <> NNONE \/ exists j, j <> i /\ colinear_at b i j).
(** The angle is in a plane that has the axis. *)
Definition angle_on (ax : Axis3) (a : angle) : bool := match view_of_axis (a_plane a) ax with Some _ => true | None => false end.
(** The policy of the angle on the axis. *)
Definition angle_line (g : params) (ax : Axis3) (a : angle) (x : mlp) : Prop :=
  exists v, view_of_axis (a_plane a) ax = Some v /\ angle_policy g v a x.
(** The policies of an axis: those of the fixed lines, one for each class of colinear
    edges with an edge that needs a line, [reps] having one edge of each, and one for each angle. *)
Definition policies_complete (g : params) (fixed : list Q) (b : board) (ax : Axis3) : Prop :=
  exists reps lines_fixed lines_edges lines_angles,
    Permutation (ax_policies (on_axis (b_axes b) ax)) (lines_fixed ++ lines_edges ++ lines_angles)
    /\ ax_policies (add_fixed_policies g (mk_axis [] [] [] []) fixed) = lines_fixed
    /\ NoDup reps /\ (forall i j, In i reps -> In j reps -> colinear_at b i j -> i = j)
    /\ (forall i, needs_line b ax i -> exists j, In j reps /\ colinear_at b i j)
    /\ (forall j, In j reps -> exists i, needs_line b ax i /\ colinear_at b j i)
    /\ Forall2 (class_policy g b ax) reps lines_edges
    /\ exists angles, Permutation angles (filter (angle_on ax) (b_angles b)) /\ Forall2 (angle_line g ax) angles lines_angles.

(** ** Diagonals *)
Definition diagonal (e : edge) : Prop := seg_axis (e_seg e) = SDIAG.
(** [j] comes after [i] in the cycle [l]. *)
Definition follows (l : list nat) (i j : nat) : Prop :=
  (exists l1 l2, l = l1 ++ i :: j :: l2) \/ (exists r, l = j :: r /\ last l j = i).
(** The angle of the edges [i] and [j] at that point, not meshed yet. *)
Definition angle_between (ang : point -> point -> Q) (b : board) (q : point) (i j : nat) (a : angle) : Prop :=
  exists ei ej, edge_at b i ei /\ edge_at b j ej /\ (diagonal ei \/ diagonal ej)
    /\ a = mk_angle (e_plane ei) q i j (ang (seg_vec (e_seg ei)) (seg_vec (e_seg ej))) false false None.
(** A corner of a polygon of the plane with a diagonal side. *)
Definition corner_angle (ang : point -> point -> Q) (b : board) (p : Plane) (a : angle) : Prop :=
  exists k g i j ei, nth_error (b_polygons b) k = Some g /\ g_plane g = p /\ follows (g_edges g) i j
    /\ edge_at b i ei /\ angle_between ang b (s1 (e_seg ei)) i j a.
(** A crossing of the edges of two polygons of the plane, one of them diagonal. *)
Definition cross_angle (ang : point -> point -> Q) (b : board) (p : Plane) (a : angle) : Prop :=
  exists k k' g g' i j ei ej q, (k < k')%nat /\ nth_error (b_polygons b) k = Some g /\ nth_error (b_polygons b) k' = Some g'
    /\ g_plane g = p /\ g_plane g' = p /\ In i (g_edges g) /\ In j (g_edges g') /\ edge_at b i ei /\ edge_at b j ej
    /\ overlap2_strict (seg_bounding (e_seg ei)) (seg_bounding (e_seg ej)) = true
    /\ relation_seg (e_seg ei) (e_seg ej) = CROSSING /\ intersection (e_seg ei) (e_seg ej) = Some q
    /\ angle_between ang b q i j a.

(** The range of an edge along a view axis. *)
Definition passes (v : ViewAxis) (s : seg) (x : Q) : Prop :=
  (along v (s0 s) <= x <= along v (s1 s)) \/ (along v (s1 s) <= x <= along v (s0 s)).
(** Some meshed diagonal edge of the plane passes there. *)
Definition diagonal_over (b : board) (p : Plane) (v : ViewAxis) (x : Q) : Prop :=
  exists i e, edge_at b i e /\ e_plane e = p /\ e_to_mesh e = true /\ diagonal e /\ passes v (e_seg e) x.
(** [y] comes right after [x] in the list. *)
Definition consecutive {A : Type} (l : list A) (x y : A) : Prop := exists l1 l2, l = l1 ++ x :: y :: l2.
(** The angles of the plane, by coordinate along the view axis. *)
Definition angles_along (b : board) (p : Plane) (v : ViewAxis) (l : list (nat * angle)) : Prop :=
  NoDup (map fst l) /\ (forall i a, In (i, a) l <-> nth_error (b_angles b) i = Some a /\ a_plane a = p)
  /\ StronglySorted (fun x y => along v (a_point (snd x)) <= along v (a_point (snd y))) l.
(** The angle at address [i] has that coordinate on the axis. *)
Definition angle_coord (b : board) (ax : Axis3) (i : nat) (x : Q) : Prop :=
  exists a v, nth_error (b_angles b) i = Some a /\ view_of_axis (a_plane a) ax = Some v /\ x = along v (a_point a).
(** The zones of an axis found on a plane, along [v]: disjoint groups of at least two
    angles of the plane, by coordinate, two consecutive ones being in one zone iff some
    diagonal edge passes at their middle. *)
Definition zoned (g : params) (d : diag_params) (b : board) (p : Plane) (v : ViewAxis) (zs : list diag_zone) : Prop :=
  exists l, angles_along b p v l
    /\ NoDup (concat (map dz_angles zs))
    /\ (forall z, In z zs -> dz_dmax z = dp_dmax d /\ dz_lmin z = g_lmin g /\ dz_minimal z = dp_minimal d
          /\ StronglySorted (fun i j => exists a c, nth_error (b_angles b) i = Some a /\ nth_error (b_angles b) j = Some c
               /\ a_plane a = p /\ a_plane c = p /\ along v (a_point a) <= along v (a_point c)) (dz_angles z)
          /\ exists l1 s l2, l = l1 ++ s ++ l2 /\ (2 <= length s)%nat /\ Permutation (map fst s) (dz_angles z))
    /\ (forall x y, consecutive l x y ->
          ((exists z, In z zs /\ In (fst x) (dz_angles z) /\ In (fst y) (dz_angles z))
           <-> diagonal_over b p v ((along v (a_point (snd x)) + along v (a_point (snd y))) / 2))).
(** The range of a zone on the axis. *)
Definition in_zone_range (b : board) (ax : Axis3) (z : diag_zone) (x : Q) : Prop :=
  exists i j y y', In i (dz_angles z) /\ In j (dz_angles z) /\ angle_coord b ax i y /\ angle_coord b ax j y' /\ y <= x <= y'.
(** What a zone asks of its angle at address [i]: the ends are meshed, the inner ones
    are if they are acute enough. *)
Definition zone_meshes (d : diag_params) (z : diag_zone) (i : nat) (a : angle) : Prop :=
  In i (dz_angles z) /\ (hd_error (dz_angles z) = Some i \/ last (dz_angles z) i = i \/ dp_minimal d <= a_value a).

(** An angle as it was detected: no axis meshed, no policy. *)
Definition bare (a : angle) : angle := mk_angle (a_plane a) (a_point a) (a_e0 a) (a_e1 a) (a_value a) false false None.
(** The board with the angles found later, as they were when the zones were looked for. *)
Definition with_angles (b : board) (l : list angle) : board := set_angles b (map bare l).

(** No side is slanted so little that it counts as straight. *)
Definition sides_plain (b : board) : Prop :=
  forall i e, edge_at b i e -> diagonal e \/ exists v, along v (s0 (e_seg e)) == along v (s1 (e_seg e)).

(** ** Lines *)

(** The parameters are such that meshing ends (see C18 for others). *)
Definition usable (g : params) (d : diag_params) : Prop :=
  0 <= g_proximity_limit g /\ 0 < g_dmax g /\ 1 <= g_smoothness g /\ 0 < dp_dmax d.
(** Some diagonal edge passes over that coordinate of the axis. *)
Definition under_diagonal (b : board) (ax : Axis3) (x : Q) : Prop := exists p v, view_of_axis p ax = Some v /\ diagonal_over b p v x.
