(** Properties C36 to C40 and C42: bounding boxes, orientation and normals,
    overlaps, point location, and the tables of axes and planes. *)
From Coq Require Import List Arith Bool Lia QArith Qabs Qminmax Lqa.
From Verif Require Import IntervalModel ManagerModel ManagerMoreProofs GeomModel GeomSpec GeomProofs GeomSegProofs GeomBoxProofs GeomLocateProofs.
Import ListNotations.
Open Scope Q_scope.

(** Shapes for the examples: an L, run counterclockwise, and a rectangle. *)
Definition ell : list point :=
  [mk_pt 0 0; mk_pt 4 0; mk_pt 4 1; mk_pt 1 1; mk_pt 1 3; mk_pt 0 3].
Definition triangle : list point := [mk_pt 0 0; mk_pt 4 0; mk_pt 0 3].
Definition corner1 : point := mk_pt 5 1.
Definition corner2 : point := mk_pt 2 7.
Definition hseg (x0 x1 y : Q) : seg := mk_seg (mk_pt x0 y) (mk_pt x1 y).
Definition vseg (x y0 y1 : Q) : seg := mk_seg (mk_pt x y0) (mk_pt x y1).

(* ------------------------------------------------------------------ *)
(** * C36: bounding boxes are tight *)

Theorem C36_polygon : forall l, l <> [] ->
  exists b, detect_bounding l = Done b /\ tight b l.
Proof.
  intros [|p l] H; [congruence|]. eexists. split; [reflexivity|]. now apply detect_bounding_tight.
Qed.

Example C36_polygon_case : detect_bounding ell = Done (mk_box 0 4 0 3).
Proof. reflexivity. Qed.

(** No smaller box contains the points. *)
Theorem C36_smallest : forall l b c, detect_bounding l = Done b ->
  (forall p, In p l -> in_box c p) -> forall p, in_box b p -> in_box c p.
Proof.
  intros l b c B H p [Px Py]. apply detect_bounding_tight in B.
  destruct B as (_ & (p1 & I1 & E1) & (p2 & I2 & E2) & (p3 & I3 & E3) & (p4 & I4 & E4)).
  pose proof (H _ I1) as [A1 A1']. pose proof (H _ I2) as [A2 A2']. pose proof (H _ I3) as [A3 A3']. pose proof (H _ I4) as [A4 A4'].
  split; lra.
Qed.

(** The sides of the polygon do not leave its box either. *)
Theorem C36_sides : forall l b a c p, detect_bounding l = Done b ->
  In (a, c) (sides l) -> on_seg (mk_seg a c) p -> in_box b p.
Proof.
  intros l b a c p B S P. apply detect_bounding_tight in B. destruct B as [B _].
  apply sides_in in S. destruct S as [Sa Sc]. apply (in_box_convex b a c); auto.
Qed.

Example C36_sides_case : In (mk_pt 1 1, mk_pt 1 3) (sides ell) /\ on_seg (vseg 1 1 3) (mk_pt 1 2)
  /\ (forall p, In p ell -> in_box (mk_box 0 10 (-1) 3) p).
Proof.
  split; [cbn; tauto|]. split.
  - exists (1 # 2). cbn [s0 s1 px py vseg]. split; [lra|]. split; lra.
  - intros p H. cbn in H. destruct H as [<-|[<-|[<-|[<-|[<-|[<-|[]]]]]]]; unfold in_box; cbn [px py xmin xmax ymin ymax]; lra.
Qed.

Theorem C36_segment : forall s,
  tight (seg_bounding s) [s0 s; s1 s] /\ forall p, on_seg s p -> in_box (seg_bounding s) p.
Proof. intro s. split; [apply seg_bounding_tight|apply seg_bounding_in]. Qed.

Example C36_segment_case : seg_bounding (mk_seg (mk_pt 3 1) (mk_pt 1 5)) = mk_box 1 3 1 5.
Proof. reflexivity. Qed.

(* ------------------------------------------------------------------ *)
(** * C37: orientation and outward normals *)

(** The rotation is the sign of the signed area, seen from any point [o]; areas
    below the tolerance count as none. *)
Theorem C37_rotation : forall l o,
  (detect_rotation l = CCW <-> equality_tolerance <= twice_area o l / 2)
  /\ (detect_rotation l = CW <-> twice_area o l / 2 <= - equality_tolerance)
  /\ (detect_rotation l = COLINEAR <-> Qabs (twice_area o l / 2) < equality_tolerance).
Proof.
  intros l o.
  assert (E : twice_area o l == area2 l).
  { rewrite (area_fan o). unfold twice_area. induction (sides l) as [|[a b] c IH]; [reflexivity|]. cbn. now rewrite IH. }
  rewrite rotation_turn. rewrite turn_ccw, turn_cw, turn_colinear.
  assert (H : twice_area o l / 2 == (1 # 2) * twice_area o l) by field.
  rewrite H, E. split; [split; intro; lra|]. split; [split; intro; lra|].
  rewrite Qabs_Qlt_condition. split; intro; lra.
Qed.

Example C37_rotation_case : detect_rotation ell = CCW /\ twice_area (mk_pt 1 1) ell == 12
  /\ detect_rotation [mk_pt 0 0; mk_pt 1 1; mk_pt 3 3] = COLINEAR.
Proof. now repeat split. Qed.

(** It depends neither on the starting point nor on the place. *)
Theorem C37_shift : forall l m, detect_rotation (l ++ m) = detect_rotation (m ++ l).
Proof. intros. rewrite !rotation_turn. apply turn_wd, area_shift. Qed.

Theorem C37_translate : forall v l, detect_rotation (map (translated v) l) = detect_rotation l.
Proof. intros. rewrite !rotation_turn. apply turn_wd, (area_translate v). Qed.

Theorem C37_reverse : forall l, detect_rotation (rev l) = opposite (detect_rotation l).
Proof. intro. rewrite !rotation_turn, <- turn_opp. apply turn_wd, area_rev. Qed.

Example C37_reverse_case : detect_rotation (rev ell) = CW.
Proof. reflexivity. Qed.

(** The edges of a polygon are its sides, each with a normal: the constructor
    reads no uninitialised direction. *)
Theorem C37_edges : forall l, l <> [] ->
  exists es, polygon_edges l = Done es /\ map fst es = map (fun pq => mk_seg (fst pq) (snd pq)) (sides l).
Proof.
  intros l H. destruct (polygon_edges_done l H) as [es E]. exists es. split; [assumption|].
  now apply polygon_edges_in.
Qed.

(** A horizontal or vertical edge gets a normal as soon as the polygon has an
    orientation, and no other edge does. *)
Theorem C37_which : forall l es e n, polygon_edges l = Done es -> In (e, n) es ->
  n <> Nnone <-> detect_rotation l <> COLINEAR /\ (seg_axis e = SH \/ seg_axis e = SV).
Proof.
  intros l es e n P I. apply polygon_edges_in in P. destruct P as [_ P]. specialize (P e n I).
  split.
  - intro N. unfold edge_normal, edge_direction in P.
    destruct (detect_rotation l); (split; [congruence|]); destruct (seg_axis e); try tauto; congruence.
  - intros [R A]. now apply (edge_normal_some (detect_rotation l) e).
Qed.

(** For a convex polygon the normals of the edges point outwards: they are
    perpendicular to the edge and no point of the polygon is on that side. *)
Theorem C37_convex : forall l es e n c, convex_ccw l \/ convex_cw l ->
  polygon_edges l = Done es -> In (e, n) es -> exact e -> n <> Nnone -> In c l ->
  px (normal_vec n) * (px c - px (s0 e)) + py (normal_vec n) * (py c - py (s0 e)) <= 0
  /\ px (normal_vec n) * (px (s1 e) - px (s0 e)) + py (normal_vec n) * (py (s1 e) - py (s0 e)) == 0.
Proof. intros l es e n c. apply convex_normal. Qed.

Example C37_convex_case : convex_ccw triangle /\ exists es, polygon_edges triangle = Done es
  /\ map snd es = [Nxmin; Nymin; Nnone] /\ forall e, In e (map fst es) -> exact e.
Proof.
  split.
  - intros a b c Hab Hc. cbn in Hab, Hc.
    destruct Hab as [E|[E|[E|[]]]]; injection E as <- <-; destruct Hc as [<-|[<-|[<-|[]]]]; unfold cross; cbn [px py]; lra.
  - eexists. split; [vm_compute; reflexivity|]. split; [reflexivity|].
    intros e H. cbn in H. destruct H as [<-|[<-|[<-|[]]]]; split; cbn; intro K; try reflexivity; now vm_compute in K.
Qed.

(** For a box given by any two opposite corners, a step along the normal leaves
    the box from every point of the edge, and a step back stays in it. *)
Theorem C37_box : forall p q es e n c x,
  equality_tolerance <= Qabs (px q - px p) -> equality_tolerance <= Qabs (py q - py p) ->
  equality_tolerance <= Qabs ((px q - px p) * (py q - py p)) ->
  polygon_edges (box_points p q) = Done es -> In (e, n) es -> on_seg e c -> 0 < x ->
  ~ in_box (hull p q) (moved c n x)
  /\ (x <= Qabs (px q - px p) -> x <= Qabs (py q - py p) -> in_box (hull p q) (moved c n (- x))).
Proof. apply box_normal. Qed.

Example C37_box_case : exists es, polygon_edges (box_points corner1 corner2) = Done es
  /\ map snd es = [Nymin; Nxmax; Nymax; Nxmin].
Proof. eexists. split; vm_compute; reflexivity. Qed.

(** The condition on the area is needed: a box of 100 by 35 micrometres drawn in
    metres has no orientation and its edges get no normal, though its sides are
    far above the tolerance. *)
Theorem C37_small_refuted : exists p q es,
  1000 * equality_tolerance <= Qabs (px q - px p) /\ 1000 * equality_tolerance <= Qabs (py q - py p)
  /\ polygon_edges (box_points p q) = Done es /\ forall e n, In (e, n) es -> n = Nnone.
Proof.
  exists (mk_pt 0 0), (mk_pt (1 # 10000) (35 # 1000000)). eexists.
  split; [vm_compute; discriminate|]. split; [vm_compute; discriminate|]. split; [vm_compute; reflexivity|].
  intros e n H. cbn in H. destruct H as [H|[H|[H|[H|[]]]]]; injection H as _ <-; reflexivity.
Qed.

(* ------------------------------------------------------------------ *)
(** * C38: overlap tests mean sharing a point *)

Theorem C38_range : forall a b,
  (overlap1 a b = true <-> exists x, in_range a x /\ in_range b x)
  /\ (overlap_z a b = true <-> exists x, in_range a x /\ in_range b x).
Proof. intros a b. split; apply overlap_side_point. Qed.

Theorem C38_coord : forall a x, overlap_coord a x = true <-> in_range a x.
Proof.
  intros a x. unfold overlap_coord, in_range. rewrite andb_true_iff, !Qle_bool_iff. reflexivity.
Qed.

Theorem C38_box : forall a b, overlap2 a b = true <-> exists p, in_box a p /\ in_box b p.
Proof. apply overlap2_point. Qed.

Theorem C38_strict : forall a b, overlap2_strict a b = true <-> exists p, inside a p /\ inside b p.
Proof. apply overlap2_strict_point. Qed.

Example C38_case : let a := mk_box 0 2 0 2 in let b := mk_box 2 3 1 5 in
  overlap2 a b = true /\ overlap2_strict a b = false /\ overlap2_strict a (mk_box 1 3 1 5) = true
  /\ overlap2 a (mk_box 3 4 0 2) = false.
Proof. now repeat split. Qed.

Theorem C38_symmetric : forall a b c d,
  overlap1 c d = overlap1 d c /\ overlap2 a b = overlap2 b a /\ overlap2_strict a b = overlap2_strict b a.
Proof.
  assert (E : forall x y : bool, (x = true <-> y = true) -> x = y).
  { intros [|] [|] [H K]; try reflexivity; [now rewrite H|now rewrite K]. }
  intros. split; [|split]; apply E.
  - destruct (C38_range c d) as [-> _], (C38_range d c) as [-> _]. split; intros [x ?]; exists x; tauto.
  - rewrite !C38_box. split; intros [x ?]; exists x; tauto.
  - rewrite !C38_strict. split; intros [x ?]; exists x; tauto.
Qed.

(** Non empty ranges and boxes overlap themselves; boxes with an inside do so
    strictly. *)
Theorem C38_reflexive : forall a b,
  (lo a <= hi a -> overlap1 a a = true)
  /\ (xmin b <= xmax b -> ymin b <= ymax b -> overlap2 b b = true)
  /\ (xmin b < xmax b -> ymin b < ymax b -> overlap2_strict b b = true).
Proof.
  intros a b. split; [|split].
  - intro H. apply C38_range. exists (lo a). unfold in_range. lra.
  - intros H K. apply C38_box. exists (mk_pt (xmin b) (ymin b)). unfold in_box. cbn [px py]. lra.
  - intros H K. apply C38_strict. exists (mk_pt ((1 # 2) * (xmin b + xmax b)) ((1 # 2) * (ymin b + ymax b))).
    unfold inside. cbn [px py]. lra.
Qed.

(* ------------------------------------------------------------------ *)
(** * C39: overlap and merge are intersection and union *)

Theorem C39_overlap : forall v a b, straight v a -> straight v b -> same_line v a b ->
  match overlap a b with
  | Some r => forall p, on_seg r p <-> on_seg a p /\ on_seg b p
  | None => forall p, ~ (on_seg a p /\ on_seg b p)
  end.
Proof. apply overlap_straight. Qed.

Theorem C39_merge : forall v a b, straight v a -> straight v b -> same_line v a b ->
  match merge a b with
  | Some r => (forall p, on_seg r p <-> on_seg a p \/ on_seg b p) /\ (exists p, on_seg a p /\ on_seg b p)
  | None => forall p, ~ (on_seg a p /\ on_seg b p)
  end.
Proof. apply merge_straight. Qed.

Example C39_case : straight VH (hseg 0 4 1) /\ straight VH (hseg 6 3 1) /\ same_line VH (hseg 0 4 1) (hseg 6 3 1)
  /\ overlap (hseg 0 4 1) (hseg 6 3 1) = Some (hseg 3 4 1) /\ merge (hseg 0 4 1) (hseg 6 3 1) = Some (hseg 0 6 1)
  /\ merge (hseg 0 4 1) (hseg 6 5 1) = None.
Proof.
  split; [split; vm_compute; [reflexivity|discriminate]|].
  split; [split; vm_compute; [reflexivity|discriminate]|]. now repeat split.
Qed.

Theorem C39_symmetric : forall a b,
  same_seg (overlap a b) (overlap b a) /\ same_seg (merge a b) (merge b a)
  /\ relation_seg a b = relation_seg b a.
Proof.
  intros a b. split; [|split].
  - apply combine_sym. apply overlap_side_sym.
  - apply combine_sym. apply merge_side_sym.
  - apply relation_seg_sym.
Qed.

(** Two segments on one line are OVERLAPPING iff they share a point, else
    COLINEAR. *)
Theorem C39_line : forall v a b, straight v a -> straight v b -> same_line v a b ->
  (relation_seg a b = OVERLAPPING /\ exists p, on_seg a p /\ on_seg b p)
  \/ (relation_seg a b = COLINEAR_ /\ forall p, ~ (on_seg a p /\ on_seg b p)).
Proof. apply relation_line. Qed.

(** CROSSING means sharing a point, when the ends of each segment are off the
    line of the other by more than the tolerance on areas ... *)
Theorem C39_crossing : forall a b, relation_seg a b = CROSSING ->
  (forall p, In p [s0 b; s1 b] -> equality_tolerance <= Qabs (cross (s0 a) (s1 a) p) / 2) ->
  (forall p, In p [s0 a; s1 a] -> equality_tolerance <= Qabs (cross (s0 b) (s1 b) p) / 2) ->
  exists p, on_seg a p /\ on_seg b p.
Proof. apply crossing_meets. Qed.

(** ... and conversely segments whose ends are on either side of each other. *)
Theorem C39_crossing_found : forall a b x y z w,
  x = cross (s0 a) (s1 a) (s0 b) -> y = cross (s0 a) (s1 a) (s1 b) ->
  z = cross (s0 b) (s1 b) (s0 a) -> w = cross (s0 b) (s1 b) (s1 a) ->
  let t := 2 * equality_tolerance in
  ((t <= x /\ y <= - t) \/ (x <= - t /\ t <= y)) -> ((t <= z /\ w <= - t) \/ (z <= - t /\ t <= w)) ->
  relation_seg a b = CROSSING.
Proof. intros a b x y z w -> -> -> -> t H K. apply crossing_complete; eexists; eexists; (split; [reflexivity|assumption]). Qed.

Example C39_crossing_case : relation_seg (hseg 0 4 1) (vseg 2 0 5) = CROSSING
  /\ relation_seg (hseg 0 4 1) (mk_seg (mk_pt 1 0) (mk_pt 3 2)) = CROSSING
  /\ relation_seg (hseg 0 4 1) (vseg 5 0 5) = APART
  /\ (forall p, In p [s0 (vseg 2 0 5); s1 (vseg 2 0 5)] -> equality_tolerance <= Qabs (cross (mk_pt 0 1) (mk_pt 4 1) p) / 2).
Proof.
  do 3 (split; [reflexivity|]). intros p [<-|[<-|[]]]; vm_compute; discriminate.
Qed.

(** The intersection point of two segments that are not parallel is their common
    point. *)
Theorem C39_intersection : forall a b q, exact a -> exact b ->
  ~ (px (s1 a) - px (s0 a)) * (py (s1 b) - py (s0 b)) - (py (s1 a) - py (s0 a)) * (px (s1 b) - px (s0 b)) == 0 ->
  on_seg a q -> on_seg b q ->
  exists p, intersection a b = Some p /\ same_pt p q.
Proof. intros a b q. apply intersection_common. Qed.

Example C39_intersection_case :
  (exists p, intersection (hseg 0 4 1) (vseg 2 0 5) = Some p /\ same_pt p (mk_pt 2 1))
  /\ (exists p, intersection (hseg 0 4 1) (mk_seg (mk_pt 1 0) (mk_pt 3 2)) = Some p /\ same_pt p (mk_pt 2 1))
  /\ exact (hseg 0 4 1) /\ exact (vseg 2 0 5).
Proof.
  split; [eexists; split; [vm_compute; reflexivity|split; reflexivity]|].
  split; [eexists; split; [vm_compute; reflexivity|split; reflexivity]|].
  split; split; cbn; intro K; try reflexivity; now vm_compute in K.
Qed.

(** Without a common point an answer may still be given: that of the two lines. *)
Theorem C39_intersection_apart_refuted : exists a b p, exact a /\ exact b
  /\ intersection a b = Some p /\ ~ on_seg a p /\ ~ on_seg b p.
Proof.
  exists (hseg 0 1 0), (vseg 5 7 8), (mk_pt 5 0).
  split; [split; cbn; intro K; try reflexivity; now vm_compute in K|].
  split; [split; cbn; intro K; try reflexivity; now vm_compute in K|].
  split; [reflexivity|].
  split; intros (t & Ht & Hx & Hy); cbn [s0 s1 px py hseg vseg] in Hx, Hy; lra.
Qed.

(** The same is not true of diagonals: the two bounding boxes are combined and
    the result is always the rising diagonal, even of twice the same segment. *)
Theorem C39_diagonal_refuted : exists a r, overlap a a = Some r /\ merge a a = Some r
  /\ on_seg a (mk_pt 0 2) /\ ~ on_seg r (mk_pt 0 2) /\ on_seg r (mk_pt 0 0) /\ ~ on_seg a (mk_pt 0 0).
Proof.
  exists (mk_seg (mk_pt 0 2) (mk_pt 2 0)). eexists.
  split; [vm_compute; reflexivity|]. split; [reflexivity|].
  split; [exists 0; cbn [s0 s1 px py]; split; [lra|split; lra]|].
  split; [intros (t & Ht & Hx & Hy); cbn [s0 s1 px py] in Hx, Hy; lra|].
  split; [exists 0; cbn [s0 s1 px py]; split; [lra|split; lra]|].
  intros (t & Ht & Hx & Hy); cbn [s0 s1 px py] in Hx, Hy; lra.
Qed.

(** What holds of any two parallel segments is the same about their boxes. *)
Theorem C39_overlap_boxes : forall a b, are_parallel a b = true ->
  match overlap a b with
  | Some r => forall p, in_box (seg_bounding r) p <-> in_box (seg_bounding a) p /\ in_box (seg_bounding b) p
  | None => forall p, ~ (in_box (seg_bounding a) p /\ in_box (seg_bounding b) p)
  end.
Proof. apply overlap_boxes. Qed.

(** Ranges are the same when their end points are taken for the same, in either
    order. *)
Theorem C39_same : forall a b, seg_eqb a b = true <->
  (close (s0 a) (s0 b) /\ close (s1 a) (s1 b)) \/ (close (s0 a) (s1 b) /\ close (s1 a) (s0 b)).
Proof.
  intros a b. assert (P : forall p q, pt_eqb p q = true <-> close p q).
  { intros p q. unfold pt_eqb, close. rewrite andb_true_iff, !coord_eqb_spec. reflexivity. }
  unfold seg_eqb. rewrite orb_true_iff, !andb_true_iff, !P. reflexivity.
Qed.

Example C39_same_case : seg_eqb (hseg 0 4 1) (hseg 4 0 1) = true /\ seg_eqb (hseg 0 4 1) (hseg 0 5 1) = false.
Proof. now split. Qed.

(** Segments that are not parallel have neither overlap nor union; two diagonals are
    parallel when their slopes are taken for the same. *)
Theorem C39_parallel : forall a b,
  (are_parallel a b = false -> overlap a b = None /\ merge a b = None)
  /\ (seg_axis a = SDIAG -> seg_axis b = SDIAG -> are_parallel a b = true <->
        Qabs ((py (s1 a) - py (s0 a)) / (px (s1 a) - px (s0 a)) - (py (s1 b) - py (s0 b)) / (px (s1 b) - px (s0 b)))
        < equality_tolerance).
Proof.
  intros a b. split.
  - intros H. unfold overlap, merge, combine_segs. now rewrite H.
  - intros A B. assert (N : forall s, seg_axis s = SDIAG -> Qeq_bool (px (seg_vec s)) 0 = false).
    { intros s H. destruct (Qeq_bool _ 0) eqn:E; [|reflexivity]. exfalso. apply Qeq_bool_iff in E.
      unfold seg_axis, axis_of_vector in H. replace (coord_eqb (px (seg_vec s)) 0) with true in H.
      - destruct (coord_eqb (py (seg_vec s)) 0); discriminate.
      - symmetry. apply coord_eqb_spec. rewrite E. reflexivity. }
    unfold are_parallel. rewrite (N a A), (N b B), A, B. cbn [segaxis_eqb andb orb]. rewrite coord_eqb_spec. reflexivity.
Qed.

Example C39_parallel_case :
  are_parallel (mk_seg (mk_pt 0 0) (mk_pt 1 2)) (mk_seg (mk_pt 5 1) (mk_pt 3 (-3))) = true
  /\ are_parallel (mk_seg (mk_pt 0 0) (mk_pt 1 2)) (mk_seg (mk_pt 5 1) (mk_pt 3 3)) = false
  /\ are_parallel (hseg 0 4 1) (vseg 1 0 4) = false.
Proof. now repeat split. Qed.

(** Perpendicular edges of half a tenth of a millimetre drawn in metres: they
    cross, but are said to be OVERLAPPING. *)
Theorem C39_small_refuted : exists a b, seg_axis a = SH /\ seg_axis b = SV
  /\ relation_seg a b = OVERLAPPING /\ exists p, on_seg a p /\ on_seg b p /\ inside (mk_box (px (s0 a)) (px (s1 a)) (py (s0 b)) (py (s1 b))) p.
Proof.
  exists (hseg 0 (1 # 20000) 0), (vseg (1 # 40000) (- (1 # 40000)) (1 # 40000)).
  do 3 (split; [vm_compute; reflexivity|]). exists (mk_pt (1 # 40000) 0).
  split; [exists (1 # 2); cbn [s0 s1 px py hseg]; split; [lra|split; lra]|].
  split; [exists (1 # 2); cbn [s0 s1 px py vseg]; split; [lra|split; lra]|].
  unfold inside. cbn [s0 s1 px py xmin xmax ymin ymax hseg vseg]. lra.
Qed.

(* ------------------------------------------------------------------ *)
(** * C40: point location *)

(** Away from the tolerance band, IN is inside the box and OUT outside it, and
    one ray is enough. *)
Theorem C40_location : forall p q c fuel, clear_of (hull p q) c ->
  exists r, relation_polygon (Datatypes.S fuel) (box_points p q) c = Done r
    /\ (r = PP_IN <-> inside (hull p q) c) /\ (r = PP_OUT <-> ~ in_box (hull p q) c).
Proof. apply box_locate. Qed.

Example C40_location_case : clear_of (hull corner1 corner2) (mk_pt 3 2)
  /\ relation_polygon 1 (box_points corner1 corner2) (mk_pt 3 2) = Done PP_IN
  /\ relation_polygon 1 (box_points corner1 corner2) (mk_pt 9 2) = Done PP_OUT
  /\ relation_polygon 1 (box_points corner1 corner2) (mk_pt 0 2) = Done PP_OUT.
Proof.
  split.
  - split; [vm_compute; discriminate|]. split; [vm_compute; discriminate|].
    intros d H. cbn in H. destruct H as [<-|[<-|[<-|[<-|[]]]]]; repeat split; vm_compute; discriminate.
  - repeat split; vm_compute; reflexivity.
Qed.

(** Every point of the border of every box is ON, corners and flat boxes
    included, after at most three rays. *)
Theorem C40_border : forall p q c s fuel,
  In s (map (fun pq => mk_seg (fst pq) (snd pq)) (sides (box_points p q))) -> on_seg s c ->
  relation_polygon (3 + fuel) (box_points p q) c = Done PP_ON.
Proof. apply box_border. Qed.

Example C40_border_case :
  In (vseg 5 1 7) (map (fun pq => mk_seg (fst pq) (snd pq)) (sides (box_points corner1 corner2)))
  /\ on_seg (vseg 5 1 7) (mk_pt 5 4).
Proof. split; [cbn; tauto|]. exists (1 # 2). cbn [s0 s1 px py vseg]. split; [lra|split; lra]. Qed.

(** The retry loop of any polygon stops, and the answer is then settled, when no
    vertex is just above or just below the point, neither equal to it nor two
    tolerances away. *)
Theorem C40_ends : forall l p, l <> [] ->
  (forall v, In v l -> px v == px p -> pt_eqb v p = false -> 2 * equality_tolerance <= Qabs (py v - py p)) ->
  exists fuel r, forall fuel', (fuel <= fuel')%nat -> relation_polygon fuel' l p = Done r.
Proof. apply relation_ends. Qed.

Example C40_ends_case :
  (forall v, In v ell -> px v == px (mk_pt 1 2) -> pt_eqb v (mk_pt 1 2) = false -> 2 * equality_tolerance <= Qabs (py v - py (mk_pt 1 2)))
  /\ relation_polygon 5 ell (mk_pt (1 # 2) 1) = Done PP_IN /\ relation_polygon 1 ell (mk_pt 3 3) = Running
  /\ relation_polygon 2 ell (mk_pt 3 3) = Done PP_OUT /\ relation_polygon 5 ell (mk_pt 1 2) = Done PP_ON.
Proof.
  split; [|repeat split; vm_compute; reflexivity].
  intros v H. cbn in H. destruct H as [<-|[<-|[<-|[<-|[<-|[<-|[]]]]]]]; intros _ _; vm_compute; discriminate.
Qed.

(** With such a vertex it may never stop. *)
Theorem C40_ends_refuted : exists l p, length l = 4%nat /\ forall fuel, relation_polygon fuel l p = Running.
Proof. exists stuck_polygon, origin. split; [reflexivity|apply stuck_forever]. Qed.

(* ------------------------------------------------------------------ *)
(** * C42: axis and plane conversions agree *)

(** The three tables are one: forth and back is the identity, and the axis out of
    the plane has no view axis. *)
Theorem C42_views : forall p v a,
  axes_table p v = axis_of_view p v
  /\ view_of_axis p (axis_of_view p v) = Some v
  /\ (view_of_axis p a = Some v <-> axis_of_view p v = a)
  /\ (view_of_axis p a = None <-> axis_of_view p VH <> a /\ axis_of_view p VV <> a).
Proof.
  intros p v a. destruct p, v, a; repeat split; intros; try discriminate; try congruence;
    try reflexivity; try tauto; cbn in *; intuition discriminate.
Qed.

(** Planes are right-handed: the vertical axis follows the horizontal one in the
    cycle x, y, z, and each plane misses one axis. *)
Theorem C42_cycle : forall p,
  let next a := match a with AX => AY | AY => AZ | AZ => AX end in
  axis_of_view p VV = next (axis_of_view p VH)
  /\ view_of_axis p (next (axis_of_view p VV)) = None.
Proof. intros []; now split. Qed.

(** The axis that an edge constrains is the one across it, and the coordinate used
    for its line is the fixed one. *)
Theorem C42_edge_axis : forall p s a v, seg_axis s = a -> view_of_segaxis a = Some v ->
  axis_of_seg p a = Some (axis_of_view p (reverse_view v))
  /\ (level v (s0 s) == level v (s1 s) -> forall c, on_seg s c ->
      exists x, seg_coord (s0 s) a = Some x /\ x == pt_coord c (reverse_view v)).
Proof.
  intros p s a v Ha Hv. split; [destruct p, a, v; cbn in *; congruence|].
  intros L c (t & Ht & Cx & Cy). unfold seg_coord. rewrite Hv.
  eexists. split; [reflexivity|]. destruct v; cbn in *; [rewrite Cy|rewrite Cx]; rewrite L; ring.
Qed.

Example C42_edge_axis_case : seg_axis (hseg 0 4 1) = SH /\ axis_of_seg PZX SH = Some AX
  /\ seg_coord (mk_pt 0 1) SH = Some 1.
Proof. now repeat split. Qed.

Theorem C42_no_axis : forall p a, axis_of_seg p a = None <-> a = SDIAG \/ a = SPOINT.
Proof. intros p a. destruct p, a; split; intro H; cbn in *; try discriminate; try tauto; destruct H; discriminate. Qed.

Theorem C42_reversals : forall v n,
  reverse_view (reverse_view v) = v /\ reverse_view v <> v
  /\ reverse_normal (reverse_normal n) = n /\ (reverse_normal n = n <-> n = Nnone)
  /\ view_of_segaxis (segaxis_of_view v) = Some v
  /\ px (normal_vec (reverse_normal n)) == - px (normal_vec n)
  /\ py (normal_vec (reverse_normal n)) == - py (normal_vec n).
Proof. intros v n. destruct v, n; repeat split; intros; try discriminate; reflexivity. Qed.

(** The side of a line kept by a policy is that of the normal, and swaps with it. *)
Theorem C42_cast : forall n,
  (cast_normal n = NMIN <-> cast_normal (reverse_normal n) = NMAX)
  /\ (cast_normal n = NNONE <-> n = Nnone)
  /\ (cast_normal n = NMIN <-> In n [Nxmin; Nymin; Nzmin])
  /\ (cast_normal n = NMIN -> px (normal_vec n) + py (normal_vec n) <= 0)
  /\ (cast_normal n = NMAX -> 0 <= px (normal_vec n) + py (normal_vec n)).
Proof. intros n. destruct n; cbn; repeat split; intros; try discriminate; try reflexivity; try tauto; intuition discriminate. Qed.

(* ------------------------------------------------------------------ *)
Print Assumptions C36_polygon.
Print Assumptions C36_smallest.
Print Assumptions C36_sides.
Print Assumptions C36_segment.
Print Assumptions C37_rotation.
Print Assumptions C37_shift.
Print Assumptions C37_translate.
Print Assumptions C37_reverse.
Print Assumptions C37_edges.
Print Assumptions C37_which.
Print Assumptions C37_convex.
Print Assumptions C37_box.
Print Assumptions C37_small_refuted.
Print Assumptions C38_range.
Print Assumptions C38_coord.
Print Assumptions C38_box.
Print Assumptions C38_strict.
Print Assumptions C38_symmetric.
Print Assumptions C38_reflexive.
Print Assumptions C39_overlap.
Print Assumptions C39_merge.
Print Assumptions C39_symmetric.
Print Assumptions C39_line.
Print Assumptions C39_crossing.
Print Assumptions C39_crossing_found.
Print Assumptions C39_intersection.
Print Assumptions C39_intersection_apart_refuted.
Print Assumptions C39_diagonal_refuted.
Print Assumptions C39_overlap_boxes.
Print Assumptions C39_same.
Print Assumptions C39_parallel.
Print Assumptions C39_small_refuted.
Print Assumptions C40_location.
Print Assumptions C40_border.
Print Assumptions C40_ends.
Print Assumptions C40_ends_refuted.
Print Assumptions C42_views.
Print Assumptions C42_cycle.
Print Assumptions C42_edge_axis.
Print Assumptions C42_no_axis.
Print Assumptions C42_reversals.
Print Assumptions C42_cast.
