(** Segments and boxes along the axes whose coordinates are the same or apart: crossings,
    overlaps and the location of points are exact. *)
From Coq Require Import List Arith Bool QArith Qabs Qminmax Lqa Lia.
From Verif Require Import IntervalModel IntervalProofs ManagerModel ManagerMoreProofs GeomModel GeomSpec GeomProofs GeomSegProofs GeomBoxProofs GeomLocateProofs VisibleSpec.
Import ListNotations.
Open Scope Q_scope.

Lemma soa_cases x y : same_or_apart x y -> x == y \/ x + spacing <= y \/ y + spacing <= x.
Proof. intros [E|H]; [now left|]. apply abs_ge in H. lra. Qed.
Lemma soa_sym x y : same_or_apart x y -> same_or_apart y x.
Proof. intros [E|H]; [left; now symmetry|]. right. now rewrite Qabs_Qminus. Qed.
Lemma soa_near x y : same_or_apart x y -> Qabs (x - y) < equality_tolerance -> x == y.
Proof. intros H K. destruct H as [H|H]; [assumption|]. exfalso. unfold spacing, equality_tolerance in *. lra. Qed.

(** A length that is nothing or not small. *)
Definition clear (x : Q) : Prop := x == 0 \/ spacing <= x \/ x <= - spacing.
Lemma soa_clear x y : same_or_apart x y -> clear (x - y).
Proof. intros H. apply soa_cases in H. unfold clear. lra. Qed.

Lemma turn_far a b : (spacing <= a \/ a <= - spacing) -> (spacing <= b \/ b <= - spacing) -> turn (a * b) <> COLINEAR.
Proof.
  intros A B K. apply turn_colinear in K. unfold spacing, equality_tolerance in *. destruct A, B; nra.
Qed.
Lemma turn_same a b c : clear a -> (spacing <= b /\ spacing <= c) \/ (b <= - spacing /\ c <= - spacing) -> turn (a * b) = turn (a * c).
Proof.
  intros A B. assert (T : 2 * equality_tolerance <= spacing * spacing) by (vm_compute; discriminate). assert (S : 0 < spacing) by reflexivity.
  destruct A as [A|[A|A]].
  - apply turn_wd. rewrite A. ring.
  - destruct B as [[B C]|[B C]].
    + transitivity CCW; [|symmetry]; apply turn_ccw; nra.
    + transitivity CW; [|symmetry]; apply turn_cw; nra.
  - destruct B as [[B C]|[B C]].
    + transitivity CW; [|symmetry]; apply turn_cw; nra.
    + transitivity CCW; [|symmetry]; apply turn_ccw; nra.
Qed.

(** The side of a level line. *)
Definition way (v : ViewAxis) : Q := match v with VH => 1 | VV => -1 end.
Lemma cross_level v a b c : level v a == level v b -> cross a b c == (way v * (along v b - along v a)) * (level v c - level v a).
Proof.
  intros L. unfold cross. destruct v; cbn in *.
  - assert (Z : py b - py a == 0) by lra. rewrite Z. ring.
  - assert (Z : px b - px a == 0) by lra. rewrite Z. ring.
Qed.
Lemma way_clear v x : clear x -> clear (way v * x).
Proof. unfold clear, way. destruct v; lra. Qed.
Lemma way_far v x : (spacing <= x \/ x <= - spacing) -> (spacing <= way v * x \/ way v * x <= - spacing).
Proof. unfold way. destruct v; lra. Qed.

Lemma crossing_turns a b : relation_seg a b = CROSSING ->
  turn (cross (s0 a) (s1 a) (s0 b)) <> turn (cross (s0 a) (s1 a) (s1 b)) /\ turn (cross (s0 b) (s1 b) (s0 a)) <> turn (cross (s0 b) (s1 b) (s1 a)).
Proof.
  unfold relation_seg. rewrite !rotation_triangle.
  set (r1 := turn (cross (s0 a) (s1 a) (s0 b))). set (r2 := turn (cross (s0 a) (s1 a) (s1 b))). set (r3 := turn (cross (s0 b) (s1 b) (s0 a))). set (r4 := turn (cross (s0 b) (s1 b) (s1 a))).
  destruct (_ && _ && _ && _); [destruct (_ && _); discriminate|]. destruct (rotation_eqb r1 r2) eqn:A; [discriminate|]. destruct (rotation_eqb r3 r4) eqn:B; [discriminate|].
  intros _. split; intro K; apply rotation_eqb_eq in K; congruence.
Qed.
Lemma overlapping_turns a b : relation_seg a b = OVERLAPPING ->
  turn (cross (s0 a) (s1 a) (s0 b)) = COLINEAR /\ turn (cross (s0 a) (s1 a) (s1 b)) = COLINEAR.
Proof.
  unfold relation_seg. rewrite !rotation_triangle.
  destruct (rotation_eqb (turn (cross (s0 a) (s1 a) (s0 b))) COLINEAR) eqn:A, (rotation_eqb (turn (cross (s0 a) (s1 a) (s1 b))) COLINEAR) eqn:B; cbn [andb];
    try (destruct (_ && _); discriminate). intros _. split; now apply rotation_eqb_eq.
Qed.

(** A segment does not cross a line it is all on one side of. *)
Lemma one_side v a b : level v (s0 a) == level v (s1 a) -> clear (along v (s1 a) - along v (s0 a)) ->
  (spacing <= level v (s0 b) - level v (s0 a) /\ spacing <= level v (s1 b) - level v (s0 a))
  \/ (level v (s0 b) - level v (s0 a) <= - spacing /\ level v (s1 b) - level v (s0 a) <= - spacing) ->
  turn (cross (s0 a) (s1 a) (s0 b)) = turn (cross (s0 a) (s1 a) (s1 b)).
Proof.
  intros L C H. rewrite (turn_wd _ _ (cross_level v _ _ (s0 b) L)), (turn_wd _ _ (cross_level v _ _ (s1 b) L)). apply turn_same; [now apply way_clear|assumption].
Qed.
Lemma same_level v a b : level v (s0 a) == level v (s1 a) -> level v (s0 b) == level v (s1 b) -> turn (cross (s0 a) (s1 a) (s0 b)) = turn (cross (s0 a) (s1 a) (s1 b)).
Proof. intros L K. apply turn_wd. rewrite !(cross_level v _ _ _ L), K. reflexivity. Qed.

Lemma rev_level v p : level (reverse_view v) p = along v p.
Proof. now destruct v. Qed.
Lemma rev_along v p : along (reverse_view v) p = level v p.
Proof. now destruct v. Qed.

(** Points of a straight segment, by coordinates. *)
Lemma on_straight v s p : level v (s0 s) == level v (s1 s) ->
  on_seg s p <-> level v p == level v (s0 s) /\ (along v (s0 s) <= along v p <= along v (s1 s) \/ along v (s1 s) <= along v p <= along v (s0 s)).
Proof.
  intros L. rewrite (straight_box_gen s v L). unfold in_box. destruct (seg_bounding_cases s) as [X Y]. destruct v; cbn in *.
  - destruct X as [(X & X1 & X2)|(X & X1 & X2)], Y as [(Y & Y1 & Y2)|(Y & Y1 & Y2)]; rewrite X1, X2, Y1, Y2; split; intros H; lra.
  - destruct X as [(X & X1 & X2)|(X & X1 & X2)], Y as [(Y & Y1 & Y2)|(Y & Y1 & Y2)]; rewrite X1, X2, Y1, Y2; split; intros H; lra.
Qed.

(** The coordinates of [b] are the same as those of [a], or apart. *)
Definition apart_pts (p q : point) : Prop := same_or_apart (px p) (px q) /\ same_or_apart (py p) (py q).
Definition apart_segs (a b : seg) : Prop :=
  forall p q, In p [s0 a; s1 a; s0 b; s1 b] -> In q [s0 a; s1 a; s0 b; s1 b] -> apart_pts p q.
Lemma apart_along v p q : apart_pts p q -> same_or_apart (along v p) (along v q).
Proof. intros [X Y]. now destruct v. Qed.
Lemma apart_level v p q : apart_pts p q -> same_or_apart (level v p) (level v q).
Proof. intros [X Y]. now destruct v. Qed.

(** A segment across: the common point is found, and it is common. *)
Lemma across_crossing v a b : straight v a -> along v (s0 b) == along v (s1 b) -> apart_segs a b -> relation_seg a b = CROSSING ->
  exists p, intersection a b = Some p /\ on_seg a p /\ on_seg b p.
Proof.
  intros [L A] L' G C. apply crossing_turns in C. destruct C as [C1 C2].
  assert (G0 := fun q H => soa_cases _ _ (apart_level v _ _ (G q (s0 a) H (or_introl eq_refl)))).
  assert (K0 := G0 (s0 b) ltac:(cbn; tauto)). assert (K1 := G0 (s1 b) ltac:(cbn; tauto)). clear G0.
  assert (G0 := fun q H => soa_cases _ _ (apart_along v _ _ (G q (s0 b) H (or_intror (or_intror (or_introl eq_refl)))))).
  assert (J0 := G0 (s0 a) ltac:(cbn; tauto)). assert (J1 := G0 (s1 a) ltac:(cbn; tauto)). clear G0.
  assert (Ca : clear (along v (s1 a) - along v (s0 a))) by (apply soa_clear, apart_along, G; cbn; tauto).
  assert (Cb : clear (level v (s1 b) - level v (s0 b))) by (apply soa_clear, apart_level, G; cbn; tauto).
  assert (S : 0 < spacing) by reflexivity.
  assert (Y : level v (s0 b) <= level v (s0 a) <= level v (s1 b) \/ level v (s1 b) <= level v (s0 a) <= level v (s0 b)).
  { destruct (Qlt_le_dec (level v (s0 a)) (level v (s0 b))) as [H|H], (Qlt_le_dec (level v (s0 a)) (level v (s1 b))) as [H'|H']; try lra.
    - exfalso. apply C1. apply (one_side v); [assumption|assumption|]. left. lra.
    - destruct (Qlt_le_dec (level v (s0 b)) (level v (s0 a))) as [I|I]; [|lra]. destruct (Qlt_le_dec (level v (s1 b)) (level v (s0 a))) as [I'|I']; [|lra].
      exfalso. apply C1. apply (one_side v); [assumption|assumption|]. right. lra. }
  assert (X : along v (s0 a) <= along v (s0 b) <= along v (s1 a) \/ along v (s1 a) <= along v (s0 b) <= along v (s0 a)).
  { assert (O : (spacing <= along v (s0 a) - along v (s0 b) /\ spacing <= along v (s1 a) - along v (s0 b))
       \/ (along v (s0 a) - along v (s0 b) <= - spacing /\ along v (s1 a) - along v (s0 b) <= - spacing) -> False).
    { intros O. apply C2. apply (one_side (reverse_view v)); rewrite ?rev_level, ?rev_along; assumption. }
    destruct (Qlt_le_dec (along v (s0 b)) (along v (s0 a))) as [H|H], (Qlt_le_dec (along v (s0 b)) (along v (s1 a))) as [H'|H']; lra. }
  assert (Sb : straight (reverse_view v) b).
  { split; rewrite ?rev_level, ?rev_along; [assumption|]. destruct Cb as [Cb|Cb].
    - exfalso. apply C1. apply (same_level v); [assumption|]. lra.
    - unfold spacing, equality_tolerance in *. destruct Cb; [rewrite Qabs_pos by lra|rewrite Qabs_neg by lra]; lra. }
  assert (Hon : forall p, level v p == level v (s0 a) -> along v p == along v (s0 b) -> on_seg a p /\ on_seg b p).
  { intros p Hl Ha. split.
    - apply (on_straight v); [assumption|]. split; [assumption|]. rewrite Ha. lra.
    - apply (on_straight (reverse_view v)); [apply Sb|]. rewrite !rev_level, !rev_along. split; [assumption|]. rewrite Hl. lra. }
  unfold intersection. rewrite (straight_axis v a (conj L A)), (straight_axis (reverse_view v) b Sb).
  destruct v; cbn [segaxis_of_view reverse_view]; eexists; (split; [reflexivity|]); apply Hon; reflexivity.
Qed.

Lemma null_parallel v a b : straight v a -> px (s0 b) == px (s1 b) -> py (s0 b) == py (s1 b) -> are_parallel a b = false.
Proof.
  intros St X Y. unfold are_parallel. rewrite (straight_axis v a St).
  assert (seg_axis b = SPOINT) as ->.
  { unfold seg_axis, axis_of_vector, seg_vec, coord_eqb. cbn [pt_sub px py].
    assert (Z : forall x y, x == y -> Qltb (Qabs (y - x - 0)) equality_tolerance = true).
    { intros x y E. apply Qltb_lt. setoid_replace (y - x - 0) with 0 by lra. reflexivity. }
    now rewrite !Z. }
  assert (Qeq_bool (px (seg_vec b)) 0 = true) as -> by (apply Qeq_bool_iff; cbn; lra).
  rewrite orb_true_r. now destruct v.
Qed.

(** The range shared with a segment, if it is not a point. *)
Lemma overlap_range v a b r : straight v a -> apart_segs a b -> (along v (s0 b) == along v (s1 b) \/ level v (s0 b) == level v (s1 b)) ->
  relation_seg a b = OVERLAPPING -> overlap a b = Some r ->
  straight v b /\ same_line v a b /\ level v (s0 r) == level v (s1 r) /\ level v (s0 r) == level v (s0 a) /\ forall p, on_seg r p <-> on_seg a p /\ on_seg b p.
Proof.
  intros [L A] G P R E. apply overlapping_turns in R. destruct R as [R0 R1].
  assert (S : 0 < spacing) by reflexivity.
  assert (Fa : spacing <= along v (s1 a) - along v (s0 a) \/ along v (s1 a) - along v (s0 a) <= - spacing).
  { assert (Ca : clear (along v (s1 a) - along v (s0 a))) by (apply soa_clear, apart_along, G; cbn; tauto).
    destruct Ca as [Ca|Ca]; [|assumption]. exfalso. rewrite Ca in A. unfold equality_tolerance in A. vm_compute in A. congruence. }
  assert (On : forall q, In q [s0 b; s1 b] -> turn (cross (s0 a) (s1 a) q) = COLINEAR -> level v q == level v (s0 a)).
  { intros q Hq T. assert (Cq : same_or_apart (level v q) (level v (s0 a))) by (apply apart_level, G; cbn in *; tauto). apply soa_clear in Cq.
    destruct Cq as [Cq|Cq]; [lra|]. exfalso. rewrite (turn_wd _ _ (cross_level v _ _ q L)) in T. revert T. apply turn_far; [now apply way_far|assumption]. }
  assert (L0 := On (s0 b) ltac:(cbn; tauto) R0). assert (L1 := On (s1 b) ltac:(cbn; tauto) R1).
  assert (Sl : same_line v a b) by (symmetry; exact L0).
  assert (Lb : level v (s0 b) == level v (s1 b)) by (rewrite L0, L1; reflexivity).
  assert (Cb : clear (along v (s1 b) - along v (s0 b))) by (apply soa_clear, apart_along, G; cbn; tauto).
  assert (Sb : straight v b).
  { split; [assumption|]. destruct Cb as [Cb|Cb].
    - exfalso. unfold overlap, combine_segs in E. rewrite (null_parallel v a b (conj L A)) in E; [discriminate|..]; destruct v; cbn in *; lra.
    - unfold spacing, equality_tolerance in *. destruct Cb; [rewrite Qabs_pos by lra|rewrite Qabs_neg by lra]; lra. }
  split; [assumption|]. split; [assumption|]. pose proof (overlap_straight v a b (conj L A) Sb Sl) as O. rewrite E in O.
  assert (O0 := proj1 (O (s0 r)) (on_seg_s0 r)). assert (O1 := proj1 (O (s1 r)) (on_seg_s1 r)). destruct O0 as [O0 _], O1 as [O1 _].
  apply (on_straight v a _ L) in O0, O1. split; [lra|]. split; [lra|assumption].
Qed.

(** * Location *)

Lemma apart_pts_sym p q : apart_pts p q -> apart_pts q p.
Proof. intros [A B]. split; now apply soa_sym. Qed.

(** In a box (or a segment) when near a point of it. *)
Definition apart_box (b : box) (c : point) : Prop :=
  same_or_apart (px c) (xmin b) /\ same_or_apart (px c) (xmax b) /\ same_or_apart (py c) (ymin b) /\ same_or_apart (py c) (ymax b).
Lemma near_box b c x : apart_box b c -> in_box b x -> close c x -> in_box b c.
Proof.
  intros (X0 & X1 & Y0 & Y1) [Hx Hy] [Cx Cy]. apply soa_cases in X0, X1, Y0, Y1. apply Qabs_Qlt_condition in Cx, Cy.
  unfold in_box, spacing, equality_tolerance in *. lra.
Qed.
Lemma apart_hull p q c : apart_pts c p -> apart_pts c q -> apart_box (hull p q) c.
Proof.
  intros [A B] [C D]. unfold apart_box. cbn [hull xmin xmax ymin ymax].
  assert (W : forall x y z, y == z -> same_or_apart x z -> same_or_apart x y).
  { intros x y z E [K|K]; [left; now rewrite E|right; now rewrite E]. }
  destruct (Qmin_cases (px p) (px q)) as [[_ M]|[_ M]], (Qmax_cases (px p) (px q)) as [[_ N]|[_ N]], (Qmin_cases (py p) (py q)) as [[_ M']|[_ M']], (Qmax_cases (py p) (py q)) as [[_ N']|[_ N']];
    (split; [apply (W _ _ _ M); assumption|]); (split; [apply (W _ _ _ N); assumption|]); (split; [apply (W _ _ _ M'); assumption|apply (W _ _ _ N'); assumption]).
Qed.
Lemma apart_bounding s c : apart_pts c (s0 s) -> apart_pts c (s1 s) -> apart_box (seg_bounding s) c.
Proof.
  intros [A B] [C D]. unfold apart_box, seg_bounding. cbn [xmin xmax ymin ymax].
  destruct (Qltb (px (s0 s)) (px (s1 s))), (Qltb (px (s1 s)) (px (s0 s))), (Qltb (py (s0 s)) (py (s1 s))), (Qltb (py (s1 s)) (py (s0 s))); tauto.
Qed.

(** The ends of a ray are a unit away from the box. *)
Lemma box_corner p q v : In v (box_points p q) -> (px v = px p \/ px v = px q) /\ (py v = py p \/ py v = py q).
Proof. cbn. intros [<-|[<-|[<-|[<-|[]]]]]; cbn; tauto. Qed.

(** A vertical side and a level ray that does not reach it, or that passes above or below. *)
Lemma ray_misses X y0 y1 c E : clear (y1 - y0) ->
  (spacing <= X - px c /\ spacing <= X - E) \/ (spacing <= px c - X /\ spacing <= E - X) ->
  relation_seg (mk_seg (mk_pt X y0) (mk_pt X y1)) (mk_seg c (mk_pt E (py c))) <> CROSSING.
Proof.
  intros C H K. apply crossing_turns in K. destruct K as [K _]. apply K. cbn [s0 s1]. apply (one_side VV (mk_seg (mk_pt X y0) (mk_pt X y1)) (mk_seg c (mk_pt E (py c)))); cbn; [reflexivity|assumption|lra].
Qed.
Lemma ray_passes X y0 y1 c E : clear (E - px c) ->
  (spacing <= y0 - py c /\ spacing <= y1 - py c) \/ (spacing <= py c - y0 /\ spacing <= py c - y1) ->
  relation_seg (mk_seg (mk_pt X y0) (mk_pt X y1)) (mk_seg c (mk_pt E (py c))) <> CROSSING.
Proof.
  intros C H K. apply crossing_turns in K. destruct K as [_ K]. apply K. cbn [s0 s1]. apply (one_side VH (mk_seg c (mk_pt E (py c))) (mk_seg (mk_pt X y0) (mk_pt X y1))); cbn; [reflexivity|assumption|lra].
Qed.
(** Both vertical sides of a box alike. *)
Lemma ray_through X y0 y1 c E : spacing <= px c - X -> spacing <= X - E -> 
  (spacing <= y0 - py c /\ spacing <= py c - y1) \/ (spacing <= y1 - py c /\ spacing <= py c - y0) ->
  relation_seg (mk_seg (mk_pt X y0) (mk_pt X y1)) (mk_seg c (mk_pt E (py c))) = CROSSING.
Proof.
  intros A B H. assert (S : 0 < spacing) by reflexivity. assert (T : 2 * equality_tolerance <= spacing * spacing) by (vm_compute; discriminate).
  apply crossing_complete; eexists; eexists; (split; [split; reflexivity|]); unfold cross; cbn [s0 s1 px py]; destruct H as [[H K]|[H K]]; first [left; split; nra|right; split; nra].
Qed.

Lemma no_vertex_near p q c v : In v (box_points p q) -> apart_pts c p -> apart_pts c q -> ~ in_box (hull p q) c -> pt_eqb v c = false.
Proof.
  intros V P Q N. destruct (pt_eqb v c) eqn:E; [|reflexivity]. exfalso. apply N. apply (near_box _ _ v (apart_hull p q c P Q)).
  - apply box_corner in V. unfold in_box. cbn [hull xmin xmax ymin ymax].
    destruct (Qmin_cases (px p) (px q)) as [[? M]|[? M]], (Qmax_cases (px p) (px q)) as [[? M']|[? M']], (Qmin_cases (py p) (py q)) as [[? M1]|[? M1]], (Qmax_cases (py p) (py q)) as [[? M1']|[? M1']];
      rewrite M, M', M1, M1'; destruct V as [[->| ->] [->| ->]]; lra.
  - unfold pt_eqb, coord_eqb in E. apply andb_true_iff in E. destruct E as [E1 E2]. apply Qltb_lt in E1, E2. split; rewrite Qabs_Qminus; assumption.
Qed.

Lemma outside_side p q c s : In s (map (fun pq => mk_seg (fst pq) (snd pq)) (sides (box_points p q))) -> ~ in_box (hull p q) c -> relation_point s c = POUT.
Proof.
  intros I N. destruct (relation_point s c) eqn:R; [reflexivity|]. exfalso. apply N. apply relation_point_box in R. revert R. rewrite box_sides in I. cbv zeta in I. cbn [map fst snd] in I.
  destruct (seg_bounding_cases s) as [X Y]. unfold in_box. intros R. cbn [hull xmin xmax ymin ymax].
  assert (Hx : (px (s0 s) = px p \/ px (s0 s) = px q) /\ (px (s1 s) = px p \/ px (s1 s) = px q) /\ (py (s0 s) = py p \/ py (s0 s) = py q) /\ (py (s1 s) = py p \/ py (s1 s) = py q)).
  { destruct I as [<-|[<-|[<-|[<-|[]]]]]; cbn; tauto. }
  assert (B : forall a b x y u, (x = a \/ x = b) -> (y = a \/ y = b) -> (x <= u <= y \/ y <= u <= x) -> Qmin a b <= u <= Qmax a b).
  { intros a b x y u Ha Hb Hu. destruct (Qmin_cases a b) as [[? ->]|[? ->]], (Qmax_cases a b) as [[? ->]|[? ->]]; destruct Ha as [->| ->], Hb as [->| ->]; lra. }
  destruct Hx as (H1 & H2 & H3 & H4). split.
  - apply (B _ _ (px (s0 s)) (px (s1 s))); [assumption|assumption|]. destruct X as [(_ & X1 & X2)|(_ & X1 & X2)]; rewrite X1, X2 in R; lra.
  - apply (B _ _ (py (s0 s)) (py (s1 s))); [assumption|assumption|]. destruct Y as [(_ & Y1 & Y2)|(_ & Y1 & Y2)]; rewrite Y1, Y2 in R; lra.
Qed.

Lemma scan_hit ray c l v : In v l -> relation_point ray v = PON -> (forall w, In w l -> pt_eqb w c = false) -> vertex_on_ray ray c l = Some true.
Proof.
  intros I R. induction l as [|w l IH]; intros H; [destruct I|]. cbn. rewrite (H w) by now left. destruct (relation_point ray w) eqn:W; [|reflexivity].
  destruct I as [->|I]; [congruence|]. apply IH; [assumption|]. intros u Hu. apply H. now right.
Qed.

Lemma box_out p q c : apart_pts c p -> apart_pts c q -> apart_pts p q -> ~ in_box (hull p q) c -> relation_polygon 2 (box_points p q) c = Done PP_OUT.
Proof.
  intros P Q PQ N. unfold relation_polygon.
  destruct (detect_bounding (box_points p q)) as [b| |] eqn:B; [|discriminate|discriminate]. destruct (box_bounding _ _ _ B) as (B1 & B2 & _ & _). clear B.
  assert (exists es, detect_edges (box_points p q) = Done es /\ es = map (fun pq => mk_seg (fst pq) (snd pq)) (sides (box_points p q))) as (es & -> & Ees) by (eexists; split; reflexivity).
  cbn [bind]. assert (Vn : forall w, In w (box_points p q) -> pt_eqb w c = false) by (intros w W; exact (no_vertex_near p q c w W P Q N)).
  assert (So : forall s, In s es -> relation_point s c = POUT) by (intros s I; rewrite Ees in I; exact (outside_side p q c s I N)).
  rewrite box_sides in Ees. cbv zeta in Ees. cbn [map fst snd] in Ees.
  assert (S0 : 0 < spacing) by reflexivity. assert (S1 : spacing <= 1 # 2) by (vm_compute; discriminate).
  assert (Cy : clear (py q - py p)) by (apply soa_clear, soa_sym, PQ). assert (Cy' : clear (py p - py q)) by (apply soa_clear, PQ).
  destruct P as [Px Py], Q as [Qx Qy]. apply soa_cases in Px, Py, Qx, Qy.
  set (xl := xmin (hull p q)) in *. set (xr := xmax (hull p q)) in *.
  assert (X : (px p == xl /\ px q == xr \/ px p == xr /\ px q == xl) /\ xl <= xr).
  { unfold xl, xr. cbn [hull xmin xmax]. destruct (Qmin_cases (px p) (px q)) as [[? M]|[? M]], (Qmax_cases (px p) (px q)) as [[? M']|[? M']]; rewrite M, M'; lra. }
  (* what one ray gives *)
  assert (Step : forall n fuel E two, ray_end b c n = mk_pt E (py c) -> (forall v, In v (box_points p q) -> relation_point (mk_seg c (mk_pt E (py c))) v = PON -> False) ->
    (forall Xs ya yb, Xs = px p \/ Xs = px q -> (ya = py p /\ yb = py q) \/ (ya = py q /\ yb = py p) ->
       (relation_seg (mk_seg (mk_pt Xs ya) (mk_pt Xs yb)) (mk_seg c (mk_pt E (py c))) = CROSSING <-> two = true)) ->
    ray_loop (S fuel) b (box_points p q) es c n = Done PP_OUT).
  { intros n fuel E two En V C. rewrite ray_loop_S, En, (scan_clear_far _ c _ V Vn). subst es.
    rewrite (count_four _ c _ _ _ _ (So _ (or_introl eq_refl)) (So _ (or_intror (or_introl eq_refl))) (So _ (or_intror (or_intror (or_introl eq_refl)))) (So _ (or_intror (or_intror (or_intror (or_introl eq_refl)))))
      (h_side_no_crossing _ _ _ _ _) (h_side_no_crossing _ _ _ _ _) two two
      (C (px p) (py p) (py q) (or_introl eq_refl) (or_introl (conj eq_refl eq_refl))) (C (px q) (py q) (py p) (or_intror eq_refl) (or_intror (conj eq_refl eq_refl)))).
    now destruct two. }
  assert (No : forall r : SegSeg, r <> CROSSING -> (r = CROSSING <-> false = true)) by (intros r H; split; [contradiction|discriminate]).
  set (E0 := xmin b - 1). assert (EE0 : E0 == xl - 1) by (unfold E0; rewrite B1; reflexivity).
  set (E1 := xmax b + 1). assert (EE1 : E1 == xr + 1) by (unfold E1; rewrite B2; reflexivity).
  assert (Dec : (py c < py p /\ py c < py q) \/ (py p < py c /\ py q < py c) \/ px c < xl \/ xr < px c).
  { destruct (Qlt_le_dec (px c) xl); [tauto|]. destruct (Qlt_le_dec xr (px c)); [tauto|].
    destruct (Qlt_le_dec (py c) (py p)), (Qlt_le_dec (py c) (py q)), (Qlt_le_dec (py p) (py c)), (Qlt_le_dec (py q) (py c)); try tauto;
      exfalso; apply N; (split; [fold xl xr; split; assumption|]); cbn [hull ymin ymax];
      destruct (Qmin_cases (py p) (py q)) as [[? M]|[? M]], (Qmax_cases (py p) (py q)) as [[? M']|[? M']]; rewrite M, M'; lra. }
  assert (Above : (py c < py p /\ py c < py q) \/ (py p < py c /\ py q < py c) -> ray_loop 2 b (box_points p q) es c 0 = Done PP_OUT).
  { intros H. apply (Step 0%nat 1%nat E0 false); [reflexivity| |].
    - intros v V R. apply h_ray_vertex in R. apply box_corner in V. destruct V as [_ [V|V]]; rewrite V in R; lra.
    - intros Xs ya yb HX HY. apply No. destruct (Qlt_le_dec (px c) (E0 + spacing)) as [K|K].
      + apply ray_misses; [destruct HY as [[-> ->]|[-> ->]]; assumption|]. left. destruct HX as [->| ->]; lra.
      + apply ray_passes; [unfold clear; lra|]. destruct HY as [[-> ->]|[-> ->]]; lra. }
  destruct Dec as [H|[H|Dec]]; [apply Above; tauto|apply Above; tauto|].
  assert (Beside : forall n fuel E, ray_end b c n = mk_pt E (py c) -> (px c < xl /\ E == xl - 1) \/ (xr < px c /\ E == xr + 1) -> ray_loop (S fuel) b (box_points p q) es c n = Done PP_OUT).
  { intros n fuel E En H. apply (Step n fuel E false En).
    - intros v V R. apply relation_point_box in R. destruct R as [R _]. destruct (seg_bounding_cases (mk_seg c (mk_pt E (py c)))) as [Cb _]. cbn [s0 s1 px py] in Cb.
      apply box_corner in V. destruct V as [V _]. destruct Cb as [(? & Z1 & Z2)|(? & Z1 & Z2)]; rewrite Z1, Z2 in R; destruct V as [V|V]; rewrite V in R; lra.
    - intros Xs ya yb HX HY. apply No. apply ray_misses; [destruct HY as [[-> ->]|[-> ->]]; assumption|]. destruct HX as [->| ->]; lra. }
  destruct Dec as [H|H]; [apply (Beside 0%nat 1%nat E0); [reflexivity|left; split; assumption]|].
  destruct (Qeq_dec (py c) (py p)) as [Yp|Yp]; [|destruct (Qeq_dec (py c) (py q)) as [Yq|Yq]].
  - rewrite ray_loop_S. rewrite (scan_hit _ _ _ (mk_pt (px p) (py p))); [|cbn; tauto| |assumption].
    + apply (Beside 1%nat 0%nat E1); [reflexivity|right; split; assumption].
    + apply on_seg_relation. apply (on_straight VH); [reflexivity|]. cbn. fold E0. lra.
  - rewrite ray_loop_S. rewrite (scan_hit _ _ _ (mk_pt (px q) (py q))); [|cbn; tauto| |assumption].
    + apply (Beside 1%nat 0%nat E1); [reflexivity|right; split; assumption].
    + apply on_seg_relation. apply (on_straight VH); [reflexivity|]. cbn. fold E0. lra.
  - destruct (Qlt_le_dec (py c) (py p)), (Qlt_le_dec (py c) (py q)); try (apply Above; lra).
    + apply (Step 0%nat 1%nat E0 true); [reflexivity| |].
      * intros v V R. apply h_ray_vertex in R. apply box_corner in V. destruct V as [_ [V|V]]; rewrite V in R; lra.
      * intros Xs ya yb HX HY. split; [reflexivity|]. intros _. apply ray_through; [destruct HX as [->| ->]; lra|destruct HX as [->| ->]; lra|]. destruct HY as [[-> ->]|[-> ->]]; lra.
    + apply (Step 0%nat 1%nat E0 true); [reflexivity| |].
      * intros v V R. apply h_ray_vertex in R. apply box_corner in V. destruct V as [_ [V|V]]; rewrite V in R; lra.
      * intros Xs ya yb HX HY. split; [reflexivity|]. intros _. apply ray_through; [destruct HX as [->| ->]; lra|destruct HX as [->| ->]; lra|]. destruct HY as [[-> ->]|[-> ->]]; lra.
Qed.
