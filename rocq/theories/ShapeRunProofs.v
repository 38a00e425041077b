(** From the steps of a run to what is seen of a side of a rectilinear polygon (C67). *)
From Coq Require Import List Arith Bool Lia ZArith QArith Qabs Qminmax Lqa Sorting.Sorted Sorting.Permutation.
From Verif Require Import IntervalModel IntervalProofs ManagerModel ManagerSpec ManagerProofs GeomModel GeomSpec GeomProofs GeomSegProofs GeomBoxProofs GeomLocateProofs.
From Verif Require Import LocateSpec LocateProofs LocateRayProofs ShapeSpec.
From Verif Require Import BoardModel BoardSpec BoardProofs BoardColinearProofs BoardCoverProofs BoardDetectProofs BoardBuiltProofs BoardSafetyProofs BoardEndProofs BoardRunProofs.
From Verif Require Import EndSpec VisibleSpec GridProofs BoardVisibleProofs VisibleRunProofs ShapeVisibleProofs LocateSpec.
Import ListNotations.
Open Scope Q_scope.

Lemma in_sides l s : In s (map (fun pq => mk_seg (fst pq) (snd pq)) (sides l)) -> In (s0 s) l /\ In (s1 s) l /\ In (s0 s, s1 s) (sides l).
Proof. intros I. apply in_map_iff in I. destruct I as ([a b] & <- & I). destruct (sides_in _ _ _ I). now repeat split. Qed.

Section Board.
Variables (N : positive) (fuel : nat) (srt : sort_by) (b0 b : board).
Hypothesis So : sorts_by srt.
Hypothesis Bu : built b0.
Hypothesis Fine : (2 * (2 * N * (2 * N)) <= 100000000)%positive.
Hypothesis Sh : shaped N b0.
Hypothesis Geo : same_geo b0 b.
Hypothesis Shape : map less_eip_g (b_polygons b) = map less_eip_g (b_polygons b0).

Lemma overlap_shape i o ea : edge_at b i ea -> rightly fuel srt b i o -> exists k g ebs,
  k = ov_polygon o /\ may_hide b0 i k /\ nth_error (b_polygons b0) k = Some g
  /\ map e_seg ebs = map (fun pq => mk_seg (fst pq) (snd pq)) (sides (g_points g))
  /\ (forall x, In x (s0 (e_seg ea) :: s1 (e_seg ea) :: g_points g) -> grid_point N x)
  /\ ((exists eb, In eb ebs /\ snd (met ea eb) = Some (ov_range o)) \/ found fuel srt ea (g_points g) ebs (ov_range o)).
Proof.
  intros Ei [Mh (ea' & g & Ei' & G & R)]. assert (ea' = ea) as -> by (unfold edge_at in *; congruence). clear Ei'.
  pose proof (may_hide_shape b b0 i _ Shape Mh) as Mh0. symmetry in Shape. destruct (map_at _ _ _ _ _ Shape G) as (g0 & G0 & W).
  injection W as W1 W2 W3 W4 W5 W6 W7 W8.
  pose proof Mh0 as (k' & ga & gb & Ga & Gb & _ & Ia & Pl & _). assert (gb = g0) as -> by congruence.
  destruct (geo_at _ _ _ _ (same_geo_sym _ _ Geo) Ei) as (ea0 & Ei0 & Ge). injection Ge as _ Ge _.
  pose proof (edge_of_polygon b0 Bu k' ga i ea0 Ga Ia Ei0) as Sa. rewrite Ge in Sa. destruct (in_sides _ _ Sa) as (E0 & E1 & _).
  assert (Pr0 : exists es0, edges_at b0 (g_edges g0) es0) by (destruct (so_proper b0 (built_sound b0 Bu) _ g0 G0) as (_ & _ & es & Es & _); eauto). destruct Pr0 as (es0 & Es0).
  destruct (edges_geo b0 b (g_edges g0) es0 (same_geo_sym _ _ Geo) Es0) as (ebs & Eb & Mb).
  assert (Sd : map e_seg ebs = map (fun pq => mk_seg (fst pq) (snd pq)) (sides (g_points g0))) by (rewrite Mb; exact (built_sides b0 _ g0 es0 Bu G0 Es0)).
  exists (ov_polygon o), g0, ebs. do 4 (split; [assumption || reflexivity|]). split.
  - intros x [<-|[<-|I]]; [apply (Sh k' ga Ga); assumption|apply (Sh k' ga Ga); assumption|apply (Sh _ g0 G0); assumption].
  - rewrite <- W7 in R. rewrite <- W5 in R. destruct (ov_edge o) as [j|].
    + left. destruct R as (I & eb & Ej & M). destruct (forall2_in _ _ _ Eb j I) as (eb' & J & Ej'). assert (eb' = eb) as -> by (unfold edge_at in *; congruence). eauto.
    + right. destruct R as (ebs' & Eb' & F). assert (ebs' = ebs) as <-; [|assumption]. clear - Eb Eb'. revert ebs Eb. induction Eb' as [|x y l l' X _ IH]; intros ebs Eb; inversion Eb; subst; [reflexivity|].
      f_equal; [unfold edge_at in *; congruence|]. now apply IH.
Qed.

Lemma shape_hides i o ea v : edge_at b i ea -> straight v (e_seg ea) -> rightly fuel srt b i o ->
  range_of v ea o /\ forall q, on_seg (ov_range o) q -> exists g, may_hide b0 i (ov_polygon o) /\ nth_error (b_polygons b0) (ov_polygon o) = Some g /\ in_polygon (g_points g) q.
Proof.
  intros Ei St R. destruct (overlap_shape i o ea Ei R) as (k & g & ebs & -> & Mh & G & Sd & Gr & H).
  assert (Gd : inner v ea (g_points g) (ov_range o)).
  { destruct (Sh _ g G) as [Rect _]. destruct H as [(eb & I & M)|F].
    - exact (range_inner v ea ebs (g_points g) N St Sd Rect Fine Gr eb _ I M).
    - exact (found_inner v ea ebs (g_points g) N fuel srt St Sd Rect Fine Gr So _ F). }
  destruct Gd as (A & B & C). split; [now split|]. intros x X. exists g. split; [assumption|]. split; [assumption|]. exact (C x X).
Qed.

Lemma shape_null i o ea q : edge_at b i ea -> null_seg (e_seg ea) -> rightly fuel srt b i o -> on_seg (e_seg ea) q -> hidden b0 i q.
Proof.
  intros Ei Nu R O. destruct (overlap_shape i o ea Ei R) as (k & g & ebs & -> & Mh & G & Sd & Gr & H).
  destruct H as [(eb & _ & M)|F]; [rewrite (null_ranges ea eb Nu) in M; discriminate|]. pose proof (null_points ea ebs Nu) as No.
  destruct F as [_ R0 _|? ? ? ? Ne]; [|congruence].
  exists (ov_polygon o), g, (s0 (e_seg ea)). split; [assumption|]. split; [assumption|]. split.
  - right. apply (located_in ea (g_points g) N fuel Fine Gr (s0 (e_seg ea))); [apply grid_point_double, Gr; now left|exact R0].
  - destruct O as (t & _ & X & Y), Nu as [Nx Ny]. split.
    + setoid_replace (px q - px (s0 (e_seg ea))) with 0; [reflexivity|]. rewrite X, Nx. ring.
    + setoid_replace (py q - py (s0 (e_seg ea))) with 0; [reflexivity|]. rewrite Y, Ny. ring.
Qed.
End Board.

(** * The whole run *)

Lemma run_hidden N fuel g d srt ang fixed b0 b i e q : sorts_by srt -> built b0 -> (2 * (2 * N * (2 * N)) <= 100000000)%positive -> shaped N b0 ->
  policies_of_board fuel g d srt ang fixed b0 = Done b -> edge_at b i e -> e_to_mesh e = false -> on_seg (e_seg e) q -> hidden b0 i q.
Proof.
  intros So Bu Fine Sh E Ei M O. destruct (run_steps _ _ _ _ _ _ _ _ E) as (b1 & b4 & b5 & b6 & b7 & b8 & b9 & H). pose proof (sp_solve _ _ _ _ _ _ _ _ _ _ _ _ _ _ _ H) as Es. pose proof (sp_diagonals _ _ _ _ _ _ _ _ _ _ _ _ _ _ _ H) as S4.
  destruct (run_result_of _ _ _ _ _ _ _ _ _ _ _ _ _ _ _ So Bu H) as (Rr & S1 & Da & S6 & S8 & D7 & I7 & P7 & W & _).
  pose proof S1 as (D1 & P1 & _). pose proof S4 as (P4 & D4 & _). pose proof (da_same _ _ _ _ _ Da) as (P5 & D5 & _). pose proof S6 as (P6 & D6 & _ & _ & I6 & _).
  assert (One7 : forall p, one_each b7 p). { intros p. pose proof (detected_one fuel srt b4 b5 p Da) as K. unfold one_each, eip_at in *. rewrite I7, I6. exact K. }
  assert (Fresh7 : forall j f, edge_at b7 j f -> e_to_mesh f = true).
  { intros j f F. unfold edge_at in F. rewrite D7 in F. symmetry in D6, D5, D1. destruct (map_at _ _ _ _ _ D6 F) as (f5 & F5 & W5), (map_at _ _ _ _ _ D5 F5) as (f4 & F4 & W4).
    rewrite D4 in F4. destruct (map_at _ _ _ _ _ D1 F4) as (f0 & F0 & W0). destruct (so_fresh b0 (built_sound b0 Bu) j f0 F0) as (T & _).
    assert (e_to_mesh f5 = e_to_mesh f) by (injection W5; congruence). assert (e_to_mesh f4 = e_to_mesh f5) by (injection W4; congruence). assert (e_to_mesh f0 = e_to_mesh f4) by (injection W0; congruence). congruence. }
  symmetry in W. destruct (map_at _ _ _ _ _ W Ei) as (e8 & E8 & We).
  assert (M8 : e_to_mesh e8 = false) by (injection We; congruence). assert (Q8 : e_seg e8 = e_seg e) by (injection We; congruence).
  destruct (dismissed_answered srt b7 b8 One7 Fresh7 Es i e8 E8 M8) as (p & n & c & bx & ex & m & C & Ci & Ex & Wx & An & Eq).
  unfold eip_at in C. rewrite I7, I6 in C. destruct (da_done _ _ _ _ _ Da p (all_planes_in p)) as (bd & be & Sd & Pl & No & Ed & _ & Oe). rewrite Oe in C.
  destruct (detect_in_polygons_spec fuel srt bd p be Pl No Ed) as ([_ _ Conf _] & _). destruct (Conf n c C) as (Ne & _ & _ & Ri). rewrite Ci in Ri.
  pose proof Sd as (Pd & Dd & _).
  assert (Shape : map less_eip_g (b_polygons bd) = map less_eip_g (b_polygons b0)) by (rewrite Pd, P4, P1; reflexivity).
  assert (Geo : same_geo b0 bd).
  { unfold same_geo. transitivity (map geo (b_edges b4)); [apply (map_geo less_eip); [reflexivity|assumption]|]. rewrite D4. apply (map_geo without_reverse); [reflexivity|assumption]. }
  destruct (geo_at _ _ _ _ (same_geo_sym _ _ (rr_geo _ _ _ _ Rr)) Ei) as (e0 & E0 & G0). destruct (geo_at _ _ _ _ Geo E0) as (ed & Edge & Gd).
  assert (Qd : e_seg ed = e_seg e) by (injection Gd; injection G0; congruence).
  assert (Qx : e_seg ex = e_seg e).
  { destruct (map_at _ _ _ _ _ (eq_sym Wx) Ex) as (e7 & E7 & W7). destruct S8 as (_ & D8 & _). destruct (map_at _ _ _ _ _ (eq_sym D8) E8) as (e7' & E7' & W7').
    assert (e7' = e7) as -> by congruence. assert (e_seg e7 = e_seg ex) by (injection W7; congruence). assert (e_seg e7 = e_seg e8) by (injection W7'; congruence). congruence. }
  destruct (built_edge_side b0 i e0 Bu E0) as (k & h & Gk & Sk). destruct (in_sides _ _ Sk) as (V0 & V1 & Vs). destruct (Sh k h Gk) as [Rect Gr].
  assert (Q0 : e_seg e0 = e_seg e) by (injection G0; congruence). rewrite Q0 in *.
  destruct (spaced_straight (e_seg e) (Rect _ _ Vs) (grid_apart_pts N _ _ Fine (Gr _ V0) (Gr _ V1))) as [Nu|[v St]].
  - destruct (ei_overlaps c) as [|o l]; [congruence|]. apply (shape_null N fuel srt b0 bd Bu Fine Sh Geo Shape i o ed q Edge); rewrite ?Qd; try assumption. apply Ri. now left.
  - assert (Rg : forall o, In o (ei_overlaps c) -> range_of v ex o /\ forall x, on_seg (ov_range o) x ->
      exists g, may_hide b0 i (ov_polygon o) /\ nth_error (b_polygons b0) (ov_polygon o) = Some g /\ in_polygon (g_points g) x).
    { intros o I. assert (Std : straight v (e_seg ed)) by now rewrite Qd. destruct (shape_hides N fuel srt b0 bd So Bu Fine Sh Geo Shape i o ed v Edge Std (Ri o I)) as [R1 R2]. split; [|assumption].
      unfold range_of in *. now rewrite Qx, <- Qd. }
    assert (Stx : straight v (e_seg ex)) by now rewrite Qx.
    pose proof (answer_sound srt v bx c ex m So Stx (fun o I => proj1 (Rg o I)) An Eq) as Nc. rewrite Qx in Nc. destruct (Nc q O) as (o & q' & I & Oq & Cl).
    destruct (proj2 (Rg o I) q' Oq) as (h' & Mh & Gh & Bh). exists (ov_polygon o), h', q'. split; [assumption|]. split; [assumption|]. split; assumption.
Qed.

(** * Sides that need a line *)

Lemma shaped_vertex N b i e : built b -> shaped N b -> edge_at b i e ->
  exists k g, nth_error (b_polygons b) k = Some g /\ g_plane g = e_plane e /\ In i (g_edges g)
    /\ grid_point N (s0 (e_seg e)) /\ grid_point N (s1 (e_seg e)) /\ (px (s0 (e_seg e)) == px (s1 (e_seg e)) \/ py (s0 (e_seg e)) == py (s1 (e_seg e))).
Proof.
  intros Bu Sh Ei. destruct (so_owned b (built_sound b Bu)) as [Ow _]. destruct (Ow i e Ei) as (k & g & G & I).
  destruct (built_in_place b Bu k g G i I) as (e' & Ei' & Pl). assert (e' = e) as -> by (unfold edge_at in *; congruence).
  pose proof (edge_of_polygon b Bu k g i e G I Ei) as S. destruct (in_sides _ _ S) as (V0 & V1 & Vs). destruct (Sh k g G) as [Rect Gr]. exists k, g.
  repeat (split; [assumption || congruence || now apply Gr|]). now apply Rect.
Qed.

Lemma shaped_transitive N b : (2 * (2 * N * (2 * N)) <= 100000000)%positive -> built b -> shaped N b -> transitive_at b.
Proof.
  intros Fine Bu Sh i j k (e & f & Ei & Ej & P & v & V & V' & L) (f' & h & Ej' & Ek & P' & v' & W & W' & L'). assert (f' = f) as -> by (unfold edge_at in *; congruence).
  assert (v' = v) as -> by (destruct v, v'; cbn in *; congruence). exists e, h. split; [assumption|]. split; [assumption|]. split; [congruence|]. exists v.
  split; [assumption|]. split; [assumption|].
  destruct (shaped_vertex N b i e Bu Sh Ei) as (_ & _ & _ & _ & _ & Vi & _), (shaped_vertex N b j f Bu Sh Ej) as (_ & _ & _ & _ & _ & Vj & _).
  assert (K : level v (s0 (e_seg e)) == level v (s0 (e_seg f))).
  { apply soa_close; [|assumption]. apply apart_level. exact (grid_apart_pts N _ _ Fine Vi Vj). }
  rewrite K. assumption.
Qed.

Lemma chain_area N l : forall prev, grid_point N prev -> (forall v, In v l -> grid_point N v) ->
  on_grid (N * N) (fold_right (fun pq s => cross (mk_pt 0 0) (fst pq) (snd pq) + s) 0 (chain prev l)).
Proof.
  assert (O : grid_point N (mk_pt 0 0)) by (split; apply (grid_whole N 0)).
  induction l as [|x l IH]; intros prev P G; cbn [chain fold_right fst snd]; [apply (grid_whole (N * N) 0)|].
  apply grid_add; [apply grid_cross; [exact O|exact P|apply G; now left]|]. apply IH; [apply G; now left|intros w W; apply G; now right].
Qed.

(** A straight side of a polygon that has an area faces a side. *)
Lemma shaped_normal N b i e v : (2 * (2 * N * (2 * N)) <= 100000000)%positive -> built b -> shaped N b -> has_area b i -> edge_at b i e -> seg_axis (e_seg e) = segaxis_of_view v -> e_normal e <> Nnone.
Proof.
  intros Fine Bu Sh (k & g & G & I & Ar) Ei Ax. destruct (so_proper b (built_sound b Bu) k g G) as (_ & _ & es & Es & _ & _ & No).
  destruct (forall2_in _ _ _ Es i I) as (e' & J & E'). assert (e' = e) as -> by (unfold edge_at in *; congruence). destruct (Sh k g G) as [_ Gr].
  assert (On : on_grid (N * N) (twice_area (mk_pt 0 0) (g_points g))).
  { unfold twice_area, sides. destruct (g_points g) as [|x l]; [apply (grid_whole (N * N) 0)|]. apply chain_area; [|exact Gr]. apply Gr. apply last_in. discriminate. }
  assert (R : detect_rotation (g_points g) <> COLINEAR).
  { intros K. apply Ar. assert (E : twice_area (mk_pt 0 0) (g_points g) == area2 (g_points g)).
    { rewrite (area_fan (mk_pt 0 0)). unfold twice_area. generalize (sides (g_points g)). intros m. induction m as [|[a c] m IH]; [reflexivity|]. cbn. now rewrite IH. }
    rewrite rotation_turn in K. apply turn_colinear in K. rewrite <- E in K. pose proof (fine_half N Fine) as F. destruct (grid_apart (N * N) _ On F) as [H|H]; [exact H|]. exfalso. assert (P : 0 < equality_tolerance) by reflexivity. lra. }
  destruct (polygon_edges_in _ _ No) as [_ Nm]. specialize (Nm (e_seg e) (e_normal e) (in_map (fun e => (e_seg e, e_normal e)) es e J)).
  apply (edge_normal_some _ _ _ Nm R). rewrite Ax. destruct v; [left|right]; reflexivity.
Qed.

(** * The end of a run *)

Lemma shaped_ends N b : (2 * (2 * N * (2 * N)) <= 100000000)%positive -> built b -> shaped N b -> edges_long b /\ locatable b.
Proof.
  intros Fine Bu Sh. assert (P : 0 < equality_tolerance) by reflexivity. split.
  - intros i e Ei. destruct (shaped_vertex N b i e Bu Sh Ei) as (_ & _ & _ & _ & _ & V0 & V1 & W). destruct (grid_apart_pts N _ _ Fine V0 V1) as [X Y].
    unfold ends_apart. cbv zeta. unfold same_or_apart, spacing, equality_tolerance in *.
    assert (Z : forall x y, x == y -> Qabs (x - y) == 0) by (intros x y H; setoid_replace (x - y) with 0 by lra; reflexivity).
    destruct X as [X|X], Y as [Y|Y]; try (apply Z in X); try (apply Z in Y); [left; now split|do 4 right; lra|do 3 right; left; lra|do 3 right; left; lra].
  - intros k g G. right. intros v w V W. destruct (Sh k g G) as [_ Gr]. destruct (grid_apart_pts N v w Fine (Gr v V) (Gr w W)) as [_ [Y|Y]]; [now left|right]. unfold spacing, equality_tolerance in *. lra.
Qed.
