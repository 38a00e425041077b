(** From the steps of a run to what is seen of a side (C64). *)
From Coq Require Import List Arith Bool Lia QArith Qabs Qminmax Lqa Sorting.Sorted Sorting.Permutation.
From Verif Require Import IntervalModel IntervalProofs ManagerModel ManagerSpec ManagerProofs GeomModel GeomSpec GeomProofs GeomSegProofs GeomBoxProofs GeomLocateProofs.
From Verif Require Import BoardModel BoardSpec BoardProofs BoardColinearProofs BoardCoverProofs BoardDetectProofs BoardBuiltProofs BoardSafetyProofs BoardEndProofs BoardRunProofs.
From Verif Require Import EndSpec VisibleSpec GridProofs BoardVisibleProofs.
Import ListNotations.
Open Scope Q_scope.

(** * Why an edge is dismissed *)

Definition answered (srt : sort_by) (b : board) (i : nat) : Prop :=
  exists p n c b1 e1 m, eip_at b p n c /\ ei_edge c = i /\ edge_at b1 i e1 /\ map without_solution (b_edges b1) = map without_solution (b_edges b)
    /\ answer srt b1 c e1 m /\ seg_eqb (e_seg e1) m = true.

Lemma dismissed_answered srt b b' : (forall p, one_each b p) -> (forall i e, edge_at b i e -> e_to_mesh e = true) ->
  for_each (auto_solve_all_edge_in_polygon srt) all_planes b = Done b' -> forall i e, edge_at b' i e -> e_to_mesh e = false -> answered srt b i.
Proof.
  intros One Fr E.
  destruct (for_each_done (auto_solve_all_edge_in_polygon srt) (fun done b1 => map without_solution (b_edges b1) = map without_solution (b_edges b)
    /\ (forall p, ~ In p done -> on_plane (b_eip b1) p = on_plane (b_eip b) p) /\ forall i e, edge_at b1 i e -> e_to_mesh e = false -> answered srt b i) all_planes b b') as (_ & _ & H); [..|exact E|exact H].
  - split; [reflexivity|]. split; [reflexivity|]. intros i e Ei M. rewrite (Fr i e Ei) in M. discriminate.
  - intros done p rest b1 b2 EL (S & O & H) E2.
    assert (N : ~ In p done).
    { pose proof all_planes_nodup as ND. rewrite EL in ND. apply NoDup_remove_2 in ND. intros K. apply ND, in_or_app. now left. }
    assert (One1 : one_each b1 p) by (unfold one_each, eip_at; rewrite (O p N); apply One).
    destruct (auto_solve_in_polygon srt p b1 b2 One1 E2) as [(S1 & S2 & S3 & S4 & S5 & S6 & S7 & S8) D R Ed]. split; [congruence|]. split.
    + intros q I. rewrite S8; [apply O|]; intros K; [apply I, in_or_app; now left|]. subst q. apply I, in_or_app. right. now left.
    + intros i e Ei M. destruct (in_dec Nat.eq_dec i (map ei_edge (on_plane (b_eip b1) p))) as [I|I].
      * apply in_map_iff in I. destruct I as (c & C & I). apply In_nth_error in I. destruct I as (n & Cn). symmetry in S2.
        destruct (map_at _ _ _ _ _ S2 Ei) as (e1 & E1 & _). rewrite <- C in E1, Ei. destruct (D n c e1 (nth_lt _ _ _ Cn) Cn E1) as (m & A & Ee & _).
        exists p, n, c, b1, e1, m. rewrite <- C. split; [unfold eip_at; now rewrite <- (O p N)|]. split; [reflexivity|]. split; [assumption|]. split; [assumption|]. split; [assumption|].
        assert (e = set_to_mesh (negb (seg_eqb (e_seg e1) m)) (InEIP p n) e1) as -> by (unfold edge_at in *; congruence). cbn in M. now apply negb_false_iff.
      * apply (H i e); [|assumption]. unfold edge_at. rewrite <- (Ed i); [assumption|]. intros n c _ Cn K. apply I. apply in_map_iff. exists c. split; [assumption|]. eapply nth_error_In. exact Cn.
Qed.

(** * Sides of spaced boxes *)

Lemma side_ends l s : is_box l -> In s (map (fun pq => mk_seg (fst pq) (snd pq)) (sides l)) ->
  (px (s0 s) == px (s1 s) \/ py (s0 s) == py (s1 s)) /\ In (s0 s) l /\ In (s1 s) l.
Proof. intros (p & q & ->) I. exact (box_side_straight p q s I). Qed.

Lemma spaced_straight s : (px (s0 s) == px (s1 s) \/ py (s0 s) == py (s1 s)) -> apart_pts (s0 s) (s1 s) -> null_seg s \/ exists v, straight v s.
Proof.
  intros W [X Y]. assert (F : forall a c, same_or_apart a c -> a == c \/ equality_tolerance <= Qabs (c - a)).
  { intros a c [K|K]; [now left|right]. rewrite Qabs_Qminus. unfold spacing, equality_tolerance in *. lra. }
  destruct (F _ _ X) as [X'|X'], (F _ _ Y) as [Y'|Y'].
  - left. now split.
  - right. exists VV. now split.
  - right. exists VH. now split.
  - exfalso. destruct W as [W|W].
    + setoid_replace (px (s1 s) - px (s0 s)) with 0 in X' by lra. now apply X'.
    + setoid_replace (py (s1 s) - py (s0 s)) with 0 in Y' by lra. now apply Y'.
Qed.

Lemma null_ranges ea eb : null_seg (e_seg ea) -> snd (met ea eb) = None.
Proof.
  intros N. pose proof (null_met ea eb N) as H. unfold met in *. destruct (relation_seg (e_seg ea) (e_seg eb)); try reflexivity.
  destruct (overlap (e_seg ea) (e_seg eb)); [discriminate|reflexivity].
Qed.

(** * What an overlap says, on a board with the shapes of another *)

Lemma edges_geo b b0 l es : same_geo b0 b -> edges_at b l es -> exists es0, edges_at b0 l es0 /\ map e_seg es0 = map e_seg es.
Proof.
  intros S H. induction H as [|i e l es Ei _ (es0 & E0 & M)]; [exists []; split; constructor|].
  destruct (geo_at _ _ _ _ (same_geo_sym _ _ S) Ei) as (e0 & Ei0 & G). exists (e0 :: es0). split; [now constructor|]. cbn. injection G as _ G _. now rewrite G, M.
Qed.
Lemma may_hide_shape b b0 i k : map less_eip_g (b_polygons b) = map less_eip_g (b_polygons b0) -> may_hide b i k -> may_hide b0 i k.
Proof.
  intros P (j & ga & gb & A & B & D & I & Pl & Pr & Z). symmetry in P. destruct (map_at _ _ _ _ _ P A) as (ga0 & A0 & Wa), (map_at _ _ _ _ _ P B) as (gb0 & B0 & Wb).
  injection Wa as Wa1 Wa2 Wa3 Wa4 Wa5 Wa6 Wa7 Wa8. injection Wb as Wb1 Wb2 Wb3 Wb4 Wb5 Wb6 Wb7 Wb8.
  exists j, ga0, gb0. split; [assumption|]. split; [assumption|]. split; [assumption|]. rewrite Wa7, Wa1, Wb1, Wa3, Wb3, Wa4, Wb4. now repeat split.
Qed.

Section Board.
Variables (fuel : nat) (srt : sort_by) (b0 b : board).
Hypothesis So : sorts_by srt.
Hypothesis Bu : built b0.
Hypothesis Bx : only_boxes b0.
Hypothesis Sp : spaced b0.
Hypothesis Geo : same_geo b0 b.
Hypothesis Shape : map less_eip_g (b_polygons b) = map less_eip_g (b_polygons b0).

Lemma edge_of_polygon k g i e : nth_error (b_polygons b0) k = Some g -> In i (g_edges g) -> edge_at b0 i e ->
  In (e_seg e) (map (fun pq => mk_seg (fst pq) (snd pq)) (sides (g_points g))).
Proof.
  intros G I Ei. destruct (so_proper b0 (built_sound b0 Bu) k g G) as (_ & _ & es & Es & _ & S & _). destruct (forall2_in _ _ _ Es i I) as (e' & J & E').
  assert (e' = e) as -> by (unfold edge_at in *; congruence). rewrite <- S. now apply in_map.
Qed.

(** The facts about an overlap of the edge. *)
Lemma overlap_facts i o ea : edge_at b i ea -> rightly fuel srt b i o -> exists k g p q ebs,
  k = ov_polygon o /\ may_hide b0 i k /\ nth_error (b_polygons b0) k = Some g /\ g_points g = box_points p q
  /\ map e_seg ebs = map (fun pq => mk_seg (fst pq) (snd pq)) (sides (box_points p q))
  /\ (forall x y, In x (s0 (e_seg ea) :: s1 (e_seg ea) :: box_points p q) -> In y (s0 (e_seg ea) :: s1 (e_seg ea) :: box_points p q) -> apart_pts x y)
  /\ ((exists eb, In eb ebs /\ snd (met ea eb) = Some (ov_range o)) \/ found fuel srt ea (box_points p q) ebs (ov_range o)).
Proof.
  intros Ei [Mh (ea' & g & Ei' & G & R)]. assert (ea' = ea) as -> by (unfold edge_at in *; congruence). clear Ei'.
  pose proof (may_hide_shape b b0 i _ Shape Mh) as Mh0. symmetry in Shape. destruct (map_at _ _ _ _ _ Shape G) as (g0 & G0 & W).
  injection W as W1 W2 W3 W4 W5 W6 W7 W8. destruct (Bx _ _ G0) as (p & q & Pq).
  pose proof Mh0 as (k' & ga & gb & Ga & Gb & _ & Ia & Pl & _). assert (gb = g0) as -> by congruence.
  destruct (geo_at _ _ _ _ (same_geo_sym _ _ Geo) Ei) as (ea0 & Ei0 & Ge). injection Ge as _ Ge _.
  pose proof (edge_of_polygon k' ga i ea0 Ga Ia Ei0) as Sa. rewrite Ge in Sa. destruct (side_ends _ _ (Bx _ _ Ga) Sa) as (_ & E0 & E1).
  assert (Pr0 : exists es0, edges_at b0 (g_edges g0) es0) by (destruct (so_proper b0 (built_sound b0 Bu) _ g0 G0) as (_ & _ & es & Es & _); eauto). destruct Pr0 as (es0 & Es0).
  destruct (edges_geo b0 b (g_edges g0) es0 (same_geo_sym _ _ Geo) Es0) as (ebs & Eb & Mb).
  assert (Sd : map e_seg ebs = map (fun pq => mk_seg (fst pq) (snd pq)) (sides (box_points p q))) by (rewrite Mb, (built_sides b0 _ g0 es0 Bu G0 Es0), Pq; reflexivity).
  exists (ov_polygon o), g0, p, q, ebs. do 5 (split; [assumption || reflexivity|]). split.
  - assert (V : forall x, In x (s0 (e_seg ea) :: s1 (e_seg ea) :: box_points p q) -> exists j h, nth_error (b_polygons b0) j = Some h /\ g_plane h = g_plane g0 /\ In x (g_points h)).
    { intros x [<-|[<-|I]]; [exists k', ga; auto|exists k', ga; auto|]. exists (ov_polygon o), g0. rewrite Pq. auto. }
    intros x y X Y. destruct (V x X) as (j & h & J & Hp & Xi), (V y Y) as (j' & h' & J' & Hp' & Yi). exact (Sp j j' h h' x y J J' ltac:(congruence) Xi Yi).
  - rewrite <- W7 in R. rewrite <- W5 in R. rewrite Pq in R. destruct (ov_edge o) as [j|].
    + left. destruct R as (I & eb & Ej & M). destruct (forall2_in _ _ _ Eb j I) as (eb' & J & Ej'). assert (eb' = eb) as -> by (unfold edge_at in *; congruence). eauto.
    + right. destruct R as (ebs' & Eb' & F). assert (ebs' = ebs) as <-; [|assumption]. clear - Eb Eb'. revert ebs Eb. induction Eb' as [|x y l l' X _ IH]; intros ebs Eb; inversion Eb; subst; [reflexivity|].
      f_equal; [unfold edge_at in *; congruence|]. now apply IH.
Qed.

Lemma overlap_hides i o ea v : edge_at b i ea -> straight v (e_seg ea) -> rightly fuel srt b i o ->
  range_of v ea o /\ forall q, on_seg (ov_range o) q -> exists g, may_hide b0 i (ov_polygon o) /\ nth_error (b_polygons b0) (ov_polygon o) = Some g /\ box_has (g_points g) q.
Proof.
  intros Ei St R. destruct (overlap_facts i o ea Ei R) as (k & g & p & q & ebs & -> & Mh & G & Pq & Sd & Ap & H).
  assert (Gd : good v ea p q (ov_range o)).
  { destruct H as [(eb & I & M)|F]; [|exact (found_good v ea ebs p q fuel srt St Sd Ap So _ F)].
    destruct (met_sound v ea ebs p q St Sd Ap eb I) as [_ K]. destruct (K _ M) as (A & B & C & D). split; [assumption|]. split; [assumption|].
    split; [exact (side_hull _ _ _ _ (side_of ebs p q Sd eb I) C)|exact (side_hull _ _ _ _ (side_of ebs p q Sd eb I) D)]. }
  destruct Gd as (A & B & C & D). split; [now split|]. intros x X. exists g. split; [assumption|]. split; [assumption|]. exists p, q. split; [assumption|].
  apply (in_box_convex _ (s0 (ov_range o)) (s1 (ov_range o))); assumption.
Qed.

Lemma null_hides i o ea q : edge_at b i ea -> null_seg (e_seg ea) -> rightly fuel srt b i o -> on_seg (e_seg ea) q -> unseen b0 i q.
Proof.
  intros Ei N R O. destruct (overlap_facts i o ea Ei R) as (k & g & p & c & ebs & -> & Mh & G & Pq & Sd & Ap & H).
  destruct H as [(eb & _ & M)|F]; [rewrite (null_ranges ea eb N) in M; discriminate|]. pose proof (null_points ea ebs N) as No.
  destruct F as [_ R0 _|? ? ? ? Ne]; [|congruence].
  exists (ov_polygon o), g, (s0 (e_seg ea)). split; [assumption|]. split; [assumption|]. split.
  - exists p, c. split; [assumption|]. apply (end_hull ea p c fuel Ap (s0 (e_seg ea)) PP_IN); [now left|assumption|discriminate].
  - destruct O as (t & _ & X & Y), N as [Nx Ny]. split.
    + setoid_replace (px q - px (s0 (e_seg ea))) with 0; [reflexivity|]. rewrite X, Nx. ring.
    + setoid_replace (py q - py (s0 (e_seg ea))) with 0; [reflexivity|]. rewrite Y, Ny. ring.
Qed.
End Board.

(** * The whole run *)

Lemma run_unseen fuel g d srt ang fixed b0 b i e q : sorts_by srt -> built b0 -> only_boxes b0 -> spaced b0 ->
  policies_of_board fuel g d srt ang fixed b0 = Done b -> edge_at b i e -> e_to_mesh e = false -> on_seg (e_seg e) q -> unseen b0 i q.
Proof.
  intros So Bu Bx Sp E Ei M O. destruct (run_steps _ _ _ _ _ _ _ _ E) as (b1 & b4 & b5 & b6 & b7 & b8 & b9 & H). pose proof (sp_solve _ _ _ _ _ _ _ _ _ _ _ _ _ _ _ H) as Es. pose proof (sp_diagonals _ _ _ _ _ _ _ _ _ _ _ _ _ _ _ H) as S4.
  destruct (run_result_of _ _ _ _ _ _ _ _ _ _ _ _ _ _ _ So Bu H) as (Rr & S1 & Da & S6 & S8 & D7 & I7 & P7 & W & _).
  pose proof S1 as (D1 & P1 & _). pose proof S4 as (P4 & D4 & _). pose proof (da_same _ _ _ _ _ Da) as (P5 & D5 & _). pose proof S6 as (P6 & D6 & _ & _ & I6 & _).
  assert (One7 : forall p, one_each b7 p). { intros p. pose proof (detected_one fuel srt b4 b5 p Da) as K. unfold one_each, eip_at in *. rewrite I7, I6. exact K. }
  assert (Fresh7 : forall j f, edge_at b7 j f -> e_to_mesh f = true).
  { intros j f F. unfold edge_at in F. rewrite D7 in F. symmetry in D6, D5, D1. destruct (map_at _ _ _ _ _ D6 F) as (f5 & F5 & W5), (map_at _ _ _ _ _ D5 F5) as (f4 & F4 & W4).
    rewrite D4 in F4. destruct (map_at _ _ _ _ _ D1 F4) as (f0 & F0 & W0). destruct (so_fresh b0 (built_sound b0 Bu) j f0 F0) as (T & _).
    assert (e_to_mesh f5 = e_to_mesh f) by (injection W5; congruence). assert (e_to_mesh f4 = e_to_mesh f5) by (injection W4; congruence). assert (e_to_mesh f0 = e_to_mesh f4) by (injection W0; congruence). congruence. }
  symmetry in W. destruct (map_at _ _ _ _ _ W Ei) as (e8 & E8 & We).
  assert (M8 : e_to_mesh e8 = false) by (injection We; congruence). assert (Q8 : e_seg e8 = e_seg e) by (injection We; congruence).
  destruct (dismissed_answered srt b7 b8 One7 Fresh7 Es i e8 E8 M8) as (p & n & c & bx & ex & m & C & Ci & Ex & Wx & An & Eq).
  unfold eip_at in C. rewrite I7, I6 in C. destruct (da_done _ _ _ _ _ Da p (all_planes_in p)) as (bd & be & Sd & Pl & No & Ed & _ & Oe). rewrite Oe in C.
  destruct (detect_in_polygons_spec fuel srt bd p be Pl No Ed) as ([_ _ Conf _] & _). destruct (Conf n c C) as (Ne & _ & _ & Ri). rewrite Ci in Ri.
  pose proof Sd as (Pd & Dd & _).
  assert (Shape : map less_eip_g (b_polygons bd) = map less_eip_g (b_polygons b0)) by (rewrite Pd, P4, P1; reflexivity).
  assert (Geo : same_geo b0 bd).
  { unfold same_geo. transitivity (map geo (b_edges b4)); [apply (map_geo less_eip); [reflexivity|assumption]|]. rewrite D4. apply (map_geo without_reverse); [reflexivity|assumption]. }
  destruct (geo_at _ _ _ _ (same_geo_sym _ _ (rr_geo _ _ _ _ Rr)) Ei) as (e0 & E0 & G0). destruct (geo_at _ _ _ _ Geo E0) as (ed & Edge & Gd).
  assert (Qd : e_seg ed = e_seg e) by (injection Gd; injection G0; congruence).
  assert (Qx : e_seg ex = e_seg e).
  { destruct (map_at _ _ _ _ _ (eq_sym Wx) Ex) as (e7 & E7 & W7). destruct S8 as (_ & D8 & _). destruct (map_at _ _ _ _ _ (eq_sym D8) E8) as (e7' & E7' & W7').
    assert (e7' = e7) as -> by congruence. assert (e_seg e7 = e_seg ex) by (injection W7; congruence). assert (e_seg e7 = e_seg e8) by (injection W7'; congruence). congruence. }
  destruct (built_edge_side b0 i e0 Bu E0) as (k & h & Gk & Sk). destruct (side_ends _ _ (Bx _ _ Gk) Sk) as (Ws & V0 & V1).
  assert (Q0 : e_seg e0 = e_seg e) by (injection G0; congruence). rewrite Q0 in *.
  destruct (spaced_straight (e_seg e) Ws (Sp k k h h _ _ Gk Gk eq_refl V0 V1)) as [Nu|[v St]].
  - destruct (ei_overlaps c) as [|o l]; [congruence|]. apply (null_hides fuel srt b0 bd Bu Bx Sp Geo Shape i o ed q Edge); rewrite ?Qd; try assumption. apply Ri. now left.
  - assert (Rg : forall o, In o (ei_overlaps c) -> range_of v ex o /\ forall x, on_seg (ov_range o) x ->
      exists g, may_hide b0 i (ov_polygon o) /\ nth_error (b_polygons b0) (ov_polygon o) = Some g /\ box_has (g_points g) x).
    { intros o I. assert (Std : straight v (e_seg ed)) by now rewrite Qd. destruct (overlap_hides fuel srt b0 bd So Bu Bx Sp Geo Shape i o ed v Edge Std (Ri o I)) as [R1 R2]. split; [|assumption].
      unfold range_of in *. now rewrite Qx, <- Qd. }
    assert (Stx : straight v (e_seg ex)) by now rewrite Qx.
    pose proof (answer_sound srt v bx c ex m So Stx (fun o I => proj1 (Rg o I)) An Eq) as Nc. rewrite Qx in Nc. destruct (Nc q O) as (o & q' & I & Oq & Cl).
    destruct (proj2 (Rg o I) q' Oq) as (h' & Mh & Gh & Bh). exists (ov_polygon o), h', q'. split; [assumption|]. split; [assumption|]. split; assumption.
Qed.

(** * Sides that need a line *)

Lemma spaced_vertex b i e : built b -> only_boxes b -> edge_at b i e ->
  exists k g, nth_error (b_polygons b) k = Some g /\ g_plane g = e_plane e /\ In i (g_edges g) /\ In (e_seg e) (map (fun pq => mk_seg (fst pq) (snd pq)) (sides (g_points g)))
    /\ In (s0 (e_seg e)) (g_points g) /\ In (s1 (e_seg e)) (g_points g) /\ (px (s0 (e_seg e)) == px (s1 (e_seg e)) \/ py (s0 (e_seg e)) == py (s1 (e_seg e))).
Proof.
  intros Bu Bx Ei. destruct (so_owned b (built_sound b Bu)) as [Ow _]. destruct (Ow i e Ei) as (k & g & G & I).
  destruct (built_in_place b Bu k g G i I) as (e' & Ei' & Pl). assert (e' = e) as -> by (unfold edge_at in *; congruence).
  pose proof (edge_of_polygon b Bu k g i e G I Ei) as S. destruct (side_ends _ _ (Bx k g G) S) as (W & V0 & V1). exists k, g. now repeat (split; [assumption || congruence|]).
Qed.

Lemma soa_close x y : same_or_apart x y -> Qabs (x - y) < equality_tolerance -> x == y.
Proof. intros [H|H] L; [assumption|]. exfalso. unfold spacing, equality_tolerance in *. lra. Qed.

Lemma spaced_transitive b : built b -> only_boxes b -> spaced b -> transitive_at b.
Proof.
  intros Bu Bx Sp i j k (e & f & Ei & Ej & P & v & V & V' & L) (f' & h & Ej' & Ek & P' & v' & W & W' & L'). assert (f' = f) as -> by (unfold edge_at in *; congruence).
  assert (v' = v) as -> by (destruct v, v'; cbn in *; congruence). exists e, h. split; [assumption|]. split; [assumption|]. split; [congruence|]. exists v.
  split; [assumption|]. split; [assumption|].
  destruct (spaced_vertex b i e Bu Bx Ei) as (ki & gi & Gi & Pi & _ & _ & Vi & _), (spaced_vertex b j f Bu Bx Ej) as (kj & gj & Gj & Pj & _ & _ & Vj & _).
  assert (K : level v (s0 (e_seg e)) == level v (s0 (e_seg f))).
  { apply soa_close; [|assumption]. apply apart_level. exact (Sp ki kj gi gj _ _ Gi Gj ltac:(congruence) Vi Vj). }
  rewrite K. assumption.
Qed.

Lemma spaced_axis v s : (px (s0 s) == px (s1 s) \/ py (s0 s) == py (s1 s)) -> apart_pts (s0 s) (s1 s) -> seg_axis s = segaxis_of_view v -> straight v s.
Proof.
  intros W A Ax. destruct (spaced_straight s W A) as [[X Y]|[w St]].
  - exfalso. assert (seg_axis s = SPOINT) as K; [|rewrite K in Ax; now destruct v].
    unfold seg_axis, axis_of_vector, seg_vec. cbn [pt_sub px py]. rewrite !coord_eqb_same; [reflexivity|lra|lra].
  - pose proof (straight_axis w s St) as K. assert (w = v) as <-; [|assumption]. destruct v, w; cbn in *; congruence.
Qed.

(** A straight side faces one side, or it is the side of a flat box that has another one there. *)
Lemma side_lined b i e v : built b -> only_boxes b -> spaced b -> edge_at b i e -> seg_axis (e_seg e) = segaxis_of_view v ->
  e_normal e <> Nnone \/ exists j, j <> i /\ colinear_at b i j.
Proof.
  intros Bu Bx Sp Ei Ax. destruct (spaced_vertex b i e Bu Bx Ei) as (k & g & G & Pl & I & S & V0 & V1 & W).
  assert (St : straight v (e_seg e)) by (apply spaced_axis; [assumption|exact (Sp k k g g _ _ G G eq_refl V0 V1)|assumption]).
  destruct (so_proper b (built_sound b Bu) k g G) as (_ & _ & es & Es & Pes & Ms & No). destruct (Bx k g G) as (p & q & Pq). rewrite Pq in *.
  destruct (Sp k k g g (mk_pt (px p) (py p)) (mk_pt (px q) (py q)) G G eq_refl) as [X Y]; [rewrite Pq; cbn; tauto|rewrite Pq; cbn; tauto|]. cbn [px py] in X, Y.
  destruct (forall2_in _ _ _ Es i I) as (e' & J & E'). assert (e' = e) as -> by (unfold edge_at in *; congruence).
  assert (Other : forall s, In s (map (fun pq => mk_seg (fst pq) (snd pq)) (sides (box_points p q))) -> s <> e_seg e -> straight v s -> level v (s0 (e_seg e)) == level v (s0 s) ->
    exists j, j <> i /\ colinear_at b i j).
  { intros s Is Ne Ss L. rewrite <- Ms in Is. apply in_map_iff in Is. destruct Is as (f & Ef & If).
    assert (Fl : exists j, In j (g_edges g) /\ edge_at b j f).
    { clear - Es If. induction Es as [|x y l l' H F IH]; [destruct If|]. destruct If as [<-|If]; [exists x; split; [now left|assumption]|]. destruct (IH If) as (j & ? & ?). exists j. split; [now right|assumption]. }
    destruct Fl as (j & Ij & Ej). exists j. split; [intros ->; apply Ne; rewrite <- Ef; f_equal; unfold edge_at in *; congruence|].
    exists e, f. split; [assumption|]. split; [assumption|]. split; [rewrite (Pes f If); congruence|]. exists v. split; [assumption|]. split; [rewrite Ef; now apply straight_axis|].
    rewrite Ef. setoid_replace (level v (s0 (e_seg e)) - level v (s0 s)) with 0 by lra. reflexivity. }
  rewrite box_sides in Other, S. cbv zeta in Other, S. cbn [map fst snd] in Other, S. pose proof St as [_ Lo].
  assert (Z : forall a c : Q, a == c -> ~ equality_tolerance <= Qabs (c - a)).
  { intros a c H K. setoid_replace (c - a) with 0 in K by lra. now apply K. }
  destruct (Qeq_dec (px p) (px q)) as [Ex|Ex]; [|destruct (Qeq_dec (py p) (py q)) as [Ey|Ey]].
  - right. assert (v = VV) as ->.
    { destruct v; [exfalso|reflexivity]. apply (Z (px (s0 (e_seg e))) (px (s1 (e_seg e)))); [|exact Lo]. destruct S as [<-|[<-|[<-|[<-|[]]]]]; cbn [s0 s1 px]; rewrite ?Ex; reflexivity. }
    destruct S as [S|[S|[S|[S|[]]]]]; rewrite <- S in *; cbn [s0 s1 px py level along] in *.
    + exfalso. apply (Z _ _ (Qeq_refl _) Lo).
    + apply (Other (mk_seg (mk_pt (px q) (py q)) (mk_pt (px q) (py p)))); [cbn [In]; tauto| | |exact Ex].
      * intros K. injection K as _ K _ _. rewrite K in Lo. apply (Z _ _ (Qeq_refl _) Lo).
      * split; [reflexivity|]. cbn [s0 s1 px py along]. now rewrite Qabs_Qminus.
    + exfalso. apply (Z _ _ (Qeq_refl _) Lo).
    + apply (Other (mk_seg (mk_pt (px p) (py p)) (mk_pt (px p) (py q)))); [cbn [In]; tauto| | |cbn; now rewrite Ex].
      * intros K. injection K as _ K _ _. rewrite K in Lo. apply (Z _ _ (Qeq_refl _) Lo).
      * split; [reflexivity|]. cbn [s0 s1 px py along]. now rewrite Qabs_Qminus.
  - right. assert (v = VH) as ->.
    { destruct v; [reflexivity|exfalso]. apply (Z (py (s0 (e_seg e))) (py (s1 (e_seg e)))); [|exact Lo]. destruct S as [<-|[<-|[<-|[<-|[]]]]]; cbn [s0 s1 py]; rewrite ?Ey; reflexivity. }
    destruct S as [S|[S|[S|[S|[]]]]]; rewrite <- S in *; cbn [s0 s1 px py level along] in *.
    + apply (Other (mk_seg (mk_pt (px p) (py q)) (mk_pt (px q) (py q)))); [cbn [In]; tauto| | |exact Ey].
      * intros K. injection K as K _ _ _. rewrite K in Lo. apply (Z _ _ (Qeq_refl _) Lo).
      * split; [reflexivity|]. cbn [s0 s1 px py along]. now rewrite Qabs_Qminus.
    + exfalso. apply (Z _ _ (Qeq_refl _) Lo).
    + apply (Other (mk_seg (mk_pt (px q) (py p)) (mk_pt (px p) (py p)))); [cbn [In]; tauto| | |cbn; now rewrite Ey].
      * intros K. injection K as K _ _ _. rewrite K in Lo. apply (Z _ _ (Qeq_refl _) Lo).
      * split; [reflexivity|]. cbn [s0 s1 px py along]. now rewrite Qabs_Qminus.
    + exfalso. apply (Z _ _ (Qeq_refl _) Lo).
  - left. destruct X as [X|X]; [contradiction|]. destruct Y as [Y|Y]; [contradiction|].
    assert (R : detect_rotation (box_points p q) <> COLINEAR).
    { apply box_rotation. rewrite Qabs_Qmult, (Qabs_Qminus (px q)), (Qabs_Qminus (py q)). assert (T : equality_tolerance <= spacing * spacing) by (vm_compute; discriminate).
      assert (P : 0 < spacing) by reflexivity. nra. }
    destruct (polygon_edges_in _ _ No) as [_ N]. specialize (N (e_seg e) (e_normal e) (in_map (fun e => (e_seg e, e_normal e)) es e J)).
    unfold edge_normal, edge_direction in N. rewrite Ax in N. intros K. rewrite K in N. clear - N R. destruct v; cbn [segaxis_of_view] in N;
    destruct (detect_rotation (box_points p q)); [..|congruence| | |congruence]; repeat match type of N with context [if ?c then _ else _] => destruct c end; discriminate.
Qed.
