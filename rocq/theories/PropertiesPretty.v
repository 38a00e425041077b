(** Property C88: the report of the conflicts of a board. *)
From Coq Require Import String Ascii List Arith Bool Lia QArith.
From Verif Require Import IntervalModel ManagerModel ManagerSpec ManagerMoreProofs GeomModel BoardModel BoardSpec BoardExamples EditModel EditSpec InfraModel InfraSpec InfraNumberProofs.
From Verif Require Import SceneModel SceneSpec PlantumlModel PrettyModel PrettySpec PrettyProofs PropertiesEdit PropertiesScene PropertiesPlantuml.
Import ListNotations.
Local Open Scope nat_scope.
Local Open Scope list_scope.

(** The report of what the steps made of a file; [named] are the names of its polygons. *)
Definition reported (named : nat -> string) (tl : tools) (ss : session) : run (list piece) := pretty named (tl_sort_by tl) (ss_board ss).

(** The report can be written.  Read back, it has three headings: under the first is each edge in
    polygons of each plane, in order, with the polygons whole; under the second each conflict of
    colinear edges of each axis, in order. *)
Theorem C88_read : forall named tl b x ss, reached tl b x [Run_steps] ss -> exists out in_polygons colinears,
  reported named tl ss = Done out
  /\ report out = Some [(EDGE_IN_POLYGONS, in_polygons); (COLINEAR_EDGES, colinears); (TOO_CLOSE, [])]
  /\ Forall2 (tells_in_polygon named (ss_board ss)) (in_polygons_of (ss_board ss)) in_polygons
  /\ Forall2 (tells_colinear (ss_board ss)) (colinears_of (ss_board ss)) colinears.
Proof.
  intros named tl b x ss R. destruct (for_diagram tl b x ss R) as (_ & V & Sh & W). destruct (pretty_ends named (ss_board ss) _ _ _ V Sh W (tl_sort_by tl)) as (out & E).
  destruct (pretty_read named (ss_board ss) _ _ E) as (s1 & s2 & Rd & T1 & T2). exists out, s1, s2. auto.
Qed.
Print Assumptions C88_read.

(** For each edge in polygons it says whether the edge is meshed. *)
Theorem C88_solved : forall named tl b x ss out in_polygons rest, reached tl b x [Run_steps] ss -> reported named tl ss = Done out ->
  report out = Some ((EDGE_IN_POLYGONS, in_polygons) :: rest) -> forall r, In r in_polygons -> exists t, cr_edges r = [t] /\ cr_solution r = Some (To_mesh (to_meshed t)).
Proof.
  intros named tl b x ss out s rest R E Rd r I. destruct (C88_read named tl b x ss R) as (out' & s1 & s2 & E' & Rd' & T & _). rewrite E in E'. injection E' as <-. rewrite Rd in Rd'. injection Rd' as -> _.
  assert (In_of : exists c, In c (in_polygons_of (ss_board ss)) /\ tells_in_polygon named (ss_board ss) c r).
  { clear - T I. induction T as [|c t l l' H _ IH]; [destruct I|]. destruct I as [->|I]; [exists c; split; [now left|exact H]|]. destruct (IH I) as (d & D & K). exists d. split; [now right|exact K]. }
  destruct In_of as (c & C & _ & (t & Et & _ & Es) & _). exists t. split; [exact Et|]. rewrite Es. unfold in_polygons_of in C. apply in_flat_map in C. destruct C as (p & _ & C). apply in_map_iff in C. destruct C as (d & <- & D).
  cbn [snd]. now rewrite (steps_solve tl b x ss R p d D).
Qed.
Print Assumptions C88_solved.

(** There is nothing under the third heading, even if policies are too close. *)
Theorem C88_close_refuted : ~ forall named tl b x ss out sections, reached tl b x [Run_steps] ss -> reported named tl ss = Done out ->
  report out = Some sections -> too_closes_of (ss_board ss) <> [] -> exists h l c, In (h, l) sections /\ In c l.
Proof.
  intros H. destruct (C88_read (fun _ => ""%string) plain_tools three_boxes coarse boxes_session boxes_reached) as (out & s1 & s2 & E & Rd & T1 & T2).
  assert (N1 : in_polygons_of (ss_board boxes_session) = []) by (vm_compute; reflexivity). assert (N2 : colinears_of (ss_board boxes_session) = []) by (vm_compute; reflexivity). rewrite N1 in T1. rewrite N2 in T2. inversion T1. inversion T2. subst.
  destruct (H _ _ _ _ _ out _ boxes_reached E Rd) as (h & l & c & I & C); [vm_compute; discriminate|]. destruct I as [I|[I|[I|[]]]]; injection I as _ <-; destruct C.
Qed.
Print Assumptions C88_close_refuted.

(** Edges that are written in the same way are the same, if their coordinates have six decimals. *)
Theorem C88_edge : forall t u, (forall e, e = t \/ e = u -> forall p, p = s0 (to_seg e) \/ p = s1 (to_seg e) -> six_decimals (px p) /\ six_decimals (py p)) ->
  edge_text t = edge_text u ->
  (px (s0 (to_seg t)) == px (s0 (to_seg u)) /\ py (s0 (to_seg t)) == py (s0 (to_seg u)) /\ px (s1 (to_seg t)) == px (s1 (to_seg u)) /\ py (s1 (to_seg t)) == py (s1 (to_seg u)))%Q
  /\ to_direction t = to_direction u /\ to_normal t = to_normal u /\ to_meshed t = to_meshed u.
Proof.
  intros t u X E. apply edge_text_same in E. destruct E as ([A1 A2] & [B1 B2] & _ & D & N & M). split; [|auto].
  destruct (X t (or_introl eq_refl) _ (or_introl eq_refl)), (X t (or_introl eq_refl) _ (or_intror eq_refl)), (X u (or_intror eq_refl) _ (or_introl eq_refl)), (X u (or_intror eq_refl) _ (or_intror eq_refl)).
  repeat split; now apply six_same.
Qed.
Print Assumptions C88_edge.

(** ... otherwise they may be different. *)
Theorem C88_edge_refuted : ~ forall t u, edge_text t = edge_text u -> (px (s0 (to_seg t)) == px (s0 (to_seg u)))%Q.
Proof.
  intros H. specialize (H (mk_told (mk_seg (mk_pt (1 # 10000000) 0) (mk_pt 1 0)) Dxmax Nymin true) (mk_told (mk_seg (mk_pt (2 # 10000000) 0) (mk_pt 1 0)) Dxmax Nymin true) eq_refl). discriminate H.
Qed.
Print Assumptions C88_edge_refuted.

(** Solutions, rotations and whether an edge is meshed are written with words that tell them. *)
Theorem C88_words : (forall x s, solves x s -> exists w, In (w, s) understood /\ piece_text x = (String "009" "Solution: " ++ w)%string)
  /\ (forall name r, exists w, In (w, r) turning /\ piece_text (Polygon_open name r) = (String "009" "Polygon: " ++ name ++ " " ++ w ++ " {" ++ String "010" "")%string)
  /\ (forall e, exists start w, In (w, to_meshed e) marks /\ edge_text e = (start ++ " " ++ w ++ String "010" "")%string)
  /\ NoDup (map fst understood) /\ NoDup (map fst turning) /\ NoDup (map fst marks).
Proof.
  split; [|split; [|split; [|repeat split; repeat constructor; cbn; intuition discriminate]]].
  - intros x s V. destruct x as [| | | | | | |p|m|]; cbn in V; try contradiction; subst s; [destruct p|destruct m]; eexists; (split; [|reflexivity]); cbn; tauto.
  - intros name []; eexists; (split; [|reflexivity]); cbn; tauto.
  - intros e. unfold edge_text, end_line. set (a := point_text (s0 (to_seg e))). set (c := point_text (s1 (to_seg e))).
    exists (a ++ " -> " ++ c ++ " " ++ seg_axis_string (seg_axis (to_seg e)) ++ " " ++ direction_string (to_direction e) ++ " " ++ normal_string (to_normal e))%string.
    assert (J : forall u v w : string, ((u ++ v) ++ w = u ++ v ++ w)%string) by (clear; induction u as [|x u IH]; intros; cbn; [reflexivity|now rewrite IH]).
    exists (if to_meshed e then "O" else "X")%string. split; [destruct (to_meshed e); cbn; tauto|]. rewrite !J. destruct (to_meshed e); reflexivity.
Qed.
Print Assumptions C88_words.

(** A box of which another covers a corner; sides are on the same lines. *)
Definition covered : board := Eval vm_compute in box_on (box_on (empty_board (Some AIR)) CONDUCTOR 0 0 40 0 40) DIELECTRIC 1 0 20 0 20.
Lemma covered_built : built covered.
Proof.
  apply (built_more PXY (Some DIELECTRIC) 1 (range_z 0 1) (box_points (mk_pt 0 0) (mk_pt 20 20)) (box_on (empty_board (Some AIR)) CONDUCTOR 0 0 40 0 40)); [|vm_compute; reflexivity].
  apply (built_more PXY (Some CONDUCTOR) 0 (range_z 0 1) (box_points (mk_pt 0 0) (mk_pt 40 40)) (empty_board (Some AIR))); [constructor|vm_compute; reflexivity].
Qed.
Definition covered_session : session := Eval vm_compute in session_of (run_all_steps plain_tools (loaded covered coarse)).
Lemma covered_reached : reached plain_tools covered coarse [Run_steps] covered_session.
Proof. split; [exact covered_built|]. split; [exact isort_perm|]. split; [exact isort_sorts|]. vm_compute. reflexivity. Qed.
Definition names (i : nat) : string := match i with O => "patch"%string | _ => "pad"%string end.
Definition covered_report : list piece := Eval vm_compute in match reported names plain_tools covered_session with Done x => x | _ => [] end.
Example C88_example : reached plain_tools covered coarse [Run_steps] covered_session /\ reported names plain_tools covered_session = Done covered_report
  /\ length (in_polygons_of (ss_board covered_session)) = 2 /\ length (colinears_of (ss_board covered_session)) = 2
  /\ exists s1 s2, report covered_report = Some [(EDGE_IN_POLYGONS, s1); (COLINEAR_EDGES, s2); (TOO_CLOSE, [])]
  /\ map cr_place s1 = [On_plane PXY; On_plane PXY] /\ map cr_solution s1 = [Some (To_mesh true); Some (To_mesh true)]
  /\ map (fun r => map or_name (cr_overlaps r)) s1 = [["pad"]; ["pad"]]%string
  /\ map cr_place s2 = [On_axis AX; On_axis AY] /\ map cr_solution s2 = [Some (By_policy THIRDS); Some (By_policy THIRDS)].
Proof. split; [exact covered_reached|]. split; [vm_compute; reflexivity|]. split; [vm_compute; reflexivity|]. split; [vm_compute; reflexivity|]. do 2 eexists. split; [vm_compute; reflexivity|]. repeat split. Qed.
(** Its text, but for the colours. *)
Example C88_text_example : pieces_text covered_report = "
CONFLICT: EDGE IN POLYGONS

Conflict EdgeInPolygon between:
	Plane: XY
	Edge: { 40.000000, 0.000000 } -> { 0.000000, 0.000000 } H XMIN YMIN O
	Polygon: pad CW {
		{ 20.000000, 0.000000 } -> { 0.000000, 0.000000 } H XMIN YMIN O
		{ 0.000000, 0.000000 } -> { 0.000000, 20.000000 } V YMAX XMIN O
		{ 0.000000, 20.000000 } -> { 20.000000, 20.000000 } H XMAX YMAX O
		{ 20.000000, 20.000000 } -> { 20.000000, 0.000000 } V YMIN XMAX O
		}
		by edge: { 20.000000, 0.000000 } -> { 0.000000, 0.000000 } H XMIN YMIN O
		on range: { 0.000000, 0.000000 } -> { 20.000000, 0.000000 } H
	Solution: to mesh
Conflict EdgeInPolygon between:
	Plane: XY
	Edge: { 0.000000, 0.000000 } -> { 0.000000, 40.000000 } V YMAX XMIN O
	Polygon: pad CW {
		{ 20.000000, 0.000000 } -> { 0.000000, 0.000000 } H XMIN YMIN O
		{ 0.000000, 0.000000 } -> { 0.000000, 20.000000 } V YMAX XMIN O
		{ 0.000000, 20.000000 } -> { 20.000000, 20.000000 } H XMAX YMAX O
		{ 20.000000, 20.000000 } -> { 20.000000, 0.000000 } V YMIN XMAX O
		}
		by edge: { 0.000000, 0.000000 } -> { 0.000000, 20.000000 } V YMAX XMIN O
		on range: { 0.000000, 0.000000 } -> { 0.000000, 20.000000 } V
	Solution: to mesh

CONFLICT: COLINEAR EDGES

Conflict ColinearEdges between:
	Axis: X
	Edge: { 0.000000, 0.000000 } -> { 0.000000, 40.000000 } V YMAX XMIN O
	Edge: { 0.000000, 0.000000 } -> { 0.000000, 20.000000 } V YMAX XMIN O
	Solution: THIRDS
Conflict ColinearEdges between:
	Axis: Y
	Edge: { 40.000000, 0.000000 } -> { 0.000000, 0.000000 } H XMIN YMIN O
	Edge: { 20.000000, 0.000000 } -> { 0.000000, 0.000000 } H XMIN YMIN O
	Solution: THIRDS

CONFLICT: TOO CLOSE MESHLINE POLICIES

"%string.
Proof. vm_compute. reflexivity. Qed.
Example C88_edge_example : exists t u, edge_text t = edge_text u /\ t <> u
  /\ forall e, e = t \/ e = u -> forall p, p = s0 (to_seg e) \/ p = s1 (to_seg e) -> six_decimals (px p) /\ six_decimals (py p).
Proof.
  exists (mk_told (mk_seg (mk_pt (5 # 10) 0) (mk_pt 1 0)) Dxmax Nymin true), (mk_told (mk_seg (mk_pt (1 # 2) 0) (mk_pt 1 0)) Dxmax Nymin true). split; [vm_compute; reflexivity|]. split; [discriminate|].
  intros e [-> | ->] p [-> | ->]; cbn; (split; [first [exists 500000%Z; reflexivity|exists 1000000%Z; reflexivity]|exists 0%Z; reflexivity]).
Qed.
