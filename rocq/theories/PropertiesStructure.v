(** Property C81: what the structure view shows of a board. *)
From Coq Require Import List Arith Bool Lia QArith Lqa.
From Verif Require Import IntervalModel ManagerModel ManagerSpec ManagerMoreProofs GeomModel GeomSpec BoardModel BoardSpec BoardExamples PropertiesDiag EditModel EditSpec.
From Verif Require Import SceneModel SceneSpec SceneProofs SceneValidProofs StructureModel StructureSpec StructureValidProofs StructureProofs.
From Verif Require Import PropertiesEdit PropertiesScene.
Import ListNotations.
Local Open Scope Q_scope.

(** A scene rectangle. *)
Definition room : rect := mk_rect 0 0 100 100.

Lemma reached_outlined tl b x l ss : SceneSpec.reached tl b x l ss -> outlined (ss_board ss).
Proof.
  intros R. pose proof (reached_full _ _ _ _ _ R) as F. pose proof (reached_valid _ _ _ _ _ R False (fun f => match f with end)) as V. destruct R as (B & _).
  apply (outlined_same b); [exact (fu_edges _ _ _ _ F)|exact (fu_points _ _ _ _ F)|exact (va_polys _ _ _ _ _ V)|now apply built_outlined].
Qed.
Lemma reached_points tl b x l ss : SceneSpec.reached tl b x l ss -> Forall (fun l => l <> []) (map g_points (b_polygons b)).
Proof. intros (B & _). now apply built_points. Qed.

(** * C81 *)

(** Whatever the user does, the scene of any plane can be made, and has exactly one item for each
    object that the plane is to show and no other. *)
Theorem C81_complete : forall tl b x l ss p r, SceneSpec.reached tl b x l ss ->
  exists items, populate (ss_board ss) p r = Done items
    /\ NoDup (map it_entity items) /\ (forall e, In e (map it_entity items) <-> drawn_in (ss_board ss) p e).
Proof.
  intros tl b x l ss p r R. destruct (populate_ends _ _ _ _ (reached_full _ _ _ _ _ R) (reached_sane _ _ _ _ _ R) (reached_there _ _ _ _ _ R) (reached_points _ _ _ _ _ R) p r) as (items & P).
  exists items. split; [exact P|]. rewrite (items_entities _ _ _ _ P). split; [apply shown_once; exact (reached_nodup _ _ _ _ _ R)|intros e; apply in_shown].
Qed.

(** Every item covers exactly the points where its object is, as far as two more widths, or
    heights, of the scene around it: a colinear conflict in the plane of its edges. *)
Theorem C81_places : forall tl b x l ss p r items it q, SceneSpec.reached tl b x l ss -> populate (ss_board ss) p r = Done items -> In it items ->
  at_home (ss_board ss) p (it_entity it) -> proper r -> in_sight r q ->
  covers (it_figure it) q <-> located (ss_board ss) p (it_entity it) q.
Proof.
  intros tl b x l ss p r items it q R P I H Pr Si. apply (placed _ _ _ _ (reached_full _ _ _ _ _ R) (reached_outlined _ _ _ _ _ R) p r _ _ _ (item_drawn _ _ _ _ _ P I)); assumption.
Qed.

(** Items of policies tell which are enabled, those of angles which axes they are meshed on. *)
Theorem C81_styles : forall b p r items it, populate b p r = Done items -> In it items -> told_of b (it_entity it) (it_style it).
Proof. intros b p r items it P I. exact (told _ _ _ _ _ (item_drawn _ _ _ _ _ P I)). Qed.

(** The two lines drawn beside a policy are those that meshing the intervals after and before it
    begins and ends with, if it is not ONELINE: its d apart, halfway for HALFS, and for THIRDS
    twice as far on the side that it looks to. *)
Theorem C81_policy_lines : forall tl b x l ss p r items it ax i y, SceneSpec.reached tl b x l ss -> populate (ss_board ss) p r = Done items -> In it items ->
  it_entity it = EPolicy ax i -> policy_at (on_axis (b_axes (ss_board ss)) ax) i y ->
  exists f g u v, it_more it = [f; g] /\ line_of p ax r u f /\ line_of p ax r v g
    /\ (p_policy y = ONELINE -> u == p_coord y /\ v == p_coord y)
    /\ (p_policy y <> ONELINE -> u - v == p_d y
        /\ (forall after iv, exists w t, mesh_interval y after iv = w :: t /\ w == u)
        /\ (forall before iv, exists w t, mesh_interval before y iv = t ++ [w] /\ w == v))
    /\ (p_policy y = HALFS -> u - p_coord y == p_coord y - v)
    /\ (p_normal y = NMAX -> u - p_coord y == 2 * (p_coord y - v))
    /\ (p_normal y = NMIN -> 2 * (u - p_coord y) == p_coord y - v).
Proof.
  intros tl b x l ss p r items it ax i y R P I E Y. pose proof (item_drawn _ _ _ _ _ P I) as D. rewrite E in D. cbn [draw] in D. destruct (view_of_axis p ax) as [v|] eqn:V; [|discriminate].
  unfold draw_policy in D. apply SceneProofs.bind_done in D. destruct D as (y' & Y' & D). apply SceneProofs.read_some in Y'. assert (y' = y) by (unfold policy_at in *; congruence). subst y'. cbn zeta in D. injection D as <-.
  assert (C : consistent y).
  { pose proof (proj1 (fu_axes _ _ _ _ (reached_full _ _ _ _ _ R) ax)) as A. unfold all_consistent in A. rewrite Forall_forall in A. exact (A y (nth_error_In _ _ Y)). }
  exists (line_at (reverse_view v) r (p_coord y + fst (policy_offsets y))), (line_at (reverse_view v) r (p_coord y + snd (policy_offsets y))), (p_coord y + fst (policy_offsets y)), (p_coord y + snd (policy_offsets y)).
  split; [reflexivity|]. split; [now apply line_level|]. split; [now apply line_level|].
  unfold consistent in C. unfold policy_offsets, mesh_interval, d_init_before, d_init_after.
  destruct (p_policy y), (p_normal y); cbn [fst snd is_oneline]; try (exfalso; destruct C as [C1 C2]; first [now apply C1|now (specialize (C2 ltac:(discriminate)))]).
  all: split; [intros O; try discriminate; split; lra|].
  all: split; [intros O; first [now destruct O|(split; [field|]); (split; [intros after iv; do 2 eexists; (split; [reflexivity|try reflexivity; field])|]); intros before iv; do 2 eexists; (split; [rewrite !app_assoc; reflexivity|field])]|].
  all: split; [intros O; try discriminate; field|]. all: split; intros O; try discriminate; field.
Qed.

(** Too close policies are drawn with lines at the two that were replaced, an angle with a cross
    as large as its disc. *)
Theorem C81_more : forall b p r items it, populate b p r = Done items -> In it items ->
  match it_entity it with
  | EPolicy _ _ => True
  | EClose ax i => exists k y z f g, nth_error (ax_conflicts (on_axis (b_axes b) ax)) i = Some k
      /\ policy_at (on_axis (b_axes b) ax) (tc_a k) y /\ policy_at (on_axis (b_axes b) ax) (tc_b k) z
      /\ it_more it = [f; g] /\ line_of p ax r (p_coord y) f /\ line_of p ax r (p_coord z) g
  | EAngle i => exists a f g, nth_error (b_angles b) i = Some a /\ it_more it = [f; g]
      /\ (forall q, covers f q <-> px q == px (a_point a) /\ between (py (a_point a) - (5 # 2)) (py (a_point a) + (5 # 2)) (py q))
      /\ (forall q, covers g q <-> py q == py (a_point a) /\ between (px (a_point a) - (5 # 2)) (px (a_point a) + (5 # 2)) (px q))
  | _ => it_more it = []
  end.
Proof.
  intros b p r items it P I. pose proof (item_drawn _ _ _ _ _ P I) as D. revert D. generalize (it_entity it) as x. clear P I. intros x H.
  destruct x; cbn [draw] in H; try discriminate; try (destruct (view_of_axis p _) as [v|] eqn:V; [|discriminate]).
  all: unfold draw_polygon, draw_edge, draw_angle, draw_colinear, draw_close, draw_zone, draw_policy, draw_interval, draw_line in H.
  all: apply SceneProofs.bind_done in H; destruct H as (z & Z & H); apply SceneProofs.read_some in Z.
  - destruct (g_points z); [discriminate|]. now injection H as <-.
  - now injection H as <-.
  - injection H as <-. exists z. do 2 eexists. split; [exact Z|]. split; [reflexivity|]. split; intros q; cbn; unfold on_seg; cbn; unfold diameter, between.
    + split.
      * intros (t & T & X & Y). split; [rewrite X; ring|]. left. assert (K : py q == py (a_point z) + (5 # 2) - 5 * t) by (rewrite Y; field). lra.
      * intros [X [Y|Y]]; [|lra]. destruct (reach_back (py (a_point z) - (5 # 2)) (py (a_point z) + (5 # 2)) (py q) Y) as (t & T & E). exists t. split; [exact T|]. split; [rewrite X; ring|]. rewrite E. field.
    + split.
      * intros (t & T & X & Y). split; [rewrite Y; ring|]. left. assert (K : px q == px (a_point z) + (5 # 2) - 5 * t) by (rewrite X; field). lra.
      * intros [X [Y|Y]]; [|lra]. destruct (reach_back (px (a_point z) - (5 # 2)) (px (a_point z) + (5 # 2)) (px q) Y) as (t & T & E). exists t. split; [exact T|]. split; [|rewrite X; ring]. rewrite E. field.
  - destruct (ce_edges z); [discriminate|]. apply SceneProofs.bind_done in H. destruct H as (e & _ & H). now injection H as <-.
  - destruct (tc_solution z); [|discriminate]. apply SceneProofs.bind_done in H. destruct H as (s & _ & H). apply SceneProofs.bind_done in H. destruct H as (y & Y & H). apply SceneProofs.bind_done in H. destruct H as (y' & Y' & H).
    apply SceneProofs.read_some in Y. apply SceneProofs.read_some in Y'. injection H as <-. exists z, y, y'. do 2 eexists. split; [exact Z|]. split; [exact Y|]. split; [exact Y'|]. split; [reflexivity|]. split; now apply line_level.
  - apply SceneProofs.bind_done in H. destruct H as (w & _ & H). now injection H as <-.
  - exact I.
  - do 2 (apply SceneProofs.bind_done in H; destruct H as (? & _ & H)). now injection H as <-.
  - now injection H as <-.
Qed.

(** Which mesh lines are shown: the button of horizontal lines shows the horizontal ones, and so
    on; the lines of an axis are shown exactly if the graph view, when it follows, shows the
    frame of that axis.  Nothing else is ever hidden. *)
Theorem C81_shown : forall b p r items it m, populate b p r = Done items -> In it items -> some_size r ->
  (forall ax i, it_entity it = ELine ax i -> is_shown m it = frame_shown m p ax
     /\ (is_shown m it = true <-> match m with NONE => False | HORIZONTAL => horizontal (it_figure it) | VERTICAL => upright (it_figure it) | FULL => True end)
     /\ (horizontal (it_figure it) \/ upright (it_figure it)))
  /\ ((forall ax i, it_entity it <> ELine ax i) -> is_shown m it = true).
Proof.
  intros b p r items it m P I Si. pose proof (line_group _ _ _ _ _ (item_drawn _ _ _ _ _ P I)) as G. split.
  - intros ax i E. rewrite E in G. destruct G as (v & y & V & G & Fg). rewrite Fg. unfold is_shown, frame_shown. rewrite G, V.
    destruct (line_direction (reverse_view v) r y Si) as [Ho Up].
    split; [destruct v, m; reflexivity|]. split.
    + destruct m; rewrite ?Ho, ?Up; destruct v; cbn; intuition congruence.
    + destruct v; [right; now apply Up|left; now apply Ho].
  - intros N. assert (K : forall v, it_group it <> GLines v) by (destruct (it_entity it) as [| | | | | | | | |a i]; try exact G; destruct (N a i eq_refl)). unfold is_shown. destruct (it_group it); try reflexivity. now destruct (K v).
Qed.

(** If the rectangle of the scene is a point, as that of a scene is which nothing was drawn in yet, in a plane
    without polygons nor angles, then each mesh line is drawn as a point. *)
Theorem C81_flat : forall b p r items it ax i q q', populate b p r = Done items -> In it items -> it_entity it = ELine ax i ->
  r_left r == r_right r -> r_top r == r_bottom r -> covers (it_figure it) q -> covers (it_figure it) q' -> px q == px q' /\ py q == py q'.
Proof.
  intros b p r items it ax i q q' P I E W H. pose proof (line_group _ _ _ _ _ (item_drawn _ _ _ _ _ P I)) as G. rewrite E in G. destruct G as (v & y & _ & _ & ->).
  assert (M : qmax (r_right r - r_left r) (r_bottom r - r_top r) == 0) by (unfold qmax; destruct (Qltb _ _); lra).
  destruct v; cbn; unfold on_seg; cbn; intros (t & _ & X & Y) (t' & _ & X' & Y'); rewrite X, X', Y, Y', M, ?W, ?H; split; ring.
Qed.

(** Two boxes with a common side, another board with a triangle. *)
Definition common_side : board := Eval vm_compute in box_on (box_on (empty_board (Some AIR)) CONDUCTOR 1 0 20 40 60) DIELECTRIC 0 20 40 40 60.
Lemma common_side_built : built common_side.
Proof.
  apply (built_more PXY (Some DIELECTRIC) 0 (range_z 0 1) (box_points (mk_pt 20 40) (mk_pt 40 60)) (box_on (empty_board (Some AIR)) CONDUCTOR 1 0 20 40 60)); [|vm_compute; reflexivity].
  apply (built_more PXY (Some CONDUCTOR) 1 (range_z 0 1) (box_points (mk_pt 0 40) (mk_pt 20 60)) (empty_board (Some AIR))); [constructor|vm_compute; reflexivity].
Qed.
Definition side_session : session := Eval vm_compute in session_of (run_all_steps plain_tools (loaded common_side coarse)).
Lemma side_reached : SceneSpec.reached plain_tools common_side coarse [Run_steps] side_session.
Proof. split; [exact common_side_built|]. split; [exact isort_perm|]. split; [exact isort_sorts|]. vm_compute. reflexivity. Qed.
Definition items_of (m : run (list item)) : list item := match m with Done l => l | _ => [] end.

(** The line of the conflict is at x = 20, in both planes that have the axis.  In the plane ZX it is
    drawn at x = 60, the ordinate of an end of its first edge. *)
Theorem C81_colinear_refuted : exists tl b x l ss p r items it q, SceneSpec.reached tl b x l ss /\ populate (ss_board ss) p r = Done items /\ In it items
  /\ drawn_in (ss_board ss) p (it_entity it) /\ proper r /\ in_sight r q /\ covers (it_figure it) q /\ ~ located (ss_board ss) p (it_entity it) q.
Proof.
  exists plain_tools, common_side, coarse, [Run_steps], side_session, PZX, room, (items_of (populate (ss_board side_session) PZX room)).
  exists (mk_item (EColinear AX 0) (GColinear VH) (Line (mk_pt (-200) 60) (mk_pt 300 60)) [] Plain), (mk_pt 50 60).
  split; [exact side_reached|]. split; [vm_compute; reflexivity|]. split; [vm_compute; do 15 right; now left|].
  split; [split; [cbn; lia|exact I]|]. split; [split; cbn; lra|]. split; [exists 100; split; [now left|]; cbn; lra|].
  split; [exists (1 # 2); cbn; lra|]. cbn [it_entity located]. intros (k & j & e & y & K & J & E & C & L). vm_compute in K. injection K as <-. vm_compute in J. injection J as <-.
  vm_compute in E. injection E as <-. cbn in C. injection C as <-. destruct L as (c & C & L). cbn in C. injection C as <-. vm_compute in L. discriminate.
Qed.

(** The lines of the three boxes of C72 were merged; a triangle has angles and zones. *)
Definition corner : board := Eval vm_compute in result (add_polygon PXY (Some CONDUCTOR) 0 (range_z 0 1) [mk_pt 0 0; mk_pt 20 0; mk_pt 0 20] (empty_board (Some AIR))).
Lemma corner_built : built corner.
Proof. apply (built_more PXY (Some CONDUCTOR) 0 (range_z 0 1) [mk_pt 0 0; mk_pt 20 0; mk_pt 0 20] (empty_board (Some AIR))); [constructor|vm_compute; reflexivity]. Qed.
Definition corner_session : session := Eval vm_compute in session_of (run_all_steps plain_tools (loaded corner coarse)).
Lemma corner_reached : SceneSpec.reached plain_tools corner coarse [Run_steps] corner_session.
Proof. split; [exact corner_built|]. split; [exact isort_perm|]. split; [exact isort_sorts|]. vm_compute. reflexivity. Qed.
Definition corner_items : list item := Eval vm_compute in items_of (populate (ss_board corner_session) PXY room).
Definition side_items : list item := Eval vm_compute in items_of (populate (ss_board side_session) PXY room).
Definition boxes_items : list item := Eval vm_compute in items_of (populate (ss_board boxes_session) PXY room).

Example C81_example : SceneSpec.reached plain_tools corner coarse [Run_steps] corner_session /\ populate (ss_board corner_session) PXY room = Done corner_items
  /\ drawn_in (ss_board corner_session) PXY (EZone AX 0) /\ drawn_in (ss_board corner_session) PXY (EAngle 1)
  /\ some_size room /\ in_sight room (mk_pt (-100) 10)
  /\ (exists it, In it corner_items /\ it_entity it = EZone AX 0 /\ at_home (ss_board corner_session) PXY (it_entity it) /\ it_group it = GZones VV)
  /\ (exists it, In it corner_items /\ it_entity it = EAngle 1 /\ length (it_more it) = 2%nat).
Proof.
  split; [exact corner_reached|]. split; [vm_compute; reflexivity|]. split; [split; [vm_compute; lia|exact I]|]. split; [split; [vm_compute; lia|eexists; split; vm_compute; reflexivity]|].
  split; [split; [split; cbn; lra|left; cbn; lra]|]. split; [exists 100; split; [now left|cbn; lra]|].
  split.
  - destruct (find (fun it => match it_entity it with EZone AX 0 => true | _ => false end) corner_items) as [it|] eqn:E; [|vm_compute in E; discriminate].
    exists it. split; [exact (proj1 (find_some _ _ E))|]. vm_compute in E. injection E as <-. split; [reflexivity|]. split; [|reflexivity]. intros ax i k j e X. discriminate.
  - destruct (find (fun it => match it_entity it with EAngle 1 => true | _ => false end) corner_items) as [it|] eqn:E; [|vm_compute in E; discriminate].
    exists it. split; [exact (proj1 (find_some _ _ E))|]. vm_compute in E. injection E as <-. split; reflexivity.
Qed.
(** A plane without polygons. *)
Example C81_flat_example : polygons_of (ss_board side_session) PYZ = [] /\ angles_of (ss_board side_session) PYZ = []
  /\ (exists it, In it (items_of (populate (ss_board side_session) PYZ (mk_rect 0 0 0 0))) /\ it_entity it = ELine AY 3).
Proof. split; [reflexivity|]. split; [reflexivity|]. eexists. split; [vm_compute; do 3 right; left; reflexivity|reflexivity]. Qed.
(** A conflict in the plane of its edges. *)
Example C81_places_example : SceneSpec.reached plain_tools common_side coarse [Run_steps] side_session /\ populate (ss_board side_session) PXY room = Done side_items
  /\ exists it, In it side_items /\ it_entity it = EColinear AX 0 /\ at_home (ss_board side_session) PXY (it_entity it)
    /\ covers (it_figure it) (mk_pt 20 (-60)) /\ located (ss_board side_session) PXY (it_entity it) (mk_pt 20 (-60)).
Proof.
  split; [exact side_reached|]. split; [vm_compute; reflexivity|].
  destruct (find (fun it => match it_entity it with EColinear AX 0 => true | _ => false end) side_items) as [it|] eqn:E; [|vm_compute in E; discriminate].
  exists it. split; [exact (proj1 (find_some _ _ E))|]. vm_compute in E. injection E as <-. split; [reflexivity|].
  assert (H : at_home (ss_board side_session) PXY (EColinear AX 0)).
  { intros ax i k j e X. injection X as <- <-. intros K J Ed. vm_compute in K. injection K as <-. cbn in J. destruct J as [<-|[<-|[]]]; vm_compute in Ed; injection Ed as <-; reflexivity. }
  split; [exact H|]. split; [exists (36 # 50); cbn; lra|]. cbn [located it_entity]. do 4 eexists. split; [vm_compute; reflexivity|]. split; [reflexivity|]. split; [vm_compute; reflexivity|]. split; [reflexivity|].
  eexists. split; [reflexivity|]. reflexivity.
Qed.
(** Too close policies, a policy with two lines beside it. *)
Example C81_more_example : SceneSpec.reached plain_tools three_boxes coarse [Run_steps] boxes_session /\ populate (ss_board boxes_session) PXY room = Done boxes_items
  /\ (exists it, In it boxes_items /\ it_entity it = EClose AX 1 /\ length (it_more it) = 2%nat)
  /\ exists it y, In it boxes_items /\ it_entity it = EPolicy AY 2 /\ policy_at (on_axis (b_axes (ss_board boxes_session)) AY) 2 y /\ p_policy y = THIRDS.
Proof.
  split; [exact boxes_reached|]. split; [vm_compute; reflexivity|]. split.
  - destruct (find (fun it => match it_entity it with EClose AX 1 => true | _ => false end) boxes_items) as [it|] eqn:E; [|vm_compute in E; discriminate].
    exists it. split; [exact (proj1 (find_some _ _ E))|]. vm_compute in E. injection E as <-. split; reflexivity.
  - destruct (find (fun it => match it_entity it with EPolicy AY 2 => true | _ => false end) boxes_items) as [it|] eqn:E; [|vm_compute in E; discriminate].
    exists it. eexists. split; [exact (proj1 (find_some _ _ E))|]. vm_compute in E. injection E as <-. split; [reflexivity|]. split; [vm_compute; reflexivity|reflexivity].
Qed.

Print Assumptions C81_complete.
Print Assumptions C81_places.
Print Assumptions C81_styles.
Print Assumptions C81_policy_lines.
Print Assumptions C81_more.
Print Assumptions C81_shown.
Print Assumptions C81_flat.
Print Assumptions C81_colinear_refuted.
