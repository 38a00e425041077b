(** Properties C51 to C54: boards as built, materials, individual edges, and the
    policies of a whole run. *)
From Coq Require Import List Arith Bool Lia QArith Qabs Lqa Sorting.Sorted Sorting.Permutation.
From Verif Require Import IntervalModel IntervalSpec ManagerModel ManagerSpec GeomModel GeomSpec GeomProofs.
From Verif Require Import BoardModel BoardSpec BoardProofs BoardColinearProofs BoardSolveProofs BoardBuiltProofs BoardAdjustProofs BoardIndividualProofs BoardRunProofs BoardClassProofs BoardExamples.
Import ListNotations.
Open Scope Q_scope.

(* ------------------------------------------------------------------ *)
(** * C51: boards as they are built *)

(** Polygons are added whatever their points, provided there is one. *)
Theorem C51_added : forall p m priority z points b,
  (points <> [] -> exists b', add_polygon p m priority z points b = Done b') /\ (points = [] -> add_polygon p m priority z points b = Dangling).
Proof.
  intros p m priority z points b. split; [|intros ->; reflexivity]. intros N. destruct points as [|q l]; [congruence|].
  unfold add_polygon. cbn [detect_bounding bind]. unfold polygon_edges, detect_edges. cbn [bind].
  destruct (with_normals_done (detect_rotation (q :: l)) (edges_from (last (q :: l) q) (q :: l))) as (es & ->). cbn. eauto.
Qed.

(** All edges are fresh, the edges of a polygon are its sides in order with the normals
    of the polygon, they are its own, its bounding is the smallest, and there is nothing else. *)
Theorem C51_sound : forall b, built b ->
  (forall i e, edge_at b i e -> fresh_edge e)
  /\ (forall k g, nth_error (b_polygons b) k = Some g -> proper_polygon b g)
  /\ edges_owned b
  /\ b_angles b = [] /\ b_ce b = mk_space [] [] [] /\ b_eip b = mk_space [] [] [] /\ b_zones b = mk_space [] [] []
  /\ b_axes b = mk_space (mk_axis [] [] [] []) (mk_axis [] [] [] []) (mk_axis [] [] [] []).
Proof. intros b H. destruct (built_sound b H) as [A B C _ D]. do 3 (split; [assumption|]). exact D. Qed.

(** Polygons are in the order they were added, with what they were given. *)
Theorem C51_order : forall p m priority z points b b', add_polygon p m priority z points b = Done b' ->
  exists bounding edges new, b_polygons b' = b_polygons b ++ [mk_polygon p m priority z points bounding edges []] /\ b_edges b' = b_edges b ++ new
    /\ edges = seq (length (b_edges b)) (length new) /\ length new = length points.
Proof.
  intros p m priority z points b b' E. unfold add_polygon in E. destruct (detect_bounding points) as [bd| |]; cbn [bind] in E; try discriminate.
  destruct (polygon_edges points) as [es| |] eqn:P; cbn [bind] in E; try discriminate. injection E as <-. cbn.
  exists bd. eexists. exists (map (new_edge p) es). split; [reflexivity|]. split; [reflexivity|]. split; [reflexivity|]. rewrite map_length.
  destruct (polygon_edges_in points es P) as [K _]. apply (f_equal (@length _)) in K. rewrite !map_length in K. rewrite K. apply sides_length.
Qed.

Lemma built_box b m priority x0 x1 y0 y1 b' :
  built b -> add_polygon PXY (Some m) priority (range_z 0 1) (box_points (mk_pt x0 y0) (mk_pt x1 y1)) b = Done b' -> built b'.
Proof. intros B E. eapply built_more; eassumption. Qed.

Lemma side_by_side_built : built side_by_side.
Proof.
  eapply built_box with (b := box_on (empty_board (Some AIR)) CONDUCTOR 1 0 10 0 10) (m := DIELECTRIC) (priority := 0%nat) (x0 := 10) (x1 := 30) (y0 := 0) (y1 := 20);
    [|vm_compute; reflexivity].
  eapply built_box with (b := empty_board (Some AIR)) (m := CONDUCTOR) (priority := 1%nat) (x0 := 0) (x1 := 10) (y0 := 0) (y1 := 10); [constructor|vm_compute; reflexivity].
Qed.

Example C51_example : built side_by_side /\ length (b_edges side_by_side) = 8%nat.
Proof. split; [apply side_by_side_built|reflexivity]. Qed.

(* ------------------------------------------------------------------ *)
(** * C52: edges inside of materials that outrank theirs *)

(** The edges of a plane are reversed exactly if what is beyond them outranks the
    material of their polygon. *)
Theorem C52_reversed : forall srt p b b', sorts_by srt -> built b -> adjust_edges_to_materials srt b p = Done b' ->
  forall i e e', edge_at b i e -> edge_at b' i e' -> (e_to_reverse e' = true <-> outranked b p i e).
Proof.
  intros srt p b b' So B E i e e' Ei Ei'. destruct (adjust_outranked srt p b b' So (built_in_place b B) E) as [_ H].
  rewrite (H i e e' Ei Ei'). destruct (so_fresh b (built_sound b B) i e Ei) as (_ & -> & _). intuition discriminate.
Qed.

(** Nothing else is different. *)
Theorem C52_frame : forall srt p b b', sorts_by srt -> built b -> adjust_edges_to_materials srt b p = Done b' -> same_but_reverse b b'.
Proof. intros srt p b b' So B E. apply (adjust_outranked srt p b b' So (built_in_place b B) E). Qed.

(** The step ends if all polygons have a material. *)
Theorem C52_ends : forall srt p b, built b -> (forall k g, nth_error (b_polygons b) k = Some g -> g_material g <> None) ->
  exists b', adjust_edges_to_materials srt b p = Done b'.
Proof.
  intros srt p b B M. apply adjust_ends; [now apply built_in_place|]. intros k g i e G _ _ Ei [N|[N|(o & n & _ & N)]].
  - now apply (proj1 (built_normals b B i e Ei)).
  - now apply (proj2 (built_normals b B i e Ei)).
  - exact (M k g G N).
Qed.

(** Else a pointer to no material may be read. *)
Theorem C52_null_refuted : exists p b, built b /\ forall srt, sorts_by srt -> adjust_edges_to_materials srt b p = Dangling.
Proof.
  set (b := result (add_polygon PXY None 0 (range_z 0 1) (box_points (mk_pt 0 0) (mk_pt 10 10)) (empty_board (Some AIR)))).
  assert (B : built b) by (eapply (built_more PXY None 0 (range_z 0 1) (box_points (mk_pt 0 0) (mk_pt 10 10)) (empty_board (Some AIR))); [constructor|vm_compute; reflexivity]).
  exists PXY, b. split; [assumption|]. intros srt So.
  assert (S0 : forall A (less : A -> A -> bool), srt A less [] = []).
  { intros A less. destruct (So A less []) as [P _]; [|now apply Permutation_nil]. split; [|split]; cbn; intros; contradiction. }
  unfold adjust_edges_to_materials, for_each. cbn. unfold adjust_edge. cbn. unfold outer_material, find_ambient. cbn. now rewrite !S0.
Qed.

(** The conductor beside the dielectric of [side_by_side]. *)
Example C52_example : exists e, edge_at side_by_side 5 e /\ outranked side_by_side PXY 5 e /\ sorts_by isort_by.
Proof.
  destruct (adjust_edges_to_materials isort_by side_by_side PXY) as [b'| |] eqn:E; [|vm_compute in E; discriminate..].
  exists (mk_edge PXY (mk_seg (mk_pt 10 0) (mk_pt 10 20)) Nxmin true false [] None None). split; [reflexivity|]. split; [|exact isort_by_sorts].
  assert (exists e', edge_at b' 5 e' /\ e_to_reverse e' = true) as (e' & Ei & R).
  { vm_compute in E. injection E as <-. eexists. split; reflexivity. }
  now apply (C52_reversed isort_by PXY side_by_side b' isort_by_sorts side_by_side_built E 5%nat _ e').
Qed.

(* ------------------------------------------------------------------ *)
(** * C53: individual edges and angles *)

(** Each axis gets a policy for each lonely edge of the plane, in the order of the edges,
    then one for each angle of the plane in order, and nothing else. *)
Theorem C53_policies : forall g b p, exists b', detect_individual_edges g b p = Done b' /\ forall ax, exists idx edges angles,
  gains (edges ++ angles) (on_axis (b_axes b) ax) (on_axis (b_axes b') ax)
  /\ StronglySorted lt idx /\ (forall i, In i idx <-> lonely b p ax i) /\ Forall2 (own_policy g b) idx edges
  /\ match view_of_axis p ax with
     | Some v => Forall2 (angle_policy g v) (filter (fun a => plane_eqb (a_plane a) p) (b_angles b)) angles
     | None => angles = []
     end.
Proof.
  intros g b p. destruct (individual_all g b p) as (b' & E & _ & G & _). exists b'. split; [assumption|]. intros ax.
  exists (solos b ax p), (pols g b ax (edges_of b p)), (apols g p ax (filter (fun a => plane_eqb (a_plane a) p) (b_angles b))).
  split; [apply G|]. split; [apply solos_sorted|]. split; [apply solos_lonely|]. split; [apply solos_policies|].
  unfold apols. destruct (view_of_axis p ax) as [v|]; [|reflexivity]. clear. induction (filter _ _) as [|a l IH]; cbn; [constructor|]. constructor; [reflexivity|assumption].
Qed.

(** Nothing else is different. *)
Theorem C53_frame : forall g b p b', detect_individual_edges g b p = Done b' -> same_but_policies b b'.
Proof. intros g b p b' E. destruct (individual_all g b p) as (b1 & E1 & S & _). assert (b1 = b') as -> by congruence. assumption. Qed.

(** A lonely edge leads to its policy. *)
Theorem C53_linked : forall g b p b' ax i, detect_individual_edges g b p = Done b' -> lonely b p ax i ->
  exists e' n x, edge_at b' i e' /\ e_policy e' = Some n /\ nth_error (ax_policies (on_axis (b_axes b') ax)) n = Some x /\ own_policy g b i x.
Proof.
  intros g b p b' ax i E L. pose proof L as L'. apply solos_lonely in L'. destruct (individual_all g b p) as (b1 & E1 & _ & _ & H). assert (b1 = b') as -> by congruence.
  destruct L as (e & v & Ei & P & V & A & M & C & F). assert (Al : alone ax e = true) by (apply alone_spec; exists v; rewrite P; now repeat split).
  destruct (H i e ax Ei P Al) as (e' & n & Ei' & Pe & Ne). exists e', n, (pol g e). split; [assumption|]. split; [assumption|]. split; [assumption|].
  exists e, v. split; [assumption|]. split; [assumption|]. unfold pol, lev. rewrite V. now destruct v.
Qed.

(** The first box of [side_by_side] has two lonely edges after the detection of colinear ones. *)
Definition side_by_side_detected : board := Eval vm_compute in result (for_each detect_colinear_edges all_planes side_by_side).
Example C53_example : lonely side_by_side_detected PXY AX 1 /\ ~ lonely side_by_side_detected PXY AX 3.
Proof.
  split.
  - eexists. exists VV. split; [reflexivity|]. cbn. repeat (split; [reflexivity|]). split; [intros a n []|discriminate].
  - intros (e & v & E & _ & _ & _ & _ & N & _). injection E as <-. cbn in N. eapply N. left. reflexivity.
Qed.

(* ------------------------------------------------------------------ *)
(** * C54: the policies of a whole run *)

(** The edges are where they were. *)
Theorem C54_geometry : forall fuel g d srt ang fixed b0 b, sorts_by srt -> built b0 -> policies_of_board fuel g d srt ang fixed b0 = Done b ->
  map (fun e => (e_plane e, e_seg e, e_normal e)) (b_edges b) = map (fun e => (e_plane e, e_seg e, e_normal e)) (b_edges b0).
Proof.
  intros fuel g d srt ang fixed b0 b So B E. destruct (run_steps _ _ _ _ _ _ _ _ E) as (b1 & b4 & b5 & b6 & b7 & b8 & b9 & H).
  destruct (run_result_of _ _ _ _ _ _ _ _ _ _ _ _ _ _ _ So B H) as [R _]. exact (rr_geo _ _ _ _ R).
Qed.

(** Edges end up reversed exactly if they are inside of a material that outranks theirs. *)
Theorem C54_reversed : forall fuel g d srt ang fixed b0 b i e e', sorts_by srt -> built b0 -> policies_of_board fuel g d srt ang fixed b0 = Done b ->
  edge_at b0 i e -> edge_at b i e' -> (e_to_reverse e' = true <-> exists p, outranked b0 p i e).
Proof.
  intros fuel g d srt ang fixed b0 b i e e' So B E. destruct (run_steps _ _ _ _ _ _ _ _ E) as (b1 & b4 & b5 & b6 & b7 & b8 & b9 & H).
  destruct (run_result_of _ _ _ _ _ _ _ _ _ _ _ _ _ _ _ So B H) as [R _]. apply (rr_reversed _ _ _ _ R).
Qed.

(** The policies of an axis are those of the fixed lines, exactly one for each class of
    colinear edges that needs a line, and one for each angle; provided being colinear is
    transitive on the board, which the tolerance does not ensure. *)
Theorem C54_policies : forall fuel g d srt ang fixed b0 b, sorts_by srt -> built b0 -> transitive_at b0 ->
  policies_of_board fuel g d srt ang fixed b0 = Done b -> forall ax, policies_complete g (on_axis fixed ax) b ax.
Proof.
  intros fuel g d srt ang fixed b0 b So B T E ax. destruct (run_steps _ _ _ _ _ _ _ _ E) as (b1 & b4 & b5 & b6 & b7 & b8 & b9 & H).
  destruct (run_result_of _ _ _ _ _ _ _ _ _ _ _ _ _ _ _ So B H) as [R _]. apply (run_complete g fixed b0 b ax R).
  apply (transitive_geo b0); [exact (rr_geo _ _ _ _ R)|assumption].
Qed.

(** So each edge that needs a line has an enabled policy at its coordinate, up to the
    tolerance, that fits the edges there. *)
Theorem C54_lined : forall fuel g d srt ang fixed b0 b, sorts_by srt -> built b0 -> transitive_at b0 ->
  policies_of_board fuel g d srt ang fixed b0 = Done b ->
  forall ax i x, needs_line b ax i -> across b ax i x ->
  exists p, In p (ax_policies (on_axis (b_axes b) ax)) /\ p_enabled p = true /\ Qabs (p_coord p - x) < equality_tolerance /\ class_fits b i (p_policy p) (p_normal p).
Proof.
  intros fuel g d srt ang fixed b0 b So B T E ax i x N X. pose proof (C54_policies fuel g d srt ang fixed b0 b So B T E ax) as (reps & F & Es & A & P & _ & _ & _ & C & _ & H & _).
  assert (T' : transitive_at b). { apply (transitive_geo b0); [exact (C54_geometry fuel g d srt ang fixed b0 b So B E)|assumption]. }
  destruct (C i N) as (j & J & K). destruct (forall2_in _ _ _ H j J) as (p & Ip & (Ac & Fi & En & _)).
  exists p. split; [eapply Permutation_in; [apply Permutation_sym, P|]; apply in_or_app; right; apply in_or_app; now left|]. split; [assumption|].
  destruct K as (e & f & Ei & Ej & Pl & v & Vi & Vj & L). split.
  - destruct Ac as (f' & v' & Ej' & V' & _ & ->), X as (e' & v2 & Ei' & V2 & _ & ->). unfold edge_at in *.
    assert (f' = f) as -> by congruence. assert (e' = e) as -> by congruence. assert (v' = v) as -> by (destruct v, v'; cbn in *; congruence).
    assert (v2 = v) as -> by (destruct v, v2; cbn in *; congruence). now rewrite Qabs_Qminus.
  - assert (Cij : colinear_at b i j) by (exists e, f; repeat (split; [assumption|]); exists v; now repeat split).
    assert (forall n, class_faces b i n <-> class_faces b j n) as Cl.
    { intros n. split; intros (k & h & Ek & Ck & R); exists k, h; (split; [assumption|]); (split; [|assumption]).
      - apply (T' j i k); [now apply colinear_at_sym|assumption].
      - now apply (T' i j k). }
    unfold class_fits in *. destruct (p_policy p); rewrite ?Cl; exact Fi.
Qed.

(** And each policy is that of a fixed line, of a class of edges one of which is meshed,
    or of an angle. *)
Theorem C54_only : forall fuel g d srt ang fixed b0 b, sorts_by srt -> built b0 -> transitive_at b0 ->
  policies_of_board fuel g d srt ang fixed b0 = Done b ->
  forall ax p, In p (ax_policies (on_axis (b_axes b) ax)) ->
    (exists x, In x (on_axis fixed ax) /\ p = mk_mlp x ONELINE NNONE true (g_dmax g / 2))
    \/ (exists i, class_policy g b ax i p /\ exists j, needs_line b ax j /\ colinear_at b i j)
    \/ (exists a, In a (b_angles b) /\ angle_line g ax a p).
Proof.
  intros fuel g d srt ang fixed b0 b So B T E ax p I. pose proof (C54_policies fuel g d srt ang fixed b0 b So B T E ax) as (reps & F & Es & A & P & Fi & _ & _ & _ & N & H & angles & Pa & Ha).
  apply (Permutation_in p P) in I. apply in_app_or in I. destruct I as [I|I]; [left|right; apply in_app_or in I; destruct I as [I|I]; [left|right]].
  - destruct (ManagerMoreProofs.fixed_appends g (on_axis fixed ax) (mk_axis [] [] [] [])) as (l & El & Fl). rewrite El in Fi. cbn in Fi. subst l.
    rewrite Forall_forall in Fl. destruct (Fl p I) as (x & Ix & ->). exists x. split; [assumption|reflexivity].
  - apply Forall2_flip in H. destruct (forall2_in _ _ _ H p I) as (i & Ii & K). exists i. split; [assumption|]. now apply N.
  - apply Forall2_flip in Ha. destruct (forall2_in _ _ _ Ha p I) as (a & Ia & K). exists a. split; [|assumption].
    apply (Permutation_in a Pa) in Ia. now apply filter_In in Ia.
Qed.

(** Nothing else is done on the axes yet. *)
Theorem C54_idle : forall fuel g d srt ang fixed b0 b, sorts_by srt -> built b0 -> policies_of_board fuel g d srt ang fixed b0 = Done b ->
  forall ax, ax_conflicts (on_axis (b_axes b) ax) = [] /\ ax_segments (on_axis (b_axes b) ax) = [] /\ ax_lines (on_axis (b_axes b) ax) = [].
Proof.
  intros fuel g d srt ang fixed b0 b So B E ax. destruct (run_steps _ _ _ _ _ _ _ _ E) as (b1 & b4 & b5 & b6 & b7 & b8 & b9 & H).
  destruct (run_result_of _ _ _ _ _ _ _ _ _ _ _ _ _ _ _ So B H) as [R _]. destruct (rr_policies _ _ _ _ R ax) as (F & C & (_ & G) & _). exact G.
Qed.

Lemma transitive_grid b : on_grid b = true -> transitive_at b.
Proof.
  intros G i j k (e & f & Ei & Ej & P & v & V & V' & L) (f' & h & Ej' & Ek & P' & v' & W & W' & L'). assert (f' = f) as -> by (unfold edge_at in *; congruence).
  assert (v' = v) as -> by (destruct v, v'; cbn in *; congruence). exists e, h. split; [assumption|]. split; [assumption|]. split; [congruence|]. exists v.
  split; [assumption|]. split; [assumption|].
  destruct (on_grid_spec b G i j e f v Ei Ej V V') as [X|X]; [|exfalso; now apply (Qlt_not_le _ _ L)].
  now rewrite X.
Qed.

(** Not all meshed edges have a line: those that face no side and are alone have none.
    A box smaller than the tolerance for areas is not meshed at all. *)
Theorem C54_no_side_refuted : exists b0 b i e ax x, built b0 /\ transitive_at b0
  /\ policies_of_board 10 usual usual_diag isort_by (fun _ _ => 90) (mk_space [] [] []) b0 = Done b
  /\ edge_at b i e /\ e_to_mesh e = true /\ across b ax i x /\ forall p, ~ In p (ax_policies (on_axis (b_axes b) ax)).
Proof.
  set (b0 := box_on (empty_board (Some AIR)) CONDUCTOR 0 0 (1 # 100000) 0 (1 # 100000)).
  exists b0, (result (policies_of_board 10 usual usual_diag isort_by (fun _ _ => 90) (mk_space [] [] []) b0)), 1%nat. eexists. exists AX. eexists.
  split; [eapply built_box with (b := empty_board (Some AIR)) (m := CONDUCTOR) (priority := 0%nat) (x0 := 0) (x1 := 1 # 100000) (y0 := 0) (y1 := 1 # 100000);
    [constructor|vm_compute; reflexivity]|].
  split; [apply transitive_grid; vm_compute; reflexivity|]. split; [vm_compute; reflexivity|]. split; [vm_compute; reflexivity|]. split; [reflexivity|].
  split; [|vm_compute; intros p []]. eexists. exists VV. split; [vm_compute; reflexivity|]. repeat split.
Qed.

(** A conductor beside a dielectric, with fixed lines. *)
Definition fixed_lines : space (list Q) := mk_space [7] [] [1; 2].
Definition side_by_side_run : board := Eval vm_compute in result (policies_of_board 10 usual usual_diag isort_by (fun _ _ => 90) fixed_lines side_by_side).
Example C54_example : built side_by_side /\ transitive_at side_by_side
  /\ policies_of_board 10 usual usual_diag isort_by (fun _ _ => 90) fixed_lines side_by_side = Done side_by_side_run
  /\ needs_line side_by_side_run AX 5 /\ map p_coord (ax_policies (on_axis (b_axes side_by_side_run) AX)) = [7; 10; 0; 30].
Proof.
  split; [apply side_by_side_built|]. split; [apply transitive_grid; vm_compute; reflexivity|]. split; [vm_compute; reflexivity|]. split; [|reflexivity].
  split.
  - eexists. eexists. exists VV. split; [reflexivity|]. repeat split.
  - eexists. split; [reflexivity|]. split; [reflexivity|]. left. discriminate.
Qed.

Print Assumptions C51_added.
Print Assumptions C51_sound.
Print Assumptions C51_order.
Print Assumptions C52_reversed.
Print Assumptions C52_frame.
Print Assumptions C52_ends.
Print Assumptions C52_null_refuted.
Print Assumptions C53_policies.
Print Assumptions C53_frame.
Print Assumptions C53_linked.
Print Assumptions C54_no_side_refuted.
Print Assumptions C54_geometry.
Print Assumptions C54_reversed.
Print Assumptions C54_policies.
Print Assumptions C54_lined.
Print Assumptions C54_only.
Print Assumptions C54_idle.
