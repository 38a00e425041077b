(** Property C57: the angles and the zones of diagonal edges. *)
From Coq Require Import List Arith Bool Lia QArith Qabs Lqa Sorting.Sorted Sorting.Permutation.
From Verif Require Import IntervalModel IntervalSpec ManagerModel ManagerSpec GeomModel GeomSpec GeomProofs.
From Verif Require Import BoardModel BoardSpec BoardProofs BoardBuiltProofs BoardRunProofs BoardDiagProofs BoardZonedProofs BoardExamples.
Import ListNotations.
Open Scope Q_scope.

(** The angles of a board after a run are the corners of polygons next to a diagonal
    side, and the crossings of the sides of two polygons of a plane if one is diagonal. *)
Theorem C57_angles : forall fuel g d srt ang fixed b0 b, sorts_by srt -> built b0 -> policies_of_board fuel g d srt ang fixed b0 = Done b ->
  forall a, In a (map bare (b_angles b)) <-> exists p, corner_angle ang b0 p a \/ cross_angle ang b0 p a.
Proof. intros fuel g d srt ang fixed b0 b So B E. exact (dg_angles _ _ _ _ _ (run_diagonals _ _ _ _ _ _ _ _ So B E)). Qed.

(** The zones of an axis are those of the two planes that have it.  Those of a plane are
    groups of consecutive angles: two consecutive ones are in one zone exactly if a
    diagonal edge passes between them. *)
Theorem C57_zones : forall fuel g d srt ang fixed b0 b, sorts_by srt -> built b0 -> policies_of_board fuel g d srt ang fixed b0 = Done b ->
  exists zs : Plane -> ViewAxis -> list diag_zone, (forall p v, zoned g d (with_angles b0 (b_angles b)) p v (zs p v))
    /\ forall ax, on_axis (b_zones b) ax = flat_map (fun p => match view_of_axis p ax with Some v => zs p v | None => [] end) [PYZ; PZX; PXY].
Proof. intros fuel g d srt ang fixed b0 b So B E. exact (dg_zones _ _ _ _ _ (run_diagonals _ _ _ _ _ _ _ _ So B E)). Qed.

(** A coordinate is in the range of a zone of the axis exactly if some diagonal edge, of
    a plane that has the axis, passes there. *)
Theorem C57_cover : forall fuel g d srt ang fixed b0 b, sorts_by srt -> built b0 -> policies_of_board fuel g d srt ang fixed b0 = Done b ->
  forall ax x, (exists z, In z (on_axis (b_zones b) ax) /\ in_zone_range b ax z x) <-> exists p v, view_of_axis p ax = Some v /\ diagonal_over b0 p v x.
Proof. intros fuel g d srt ang fixed b0 b So B E. exact (diagonals_cover g d ang b0 b B (run_diagonals _ _ _ _ _ _ _ _ So B E)). Qed.

(** An angle is meshed on an axis exactly if it is an end of a zone of this axis, or
    inside of one and acute enough. *)
Theorem C57_meshed : forall fuel g d srt ang fixed b0 b, sorts_by srt -> built b0 -> policies_of_board fuel g d srt ang fixed b0 = Done b ->
  forall i a ax v, nth_error (b_angles b) i = Some a -> view_of_axis (a_plane a) ax = Some v ->
    (a_to_mesh a v = true <-> exists z, In z (on_axis (b_zones b) ax) /\ zone_meshes d z i a).
Proof. intros fuel g d srt ang fixed b0 b So B E. exact (dg_flags _ _ _ _ _ (run_diagonals _ _ _ _ _ _ _ _ So B E)). Qed.

(** Every angle is in a zone of each axis of its plane, so that solving zones decides
    whether it is meshed. *)
Theorem C57_zoned : forall fuel g d srt ang fixed b0 b, sorts_by srt -> built b0 -> sides_plain b0 -> policies_of_board fuel g d srt ang fixed b0 = Done b ->
  forall i a ax v, nth_error (b_angles b) i = Some a -> view_of_axis (a_plane a) ax = Some v -> exists z, In z (on_axis (b_zones b) ax) /\ In i (dz_angles z).
Proof. intros fuel g d srt ang fixed b0 b So B Sp E. exact (diagonals_zoned g d ang b0 b B Sp (run_diagonals _ _ _ _ _ _ _ _ So B E)). Qed.

(** The three steps end, whatever the polygons. *)
Theorem C57_ends : forall g d srt ang b, sorts_by srt -> built b -> exists b1 b2 b3,
  for_each (detect_diagonal_angles ang) [PYZ; PZX; PXY] b = Done b1 /\ for_each (detect_diagonal_zones g d srt) [PYZ; PZX; PXY] b1 = Done b2
  /\ for_each (solve_diagonal_angles d) [AX; AY; AZ] b2 = Done b3.
Proof.
  intros g d srt ang b So B. destruct (built_sound b B) as [_ _ _ _ (An & _ & _ & Zo & _)].
  destruct (diagonal_steps g d srt ang b b So (built_in_place b B)) as (b1 & b2 & b3 & E1 & E2 & E3 & _); [now split|assumption|assumption|].
  exists b1, b2, b3. now repeat split.
Qed.

(** Of the crossings, only those of two edges that are wide and high are angles ... *)
Theorem C57_crossings : forall ang b p a, cross_angle ang b p a -> forall e, edge_at b (a_e0 a) e \/ edge_at b (a_e1 a) e ->
  forall v, ~ level v (s0 (e_seg e)) == level v (s1 (e_seg e)).
Proof.
  intros ang b p a (k & k' & g & g' & i & j & ei & ej & q & _ & _ & _ & _ & _ & _ & _ & Ei & Ej & O & _ & _ & (e1 & e2 & _ & _ & _ & ->)) e He v Eq. cbn in He.
  unfold overlap2_strict in O. apply andb_true_iff in O. destruct O as [Ox Oy]. apply IntervalProofs.Qltb_lt in Ox, Oy. unfold qmax, qmin, seg_bounding in Ox, Oy. cbn [xmin xmax ymin ymax] in Ox, Oy.
  assert (He' : e = ei \/ e = ej) by (unfold edge_at in *; destruct He as [He|He]; [left|right]; congruence). clear He. unfold level in Eq.
  destruct He' as [->| ->], v; [clear Ox|clear Oy|clear Ox|clear Oy];
  repeat match goal with H : context [if Qltb ?x ?y then _ else _] |- _ => destruct (IntervalProofs.Qltb_spec x y) end; lra.
Qed.

(** Two triangles that cross, and far from them a triangle with one diagonal side. *)
Definition shape_on (b : board) (points : list point) : board := result (add_polygon PXY (Some CONDUCTOR) 1 (range_z 0 1) points b).
Definition tri0 : board := Eval vm_compute in shape_on (empty_board (Some AIR)) [mk_pt 0 0; mk_pt 10 0; mk_pt 5 8].
Definition tri1 : board := Eval vm_compute in shape_on tri0 [mk_pt 4 4; mk_pt 20 4; mk_pt 8 12].
Definition triangles : board := Eval vm_compute in shape_on tri1 [mk_pt 30 0; mk_pt 40 0; mk_pt 30 5].
Lemma tri1_built : built tri1.
Proof.
  apply (built_more PXY (Some CONDUCTOR) 1 (range_z 0 1) [mk_pt 4 4; mk_pt 20 4; mk_pt 8 12] tri0); [|vm_compute; reflexivity].
  apply (built_more PXY (Some CONDUCTOR) 1 (range_z 0 1) [mk_pt 0 0; mk_pt 10 0; mk_pt 5 8] (empty_board (Some AIR))); [constructor|vm_compute; reflexivity].
Qed.
Lemma triangles_built : built triangles.
Proof. apply (built_more PXY (Some CONDUCTOR) 1 (range_z 0 1) [mk_pt 30 0; mk_pt 40 0; mk_pt 30 5] tri1); [apply tri1_built|vm_compute; reflexivity]. Qed.
Definition triangles_run : board := Eval vm_compute in result (policies_of_board 10 usual usual_diag isort_by (fun _ _ => 10) (mk_space [] [] []) triangles).
Example C57_example : built triangles /\ sorts_by isort_by
  /\ policies_of_board 10 usual usual_diag isort_by (fun _ _ => 10) (mk_space [] [] []) triangles = Done triangles_run
  /\ map (fun z => length (dz_angles z)) (on_axis (b_zones triangles_run) AX) = [7; 2]%nat
  /\ map (fun z => length (dz_angles z)) (on_axis (b_zones triangles_run) AY) = [9]%nat
  /\ diagonal_over triangles PXY VH (15 # 2) /\ ~ diagonal_over triangles PXY VH 25
  /\ existsb a_h (b_angles triangles_run) = true /\ forallb a_h (b_angles triangles_run) = false
  /\ exists a, cross_angle (fun _ _ => 10) triangles PXY a.
Proof.
  split; [apply triangles_built|]. split; [apply isort_by_sorts|]. split; [vm_compute; reflexivity|]. split; [vm_compute; reflexivity|]. split; [vm_compute; reflexivity|]. split; [|split].
  - exists 2%nat. eexists. split; [reflexivity|]. split; [reflexivity|]. split; [reflexivity|]. split; [reflexivity|]. unfold passes. cbn. right. lra.
  - intros (i & e & E & _ & _ & _ & H). unfold edge_at in E. do 9 (destruct i as [|i]; [cbn in E; injection E as <-; unfold passes in H; cbn in H; lra|]). destruct i; discriminate.
  - split; [reflexivity|]. split; [reflexivity|]. eexists. exists 0%nat, 1%nat. do 2 eexists. exists 2%nat, 3%nat. do 3 eexists. split; [lia|]. do 4 (split; [reflexivity|]).
    split; [cbn; tauto|]. split; [cbn; tauto|]. do 5 (split; [vm_compute; reflexivity|]). do 2 eexists. split; [reflexivity|]. split; [reflexivity|]. split; [left; reflexivity|reflexivity].
Qed.

Example C57_zoned_example : sides_plain triangles /\ length (b_angles triangles_run) = 9%nat
  /\ forallb (fun i => existsb (fun z => existsb (Nat.eqb i) (dz_angles z)) (on_axis (b_zones triangles_run) AX)) (seq 0 9) = true.
Proof.
  split; [|split; vm_compute; reflexivity]. intros i e E. unfold edge_at in E.
  do 9 (destruct i as [|i]; [cbn in E; injection E as <-; first [left; vm_compute; reflexivity|right; exists VH; vm_compute; reflexivity|right; exists VV; vm_compute; reflexivity]|]). destruct i; discriminate.
Qed.

(** ... so where a diagonal side crosses a straight one there is no angle, although the
    code says "crosses between any diagonal edge and any other edge". *)
Definition crossed : board := Eval vm_compute in box_on tri0 CONDUCTOR 1 4 20 3 6.
Definition crossed_run : board := Eval vm_compute in result (policies_of_board 10 usual usual_diag isort_by (fun _ _ => 90) (mk_space [] [] []) crossed).
Theorem C57_straight_refuted : exists b0 b i j ei ej q, built b0 /\ sorts_by isort_by
  /\ policies_of_board 10 usual usual_diag isort_by (fun _ _ => 90) (mk_space [] [] []) b0 = Done b
  /\ edge_at b0 i ei /\ edge_at b0 j ej /\ e_plane ei = e_plane ej /\ diagonal ei /\ relation_seg (e_seg ei) (e_seg ej) = CROSSING
  /\ intersection (e_seg ei) (e_seg ej) = Some q /\ forall a, In a (b_angles b) -> ~ (px (a_point a) == px q /\ py (a_point a) == py q).
Proof.
  exists crossed, crossed_run, 2%nat, 3%nat. do 3 eexists. split.
  { apply (built_more PXY (Some CONDUCTOR) 1 (range_z 0 1) (box_points (mk_pt 4 3) (mk_pt 20 6)) tri0); [|vm_compute; reflexivity].
    apply (built_more PXY (Some CONDUCTOR) 1 (range_z 0 1) [mk_pt 0 0; mk_pt 10 0; mk_pt 5 8] (empty_board (Some AIR))); [constructor|vm_compute; reflexivity]. }
  split; [apply isort_by_sorts|]. do 6 (split; [vm_compute; reflexivity|]). split; [vm_compute; reflexivity|].
  intros a I. cbn in I. repeat (destruct I as [<-|I]; [cbn; lra|]). destruct I.
Qed.

Print Assumptions C57_angles.
Print Assumptions C57_zones.
Print Assumptions C57_cover.
Print Assumptions C57_meshed.
Print Assumptions C57_zoned.
Print Assumptions C57_ends.
Print Assumptions C57_crossings.
Print Assumptions C57_straight_refuted.
