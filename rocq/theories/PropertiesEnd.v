(** C56: from any board to its mesh lines, nothing is dereferenced in vain, and there is
    an end. *)
From Coq Require Import List Arith Bool Lia QArith Qabs Lqa.
From Verif Require Import IntervalModel ManagerModel ManagerSpec ManagerMoreProofs GeomModel GeomSpec GeomLocateProofs BoardModel BoardSpec BoardExamples.
From Verif Require Import BoardBuiltProofs BoardRunProofs BoardSafetyProofs BoardEndProofs EndSpec PropertiesRun PropertiesDiag PropertiesLines.
Import ListNotations.
Open Scope Q_scope.

(** No step reads an element or follows a pointer that is not there, however long it is
    left to run. *)
Theorem C56_safe : forall fuel g d srt ang fixed b0, sorts_by srt -> permutes srt -> built b0 -> materials_known b0 -> only_boxes b0 \/ edges_long b0 ->
  policies_of_board fuel g d srt ang fixed b0 <> Dangling.
Proof.
  intros fuel g d srt ang fixed b0 So Pm Bu Ma Ok.
  exact (ta_safe _ _ _ (policies_tame False g d srt ang fixed b0 So Pm Bu Ma (fit_built False srt b0 So Pm Bu Ok (fun x => match x with end))) fuel).
Qed.

(** The policies are found when points can be located. *)
Theorem C56_policies : forall g d srt ang fixed b0, sorts_by srt -> permutes srt -> built b0 -> materials_known b0 -> only_boxes b0 \/ edges_long b0 -> locatable b0 ->
  exists b, finishes (fun n => policies_of_board n g d srt ang fixed b0) b.
Proof.
  intros g d srt ang fixed b0 So Pm Bu Ma Ok Lo.
  pose proof (policies_tame True g d srt ang fixed b0 So Pm Bu Ma (fit_built True srt b0 So Pm Bu Ok (fun _ => Lo))) as T.
  destruct (ta_ends _ _ _ T I) as (n & b & E). exists b, n. apply (ta_done _ _ _ T n b E).
Qed.

(** And then the lines. *)
Theorem C56_lines : forall g d srt srt' ang fixed b0, sorts_by srt -> permutes srt -> sorts srt' -> usable g d ->
  built b0 -> materials_known b0 -> only_boxes b0 \/ edges_long b0 -> locatable b0 ->
  exists b b', finishes (fun n => policies_of_board n g d srt ang fixed b0) b /\ finishes (fun n => lines_of_board n g srt' b) b'.
Proof.
  intros g d srt srt' ang fixed b0 So Pm So' U Bu Ma Ok Lo. destruct (C56_policies g d srt ang fixed b0 So Pm Bu Ma Ok Lo) as (b & n & F).
  destruct (C55_ends n g d srt srt' ang fixed b0 b So So' Bu U (F n (le_n n))) as (b' & F'). exists b, b'. split; [now exists n|assumption].
Qed.

(** Boxes of any size and place, thin and flat ones included. *)
Theorem C56_boxes : forall g d srt srt' ang fixed b0, sorts_by srt -> permutes srt -> sorts srt' -> usable g d ->
  built b0 -> materials_known b0 -> only_boxes b0 ->
  exists b b', finishes (fun n => policies_of_board n g d srt ang fixed b0) b /\ finishes (fun n => lines_of_board n g srt' b) b'.
Proof.
  intros g d srt srt' ang fixed b0 So Pm So' U Bu Ma Bx. apply C56_lines; try assumption; [now left|]. intros k h G. left. exact (Bx k h G).
Qed.

(** The triangles of C57, and a board of boxes: one is flat, one is shorter than the
    tolerance. *)
Definition boxes1 : board := Eval vm_compute in box_on (empty_board (Some AIR)) CONDUCTOR 1 0 10 0 10.
Definition boxes2 : board := Eval vm_compute in box_on boxes1 DIELECTRIC 0 5 5 2 20.
Definition boxes_board : board := Eval vm_compute in box_on boxes2 CONDUCTOR 1 4 (4000000001 # 1000000000) 3 7.
Lemma of_list {A} (P : A -> Prop) l : Forall P l -> forall k x, nth_error l k = Some x -> P x.
Proof. intros F k x H. rewrite Forall_forall in F. apply F. eapply nth_error_In; eassumption. Qed.
Example C56_example : built triangles /\ materials_known triangles /\ edges_long triangles /\ locatable triangles
  /\ built boxes_board /\ materials_known boxes_board /\ only_boxes boxes_board /\ ~ edges_long boxes_board
  /\ sorts_by isort_by /\ permutes isort_by /\ sorts isort /\ usable usual usual_diag.
Proof.
  split; [exact triangles_built|].
  split; [refine (of_list (fun g => g_material g <> None) _ _); cbv [b_polygons triangles]; repeat apply Forall_cons; try apply Forall_nil; discriminate|].
  split. { refine (of_list (fun e => ends_apart (e_seg e)) _ _). cbv [b_edges triangles]. repeat apply Forall_cons; try apply Forall_nil; unfold ends_apart; cbn [e_seg];
    first [left; split; reflexivity|right; left; split; [reflexivity|vm_compute; discriminate]|right; right; left; split; [reflexivity|vm_compute; discriminate]
          |right; right; right; left; vm_compute; discriminate]. }
  split. { refine (of_list (fun g => is_box (g_points g) \/ heights_apart (g_points g)) _ _). cbv [b_polygons triangles]. repeat apply Forall_cons; try apply Forall_nil; right; unfold heights_apart; cbn [g_points];
    intros v w [<-|[<-|[<-|[]]]] [<-|[<-|[<-|[]]]]; cbn [py]; first [left; reflexivity|right; vm_compute; discriminate]. }
  split. { apply (built_box boxes2 CONDUCTOR 1 4 (4000000001 # 1000000000) 3 7); [|vm_compute; reflexivity]. apply (built_box boxes1 DIELECTRIC 0 5 5 2 20); [|vm_compute; reflexivity].
    apply (built_box (empty_board (Some AIR)) CONDUCTOR 1 0 10 0 10); [constructor|vm_compute; reflexivity]. }
  split; [refine (of_list (fun g => g_material g <> None) _ _); cbv [b_polygons boxes_board]; repeat apply Forall_cons; try apply Forall_nil; discriminate|].
  split. { refine (of_list (fun g => is_box (g_points g)) _ _). cbv [b_polygons boxes_board].
    constructor; [exists (mk_pt 0 0), (mk_pt 10 10); reflexivity|]. constructor; [exists (mk_pt 5 2), (mk_pt 5 20); reflexivity|].
    constructor; [exists (mk_pt 4 3), (mk_pt (4000000001 # 1000000000) 7); reflexivity|constructor]. }
  split. { intros H. assert (X : exists e, nth_error (b_edges boxes_board) 8 = Some e /\ ~ ends_apart (e_seg e)); [|destruct X as (e & E & N); exact (N (H 8%nat e E))].
    eexists. split; [reflexivity|]. unfold ends_apart. cbn. intros [(A & B)|[(A & B)|[(A & B)|[A|A]]]]; vm_compute in A; try vm_compute in B; try discriminate; congruence. }
  split; [exact isort_by_sorts|]. split; [exact isort_perm|]. split; [exact isort_sorts|]. repeat split; cbn; lra.
Qed.

(** An edge shorter than the tolerance that crosses a diagonal one: the second element
    of a vector of one is read. *)
Definition tip : board := Eval vm_compute in
  shape_on (shape_on (empty_board (Some AIR)) [mk_pt 0 0; mk_pt 100 0; mk_pt 0 100])
    [mk_pt (50 - (4 # 1000000000)) 50; mk_pt (50 + (4 # 1000000000)) 50; mk_pt 60 80; mk_pt 40 80].
Theorem C56_short_refuted : exists fuel ang b0, built b0 /\ materials_known b0 /\ locatable b0
  /\ policies_of_board fuel usual usual_diag isort_by ang (mk_space [] [] []) b0 = Dangling.
Proof.
  exists 20%nat, (fun _ _ => 10), tip. split.
  { apply (built_more PXY (Some CONDUCTOR) 1 (range_z 0 1) [mk_pt (50 - (4 # 1000000000)) 50; mk_pt (50 + (4 # 1000000000)) 50; mk_pt 60 80; mk_pt 40 80]
      (shape_on (empty_board (Some AIR)) [mk_pt 0 0; mk_pt 100 0; mk_pt 0 100])); [|vm_compute; reflexivity].
    apply (built_more PXY (Some CONDUCTOR) 1 (range_z 0 1) [mk_pt 0 0; mk_pt 100 0; mk_pt 0 100] (empty_board (Some AIR))); [constructor|vm_compute; reflexivity]. }
  split; [refine (of_list (fun g => g_material g <> None) _ _); cbv [b_polygons tip]; repeat apply Forall_cons; try apply Forall_nil; discriminate|].
  split. { refine (of_list (fun g => is_box (g_points g) \/ heights_apart (g_points g)) _ _). cbv [b_polygons tip]. repeat apply Forall_cons; try apply Forall_nil; right; unfold heights_apart; cbn [g_points].
    - intros v w [<-|[<-|[<-|[]]]] [<-|[<-|[<-|[]]]]; cbn [py]; first [left; reflexivity|right; vm_compute; discriminate].
    - intros v w [<-|[<-|[<-|[<-|[]]]]] [<-|[<-|[<-|[<-|[]]]]]; cbn [py]; first [left; reflexivity|right; vm_compute; discriminate]. }
  vm_compute. reflexivity.
Qed.

(** With vertices at about the same height, the run may never end: no ray from the corner
    of a triangle misses the vertices of the other polygon. *)
Definition stuck_board : board := Eval vm_compute in
  shape_on (shape_on (empty_board (Some AIR)) [mk_pt 10 0; mk_pt 10 10; mk_pt 0 0]) stuck_polygon.
Definition stuck4 : board := Eval vm_compute in
  result (let! b := for_each (adjust_edges_to_materials isort_by) all_planes stuck_board in
          let! b := for_each (detect_diagonal_angles (fun _ _ => 10)) all_planes b in
          let! b := for_each (detect_diagonal_zones usual usual_diag isort_by) all_planes b in
          for_each (solve_diagonal_angles usual_diag) all_axes b).
Lemma stuck_detect fuel : for_each (detect_edges_in_polygons fuel isort_by) all_planes stuck4 = Running.
Proof.
  assert (P1 : detect_edges_in_polygons fuel isort_by stuck4 PYZ = Done stuck4) by reflexivity.
  assert (P2 : detect_edges_in_polygons fuel isort_by stuck4 PZX = Done stuck4) by reflexivity.
  unfold all_planes. cbn [for_each]. rewrite P1. cbn [bind]. rewrite P2. cbn [bind].
  assert (P3 : detect_edges_in_polygons fuel isort_by stuck4 PXY = Running); [|now rewrite P3].
  unfold detect_edges_in_polygons. change (polygons_of stuck4 PXY) with [0; 1]%nat. cbn [for_each]. change (polygons_of stuck4 PXY) with [0; 1]%nat. cbn [for_each].
  change (polygon_in_polygon fuel isort_by 0 stuck4 0) with (Done stuck4). cbn [bind].
  assert (E : polygon_in_polygon fuel isort_by 0 stuck4 1 = for_each (edge_in_polygon fuel isort_by 1) [0; 1; 2]%nat stuck4) by reflexivity.
  rewrite E. clear E. cbn [for_each]. assert (E : edge_in_polygon fuel isort_by 1 stuck4 0 = Running); [|now rewrite E].
  unfold edge_in_polygon. destruct (read (b_polygons stuck4) 1) as [g| |] eqn:G; [|discriminate|discriminate]. cbn [bind]. vm_compute in G. injection G as <-.
  destruct (read (b_edges stuck4) 0) as [e| |] eqn:Ee; [|discriminate|discriminate]. cbn [bind]. vm_compute in Ee. injection Ee as <-. cbn [g_edges g_points e_seg s0].
  destruct (for_each (meet_edge 0 1) _ _) as [[[b inter] ranges]| |] eqn:M; [|vm_compute in M; discriminate|vm_compute in M; discriminate]. cbn [bind].
  pose proof (stuck_forever fuel) as S. unfold stuck_polygon, origin, equality_tolerance in S. rewrite S. reflexivity.
Qed.
Theorem C56_stuck_refuted : exists ang b0, built b0 /\ materials_known b0 /\ edges_long b0
  /\ loops (fun n => policies_of_board n usual usual_diag isort_by ang (mk_space [] [] []) b0).
Proof.
  exists (fun _ _ => 10), stuck_board. split.
  { apply (built_more PXY (Some CONDUCTOR) 1 (range_z 0 1) stuck_polygon (shape_on (empty_board (Some AIR)) [mk_pt 10 0; mk_pt 10 10; mk_pt 0 0])); [|vm_compute; reflexivity].
    apply (built_more PXY (Some CONDUCTOR) 1 (range_z 0 1) [mk_pt 10 0; mk_pt 10 10; mk_pt 0 0] (empty_board (Some AIR))); [constructor|vm_compute; reflexivity]. }
  split; [refine (of_list (fun g => g_material g <> None) _ _); cbv [b_polygons stuck_board]; repeat apply Forall_cons; try apply Forall_nil; discriminate|].
  split. { refine (of_list (fun e => ends_apart (e_seg e)) _ _). cbv [b_edges stuck_board]. repeat apply Forall_cons; try apply Forall_nil; unfold ends_apart; cbn [e_seg];
    first [left; split; reflexivity|right; left; split; [reflexivity|vm_compute; discriminate]|right; right; left; split; [reflexivity|vm_compute; discriminate]
          |right; right; right; left; vm_compute; discriminate]. }
  intros n. unfold policies_of_board.
  assert (E : (let! b := for_each (adjust_edges_to_materials isort_by) all_planes stuck_board in
          let! b := for_each (detect_diagonal_angles (fun _ _ => 10)) all_planes b in
          let! b := for_each (detect_diagonal_zones usual usual_diag isort_by) all_planes b in
          for_each (solve_diagonal_angles usual_diag) all_axes b) = Done stuck4) by (vm_compute; reflexivity).
  destruct (for_each (adjust_edges_to_materials isort_by) all_planes stuck_board) as [b1| |]; cbn [bind] in *; try discriminate.
  destruct (for_each (detect_diagonal_angles (fun _ _ => 10)) all_planes b1) as [b2| |]; cbn [bind] in *; try discriminate.
  destruct (for_each (detect_diagonal_zones usual usual_diag isort_by) all_planes b2) as [b3| |]; cbn [bind] in *; try discriminate.
  rewrite E. cbn [bind]. rewrite stuck_detect. reflexivity.
Qed.

Print Assumptions C56_safe.
Print Assumptions C56_policies.
Print Assumptions C56_lines.
Print Assumptions C56_boxes.
Print Assumptions C56_short_refuted.
Print Assumptions C56_stuck_refuted.
