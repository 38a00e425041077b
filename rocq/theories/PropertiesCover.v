(** Property C35: edges in polygons. *)
From Coq Require Import List Arith Bool Lia QArith Qabs Lqa Sorting.Permutation.
From Verif Require Import IntervalModel IntervalSpec IntervalProofs ManagerModel ManagerProofs GeomModel GeomSpec GeomProofs.
From Verif Require Import BoardModel BoardSpec BoardProofs BoardColinearProofs BoardCoverProofs BoardDetectProofs BoardExamples.
Import ListNotations.
Open Scope Q_scope.

(* ------------------------------------------------------------------ *)
(** * C35: an edge is dismissed when it is covered *)

(** An edge is dismissed only if overlaps cover all of it, up to the tolerance: a
    partly covered edge stays. *)
Theorem C35_dismissed : forall srt p b b' n c e e' v, sorts_by srt -> one_each b p ->
  auto_solve_all_edge_in_polygon srt b p = Done b' ->
  eip_at b p n c -> edge_at b (ei_edge c) e -> straight v (e_seg e) -> (forall o, In o (ei_overlaps c) -> range_of v e o) ->
  edge_at b' (ei_edge c) e' -> e_to_mesh e' = false ->
  nearly_covered_by (ei_overlaps c) (e_seg e).
Proof.
  intros srt p b b' n c e e' v So One E C Ed St R E' M. pose proof (auto_solve_in_polygon srt p b b' One E) as [_ D _ _].
  destruct (D n c e (nth_lt _ _ _ C) C Ed) as (m & A & Ee & _).
  assert (e' = set_to_mesh (negb (seg_eqb (e_seg e) m)) (InEIP p n) e) as -> by (unfold edge_at in *; congruence). cbn in M.
  apply (answer_sound srt v b c e m); try assumption. now apply negb_false_iff.
Qed.

(** An edge that overlaps cover is dismissed, when they all go along it and are with the
    inside of polygons or with edges that face another side. *)
Theorem C35_covered : forall srt p b b' n c e e' v, sorts_by srt -> one_each b p ->
  auto_solve_all_edge_in_polygon srt b p = Done b' ->
  eip_at b p n c -> edge_at b (ei_edge c) e -> straight v (e_seg e) ->
  (forall o, In o (ei_overlaps c) -> range_of v e o /\ other_side b e o /\ forward_in v e o) ->
  covered_by (ei_overlaps c) (e_seg e) ->
  edge_at b' (ei_edge c) e' -> e_to_mesh e' = false /\ e_solves e' = Some (InEIP p n).
Proof.
  intros srt p b b' n c e e' v So One E C Ed St R Co E'. pose proof (auto_solve_in_polygon srt p b b' One E) as [_ D _ _].
  destruct (D n c e (nth_lt _ _ _ C) C Ed) as (m & A & Ee & _).
  assert (e' = set_to_mesh (negb (seg_eqb (e_seg e) m)) (InEIP p n) e) as -> by (unfold edge_at in *; congruence). cbn. split; [|reflexivity].
  apply negb_false_iff. assert (ei_overlaps c <> []) as Ne.
  { destruct (Co (s0 (e_seg e)) (on_seg_s0 _)) as (o & I & _). intros K. now rewrite K in I. }
  destruct (answer_complete srt v b c e So St Ne R Co) as (m' & (o & r & A1 & A2) & Eq). destruct A as (o' & r' & A1' & A2'). congruence.
Qed.

(** Nothing but these edges and conflicts changes, and edges without a conflict do not. *)
Theorem C35_frame : forall srt p b b', one_each b p -> auto_solve_all_edge_in_polygon srt b p = Done b' ->
  same_but_solutions p b b'
  /\ (forall i, (forall n c, eip_at b p n c -> ei_edge c <> i) -> nth_error (b_edges b') i = nth_error (b_edges b) i).
Proof.
  intros srt p b b' One E. pose proof (auto_solve_in_polygon srt p b b' One E) as [S _ _ O]. split; [assumption|].
  intros i H. apply O. intros n c _. apply H.
Qed.

(** Nothing is dereferenced in vain. *)
Theorem C35_ends : forall srt p b, permutes srt -> one_each b p -> well_formed_eip b p ->
  exists b', auto_solve_all_edge_in_polygon srt b p = Done b'.
Proof. intros. now apply auto_solve_in_polygon_ends. Qed.

(** Detection gives such conflicts: one per edge, linked both ways, about polygons that
    may hide the edge and their edges that overlap it; nothing else changes. *)
Theorem C35_detected : forall fuel srt b p b', edges_in_place b -> no_eip b p -> detect_edges_in_polygons fuel srt b p = Done b' ->
  same_but_eip p b b' /\ one_each b' p /\ well_formed_eip b' p /\ eip_links b' p
  /\ forall n c o, eip_at b' p n c -> In o (ei_overlaps c) -> may_hide b (ei_edge c) (ov_polygon o)
     /\ forall j, ov_edge o = Some j -> exists g e f, nth_error (b_polygons b) (ov_polygon o) = Some g /\ In j (g_edges g)
          /\ edge_at b (ei_edge c) e /\ edge_at b j f
          /\ relation_seg (e_seg e) (e_seg f) = OVERLAPPING /\ overlap (e_seg e) (e_seg f) = Some (ov_range o).
Proof.
  intros fuel srt b p b' Pl No E. destruct (detect_in_polygons_spec fuel srt b p b' Pl No E) as ([S O C L] & _).
  assert (R : forall n c o, eip_at b' p n c -> In o (ei_overlaps c) -> may_hide b (ei_edge c) (ov_polygon o)
     /\ forall j, ov_edge o = Some j -> exists g e f, nth_error (b_polygons b) (ov_polygon o) = Some g /\ In j (g_edges g)
          /\ edge_at b (ei_edge c) e /\ edge_at b j f
          /\ relation_seg (e_seg e) (e_seg f) = OVERLAPPING /\ overlap (e_seg e) (e_seg f) = Some (ov_range o)).
  { intros n c o Cn I. destruct (C n c Cn) as (_ & _ & _ & Q). destruct (Q o I) as (H & ea & g & Ea & G & R). split; [assumption|].
    intros j J. rewrite J in R. destruct R as (Ij & eb & Eb & M). exists g, ea, eb. do 4 (split; [assumption|]).
    unfold met in M. destruct (relation_seg (e_seg ea) (e_seg eb)); try discriminate. split; [reflexivity|].
    destruct (overlap (e_seg ea) (e_seg eb)) as [r|]; [|discriminate]. destruct (seg_axis r); cbn in M; congruence. }
  split; [assumption|]. split; [assumption|]. split; [|split; [assumption|exact R]].
  intros n c Cn. destruct (C n c Cn) as (Ne & _ & (e & Ee) & _). split; [assumption|]. split.
  - destruct (same_eip_edge p b b' _ e S Ee) as (e' & E' & _). eauto.
  - intros o I j J. destruct (R n c o Cn I) as (_ & K). destruct (K j J) as (g & e1 & f & _ & _ & _ & F & _).
    destruct (same_eip_edge p b b' _ f S F) as (f' & F' & _). eauto.
Qed.

(** A covered edge may stay: here the three boxes of a higher priority cover it, but the
    range shared with an edge goes the other way. *)
Theorem C35_mixed_refuted : exists b b', detect_edges_in_polygons 10 isort_by three_over PXY = Done b
  /\ auto_solve_all_edge_in_polygon isort_by b PXY = Done b'
  /\ exists c e e', eip_at b PXY 0 c /\ edge_at b (ei_edge c) e /\ edge_at b' (ei_edge c) e'
     /\ (forall o, In o (ei_overlaps c) -> other_side b e o) /\ covered_by (ei_overlaps c) (e_seg e) /\ e_to_mesh e' = true.
Proof.
  destruct (detect_edges_in_polygons 10 isort_by three_over PXY) as [b| |] eqn:D; [|vm_compute in D; discriminate|vm_compute in D; discriminate].
  destruct (auto_solve_all_edge_in_polygon isort_by b PXY) as [b'| |] eqn:A.
  2,3: vm_compute in D; injection D as <-; vm_compute in A; discriminate.
  exists b, b'. split; [reflexivity|]. split; [assumption|]. vm_compute in D. injection D as <-. vm_compute in A. injection A as <-.
  do 3 eexists. do 3 (split; [reflexivity|]). split; [|split; [|reflexivity]].
  - cbn. intros o [<-|[<-|[<-|[]]]]; cbn; try exact I. eexists. split; [reflexivity|]. discriminate.
  - intros q (t & T & Qx & Qy). cbn in Qx, Qy. destruct (Qlt_le_dec (px q) 4) as [L|L]; [|destruct (Qlt_le_dec (px q) 8) as [L'|L']].
    + eexists. split; [right; left; reflexivity|]. exists ((5 - px q) / 5). cbn. split; [split|split].
      * apply Qle_shift_div_l; lra.
      * apply Qle_shift_div_r; lra.
      * field.
      * lra.
    + eexists. split; [right; right; left; reflexivity|]. exists ((px q - 4) / 4). cbn. split; [split|split].
      * apply Qle_shift_div_l; lra.
      * apply Qle_shift_div_r; lra.
      * field.
      * lra.
    + eexists. split; [left; reflexivity|]. exists ((20 - px q) / 14). cbn. split; [split|split].
      * apply Qle_shift_div_l; lra.
      * apply Qle_shift_div_r; lra.
      * field.
      * lra.
Qed.

(** Whether an edge strictly inside a box of a higher priority stays may depend on the
    order of polygons, when another one has a side on it. *)
Theorem C35_order_refuted : exists i e e',
  edge_at inside_third i e /\ edge_at inside_second i e
  /\ inside (mk_box (-5) 25 (-5) 25) (s0 (e_seg e)) /\ inside (mk_box (-5) 25 (-5) 25) (s1 (e_seg e))
  /\ edge_at (edges_in_polygons inside_third) i e' /\ e_to_mesh e' = true
  /\ exists e'', edge_at (edges_in_polygons inside_second) i e'' /\ e_to_mesh e'' = false.
Proof.
  exists 2%nat. do 2 eexists. split; [reflexivity|]. split; [reflexivity|]. split; [vm_compute; intuition discriminate|].
  split; [vm_compute; intuition discriminate|]. split; [vm_compute; reflexivity|]. split; [reflexivity|]. eexists. split; [vm_compute; reflexivity|reflexivity].
Qed.

(** Two boxes of the same priority with a common side: either dismisses its own, and no
    line is set there. *)
Theorem C35_common_side_refuted : exists b, policies_of_board 10 usual usual_diag isort_by (fun _ _ => 0) (mk_space [] [] []) two_boxes = Done b
  /\ (exists e, In e (b_edges two_boxes) /\ seg_axis (e_seg e) = SV /\ px (s0 (e_seg e)) == 0 /\ e_normal e = Nxmin)
  /\ forall x, In x (ax_policies (on_axis (b_axes b) AX)) -> p_coord x == 40.
Proof.
  destruct (policies_of_board 10 usual usual_diag isort_by (fun _ _ => 0) (mk_space [] [] []) two_boxes) as [b| |] eqn:E; [|vm_compute in E; discriminate|vm_compute in E; discriminate].
  exists b. split; [reflexivity|]. split.
  - eexists. split; [right; left; reflexivity|]. vm_compute. repeat split.
  - vm_compute in E. injection E as <-. cbn. intros x [<-|[]]. reflexivity.
Qed.

(** A box beside a wider one of a higher priority: one of its sides is covered by the
    side of the other, the two others are not. *)
Definition stacked : board :=
  Eval vm_compute in box_on (box_on (empty_board (Some AIR)) CONDUCTOR 0 0 20 0 20) CONDUCTOR 1 (-5) 30 20 40.
Definition stacked_detected : board := Eval vm_compute in result (detect_edges_in_polygons 10 isort_by stacked PXY).
Example C35_case : detect_edges_in_polygons 10 isort_by stacked PXY = Done stacked_detected /\ edges_in_place stacked /\ no_eip stacked PXY
  /\ exists b' c e e', auto_solve_all_edge_in_polygon isort_by stacked_detected PXY = Done b' /\ eip_at stacked_detected PXY 0 c
     /\ edge_at stacked_detected (ei_edge c) e /\ straight VH (e_seg e)
     /\ (forall o, In o (ei_overlaps c) -> range_of VH e o /\ other_side stacked_detected e o /\ forward_in VH e o)
     /\ covered_by (ei_overlaps c) (e_seg e) /\ edge_at b' (ei_edge c) e' /\ e_to_mesh e' = false
     /\ map e_to_mesh (b_edges b') = [true; true; false; true; true; true; true; true].
Proof.
  split; [vm_compute; reflexivity|]. split.
  { intros [|[|k]] g G i I; cbn in G; [| |destruct k; discriminate]; injection G as <-; cbn in I;
      destruct I as [<-|[<-|[<-|[<-|[]]]]]; eexists; (split; [reflexivity|reflexivity]). }
  split.
  { split; [reflexivity|]. split.
    - intros i e n E I. do 8 (destruct i as [|i]; [cbn in E; injection E as <-; exact I|]). cbn in E. destruct i; discriminate.
    - intros i g n E I. do 2 (destruct i as [|i]; [cbn in E; injection E as <-; exact I|]). cbn in E. destruct i; discriminate. }
  do 4 eexists. split; [vm_compute; reflexivity|]. split; [reflexivity|]. split; [reflexivity|].
  split; [split; [reflexivity|vm_compute; discriminate]|]. split; [|split; [|split; [reflexivity|split; reflexivity]]].
  - cbn. intros o [<-|[]]. split; [split; [split; [reflexivity|vm_compute; discriminate]|reflexivity]|]. split.
    + eexists. split; [reflexivity|discriminate].
    + split; [reflexivity|]. cbn. tauto.
  - intros q Q. eexists. split; [left; reflexivity|exact Q].
Qed.

(* ------------------------------------------------------------------ *)
Print Assumptions C35_dismissed.
Print Assumptions C35_covered.
Print Assumptions C35_frame.
Print Assumptions C35_ends.
Print Assumptions C35_detected.
Print Assumptions C35_mixed_refuted.
Print Assumptions C35_order_refuted.
Print Assumptions C35_common_side_refuted.
