(** C64: on a board of boxes, no side that shows is dismissed, and it has its line. *)
From Coq Require Import List Arith Bool Lia QArith Qabs Qminmax Lqa.
From Verif Require Import IntervalModel ManagerModel ManagerSpec ManagerMoreProofs GeomModel GeomSpec BoardModel BoardSpec BoardBuiltProofs BoardRunProofs BoardExamples.
From Verif Require Import EndSpec VisibleSpec GridProofs VisibleRunProofs PropertiesRun PropertiesDiag PropertiesLines PropertiesEnd.
Import ListNotations.
Open Scope Q_scope.

(** All of a side that is dismissed is hidden: each of its points is in a box that may
    hide it, up to the tolerance. *)
Theorem C64_dismissed : forall fuel g d srt ang fixed b0 b, sorts_by srt -> built b0 -> only_boxes b0 -> spaced b0 ->
  policies_of_board fuel g d srt ang fixed b0 = Done b ->
  forall i e q, edge_at b i e -> e_to_mesh e = false -> on_seg (e_seg e) q -> unseen b0 i q.
Proof. intros. eapply run_unseen; eassumption. Qed.

(** So a side that shows, be it in one point, is meshed. *)
Theorem C64_shown : forall fuel g d srt ang fixed b0 b, sorts_by srt -> built b0 -> only_boxes b0 -> spaced b0 ->
  policies_of_board fuel g d srt ang fixed b0 = Done b ->
  forall i e, shows b0 i -> edge_at b i e -> e_to_mesh e = true.
Proof.
  intros fuel g d srt ang fixed b0 b So Bu Bx Sp E i e (e0 & q & E0 & O & U) Ei. destruct (e_to_mesh e) eqn:M; [reflexivity|]. exfalso. apply U.
  apply (C64_dismissed fuel g d srt ang fixed b0 b So Bu Bx Sp E i e q Ei M).
  pose proof (C54_geometry fuel g d srt ang fixed b0 b So Bu E) as Geo. destruct (geo_at b0 b i e0 Geo E0) as (e' & Ei' & G).
  assert (e' = e) as -> by (unfold edge_at in *; congruence). injection G as _ G _. now rewrite G.
Qed.

Lemma shown_needs fuel g d srt ang fixed b0 b ax i x : sorts_by srt -> built b0 -> only_boxes b0 -> spaced b0 ->
  policies_of_board fuel g d srt ang fixed b0 = Done b -> shows b0 i -> across b0 ax i x -> needs_line b ax i /\ across b ax i x.
Proof.
  intros So Bu Bx Sp E Sh (e0 & v & E0 & Ax & -> & ->).
  pose proof (C54_geometry fuel g d srt ang fixed b0 b So Bu E) as Geo. destruct (geo_at b0 b i e0 Geo E0) as (e & Ei & G). injection G as G1 G2 G3.
  assert (Ac : across b (axis_of_view (e_plane e0) (reverse_view v)) i (level v (s0 (e_seg e0)))).
  { exists e, v. split; [assumption|]. rewrite G1, G2. now repeat split. }
  split; [|assumption]. split; [eauto|]. exists e. split; [assumption|].
  split; [exact (C64_shown fuel g d srt ang fixed b0 b So Bu Bx Sp E i e Sh Ei)|].
  destruct (side_lined b0 i e0 v Bu Bx Sp E0 Ax) as [N|(j & J & C)].
  - left. rewrite <- G3 in N. unfold faces. destruct (e_normal e), (e_to_reverse e); congruence.
  - right. exists j. split; [assumption|]. exact (colinear_geo b0 b i j Geo C).
Qed.

(** There is an enabled policy where the side is, up to the tolerance, that fits the
    sides there. *)
Theorem C64_policy : forall fuel g d srt ang fixed b0 b, sorts_by srt -> built b0 -> only_boxes b0 -> spaced b0 ->
  policies_of_board fuel g d srt ang fixed b0 = Done b ->
  forall ax i x, shows b0 i -> across b0 ax i x ->
  exists p, In p (ax_policies (on_axis (b_axes b) ax)) /\ p_enabled p = true /\ Qabs (p_coord p - x) < equality_tolerance /\ class_fits b i (p_policy p) (p_normal p).
Proof.
  intros fuel g d srt ang fixed b0 b So Bu Bx Sp E ax i x Sh Ac. destruct (shown_needs fuel g d srt ang fixed b0 b ax i x So Bu Bx Sp E Sh Ac) as [N A].
  exact (C54_lined fuel g d srt ang fixed b0 b So Bu (spaced_transitive b0 Bu Bx Sp) E ax i x N A).
Qed.

(** In the end: the boxes being made of something, there is a mesh, and each straight
    side that shows has a policy nearby, and unless all of the policies of the axis are
    there, a line in reach. *)
Theorem C64_lines : forall g d srt srt' ang fixed b0, sorts_by srt -> permutes srt -> sorts srt' -> usable g d ->
  built b0 -> materials_known b0 -> only_boxes b0 -> spaced b0 ->
  exists b b', finishes (fun n => policies_of_board n g d srt ang fixed b0) b /\ finishes (fun n => lines_of_board n g srt' b) b'
  /\ forall ax i x, shows b0 i -> across b0 ax i x ->
     exists j q, enabled_at (on_axis (b_axes b') ax) j q /\ Qabs (p_coord q - x) < equality_tolerance + (5 # 2) * g_proximity_limit g
     /\ ((forall k r, enabled_at (on_axis (b_axes b') ax) k r -> p_coord r == p_coord q)
         \/ exists y, In y (ax_lines (on_axis (b_axes b') ax)) /\ Qabs (p_coord q - y) <= Qmax (g_dmax g) (dp_dmax d)).
Proof.
  intros g d srt srt' ang fixed b0 So Pm So' U Bu Ma Bx Sp. destruct (C56_boxes g d srt srt' ang fixed b0 So Pm So' U Bu Ma Bx) as (b & b' & F & F').
  exists b, b'. split; [assumption|]. split; [assumption|]. intros ax i x Sh Ac. destruct F as (n & F). pose proof (F n (le_n n)) as E.
  destruct (shown_needs n g d srt ang fixed b0 b ax i x So Bu Bx Sp E Sh Ac) as [N A].
  exact (C55_edges n g d srt srt' ang fixed b0 b b' So So' Bu (spaced_transitive b0 Bu Bx Sp) U E F' ax i x N A).
Qed.

(** A box of a high priority, one inside of it and one that sticks out. *)
Definition stuck1 : board := Eval vm_compute in box_on (empty_board (Some AIR)) CONDUCTOR 1 0 10 0 10.
Definition stuck2 : board := Eval vm_compute in box_on stuck1 DIELECTRIC 0 2 5 3 6.
Definition sticks_out : board := Eval vm_compute in box_on stuck2 DIELECTRIC 0 8 15 4 7.
Lemma sticks_out_built : built sticks_out.
Proof.
  apply (built_box stuck2 DIELECTRIC 0 8 15 4 7); [|vm_compute; reflexivity]. apply (built_box stuck1 DIELECTRIC 0 2 5 3 6); [|vm_compute; reflexivity].
  apply (built_box (empty_board (Some AIR)) CONDUCTOR 1 0 10 0 10); [constructor|vm_compute; reflexivity].
Qed.

(** A check that coordinates are the same or apart. *)
Definition far (x y : Q) : bool := Qeq_bool x y || Qle_bool spacing (Qabs (x - y)).
Definition check_spaced (b : board) : bool :=
  forallb (fun g => forallb (fun h => forallb (fun v => forallb (fun w => far (px v) (px w) && far (py v) (py w)) (g_points h)) (g_points g)) (b_polygons b)) (b_polygons b).
Lemma far_apart x y : far x y = true -> same_or_apart x y.
Proof. intros H. apply orb_true_iff in H. destruct H as [H|H]; [left; now apply Qeq_bool_iff|right; now apply Qle_bool_iff]. Qed.
Lemma check_spaced_sound b : check_spaced b = true -> spaced b.
Proof.
  intros C k l g h v w G H _ V W. unfold check_spaced in C. rewrite forallb_forall in C. pose proof (C g (nth_error_In _ _ G)) as C1. rewrite forallb_forall in C1.
  pose proof (C1 h (nth_error_In _ _ H)) as C2. rewrite forallb_forall in C2. pose proof (C2 v V) as C3. rewrite forallb_forall in C3.
  pose proof (C3 w W) as C4. apply andb_true_iff in C4. destruct C4 as [X Y]. split; now apply far_apart.
Qed.

Definition seen_run (b0 : board) : run board := policies_of_board 10 usual usual_diag isort_by (fun _ _ => 90) (mk_space [] [] []) b0.

(** All that C64 asks for; the lower side of the box that sticks out shows at its end,
    and four sides of one box and one of the other are dismissed. *)
Example C64_example : built sticks_out /\ only_boxes sticks_out /\ materials_known sticks_out /\ spaced sticks_out
  /\ sorts_by isort_by /\ permutes isort_by /\ sorts isort /\ usable usual usual_diag
  /\ shows sticks_out 8 /\ across sticks_out AY 8 4
  /\ exists b, seen_run sticks_out = Done b /\ map e_to_mesh (b_edges b) = [true; true; true; true; false; false; false; false; true; false; true; true].
Proof.
  split; [exact sticks_out_built|]. destruct C56_example as (_ & _ & _ & _ & _ & _ & _ & _ & So & Pm & So' & U).
  split. { refine (of_list (fun g => is_box (g_points g)) _ _). cbv [b_polygons sticks_out].
    constructor; [exists (mk_pt 0 0), (mk_pt 10 10); reflexivity|]. constructor; [exists (mk_pt 2 3), (mk_pt 5 6); reflexivity|].
    constructor; [exists (mk_pt 8 4), (mk_pt 15 7); reflexivity|constructor]. }
  split; [refine (of_list (fun g => g_material g <> None) _ _); cbv [b_polygons sticks_out]; repeat apply Forall_cons; try apply Forall_nil; discriminate|].
  split; [apply check_spaced_sound; vm_compute; reflexivity|]. do 4 (split; [assumption|]). split; [|split].
  - eexists. exists (mk_pt 15 4). split; [vm_compute; reflexivity|]. split; [exists 0; cbn; lra|].
    intros (k & g & q' & (k' & ga & gb & Ga & Gb & D & I & _ & Pr & _) & G & (a & c & Ep & Hb) & Cl).
    assert (gb = g) as -> by congruence. assert (k' = 2%nat) as ->.
    { destruct k' as [|[|[|k']]]; cbn in Ga; [injection Ga as <-; cbn in I; exfalso; lia|injection Ga as <-; cbn in I; exfalso; lia|reflexivity|]. exfalso. now destruct k'. }
    destruct Cl as [Cx _]. apply Qabs_Qlt_condition in Cx. cbn [px] in Cx. destruct Hb as [Hx _]. cbn [hull xmin xmax] in Hx. unfold equality_tolerance in Cx.
    assert (L : px q' <= 10).
    { destruct Hx as [_ Hx]. eapply Qle_trans; [exact Hx|]. apply Q.max_lub; destruct k as [|[|[|k]]]; cbn in G; try congruence; try (now destruct k);
        injection G as <-; cbn in Ep; injection Ep as E1 E2 E3 E4; destruct a, c; cbn in *; subst; vm_compute; discriminate. }
    lra.
  - eexists. exists VH. split; [vm_compute; reflexivity|]. repeat split.
  - eexists. split; vm_compute; reflexivity.
Qed.

(** Boxes smaller than that: a box beside another one, ten millionths away, loses all of
    its sides, for being in the other one. *)
Definition lost1 : board := Eval vm_compute in box_on (empty_board (Some AIR)) CONDUCTOR 1 0 1 0 (1 # 10000).
Definition lost_box : board := Eval vm_compute in box_on lost1 CONDUCTOR 1 (-2 # 100000) (-1 # 100000) (4 # 100000) (6 # 100000).
Theorem C64_small_refuted : exists b0 b, built b0 /\ only_boxes b0 /\ materials_known b0 /\ seen_run b0 = Done b
  /\ (exists k g, nth_error (b_polygons b0) k = Some g
       /\ (forall i, In i (g_edges g) -> (forall e q, edge_at b0 i e -> on_seg (e_seg e) q -> ~ unseen b0 i q) /\ exists e, edge_at b i e /\ e_to_mesh e = false))
  /\ ~ spaced b0.
Proof.
  exists lost_box. eexists. split.
  { apply (built_box lost1 CONDUCTOR 1 (-2 # 100000) (-1 # 100000) (4 # 100000) (6 # 100000)); [|vm_compute; reflexivity].
    apply (built_box (empty_board (Some AIR)) CONDUCTOR 1 0 1 0 (1 # 10000)); [constructor|vm_compute; reflexivity]. }
  split. { refine (of_list (fun g => is_box (g_points g)) _ _). cbv [b_polygons lost_box].
    constructor; [exists (mk_pt 0 0), (mk_pt 1 (1 # 10000)); reflexivity|].
    constructor; [exists (mk_pt (-2 # 100000) (4 # 100000)), (mk_pt (-1 # 100000) (6 # 100000)); reflexivity|constructor]. }
  split; [refine (of_list (fun g => g_material g <> None) _ _); cbv [b_polygons lost_box]; repeat apply Forall_cons; try apply Forall_nil; discriminate|].
  split; [vm_compute; reflexivity|]. split.
  - exists 1%nat. eexists. split; [vm_compute; reflexivity|]. intros i I. split.
    + intros e q Ei O (k & g & q' & (k' & ga & gb & Ga & Gb & D & Ii & _) & G & (a & c & Ep & Hb) & Cl).
      assert (Q : px q <= -1 # 100000).
      { destruct O as (t & T & X & _). cbn in I. destruct I as [<-|[<-|[<-|[<-|[]]]]]; vm_compute in Ei; injection Ei as <-; cbn in X; lra. }
      assert (k' = 1%nat) as ->.
      { cbn in I. destruct k' as [|[|k']]; cbn in Ga; [injection Ga as <-; cbn in Ii; exfalso; lia|reflexivity|]. exfalso. now destruct k'. }
      destruct Cl as [Cx _]. apply Qabs_Qlt_condition in Cx. destruct Hb as [[Hx _] _]. cbn [hull xmin] in Hx. unfold equality_tolerance in Cx.
      assert (L : 0 <= px q').
      { eapply Qle_trans; [|exact Hx]. apply Q.min_glb; destruct k as [|[|k]]; cbn in G; try congruence; try (now destruct k);
          injection G as <-; cbn in Ep; injection Ep as E1 E2 E3 E4; destruct a, c; cbn in *; subst; vm_compute; discriminate. }
      lra.
    + cbn in I. destruct I as [<-|[<-|[<-|[<-|[]]]]]; eexists; (split; [vm_compute; reflexivity|reflexivity]).
  - intros S. destruct (S 1%nat 1%nat _ _ (mk_pt (-2 # 100000) (4 # 100000)) (mk_pt (-1 # 100000) (4 # 100000)) eq_refl eq_refl eq_refl) as [[H|H] _]; [cbn; tauto|cbn; tauto|discriminate|].
    vm_compute in H. now apply H.
Qed.

(* ------------------------------------------------------------------ *)
Print Assumptions C64_dismissed.
Print Assumptions C64_shown.
Print Assumptions C64_policy.
Print Assumptions C64_lines.
Print Assumptions C64_small_refuted.
