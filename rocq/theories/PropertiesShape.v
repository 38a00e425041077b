(** C67: on a board of rectilinear polygons of any shape on a grid, no side that shows is
    dismissed, and it has its line. *)
From Coq Require Import List Arith Bool Lia ZArith QArith Qabs Qminmax Lqa.
From Verif Require Import IntervalModel ManagerModel ManagerSpec ManagerMoreProofs GeomModel GeomSpec GeomProofs GeomLocateProofs LocateProofs BoardModel BoardSpec BoardBuiltProofs BoardRunProofs BoardExamples.
From Verif Require Import EndSpec VisibleSpec GridProofs PropertiesRun PropertiesDiag PropertiesLines PropertiesEnd PropertiesVisible LocateSpec ShapeSpec ShapeRunProofs.
Import ListNotations.
Open Scope Q_scope.

Lemma fine N : (N <= 3535)%positive -> (2 * (2 * N * (2 * N)) <= 100000000)%positive.
Proof. intros H. assert ((Zpos N <= 3535)%Z) by lia. assert ((2 * (2 * Zpos N * (2 * Zpos N)) <= 100000000)%Z) by nia. lia. Qed.

(** All of a side that is dismissed is hidden: each of its points is in a polygon that may
    hide it, by the even-odd rule, up to the tolerance. *)
Theorem C67_dismissed : forall N fuel g d srt ang fixed b0 b, sorts_by srt -> built b0 -> (N <= 3535)%positive -> shaped N b0 ->
  policies_of_board fuel g d srt ang fixed b0 = Done b ->
  forall i e q, edge_at b i e -> e_to_mesh e = false -> on_seg (e_seg e) q -> hidden b0 i q.
Proof. intros N fuel g d srt ang fixed b0 b So Bu F Sh E i e q Ei M O. exact (run_hidden N fuel g d srt ang fixed b0 b i e q So Bu (fine N F) Sh E Ei M O). Qed.

(** So a side that shows, be it in one point, is meshed. *)
Theorem C67_shown : forall N fuel g d srt ang fixed b0 b, sorts_by srt -> built b0 -> (N <= 3535)%positive -> shaped N b0 ->
  policies_of_board fuel g d srt ang fixed b0 = Done b ->
  forall i e, seen b0 i -> edge_at b i e -> e_to_mesh e = true.
Proof.
  intros N fuel g d srt ang fixed b0 b So Bu F Sh E i e (e0 & q & E0 & O & U) Ei. destruct (e_to_mesh e) eqn:M; [reflexivity|]. exfalso. apply U.
  apply (C67_dismissed N fuel g d srt ang fixed b0 b So Bu F Sh E i e q Ei M).
  pose proof (C54_geometry fuel g d srt ang fixed b0 b So Bu E) as Geo. destruct (geo_at b0 b i e0 Geo E0) as (e' & Ei' & G).
  assert (e' = e) as -> by (unfold edge_at in *; congruence). injection G as _ G _. now rewrite G.
Qed.

Lemma seen_needs N fuel g d srt ang fixed b0 b ax i x : sorts_by srt -> built b0 -> (N <= 3535)%positive -> shaped N b0 ->
  policies_of_board fuel g d srt ang fixed b0 = Done b -> seen b0 i -> has_area b0 i -> across b0 ax i x -> needs_line b ax i /\ across b ax i x.
Proof.
  intros So Bu F Sh E Se Ar (e0 & v & E0 & Ax & -> & ->).
  pose proof (C54_geometry fuel g d srt ang fixed b0 b So Bu E) as Geo. destruct (geo_at b0 b i e0 Geo E0) as (e & Ei & G). injection G as G1 G2 G3.
  assert (Ac : across b (axis_of_view (e_plane e0) (reverse_view v)) i (level v (s0 (e_seg e0)))).
  { exists e, v. split; [assumption|]. rewrite G1, G2. now repeat split. }
  split; [|assumption]. split; [eauto|]. exists e. split; [assumption|].
  split; [exact (C67_shown N fuel g d srt ang fixed b0 b So Bu F Sh E i e Se Ei)|].
  pose proof (shaped_normal N b0 i e0 v (fine N F) Bu Sh Ar E0 Ax) as No.
  left. rewrite <- G3 in No. unfold faces. destruct (e_normal e), (e_to_reverse e); congruence.
Qed.

(** There is an enabled policy where the side is, up to the tolerance, that fits the
    sides there. *)
Theorem C67_policy : forall N fuel g d srt ang fixed b0 b, sorts_by srt -> built b0 -> (N <= 3535)%positive -> shaped N b0 ->
  policies_of_board fuel g d srt ang fixed b0 = Done b ->
  forall ax i x, seen b0 i -> has_area b0 i -> across b0 ax i x ->
  exists p, In p (ax_policies (on_axis (b_axes b) ax)) /\ p_enabled p = true /\ Qabs (p_coord p - x) < equality_tolerance /\ class_fits b i (p_policy p) (p_normal p).
Proof.
  intros N fuel g d srt ang fixed b0 b So Bu F Sh E ax i x Se Ar Ac. destruct (seen_needs N fuel g d srt ang fixed b0 b ax i x So Bu F Sh E Se Ar Ac) as [Ne A].
  exact (C54_lined fuel g d srt ang fixed b0 b So Bu (shaped_transitive N b0 (fine N F) Bu Sh) E ax i x Ne A).
Qed.

(** In the end: the polygons being made of something, there is a mesh, and each straight
    side that shows has a policy nearby, and unless all of the policies of the axis are
    there, a line in reach. *)
Theorem C67_lines : forall N g d srt srt' ang fixed b0, sorts_by srt -> permutes srt -> sorts srt' -> usable g d ->
  built b0 -> materials_known b0 -> (N <= 3535)%positive -> shaped N b0 ->
  exists b b', finishes (fun n => policies_of_board n g d srt ang fixed b0) b /\ finishes (fun n => lines_of_board n g srt' b) b'
  /\ forall ax i x, seen b0 i -> has_area b0 i -> across b0 ax i x ->
     exists j q, enabled_at (on_axis (b_axes b') ax) j q /\ Qabs (p_coord q - x) < equality_tolerance + (5 # 2) * g_proximity_limit g
     /\ ((forall k r, enabled_at (on_axis (b_axes b') ax) k r -> p_coord r == p_coord q)
         \/ exists y, In y (ax_lines (on_axis (b_axes b') ax)) /\ Qabs (p_coord q - y) <= Qmax (g_dmax g) (dp_dmax d)).
Proof.
  intros N g d srt srt' ang fixed b0 So Pm So' U Bu Ma F Sh. destruct (shaped_ends N b0 (fine N F) Bu Sh) as [Lo Lc].
  destruct (C56_lines g d srt srt' ang fixed b0 So Pm So' U Bu Ma (or_intror Lo) Lc) as (b & b' & Fi & Fi').
  exists b, b'. split; [assumption|]. split; [assumption|]. intros ax i x Se Ar Ac. destruct Fi as (n & Fi). pose proof (Fi n (le_n n)) as E.
  destruct (seen_needs N n g d srt ang fixed b0 b ax i x So Bu F Sh E Se Ar Ac) as [Ne A].
  exact (C55_edges n g d srt srt' ang fixed b0 b b' So So' Bu (shaped_transitive N b0 (fine N F) Bu Sh) U E Fi' ax i x Ne A).
Qed.

(** * Cases *)

Definition check_shaped (b : board) : bool :=
  forallb (fun g => forallb (fun s => Qeq_bool (px (fst s)) (px (snd s)) || Qeq_bool (py (fst s)) (py (snd s))) (sides (g_points g))
                    && forallb (fun v => Pos.eqb (Qden (px v)) 1 && Pos.eqb (Qden (py v)) 1) (g_points g)) (b_polygons b).
Lemma check_shaped_sound b : check_shaped b = true -> shaped 1 b.
Proof.
  intros C k g G. unfold check_shaped in C. rewrite forallb_forall in C. pose proof (C g (nth_error_In _ _ G)) as H. apply andb_true_iff in H. destruct H as [H1 H2]. rewrite forallb_forall in H1, H2. split.
  - intros a c I. pose proof (H1 (a, c) I) as K. apply orb_true_iff in K. cbn in K. destruct K as [K|K]; [left|right]; now apply Qeq_bool_iff.
  - intros v I. pose proof (H2 v I) as K. apply andb_true_iff in K. destruct K as [K1 K2]. apply Pos.eqb_eq in K1, K2.
    split; [exists (Qnum (px v)); destruct (px v)|exists (Qnum (py v)); destruct (py v)]; cbn in *; subst; reflexivity.
Qed.

(** A fork of two prongs; a box in one, a box between the two, and a bar across. *)
Definition fork : list point := [mk_pt 0 0; mk_pt 9 0; mk_pt 9 9; mk_pt 6 9; mk_pt 6 3; mk_pt 3 3; mk_pt 3 9; mk_pt 0 9].
Definition on_board (r : run board) : board := match r with Done b => b | _ => empty_board None end.
Definition fork1 : board := Eval vm_compute in on_board (add_polygon PXY (Some CONDUCTOR) 1 (range_z 0 1) fork (empty_board (Some AIR))).
Definition fork2 : board := Eval vm_compute in box_on fork1 DIELECTRIC 0 1 2 6 8.
Definition fork3 : board := Eval vm_compute in box_on fork2 DIELECTRIC 0 4 5 6 8.
Definition fork_board : board := Eval vm_compute in box_on fork3 DIELECTRIC 0 1 8 4 5.
Lemma fork_built : built fork_board.
Proof.
  apply (built_box fork3 DIELECTRIC 0 1 8 4 5); [|vm_compute; reflexivity]. apply (built_box fork2 DIELECTRIC 0 4 5 6 8); [|vm_compute; reflexivity].
  apply (built_box fork1 DIELECTRIC 0 1 2 6 8); [|vm_compute; reflexivity].
  apply (built_more PXY (Some CONDUCTOR) 1 (range_z 0 1) fork (empty_board (Some AIR))); [constructor|vm_compute; reflexivity].
Qed.

(** Nothing of a polygon is where its vertices are all on a side of. *)
Lemma off_polygon w l p : ~ (px w == 0 /\ py w == 0) -> (forall v, In v l -> reach w v < reach w p) -> ~ in_polygon l p.
Proof.
  intros Z H. assert (B : ~ on_border l p).
  { intros (a & b & I & (t & T & X & Y)). cbn in X, Y. destruct (sides_in _ _ _ I) as [Ia Ib]. pose proof (H a Ia). pose proof (H b Ib).
    assert (E : reach w p == (1 - t) * reach w a + t * reach w b) by (unfold reach; rewrite X, Y; ring).
    destruct (Qlt_le_dec (reach w a) (reach w b)); nra. }
  intros [K|K]; [contradiction|]. exact (beyond_out w l p Z H B K).
Qed.
(** Between the prongs. *)
Lemma between_prongs p : 3 < px p -> px p < 6 -> 3 < py p -> py p < 9 -> ~ in_polygon fork p.
Proof.
  intros X0 X1 Y0 Y1 [(a & b & I & (t & T & X & Y))|K].
  - cbn in X, Y. cbn in I. repeat (destruct I as [I|I]; [injection I as <- <-; cbn in X, Y; lra|]). destruct I.
  - unfold enclosed in K. unfold fork, sides in K. cbn [chain last filter] in K.
    assert (S : forall a b, px a == px b -> px a < px p -> on_right p (a, b) = false).
    { intros a b E H. destruct (on_right p (a, b)) eqn:R; [|reflexivity]. apply (steep_right a b p E) in R. lra. }
    assert (S' : forall a b, px a == px b -> px p < px a -> (py a < py p /\ py p < py b) \/ (py b < py p /\ py p < py a) -> on_right p (a, b) = true).
    { intros a b E H H'. apply (steep_right a b p E). lra. }
    rewrite (S (mk_pt 0 9) (mk_pt 0 0)), (S (mk_pt 3 3) (mk_pt 3 9)), (S' (mk_pt 9 0) (mk_pt 9 9)), (S' (mk_pt 6 9) (mk_pt 6 3)) in K by (cbn; try reflexivity; lra).
    rewrite !flat_right in K by reflexivity. discriminate K.
Qed.

(** All that C67 asks for; the lower side of the bar shows between the prongs; the sides
    of the box in a prong and the ends of the bar are dismissed, and none of the box
    between the prongs. *)
Example C67_example : built fork_board /\ materials_known fork_board /\ (1 <= 3535)%positive /\ shaped 1 fork_board
  /\ sorts_by isort_by /\ permutes isort_by /\ sorts isort /\ usable usual usual_diag
  /\ seen fork_board 16 /\ has_area fork_board 16 /\ across fork_board AY 16 4
  /\ exists b, seen_run fork_board = Done b /\ map e_to_mesh (b_edges b) =
       [true; true; true; true; true; true; true; true; false; false; false; false; true; true; true; true; true; false; true; false].
Proof.
  split; [exact fork_built|]. destruct C56_example as (_ & _ & _ & _ & _ & _ & _ & _ & So & Pm & So' & U).
  split; [refine (of_list (fun g => g_material g <> None) _ _); cbv [b_polygons fork_board]; repeat apply Forall_cons; try apply Forall_nil; discriminate|].
  split; [lia|]. split; [apply check_shaped_sound; vm_compute; reflexivity|]. do 4 (split; [assumption|]). split; [|split; [|split]].
  - eexists. exists (mk_pt 5 4). split; [vm_compute; reflexivity|]. split; [exists (3 # 7); cbn; lra|].
    intros (k & g & q' & (k' & ga & gb & Ga & Gb & D & I & _) & G & Hp & Cl).
    assert (gb = g) as -> by congruence. assert (k' = 3%nat) as ->.
    { destruct k' as [|[|[|[|k']]]]; cbn in Ga; [injection Ga as <-; cbn in I; exfalso; lia..|reflexivity|]. exfalso. now destruct k'. }
    destruct Cl as [Cx Cy]. apply Qabs_Qlt_condition in Cx, Cy. cbn [px py] in Cx, Cy. unfold equality_tolerance in Cx, Cy.
    destruct k as [|[|[|[|k]]]]; cbn in G; [injection G as <-; cbn [g_points] in Hp..|congruence|now destruct k].
    + revert Hp. apply between_prongs; lra.
    + revert Hp. apply (off_polygon (mk_pt 1 0)); [intros [K _]; discriminate K|]. intros v V. cbn in V. unfold reach. destruct V as [<-|[<-|[<-|[<-|[]]]]]; cbn; lra.
    + revert Hp. apply (off_polygon (mk_pt 0 (-1))); [intros [_ K]; discriminate K|]. intros v V. cbn in V. unfold reach. destruct V as [<-|[<-|[<-|[<-|[]]]]]; cbn; lra.
  - exists 3%nat. eexists. split; [vm_compute; reflexivity|]. split; [cbn; tauto|]. vm_compute. discriminate.
  - eexists. exists VH. split; [vm_compute; reflexivity|]. repeat split.
  - eexists. split; vm_compute; reflexivity.
Qed.

(** Without an area: two squares that meet in a corner, gone round in opposite ways, in
    one chain.  The side at 0 shows, and there is no policy there. *)
Definition knot : list point := [mk_pt 1 1; mk_pt 0 1; mk_pt 0 0; mk_pt 1 0; mk_pt 1 1; mk_pt 1 2; mk_pt 2 2; mk_pt 2 1].
Definition knot_board : board := Eval vm_compute in on_board (add_polygon PXY (Some CONDUCTOR) 1 (range_z 0 1) knot (empty_board (Some AIR))).
Theorem C67_area_refuted : exists b0 b, built b0 /\ materials_known b0 /\ shaped 1 b0 /\ seen_run b0 = Done b
  /\ seen b0 2 /\ across b0 AX 2 0 /\ ~ has_area b0 2
  /\ forall p, In p (ax_policies (on_axis (b_axes b) AX)) -> p_coord p == 1.
Proof.
  exists knot_board. eexists. split; [apply (built_more PXY (Some CONDUCTOR) 1 (range_z 0 1) knot (empty_board (Some AIR))); [constructor|vm_compute; reflexivity]|].
  split; [refine (of_list (fun g => g_material g <> None) _ _); cbv [b_polygons knot_board]; repeat apply Forall_cons; try apply Forall_nil; discriminate|].
  split; [apply check_shaped_sound; vm_compute; reflexivity|]. split; [vm_compute; reflexivity|]. split; [|split; [|split]].
  - eexists. exists (mk_pt 0 0). split; [vm_compute; reflexivity|]. split; [exists 1; cbn; lra|].
    intros (k & g & q' & (k' & ga & gb & Ga & Gb & D & _) & _). apply D. destruct k as [|k], k' as [|k']; cbn in Ga, Gb; [reflexivity|now destruct k'|now destruct k|now destruct k].
  - eexists. exists VV. split; [vm_compute; reflexivity|]. repeat split.
  - intros (k & g & G & _ & A). destruct k as [|k]; cbn in G; [injection G as <-; apply A; vm_compute; reflexivity|now destruct k].
  - intros p I. vm_compute in I. destruct I as [<-|[]]. reflexivity.
Qed.

(** Off the grid: a billionth above a vertex of a polygon that is on the left, the lower
    side of a box is taken for inside of that polygon, and is dismissed although all of
    it shows. *)
Definition five : list point := [mk_pt 0 (-1); mk_pt 0 0; mk_pt 0 1; mk_pt 1 1; mk_pt 1 (-1)].
Definition five1 : board := Eval vm_compute in on_board (add_polygon PXY (Some CONDUCTOR) 1 (range_z 0 1) five (empty_board (Some AIR))).
Definition five_board : board := Eval vm_compute in box_on five1 DIELECTRIC 0 2 3 (1 # 1000000000) 1.
Theorem C67_near_refuted : exists b0 b e, built b0 /\ materials_known b0 /\ (forall k g, nth_error (b_polygons b0) k = Some g -> rectilinear (g_points g)) /\ seen_run b0 = Done b
  /\ edge_at b 5 e /\ e_to_mesh e = false /\ forall q, on_seg (e_seg e) q -> ~ hidden b0 5 q.
Proof.
  exists five_board. eexists. eexists. split.
  { apply (built_box five1 DIELECTRIC 0 2 3 (1 # 1000000000) 1); [|vm_compute; reflexivity].
    apply (built_more PXY (Some CONDUCTOR) 1 (range_z 0 1) five (empty_board (Some AIR))); [constructor|vm_compute; reflexivity]. }
  split; [refine (of_list (fun g => g_material g <> None) _ _); cbv [b_polygons five_board]; repeat apply Forall_cons; try apply Forall_nil; discriminate|].
  split. { intros k g G a c I. destruct k as [|[|k]]; cbn in G; [injection G as <-..|now destruct k]; cbn in I; repeat (destruct I as [I|I]; [injection I as <- <-; (left; reflexivity) || (right; reflexivity)|]); destruct I. }
  split; [vm_compute; reflexivity|]. split; [vm_compute; reflexivity|]. split; [reflexivity|].
  intros q O (k & g & q' & (k' & ga & gb & Ga & Gb & D & I & _) & G & Hp & [Cx _]).
  assert (gb = g) as -> by congruence. assert (k' = 1%nat) as ->.
  { destruct k' as [|[|k']]; cbn in Ga; [injection Ga as <-; cbn in I; exfalso; lia|reflexivity|]. exfalso. now destruct k'. }
  apply Qabs_Qlt_condition in Cx. unfold equality_tolerance in Cx. destruct O as (t & T & X & _). cbn in X.
  destruct k as [|[|k]]; cbn in G; [injection G as <-; cbn [g_points] in Hp|congruence|now destruct k].
  revert Hp. apply (off_polygon (mk_pt 1 0)); [intros [K _]; discriminate K|]. intros v V. cbn in V. unfold reach. destruct V as [<-|[<-|[<-|[<-|[<-|[]]]]]]; cbn; lra.
Qed.

(* ------------------------------------------------------------------ *)
Print Assumptions C67_dismissed.
Print Assumptions C67_shown.
Print Assumptions C67_policy.
Print Assumptions C67_lines.
Print Assumptions C67_area_refuted.
Print Assumptions C67_near_refuted.
