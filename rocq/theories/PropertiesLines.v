(** Property C55: from the shapes of a board to its lines. *)
From Coq Require Import List Arith Bool Lia QArith Qabs Qminmax Lqa Sorting.Sorted Sorting.Permutation.
From Verif Require Import IntervalModel IntervalSpec ManagerModel ManagerSpec ManagerProofs ManagerMoreProofs GeomModel GeomSpec GeomProofs.
From Verif Require Import BoardModel BoardSpec BoardProofs BoardBuiltProofs BoardIndividualProofs BoardRunProofs BoardClassProofs BoardDiagProofs BoardLinesProofs BoardExamples.
From Verif Require Import PropertiesRun PropertiesDiag.
Import ListNotations.
Open Scope Q_scope.

(** Whatever the shapes, once there are policies the lines are found. *)
Theorem C55_ends : forall fuel g d srt srt' ang fixed b0 b, sorts_by srt -> sorts srt' -> built b0 -> usable g d ->
  policies_of_board fuel g d srt ang fixed b0 = Done b -> exists b', finishes (fun n => lines_of_board n g srt' b) b'.
Proof.
  intros fuel g d srt srt' ang fixed b0 b So So' Bu (P0 & D0 & S1 & Z0) E.
  destruct (run_lines fuel g d srt srt' ang fixed b0 b So So' Bu E P0 D0 S1 Z0) as (b' & F & _). eauto.
Qed.

Lemma lines_known fuel g d srt srt' ang fixed b0 b b' : sorts_by srt -> sorts srt' -> built b0 -> usable g d ->
  policies_of_board fuel g d srt ang fixed b0 = Done b -> finishes (fun n => lines_of_board n g srt' b) b' -> board_lines g d srt' b0 b b'.
Proof.
  intros So So' Bu (P0 & D0 & S1 & Z0) E F. destruct (run_lines fuel g d srt srt' ang fixed b0 b So So' Bu E P0 D0 S1 Z0) as (b1 & F1 & H).
  now rewrite (finishes_unique _ _ _ F F1).
Qed.

(** Only the axes change. *)
Theorem C55_frame : forall fuel g d srt srt' ang fixed b0 b b', sorts_by srt -> sorts srt' -> built b0 -> usable g d ->
  policies_of_board fuel g d srt ang fixed b0 = Done b -> finishes (fun n => lines_of_board n g srt' b) b' -> b' = set_axes b (b_axes b').
Proof. intros. apply (bl_rest g d srt' b0). eapply lines_known; eassumption. Qed.

(** The lines of an axis are increasing and no two are farther apart than the largest
    [dmax]; they are between the enabled policies. *)
Theorem C55_spaced : forall fuel g d srt srt' ang fixed b0 b b', sorts_by srt -> sorts srt' -> built b0 -> usable g d ->
  policies_of_board fuel g d srt ang fixed b0 = Done b -> finishes (fun n => lines_of_board n g srt' b) b' ->
  forall ax, increasing (ax_lines (on_axis (b_axes b') ax)) /\ within (Qmax (g_dmax g) (dp_dmax d)) (ax_lines (on_axis (b_axes b') ax))
    /\ forall x, In x (ax_lines (on_axis (b_axes b') ax)) ->
         exists i p j q, enabled_at (on_axis (b_axes b') ax) i p /\ enabled_at (on_axis (b_axes b') ax) j q /\ p_coord p <= x <= p_coord q.
Proof.
  intros fuel g d srt srt' ang fixed b0 b b' So So' Bu U E F ax. destruct (bl_axes _ _ _ _ _ _ (lines_known _ _ _ _ _ _ _ _ _ _ So So' Bu U E F) ax) as (zs & ax1 & R & _).
  split; [apply R|]. split; [apply R|]. apply R.
Qed.

(** Between two neighbour policies, the gaps are bounded by the [dmax] of diagonals if a
    diagonal edge passes over their middle, by the general one else. *)
Theorem C55_diagonal : forall fuel g d srt srt' ang fixed b0 b b', sorts_by srt -> sorts srt' -> built b0 -> usable g d ->
  policies_of_board fuel g d srt ang fixed b0 = Done b -> finishes (fun n => lines_of_board n g srt' b) b' ->
  forall ax p q, neighbours (on_axis (b_axes b') ax) p q ->
    (under_diagonal b0 ax ((p_coord p + p_coord q) / 2) -> fine (dp_dmax d) (ax_lines (on_axis (b_axes b') ax)) (p_coord p) (p_coord q))
    /\ (~ under_diagonal b0 ax ((p_coord p + p_coord q) / 2) -> fine (g_dmax g) (ax_lines (on_axis (b_axes b') ax)) (p_coord p) (p_coord q)).
Proof.
  intros fuel g d srt srt' ang fixed b0 b b' So So' Bu U E F ax p q N.
  destruct (bl_axes _ _ _ _ _ _ (lines_known _ _ _ _ _ _ _ _ _ _ So So' Bu U E F) ax) as (zs & ax1 & R & _ & Z). unfold under_diagonal. rewrite <- Z. split; intros H.
  - now apply (ar_in _ _ _ _ _ _ R).
  - apply (ar_out _ _ _ _ _ _ R); [assumption|]. intros z I X. apply H. eauto.
Qed.

(** The policies are those there were, too close ones being merged, [d] apart. *)
Theorem C55_policies : forall fuel g d srt srt' ang fixed b0 b b', sorts_by srt -> sorts srt' -> built b0 -> usable g d ->
  policies_of_board fuel g d srt ang fixed b0 = Done b -> finishes (fun n => lines_of_board n g srt' b) b' ->
  forall ax, exists ax1, finishes (fun n => detect_and_solve_too_close n g srt' (on_axis (b_axes b) ax)) ax1
    /\ Forall2 same_but_d (ax_policies ax1) (ax_policies (on_axis (b_axes b') ax))
    /\ forall i j p q, i <> j -> enabled_at (on_axis (b_axes b') ax) i p -> enabled_at (on_axis (b_axes b') ax) j q ->
         g_proximity_limit g < Qabs (p_coord p - p_coord q).
Proof.
  intros fuel g d srt srt' ang fixed b0 b b' So So' Bu U E F ax. destruct (bl_axes _ _ _ _ _ _ (lines_known _ _ _ _ _ _ _ _ _ _ So So' Bu U E F) ax) as (zs & ax1 & R & Fi & _).
  exists ax1. split; [assumption|]. split; [apply R|apply R].
Qed.

Lemma oneline_line g zs Dz ax ax1 ax3 p x : axis_run g zs Dz ax ax1 ax3 -> In p (ax_policies ax) -> p_enabled p = true -> p_policy p = ONELINE ->
  Qabs (p_coord p - x) < equality_tolerance -> exists y, In y (ax_lines ax3) /\ Qabs (y - x) < equality_tolerance + (5 # 2) * g_proximity_limit g.
Proof.
  intros R I En O H. apply In_nth_error in I. destruct I as (i & P). destruct (ar_moved _ _ _ _ _ _ R i p (conj P En)) as (j & q & Ej & G & Oq).
  exists (p_coord q). split; [apply (ar_oneline _ _ _ _ _ _ R j q Ej (Oq O))|].
  setoid_replace (p_coord q - x) with ((p_coord q - p_coord p) + (p_coord p - x)) by ring. eapply Qle_lt_trans; [apply Qabs_triangle|].
  rewrite (Qabs_Qminus (p_coord q)). lra.
Qed.

(** Each fixed line is there, up to the tolerance and what merging moves. *)
Theorem C55_fixed : forall fuel g d srt srt' ang fixed b0 b b', sorts_by srt -> sorts srt' -> built b0 -> usable g d ->
  policies_of_board fuel g d srt ang fixed b0 = Done b -> finishes (fun n => lines_of_board n g srt' b) b' ->
  forall ax x, In x (on_axis fixed ax) ->
    exists y, In y (ax_lines (on_axis (b_axes b') ax)) /\ Qabs (y - x) < equality_tolerance + (5 # 2) * g_proximity_limit g.
Proof.
  intros fuel g d srt srt' ang fixed b0 b b' So So' Bu U E F ax x I. destruct (bl_axes _ _ _ _ _ _ (lines_known _ _ _ _ _ _ _ _ _ _ So So' Bu U E F) ax) as (zs & ax1 & R & _).
  destruct (run_steps _ _ _ _ _ _ _ _ E) as (b1 & b4 & b5 & b6 & b7 & b8 & b9 & H). destruct (run_result_of _ _ _ _ _ _ _ _ _ _ _ _ _ _ _ So Bu H) as [Rr _].
  destruct (rr_policies _ _ _ _ Rr ax) as (Fx & C & (G & _) & Gf & _). destruct (fixed_near g (on_axis fixed ax) (mk_axis [] [] [] []) x I) as (p & Ip & O & _ & Near).
  destruct Gf as (Gf & _). cbn in Gf. destruct (fixed_appends g (on_axis fixed ax) (mk_axis [] [] [] [])) as (l & El & Fl). rewrite El in Gf, Ip. cbn in Gf, Ip. subst l.
  rewrite Forall_forall in Fl. destruct (Fl p Ip) as (x' & _ & Ep).
  apply (oneline_line g zs (dp_dmax d) _ ax1 _ p x R); [|now rewrite Ep|assumption|exact Near].
  rewrite G. cbn. apply in_or_app. now left.
Qed.

(** So is a line for edges that face no side. *)
Theorem C55_oneline : forall fuel g d srt srt' ang fixed b0 b b', sorts_by srt -> sorts srt' -> built b0 -> transitive_at b0 -> usable g d ->
  policies_of_board fuel g d srt ang fixed b0 = Done b -> finishes (fun n => lines_of_board n g srt' b) b' ->
  forall ax i x, needs_line b ax i -> across b ax i x -> class_faces b i NNONE ->
    exists y, In y (ax_lines (on_axis (b_axes b') ax)) /\ Qabs (y - x) < equality_tolerance + (5 # 2) * g_proximity_limit g.
Proof.
  intros fuel g d srt srt' ang fixed b0 b b' So So' Bu T U E F ax i x N X Cf. destruct (bl_axes _ _ _ _ _ _ (lines_known _ _ _ _ _ _ _ _ _ _ So So' Bu U E F) ax) as (zs & ax1 & R & _).
  destruct (C54_lined fuel g d srt ang fixed b0 b So Bu T E ax i x N X) as (p & Ip & En & Near & Fi).
  apply (oneline_line g zs (dp_dmax d) _ ax1 _ p x R); try assumption. unfold class_fits in Fi. destruct (p_policy p); [reflexivity|exfalso; tauto..].
Qed.

(** Each edge that needs a line has a policy nearby in the end, and unless all of the
    policies of the axis are there, a line in reach. *)
Theorem C55_edges : forall fuel g d srt srt' ang fixed b0 b b', sorts_by srt -> sorts srt' -> built b0 -> transitive_at b0 -> usable g d ->
  policies_of_board fuel g d srt ang fixed b0 = Done b -> finishes (fun n => lines_of_board n g srt' b) b' ->
  forall ax i x, needs_line b ax i -> across b ax i x ->
    exists j q, enabled_at (on_axis (b_axes b') ax) j q /\ Qabs (p_coord q - x) < equality_tolerance + (5 # 2) * g_proximity_limit g
    /\ ((forall k r, enabled_at (on_axis (b_axes b') ax) k r -> p_coord r == p_coord q)
        \/ exists y, In y (ax_lines (on_axis (b_axes b') ax)) /\ Qabs (p_coord q - y) <= Qmax (g_dmax g) (dp_dmax d)).
Proof.
  intros fuel g d srt srt' ang fixed b0 b b' So So' Bu T U E F ax i x N X. destruct (bl_axes _ _ _ _ _ _ (lines_known _ _ _ _ _ _ _ _ _ _ So So' Bu U E F) ax) as (zs & ax1 & R & _).
  destruct (C54_lined fuel g d srt ang fixed b0 b So Bu T E ax i x N X) as (p & Ip & En & Near & _). apply In_nth_error in Ip. destruct Ip as (k & P).
  destruct (ar_moved _ _ _ _ _ _ R k p (conj P En)) as (j & q & Ej & G & _). exists j, q. split; [assumption|]. split; [|exact (line_near _ _ _ _ _ _ _ _ R Ej)].
  setoid_replace (p_coord q - x) with ((p_coord q - p_coord p) + (p_coord p - x)) by ring. eapply Qle_lt_trans; [apply Qabs_triangle|].
  rewrite (Qabs_Qminus (p_coord q)). lra.
Qed.

(** The triangles of C57: there are lines, [usable] holds, and there are neighbours
    under a diagonal edge, and some that are not. *)
Lemma too_close_mono n : forall m g srt ax r, detect_and_solve_too_close n g srt ax = Done r -> (n <= m)%nat -> detect_and_solve_too_close m g srt ax = Done r.
Proof.
  induction n as [|n IH]; intros m g srt ax r E L; [discriminate|]. destruct m as [|m]; [lia|]. cbn in *.
  destruct (detect_closest srt ax (g_proximity_limit g)) as [[a b]|]; [|assumption]. destruct (add_too_close ax a b) as [[[ax' c]|]| |]; cbn [bind] in *; try discriminate.
  - destruct (solve_too_close g ax' c); cbn [bind] in *; try discriminate. apply IH; [assumption|lia].
  - apply IH; [assumption|lia].
Qed.
Definition triangles_close : axis := Eval vm_compute in
  match detect_and_solve_too_close 20 usual isort (on_axis (b_axes triangles_run) AX) with Done ax => ax | _ => mk_axis [] [] [] [] end.
Example C55_example : built triangles /\ sorts_by isort_by /\ sorts isort /\ usable usual usual_diag
  /\ policies_of_board 10 usual usual_diag isort_by (fun _ _ => 10) (mk_space [] [] []) triangles = Done triangles_run
  /\ exists b', finishes (fun n => lines_of_board n usual isort triangles_run) b'
    /\ (exists p q, neighbours (on_axis (b_axes b') AX) p q /\ p_coord p = 0 /\ p_coord q = 20 /\ under_diagonal triangles AX ((p_coord p + p_coord q) / 2))
    /\ (exists p q, neighbours (on_axis (b_axes b') AX) p q /\ p_coord p = 20 /\ p_coord q = 60 # 2 /\ ~ under_diagonal triangles AX ((p_coord p + p_coord q) / 2)).
Proof.
  destruct C57_example as (B & So & E & _). assert (U : usable usual usual_diag) by (repeat split; cbn; lra).
  split; [assumption|]. split; [assumption|]. split; [exact isort_sorts|]. split; [assumption|]. split; [assumption|].
  destruct (C55_ends 10 usual usual_diag isort_by isort _ _ triangles triangles_run So isort_sorts B U E) as (b' & F). exists b'. split; [assumption|].
  destruct (C55_policies 10 usual usual_diag isort_by isort _ _ triangles triangles_run b' So isort_sorts B U E F AX) as (ax1 & F1 & Sm & _).
  assert (ax1 = triangles_close) as ->.
  { apply (finishes_unique _ _ _ F1). exists 20%nat. intros m L. apply (too_close_mono 20); [vm_compute; reflexivity|assumption]. }
  assert (K : forall i p, nth_error (ax_policies triangles_close) i = Some p -> exists q, policy_at (on_axis (b_axes b') AX) i q /\ p_coord q = p_coord p /\ p_enabled q = p_enabled p).
  { intros i p N. destruct (ManagerMeshProofs.forall2_nth _ _ _ _ _ Sm N) as (q & Q & (C & _ & _ & En)). exists q. now repeat split. }
  assert (En : forall k r, enabled_at (on_axis (b_axes b') AX) k r -> In (p_coord r) [0; 20; 60 # 2; 40]).
  { intros k r [P En]. destruct (same_at _ _ _ _ Sm P) as (p & N & (C & _ & _ & Ep)). rewrite <- C. rewrite <- Ep in En. clear - N En.
    assert (H : forall p, In p (ax_policies triangles_close) -> p_enabled p = true -> In (p_coord p) [0; 20; 60 # 2; 40]).
    { clear. intros p I E. cbn in I. repeat (destruct I as [<-|I]; [first [discriminate E|cbn; tauto]|]). destruct I. }
    apply H; [eapply nth_error_In; exact N|assumption]. }
  clear Sm F1.
  pose proof (K 2%nat _ eq_refl) as (p2 & P2 & C2 & E2). pose proof (K 6%nat _ eq_refl) as (p6 & P6 & C6 & E6). pose proof (K 10%nat _ eq_refl) as (p10 & P10 & C10 & E10). cbn in C2, E2, C6, E6, C10, E10. split.
  - exists p2, p6. split; [|split; [assumption|split; [assumption|]]].
    + exists 2%nat, 6%nat. split; [now split|]. split; [now split|]. rewrite C2, C6. split; [reflexivity|]. intros k r Pr. destruct (En k r Pr) as [<-|[<-|[<-|[<-|[]]]]]; [left|right|right|right]; lra.
    + rewrite C2, C6. exists PXY, VH. split; [reflexivity|]. exists 5%nat. eexists. split; [reflexivity|]. split; [reflexivity|]. split; [reflexivity|]. split; [reflexivity|]. clear. unfold passes. cbn. assert ((0 + 20) / 2 == 10) as -> by reflexivity. right. lra.
  - exists p6, p10. split; [|split; [assumption|split; [assumption|]]].
    + exists 6%nat, 10%nat. split; [now split|]. split; [now split|]. rewrite C6, C10. split; [reflexivity|]. intros k r Pr. destruct (En k r Pr) as [<-|[<-|[<-|[<-|[]]]]]; [left|left|right|right]; lra.
    + rewrite C6, C10. intros (p & v & V & i & e & Ei & P & _ & _ & H). unfold edge_at in Ei.
      do 9 (destruct i as [|i]; [cbn in Ei; injection Ei as <-; cbn in P; subst p; destruct v; try discriminate V; unfold passes in H; cbn in H; assert (X : (20 + (60 # 2)) / 2 == 25) by reflexivity; rewrite X in H; clear - H; lra|]). destruct i; discriminate Ei.
Qed.

(** A flat shape, whose edges face no side, above a box. *)
Definition flat_board : board := Eval vm_compute in shape_on (box_on (empty_board (Some AIR)) CONDUCTOR 1 0 10 0 10) [mk_pt 2 20; mk_pt 8 20].
Definition flat_run : board := Eval vm_compute in result (policies_of_board 10 usual usual_diag isort_by (fun _ _ => 90) (mk_space [] [5] []) flat_board).
Example C55_flat_example : built flat_board /\ transitive_at flat_board /\ usable usual usual_diag
  /\ policies_of_board 10 usual usual_diag isort_by (fun _ _ => 90) (mk_space [] [5] []) flat_board = Done flat_run
  /\ needs_line flat_run AY 4 /\ across flat_run AY 4 20 /\ class_faces flat_run 4 NNONE.
Proof.
  split.
  { apply (built_more PXY (Some CONDUCTOR) 1 (range_z 0 1) [mk_pt 2 20; mk_pt 8 20] (box_on (empty_board (Some AIR)) CONDUCTOR 1 0 10 0 10)); [|vm_compute; reflexivity].
    apply (built_box (empty_board (Some AIR)) CONDUCTOR 1 0 10 0 10); [constructor|vm_compute; reflexivity]. }
  split; [apply transitive_grid; vm_compute; reflexivity|]. split; [repeat split; cbn; lra|]. split; [vm_compute; reflexivity|].
  assert (A : across flat_run AY 4 20) by (eexists; exists VH; split; [reflexivity|]; repeat split). assert (C : colinear_at flat_run 4 5).
  { do 2 eexists. split; [reflexivity|]. split; [reflexivity|]. split; [reflexivity|]. exists VH. repeat split. }
  split; [|split; [assumption|]].
  - split; [eexists; exact A|]. eexists. split; [reflexivity|]. split; [reflexivity|]. right. exists 5%nat. split; [discriminate|assumption].
  - exists 5%nat. eexists. split; [reflexivity|]. split; [assumption|]. split; reflexivity.
Qed.

Print Assumptions C55_ends.
Print Assumptions C55_frame.
Print Assumptions C55_spaced.
Print Assumptions C55_diagonal.
Print Assumptions C55_policies.
Print Assumptions C55_fixed.
Print Assumptions C55_oneline.
Print Assumptions C55_edges.
