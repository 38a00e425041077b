(** Properties C70 and C71: what the dialogs and the steps back and forth do to the lines. *)
From Coq Require Import List Arith Bool Lia QArith Qabs Sorting.Sorted Sorting.Permutation.
From Verif Require Import IntervalModel IntervalSpec ManagerModel ManagerSpec ManagerMoreProofs GeomModel GeomSpec BoardModel BoardSpec BoardExamples PropertiesDiag.
From Verif Require Import EditModel EditSpec EditProofs EditGlobalProofs EditBackProofs EditStayProofs EditZoneProofs EditRestartProofs.
From Verif Require AppModel.
Import AppModel(Step(..), Step_eqb, next, that_and_after).
Import ListNotations.
Open Scope Q_scope.

(** * C70 *)

(** Opening a file runs the steps of BoardModel.v, the ones of C54 and C55. *)
Theorem C70_run : forall tl b x,
  (let! ss := run_all_steps tl (loaded b x) in Done (ss_board ss))
  = let! c := policies_of_board (tl_fuel tl) (st_params x) (st_diag x) (tl_sort_by tl) (tl_angle tl) (tl_fixed tl) b in
    lines_of_board (tl_fuel tl) (st_params x) (tl_sorter tl) c.
Proof.
  intros tl b x. unfold run_all_steps. rewrite run_list_plays. cbn [loaded ss_settings ss_board].
  unfold play, policies_of_board, lines_of_board.
  change (that_and_after ADJUST_EDGE_TO_MATERIAL) with
    [ADJUST_EDGE_TO_MATERIAL; DETECT_DIAG_ANGLES; DETECT_DIAG_ZONES; SOLVE_DIAG_ZONES_ANGLES; DETECT_CONFLICT_EIP; DETECT_CONFLICT_CE; ADD_FIXED_MLP;
     SOLVE_ALL_EIP; SOLVE_ALL_CE; DETECT_INDIVIDUAL_EDGES; DETECT_AND_SOLVE_TCMLP; DETECT_INTERVALS; DETECT_INTERVALS_PER_DIAG_ZONES; SOLVE_DIAG_ZONES_INTERVALS; MESH].
  cbn [for_each do_step]. repeat (match goal with |- bind ?m _ = _ => destruct m; cbn [bind]; try reflexivity end).
Qed.

(** The dialog of the global parameters: whatever was done in other dialogs before, the
    board is the one that opening the file with the new parameters gives, all other
    editions are lost.  Without the dialog of angles: *)
Theorem C70_global : forall tl b x ss l ss1 x', natural (tl_sort_by tl) -> built b -> opened tl b x ss ->
  forallb not_angle l = true -> edits tl l ss = Done ss1 ->
  (forall ss', edit tl (DGlobal x') ss1 = Done ss' -> exists ss0, opened tl b x' ss0 /\ same_result (ss_board ss0) (ss_board ss'))
  /\ (forall ss0, opened tl b x' ss0 -> exists ss', edit tl (DGlobal x') ss1 = Done ss' /\ same_result (ss_board ss0) (ss_board ss')).
Proof.
  intros tl b x ss l ss1 x' Na Bu O Nl E. destruct (global_reopens tl b x ss l ss1 x' Na Bu O (or_introl Nl) E) as [H1 H2]. split.
  - intros ss' E'. destruct (H1 ss' E') as (ss0 & O' & R). exists ss0. split; [assumption|now apply same_board_result].
  - intros ss0 O'. destruct (H2 ss0 O') as (ss' & E' & R). exists ss'. split; [assumption|now apply same_board_result].
Qed.

(** ... with all of them, if no side is slanted so little that it counts as straight. *)
Theorem C70_global_all : forall tl b x ss l ss1 x', natural (tl_sort_by tl) -> sorts_by (tl_sort_by tl) -> built b -> sides_plain b -> opened tl b x ss ->
  edits tl l ss = Done ss1 ->
  (forall ss', edit tl (DGlobal x') ss1 = Done ss' -> exists ss0, opened tl b x' ss0 /\ same_result (ss_board ss0) (ss_board ss'))
  /\ (forall ss0, opened tl b x' ss0 -> exists ss', edit tl (DGlobal x') ss1 = Done ss' /\ same_result (ss_board ss0) (ss_board ss')).
Proof.
  intros tl b x ss l ss1 x' Na So Bu Pl O E.
  destruct (global_reopens tl b x ss l ss1 x' Na Bu O (or_intror (fun b2 b3 => built_all_zoned tl b x b2 b3 So Bu Pl)) E) as [H1 H2]. split.
  - intros ss' E'. destruct (H1 ss' E') as (ss0 & O' & R). exists ss0. split; [assumption|now apply same_board_result].
  - intros ss0 O'. destruct (H2 ss0 O') as (ss' & E' & R). exists ss'. split; [assumption|now apply same_board_result].
Qed.

(** A finding.  On a board without diagonal zones, that is without any diagonal edge, the
    dialogs of edges, angles and intervals do not go back far enough: the lines there
    were stay, whatever is asked for. *)
Theorem C70_stay : forall tl b x ss l ss', sorts (tl_sorter tl) -> opened tl b x ss -> without_zones (ss_board ss) ->
  forallb local l = true -> edits tl l ss = Done ss' -> forall ax, incl (lines_on (ss_board ss) ax) (lines_on (ss_board ss') ax).
Proof. intros tl b x ss l ss'. apply lines_stay. Qed.

Lemma isort_by_natural : natural isort_by.
Proof.
  intros A B f less less' l H. induction l as [|x l IH]; cbn; [reflexivity|]. fold (isort_by B less' (map f l)) (isort_by A less l). rewrite IH.
  generalize (isort_by A less l). intros r. induction r as [|y r IHr]; cbn; [reflexivity|]. rewrite H. destruct (less y x); cbn; [now rewrite IHr|reflexivity].
Qed.
(** A box. *)
Definition one_box : board := Eval vm_compute in box_on (empty_board (Some AIR)) CONDUCTOR 0 0 20 0 20.
Definition plain_tools : tools := mk_tools 20 isort_by isort (fun _ _ => 10) (mk_space [] [] []).
Definition coarse : settings := mk_settings (mk_params 1 1 2 10) (mk_diag_params 5 20).
Definition coarser : settings := mk_settings (mk_params 1 1 1 20) (mk_diag_params 10 20).
Definition session_of (m : run session) : session := match m with Done ss => ss | _ => loaded (empty_board None) coarse end.
Definition box_session : session := Eval vm_compute in session_of (run_all_steps plain_tools (loaded one_box coarse)).
Lemma one_box_built : built one_box.
Proof. apply (built_more PXY (Some CONDUCTOR) 0 (range_z 0 1) (box_points (mk_pt 0 0) (mk_pt 20 20)) (empty_board (Some AIR))); [constructor|vm_compute; reflexivity]. Qed.
Lemma box_opened : opened plain_tools one_box coarse box_session.
Proof. vm_compute. reflexivity. Qed.
Example C70_stay_example : sorts (tl_sorter plain_tools) /\ opened plain_tools one_box coarse box_session /\ without_zones (ss_board box_session)
  /\ exists ss', edits plain_tools [DInterval AX 0 (5 # 2) 2 1 2 1; DEdge 1 false false] box_session = Done ss'
    /\ length (lines_on (ss_board box_session) AX) = 5%nat /\ length (lines_on (ss_board ss') AX) = 32%nat.
Proof.
  split; [exact isort_sorts|]. split; [exact box_opened|]. split; [intros ax; destruct ax; reflexivity|]. eexists. split; [vm_compute; reflexivity|]. split; vm_compute; reflexivity.
Qed.

(** Nor does the dialog of policies, if no two policies were too close. *)
Theorem C70_stay_policies : forall tl b x ss l ss', sorts (tl_sorter tl) -> opened tl b x ss -> without_zones (ss_board ss) -> without_conflicts (ss_board ss) ->
  forallb (fun d => local d || is_policy d) l = true -> edits tl l ss = Done ss' -> forall ax, incl (lines_on (ss_board ss) ax) (lines_on (ss_board ss') ax).
Proof. intros tl b x ss l ss'. apply lines_stay_all. Qed.
(** Disabling a policy leaves its line there, and there are more lines than before. *)
Example C70_stay_policies_example : opened plain_tools one_box coarse box_session /\ without_zones (ss_board box_session) /\ without_conflicts (ss_board box_session)
  /\ (exists q, nth_error (ax_policies (on_axis (b_axes (ss_board box_session)) AX)) 0 = Some q /\ p_enabled q = true)
  /\ exists ss', edits plain_tools [DPolicy AX 0 THIRDS NMIN false 5] box_session = Done ss' /\ length (lines_on (ss_board box_session) AX) = 5%nat
    /\ length (lines_on (ss_board ss') AX) = 10%nat.
Proof.
  split; [exact box_opened|]. split; [intros ax; destruct ax; reflexivity|]. split; [intros ax; destruct ax; reflexivity|].
  split; [eexists; split; reflexivity|]. eexists. split; [vm_compute; reflexivity|]. split; vm_compute; reflexivity.
Qed.

(** So asking for finer intervals and then for the former ones does not give the former
    lines, and confirming the dialog with the values it shows gives each line twice: the
    mesh has cells without a size. *)
Theorem C70_interval_refuted : exists tl b x ss ss', natural (tl_sort_by tl) /\ sorts_by (tl_sort_by tl) /\ sorts (tl_sorter tl) /\ built b /\ opened tl b x ss
  /\ (exists s, nth_error (ax_segments (on_axis (b_axes (ss_board ss)) AX)) 0 = Some s
      /\ edit tl (DInterval AX 0 (iv_dmax (sg_iv s)) (sd_lmin (iv_before (sg_iv s))) (sd_smoothness (iv_before (sg_iv s)))
                    (sd_lmin (iv_after (sg_iv s))) (sd_smoothness (iv_after (sg_iv s)))) ss = Done ss')
  /\ StronglySorted Qlt (lines_on (ss_board ss) AX) /\ StronglySorted Qlt (lines_on (ss_board ss) AY)
  /\ (forall ax, In ax [AX; AY] -> exists u v, nth_error (lines_on (ss_board ss') ax) 0 = Some u /\ nth_error (lines_on (ss_board ss') ax) 1 = Some v /\ u == v).
Proof.
  exists plain_tools, one_box, coarse, box_session. eexists. split; [exact isort_by_natural|]. split; [exact isort_by_sorts|]. split; [exact isort_sorts|]. split; [exact one_box_built|].
  split; [exact box_opened|]. split; [eexists; split; [reflexivity|vm_compute; reflexivity]|].
  split; [repeat constructor; reflexivity|]. split; [repeat constructor; reflexivity|].
  intros ax [<-|[<-|[]]]; do 2 eexists; (split; [reflexivity|]; split; [reflexivity|reflexivity]).
Qed.

(** A triangle with a diagonal side. *)
Definition one_triangle : board := Eval vm_compute in shape_on (empty_board (Some AIR)) [mk_pt 0 0; mk_pt 20 0; mk_pt 0 20].
Lemma one_triangle_built : built one_triangle.
Proof. apply (built_more PXY (Some CONDUCTOR) 1 (range_z 0 1) [mk_pt 0 0; mk_pt 20 0; mk_pt 0 20] (empty_board (Some AIR))); [constructor|vm_compute; reflexivity]. Qed.
Definition triangle_session : session := Eval vm_compute in session_of (run_all_steps plain_tools (loaded one_triangle coarse)).
Lemma triangle_opened : opened plain_tools one_triangle coarse triangle_session.
Proof. vm_compute. reflexivity. Qed.
Definition three_dialogs : list dialog := [DEdge 0 false false; DInterval AX 0 (5 # 2) 2 1 2 1; DAngle 1 false false].
Definition triangle_edited : session := Eval vm_compute in session_of (edits plain_tools three_dialogs triangle_session).
Example C70_global_example : natural (tl_sort_by plain_tools) /\ sorts_by (tl_sort_by plain_tools) /\ built one_triangle /\ sides_plain one_triangle
  /\ opened plain_tools one_triangle coarse triangle_session /\ edits plain_tools three_dialogs triangle_session = Done triangle_edited
  /\ lines_on (ss_board triangle_edited) AX <> lines_on (ss_board triangle_session) AX
  /\ exists ss' ss0, edit plain_tools (DGlobal coarser) triangle_edited = Done ss' /\ opened plain_tools one_triangle coarser ss0
     /\ length (lines_on (ss_board ss') AX) = 3%nat.
Proof.
  split; [exact isort_by_natural|]. split; [exact isort_by_sorts|]. split; [exact one_triangle_built|]. split.
  { intros i e E. unfold edge_at in E.
    do 3 (destruct i as [|i]; [cbn in E; injection E as <-; first [left; vm_compute; reflexivity|right; exists VH; vm_compute; reflexivity|right; exists VV; vm_compute; reflexivity]|]). destruct i; discriminate. }
  split; [exact triangle_opened|]. split; [vm_compute; reflexivity|]. split; [discriminate|].
  do 2 eexists. split; [vm_compute; reflexivity|]. split; vm_compute; reflexivity.
Qed.

(** With diagonal zones and no fixed lines, a sequence of dialogs of intervals gives
    the mesh of the intervals as edited, nothing more: the board before the mesh with what
    the dialogs write, meshed. *)
Theorem C70_intervals : forall tl b x ss l ss', no_fixed tl -> opened tl b x ss -> ~ without_zones (ss_board ss) ->
  forallb is_interval l = true -> edits tl l ss = Done ss' ->
  exists b1 b2, before_mesh tl b x b1 /\ interval_writes l b1 b2 /\ on_each_axis (fun _ => mesh_axis (tl_fuel tl) (tl_sorter tl)) b2 = Done (ss_board ss').
Proof.
  intros tl b x ss l ss' F O W I E. destruct (opened_meshed tl b x ss O W) as (b1 & B & M).
  destruct (intervals_meshed tl x F l b1 ss ss' I M E) as (b2 & Wr & _ & _ & D). exists b1, b2. split; [assumption|]. now split.
Qed.
Definition two_intervals : list dialog := [DInterval AX 0 (5 # 2) 2 1 2 1; DInterval AX 0 5 2 1 2 1].
Example C70_intervals_example : no_fixed plain_tools /\ opened plain_tools one_triangle coarse triangle_session /\ ~ without_zones (ss_board triangle_session)
  /\ (exists ss1, edits plain_tools (firstn 1 two_intervals) triangle_session = Done ss1 /\ length (lines_on (ss_board ss1) AX) = 9%nat)
  /\ exists ss2, edits plain_tools two_intervals triangle_session = Done ss2 /\ length (lines_on (ss_board ss2) AX) = 5%nat.
Proof.
  split; [intros ax; destruct ax; reflexivity|]. split; [exact triangle_opened|]. split; [intros W; discriminate (W AX)|].
  split; eexists; (split; [vm_compute; reflexivity|vm_compute; reflexivity]).
Qed.

(** A finding.  Of the three fields of the dialog of a zone, two do nothing: its number of
    lines and its minimal angle are read by no step.  Whatever they are, the policies,
    intervals and lines are the same. *)
Theorem C70_zone : forall tl b x ss ax i lmin dmax minimal lmin' minimal' ss1, natural (tl_sort_by tl) -> no_fixed tl -> built b -> opened tl b x ss ->
  edit tl (DZone ax i lmin dmax minimal) ss = Done ss1 ->
  exists ss2, edit tl (DZone ax i lmin' dmax minimal') ss = Done ss2 /\ b_axes (ss_board ss2) = b_axes (ss_board ss1).
Proof. intros tl b x ss ax i lmin dmax minimal lmin' minimal' ss1. apply zone_fields. Qed.
(** The third one does. *)
Example C70_zone_example : natural (tl_sort_by plain_tools) /\ no_fixed plain_tools /\ built one_triangle /\ opened plain_tools one_triangle coarse triangle_session
  /\ (exists ss1, edit plain_tools (DZone AX 0 7 (5 # 2) 90) triangle_session = Done ss1 /\ length (lines_on (ss_board ss1) AX) = 9%nat)
  /\ exists ss2, edit plain_tools (DZone AX 0 7 5 90) triangle_session = Done ss2 /\ length (lines_on (ss_board ss2) AX) = 5%nat.
Proof.
  split; [exact isort_by_natural|]. split; [intros ax; destruct ax; reflexivity|]. split; [exact one_triangle_built|]. split; [exact triangle_opened|].
  split; eexists; (split; [vm_compute; reflexivity|vm_compute; reflexivity]).
Qed.

(** * C71 *)

(** With diagonal zones and no fixed lines, going back a step or two and forth again gives
    the same session. *)
Theorem C71_back_forth : forall tl b x ss n, no_fixed tl -> opened tl b x ss -> ~ without_zones (ss_board ss) -> (n <= 2)%nat ->
  next_steps tl n (previous_steps tl n ss) = Done ss.
Proof. intros tl b x ss n. apply back_forth. Qed.
Example C71_back_forth_example : no_fixed plain_tools /\ opened plain_tools one_triangle coarse triangle_session /\ ~ without_zones (ss_board triangle_session)
  /\ ss_board (previous_steps plain_tools 1 triangle_session) <> ss_board triangle_session
  /\ ss_board (previous_steps plain_tools 2 triangle_session) <> ss_board (previous_steps plain_tools 1 triangle_session).
Proof.
  split; [intros ax; destruct ax; reflexivity|]. split; [exact triangle_opened|]. split; [intros W; discriminate (W AX)|]. split; discriminate.
Qed.

(** A finding: three steps back, and three forth, give each line twice, if there are no
    policies too close to each other. *)
Definition diamond : board := Eval vm_compute in shape_on (empty_board (Some AIR)) [mk_pt 10 0; mk_pt 20 10; mk_pt 10 20; mk_pt 0 10].
Definition diamond_session : session := Eval vm_compute in session_of (run_all_steps plain_tools (loaded diamond coarse)).
Ltac twice k := exists k; do 2 eexists; split; [reflexivity|split; [reflexivity|split; vm_compute; reflexivity]].
Theorem C71_three_refuted : exists tl b x ss ss', no_fixed tl /\ natural (tl_sort_by tl) /\ sorts_by (tl_sort_by tl) /\ sorts (tl_sorter tl) /\ built b
  /\ opened tl b x ss /\ ~ without_zones (ss_board ss) /\ next_steps tl 3 (previous_steps tl 3 ss) = Done ss'
  /\ (forall ax, In ax [AX; AY] -> length (lines_on (ss_board ss') ax) = (2 * length (lines_on (ss_board ss) ax))%nat /\ lines_on (ss_board ss) ax <> []
      /\ forall y, In y (lines_on (ss_board ss) ax) -> exists k u v, nth_error (lines_on (ss_board ss') ax) k = Some u /\ nth_error (lines_on (ss_board ss') ax) (S k) = Some v /\ u == y /\ v == y).
Proof.
  exists plain_tools, diamond, coarse, diamond_session. eexists. split; [intros ax; destruct ax; reflexivity|]. split; [exact isort_by_natural|]. split; [exact isort_by_sorts|].
  split; [exact isort_sorts|]. split.
  { apply (built_more PXY (Some CONDUCTOR) 1 (range_z 0 1) [mk_pt 10 0; mk_pt 20 10; mk_pt 10 20; mk_pt 0 10] (empty_board (Some AIR))); [constructor|vm_compute; reflexivity]. }
  split; [vm_compute; reflexivity|]. split; [intros W; discriminate (W AX)|]. split; [vm_compute; reflexivity|].
  intros ax [<-|[<-|[]]]; (split; [reflexivity|]; split; [discriminate|]; intros y I; cbn in I;
    repeat (destruct I as [<-|I]; [first [twice 0%nat | twice 2%nat | twice 4%nat | twice 6%nat | twice 8%nat]|]); destruct I).
Qed.

(** A finding.  On a board without diagonal zones, after "previous step" once, "next
    step" never does anything again, however often, and there are no lines any more. *)
Theorem C71_stuck : forall tl b x ss, opened tl b x ss -> without_zones (ss_board ss) -> forall n, exists ss',
  next_steps tl n (previous_step tl ss) = Done ss' /\ ss_board ss' = ss_board (previous_step tl ss) /\ forall ax, lines_on (ss_board ss') ax = lines_on b ax.
Proof. intros tl b x ss. apply next_stuck. Qed.
Example C71_stuck_example : opened plain_tools one_box coarse box_session /\ without_zones (ss_board box_session)
  /\ length (lines_on (ss_board box_session) AX) = 5%nat /\ lines_on (ss_board (previous_step plain_tools box_session)) AX = [].
Proof. split; [exact box_opened|]. split; [intros ax; destruct ax; reflexivity|]. split; reflexivity. Qed.

(** A finding.  With or without diagonal zones, if no edge is reversed by the first step:
    once back at the beginning, "next step" never does anything again. *)
Theorem C71_restart : forall tl b x ss n m, built b -> opened tl b x ss -> for_each (adjust_edges_to_materials (tl_sort_by tl)) all_planes b = Done b ->
  (length (ss_past ss) <= n)%nat ->
  next_steps tl m (previous_steps tl n ss) = Done (previous_steps tl n ss) /\ ss_board (previous_steps tl n ss) = set_angles b (b_angles (ss_board ss)).
Proof. intros tl b x ss n m Bu O I. exact (restart_stuck tl b x ss n m Bu O I). Qed.

(** A finding.  One step less back, and "next step" looks for the angles again, and each
    angle is there twice. *)
Theorem C71_doubled : forall tl b x ss, natural (tl_sort_by tl) -> built b -> opened tl b x ss -> for_each (adjust_edges_to_materials (tl_sort_by tl)) all_planes b = Done b ->
  exists ss', next_step tl (previous_steps tl (pred (length (ss_past ss))) ss) = Done ss'
    /\ length (b_angles (ss_board ss')) = (2 * length (b_angles (ss_board ss)))%nat.
Proof. intros tl b x ss Na Bu O I. exact (angles_doubled tl b x ss Na Bu O I). Qed.
Example C71_restart_example : built diamond /\ opened plain_tools diamond coarse diamond_session
  /\ for_each (adjust_edges_to_materials (tl_sort_by plain_tools)) all_planes diamond = Done diamond
  /\ length (ss_past diamond_session) = 9%nat /\ length (b_angles (ss_board diamond_session)) = 4%nat /\ lines_on (ss_board diamond_session) AX <> []
  /\ exists ss', next_step plain_tools (previous_steps plain_tools 8 diamond_session) = Done ss' /\ length (b_angles (ss_board ss')) = 8%nat.
Proof.
  split; [apply (built_more PXY (Some CONDUCTOR) 1 (range_z 0 1) [mk_pt 10 0; mk_pt 20 10; mk_pt 10 20; mk_pt 0 10] (empty_board (Some AIR))); [constructor|vm_compute; reflexivity]|].
  split; [vm_compute; reflexivity|]. split; [vm_compute; reflexivity|]. split; [reflexivity|]. split; [reflexivity|]. split; [discriminate|].
  eexists. split; [vm_compute; reflexivity|reflexivity].
Qed.

Print Assumptions C70_run.
Print Assumptions C70_global.
Print Assumptions C70_global_all.
Print Assumptions C70_stay.
Print Assumptions C70_interval_refuted.
Print Assumptions C71_stuck.
Print Assumptions C70_intervals.
Print Assumptions C71_back_forth.
Print Assumptions C71_three_refuted.
Print Assumptions C70_stay_policies.
Print Assumptions C70_zone.
Print Assumptions C71_restart.
Print Assumptions C71_doubled.
