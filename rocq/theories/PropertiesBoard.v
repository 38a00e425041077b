(** Properties C33, C34, C41, C43: colinear edges, materials, consecutive matches. *)
From Coq Require Import List Arith Bool Lia QArith Qabs Lqa Sorting.Permutation.
From Verif Require Import IntervalModel IntervalSpec IntervalProofs ManagerModel GeomModel GeomSpec GeomProofs.
From Verif Require Import BoardModel BoardSpec BoardProofs BoardColinearProofs BoardSolveProofs BoardExamples.
Import ListNotations.
Open Scope Q_scope.

(* ------------------------------------------------------------------ *)
(** * C33: the solution of colinear edges *)

(** The answer fits the sides that meshed edges face, and there is none iff no edge is
    meshed. *)
Theorem C33_fits : forall l,
  match colinear_policy l with
  | Some (policy, normal) => fits l policy normal
  | None => forall e, In e l -> e_to_mesh e = false
  end.
Proof. apply policy_fits. Qed.

(** At most one policy fits. *)
Theorem C33_unique : forall l policy normal policy' normal',
  fits l policy normal -> fits l policy' normal' -> policy = policy' /\ normal = normal'.
Proof.
  intros l p n p' n' H H'. destruct p, p'; cbn in *; repeat match goal with K : _ /\ _ |- _ => destruct K end; subst; try tauto.
  - exfalso. destruct n'; cbn in *; tauto.
  - exfalso. destruct n; cbn in *; tauto.
  - split; [reflexivity|]. destruct n, n'; cbn in *; congruence || tauto.
Qed.

(** Only the sides matter: neither the order of the edges nor how many there are. *)
Theorem C33_order : forall l l', (forall n, some_faces l n <-> some_faces l' n) -> colinear_policy l = colinear_policy l'.
Proof. apply colinear_policy_determined. Qed.
Theorem C33_permutation : forall l l', Permutation l l' -> colinear_policy l = colinear_policy l'.
Proof.
  intros l l' P. apply colinear_policy_determined. intros n. split; intros (e & I & H); exists e; (split; [|assumption]).
  - eapply Permutation_in; eauto.
  - eapply Permutation_in; [apply Permutation_sym|]; eauto.
Qed.

(** Turning all edges around swaps the sides. *)
Theorem C33_reversed : forall l, colinear_policy (map flipped l) =
  match colinear_policy l with Some (policy, normal) => Some (policy, swapped normal) | None => None end.
Proof.
  intros l. assert (F : forall n, some_faces (map flipped l) n <-> some_faces l (swapped n)).
  { assert (S : forall e, faces (flipped e) = swapped (faces e)).
    { intros e. unfold faces. cbn. now destruct (e_normal e), (e_to_reverse e). }
    assert (T : forall n, swapped (swapped n) = n) by (now intros []).
    intros n. split.
    - intros (e & I & M & E). apply in_map_iff in I. destruct I as (f & <- & I). exists f. rewrite S in E.
      split; [assumption|]. split; [assumption|]. now rewrite <- E, T.
    - intros (e & I & M & E). exists (flipped e). split; [now apply in_map|]. split; [assumption|]. now rewrite S, E, T. }
  pose proof (policy_fits (map flipped l)) as A. pose proof (policy_fits l) as B.
  destruct (colinear_policy l) as [[p n]|] eqn:El.
  - assert (fits (map flipped l) p (swapped n)) as C.
    { destruct p; cbn in B |- *; rewrite ?F; destruct n; cbn in *; rewrite ?F; cbn; intuition congruence. }
    destruct (colinear_policy (map flipped l)) as [[p' n']|].
    + destruct (C33_unique _ _ _ _ _ A C) as [-> ->]. reflexivity.
    + exfalso. destruct (fits_meshed _ _ _ C) as (e & I & M). rewrite (A e I) in M. discriminate.
  - destruct (colinear_policy (map flipped l)) as [[p' n']|]; [|reflexivity]. exfalso.
    destruct (fits_meshed _ _ _ A) as (e & I & M). apply in_map_iff in I. destruct I as (f & <- & I).
    specialize (B f I). cbn in M. congruence.
Qed.

(** Solving the conflicts of an axis appends exactly these policies, one for each
    conflict with a meshed edge, and changes nothing but the state of the conflicts. *)
Theorem C33_solve : forall g ax b,
  (forall n c, ce_at b ax n c -> c <> [] /\ forall i, In i c -> exists e v, edge_at b i e
     /\ seg_axis (e_seg e) = segaxis_of_view v /\ ax = axis_of_view (e_plane e) (reverse_view v)) ->
  exists b' l cs, auto_solve_all_colinear_edges g b ax = Done b'
    /\ (forall n c, nth_error cs n = Some c <-> ce_at b ax n c) /\ policies_for g b cs l
    /\ ax_policies (on_axis (b_axes b') ax) = ax_policies (on_axis (b_axes b) ax) ++ l
    /\ (forall a, a <> ax -> on_axis (b_axes b') a = on_axis (b_axes b) a)
    /\ (forall a n c, ce_at b' a n c <-> ce_at b a n c)
    /\ b_edges b' = b_edges b /\ b_polygons b' = b_polygons b.
Proof.
  intros g ax b H. destruct (auto_solve_colinear g ax b) as (b' & l & E & S & P & A).
  - intros c C. apply In_nth_error in C. destruct C as (n & C). apply ce_at_groups in C. destruct (H n c C) as [N K].
    split; [assumption|]. exists ax. intros x X. destruct (K x X) as (e & v & Ee & V & ->). exists e. split; [assumption|].
    unfold edge_axis. rewrite V. now destruct (e_plane e), v.
  - exists b', l, (groups b ax). destruct S as (S1 & S2 & S3 & S4 & S5 & S6 & S7 & S8 & _).
    split; [assumption|]. split; [intros n c; symmetry; apply ce_at_groups|]. split; [assumption|]. split; [assumption|].
    split; [assumption|]. split; [|now split]. intros a n c. rewrite !ce_at_groups, S7. reflexivity.
Qed.

(** One edge without normal, and edges that face both sides or one. *)
Definition facing (n : Normal) (m r : bool) : edge := mk_edge PXY (mk_seg (mk_pt 1 0) (mk_pt 1 5)) n m r [] None None.
Example C33_case :
  colinear_policy [facing Nxmin true false; facing Nxmin true true] = Some (HALFS, NNONE)
  /\ colinear_policy [facing Nxmin true false; facing Nnone true false] = Some (ONELINE, NNONE)
  /\ colinear_policy [facing Nxmin true false; facing Nxmax false false; facing Nxmax true true] = Some (THIRDS, NMIN)
  /\ colinear_policy [facing Nxmin false false] = None.
Proof. now repeat split. Qed.

(* ------------------------------------------------------------------ *)
(** * C34: the grouping of colinear edges *)

(** Detection ends and changes nothing but the conflicts of colinear edges. *)
Theorem C34_frame : forall b, no_ce b -> exists b', for_each detect_colinear_edges all_planes b = Done b' /\ same_but_ce b b'.
Proof. intros b N. destruct (planes_done all_planes b all_planes_nodup N) as (b' & E & [S _ _ _ _ _]). eauto. Qed.

(** Any two colinear edges share a conflict. *)
Theorem C34_grouped : forall b b' i j, no_ce b -> for_each detect_colinear_edges all_planes b = Done b' ->
  i <> j -> colinear_at b i j -> exists ax n c, ce_at b' ax n c /\ In i c /\ In j c.
Proof.
  intros b b' i j N E D C. destruct (planes_done all_planes b all_planes_nodup N) as (b1 & E1 & [S L W F I St]).
  assert (b1 = b') as -> by congruence. destruct (colinear_at_axis _ _ _ C) as (ax & A & _). pose proof C as (e & f & Ee & _).
  destruct (F (e_plane e) i j (all_planes_in _) (ex_intro _ e (conj Ee eq_refl)) D ax C A) as (n & c & G & Gi & Gj).
  exists ax, n, c. split; [now apply ce_at_groups|]. now split.
Qed.

(** A conflict has at least two edges, none of them twice, all along the same view axis
    of the same plane, that of the conflict, and each one colinear with another. *)
Theorem C34_conflicts : forall b b' ax n c, no_ce b -> for_each detect_colinear_edges all_planes b = Done b' ->
  ce_at b' ax n c ->
  (2 <= length c)%nat /\ NoDup c
  /\ (exists p v, ax = axis_of_view p (reverse_view v) /\
        forall i, In i c -> exists e, edge_at b i e /\ e_plane e = p /\ seg_axis (e_seg e) = segaxis_of_view v)
  /\ (forall i, In i c -> exists j, In j c /\ j <> i /\ colinear_at b i j).
Proof.
  intros b b' ax n c N E C. destruct (planes_done all_planes b all_planes_nodup N) as (b1 & E1 & [S L W F I St]).
  assert (b1 = b') as -> by congruence. apply ce_at_groups in C. destruct (W ax n c C) as (W1 & W2 & W3 & W4 & W5).
  pose proof (same_but_ce_sym _ _ S) as S'. split; [assumption|]. split; [assumption|]. split.
  - destruct c as [|x c]; [cbn in W1; lia|]. destruct (W3 x (or_introl eq_refl)) as (e & Ee & A).
    assert (exists v, seg_axis (e_seg e) = segaxis_of_view v) as (v & V).
    { unfold edge_axis in A. destruct (seg_axis (e_seg e)); [now exists VH|now exists VV|destruct (e_plane e); discriminate|destruct (e_plane e); discriminate]. }
    exists (e_plane e), v. split.
    + unfold edge_axis in A. rewrite V in A. destruct (e_plane e), v; cbn in *; congruence.
    + intros i J. destruct (W3 i J) as (f & Ef & Af). assert (plane_at b' i (e_plane e)) as (f' & Ef' & P).
      { eapply W4; [now left|exact J|]. exists e. now split. }
      assert (f' = f) as -> by (unfold edge_at in *; congruence).
      destruct (same_edge _ _ _ _ S' Ef) as (f0 & Ef0 & Wf). destruct (without_ce_geo _ _ Wf) as [G1 G2].
      exists f0. split; [assumption|]. split; [congruence|]. rewrite G2.
      unfold edge_axis in A, Af. rewrite V in A. rewrite P in Af.
      destruct (seg_axis (e_seg f)), (e_plane e), v; cbn in *; congruence.
  - intros i J. destruct (W5 i J) as (j & Jj & D & R). exists j. split; [assumption|]. split; [assumption|]. eapply colinear_at_same; eauto.
Qed.

(** The conflicts that an edge knows are those it is in. *)
Theorem C34_links : forall b b' i e ax n, no_ce b -> for_each detect_colinear_edges all_planes b = Done b' ->
  edge_at b' i e -> In (InCE ax n) (e_conflicts e) <-> exists c, ce_at b' ax n c /\ In i c.
Proof.
  intros b b' i e ax n N E Ee. destruct (planes_done all_planes b all_planes_nodup N) as (b1 & E1 & [S L W F I St]).
  assert (b1 = b') as -> by congruence. rewrite (L i e Ee ax n). split; intros (c & C & J); exists c; (split; [now apply ce_at_groups|assumption]).
Qed.

(** When being colinear is transitive, conflicts are exactly the classes: two edges are
    in the same conflict iff they are colinear, and no edge is in two conflicts. *)
Theorem C34_classes : forall b b', no_ce b -> transitive_at b -> for_each detect_colinear_edges all_planes b = Done b' ->
  (forall i j, i <> j -> (exists ax n c, ce_at b' ax n c /\ In i c /\ In j c) <-> colinear_at b i j)
  /\ (forall i ax n c ax' n' c', ce_at b' ax n c -> In i c -> ce_at b' ax' n' c' -> In i c' -> ax = ax' /\ n = n').
Proof.
  intros b b' N T E. destruct (planes_done all_planes b all_planes_nodup N) as (b1 & E1 & [S L W F I St]).
  assert (b1 = b') as -> by congruence. specialize (St T). split.
  - intros i j D. split; [|now apply C34_grouped].
    intros (ax & n & c & C & Ci & Cj). apply ce_at_groups in C. destruct (St ax) as [Ti _]. eapply Ti; eauto.
  - intros i ax n c ax' n' c' C J C' J'. apply ce_at_groups in C, C'.
    destruct (W _ _ _ C) as (_ & _ & A & _), (W _ _ _ C') as (_ & _ & A' & _).
    assert (ax = ax') as <- by (eapply axis_at_unique; eauto). split; [reflexivity|]. destruct (St ax) as [_ Ap]. eapply Ap; eauto.
Qed.

(** It is when the lines of straight edges are either the same or far enough. *)
Theorem C34_transitive : forall b,
  (forall i j e f v, edge_at b i e -> edge_at b j f -> seg_axis (e_seg e) = segaxis_of_view v -> seg_axis (e_seg f) = segaxis_of_view v ->
     level v (s0 (e_seg e)) == level v (s0 (e_seg f)) \/ equality_tolerance <= Qabs (level v (s0 (e_seg e)) - level v (s0 (e_seg f)))) ->
  transitive_at b.
Proof.
  intros b H i j k (e & f & Ei & Ej & P & v & A & B & C) (f' & g & Ej' & Ek & P' & v' & A' & B' & C').
  assert (f' = f) as -> by (unfold edge_at in *; congruence). assert (v' = v) as -> by (destruct v, v'; cbn in *; congruence).
  exists e, g. split; [assumption|]. split; [assumption|]. split; [congruence|]. exists v. split; [assumption|]. split; [assumption|].
  destruct (H i j e f v Ei Ej A B) as [K|K]; [|exfalso; apply (Qlt_not_le _ _ C K)].
  destruct (H j k f g v Ej Ek A' B') as [K'|K']; [|exfalso; apply (Qlt_not_le _ _ C' K')].
  rewrite K, K'. assert (level v (s0 (e_seg g)) - level v (s0 (e_seg g)) == 0) as -> by ring. reflexivity.
Qed.

(** In general an edge may be in two conflicts: lines 0, 16, 16 and 8 billionths. *)
Definition chain_edge (y : Q) : edge := mk_edge PXY (mk_seg (mk_pt 0 y) (mk_pt 1 y)) Nymin true false [] None None.
Definition chain : board :=
  set_edges (empty_board None) (map chain_edge [0; 16 # 1000000000; 16 # 1000000000; 8 # 1000000000]).
Theorem C34_classes_refuted : exists b b' i n m c d, no_ce b /\ for_each detect_colinear_edges all_planes b = Done b'
  /\ ce_at b' AY n c /\ ce_at b' AY m d /\ n <> m /\ In i c /\ In i d
  /\ exists j, In i c /\ In j c /\ i <> j /\ ~ colinear_at b i j.
Proof.
  exists chain. eexists. exists 1%nat, 0%nat, 1%nat, [0; 3; 1; 2]%nat, [1; 2]%nat.
  split; [split; [now intros []|]|].
  - intros i e E ax n. unfold edge_at, chain in E. cbn in E. destruct i as [|[|[|[|i]]]]; cbn in E; try (injection E as <-; intros []).
    destruct i; discriminate.
  - split; [vm_compute; reflexivity|]. split; [eexists; split; reflexivity|]. split; [eexists; split; reflexivity|].
    split; [discriminate|]. split; [cbn; tauto|]. split; [cbn; tauto|]. exists 0%nat. split; [cbn; tauto|]. split; [cbn; tauto|].
    split; [discriminate|]. intros (e & f & Ee & Ef & _ & v & V & _ & C). unfold edge_at, chain in *. cbn in Ee, Ef.
    injection Ee as <-. injection Ef as <-. destruct v; vm_compute in V; [|discriminate]. vm_compute in C. discriminate.
Qed.

(** Eight edges, six conflicts' worth of lines: three of them are shared. *)
Example C34_case : no_ce two_boxes /\ transitive_at two_boxes /\ colinear_at two_boxes 0 4
  /\ exists b', for_each detect_colinear_edges all_planes two_boxes = Done b'
     /\ ce_at b' AX 0 [1; 5]%nat /\ ce_at b' AY 0 [0; 4]%nat /\ ce_at b' AY 1 [2; 6]%nat.
Proof.
  split; [now apply no_ce_b_spec|]. split; [apply C34_transitive; apply on_grid_spec; vm_compute; reflexivity|]. split.
  - eexists. eexists. split; [reflexivity|]. split; [reflexivity|]. split; [reflexivity|]. exists VH. now repeat split.
  - eexists. split; [vm_compute; reflexivity|]. split; [|split]; (eexists; split; reflexivity).
Qed.

(** Detected conflicts are as C33_solve wants them. *)
Theorem C33_detected : forall b b' ax, no_ce b -> for_each detect_colinear_edges all_planes b = Done b' ->
  forall n c, ce_at b' ax n c -> c <> [] /\ forall i, In i c -> exists e v, edge_at b' i e
     /\ seg_axis (e_seg e) = segaxis_of_view v /\ ax = axis_of_view (e_plane e) (reverse_view v).
Proof.
  intros b b' ax N E n c C. destruct (C34_conflicts b b' ax n c N E C) as (L & _ & (p & v & -> & M) & _).
  split; [intros ->; cbn in L; lia|]. intros i I. destruct (M i I) as (e & Ee & P & V).
  destruct (C34_frame b N) as (b1 & E1 & S). assert (b1 = b') as -> by congruence.
  destruct (same_edge _ _ _ _ S Ee) as (e' & Ee' & W). destruct (without_ce_geo _ _ W) as [W1 W2].
  exists e', v. split; [assumption|]. rewrite W1, W2, P. now split.
Qed.

(** The common sides of the two boxes: both edges face the same side each time. *)
Example C33_solve_case : exists b b', for_each detect_colinear_edges all_planes two_boxes = Done b
  /\ for_each (auto_solve_all_colinear_edges usual) all_axes b = Done b'
  /\ map (fun p => (p_coord p, p_policy p, p_normal p)) (ax_policies (on_axis (b_axes b') AX)) = [(0, THIRDS, NMIN)]
  /\ map (fun p => (p_coord p, p_policy p, p_normal p)) (ax_policies (on_axis (b_axes b') AY)) = [(0, THIRDS, NMIN); (20, THIRDS, NMAX)].
Proof.
  eexists. eexists. split; [vm_compute; reflexivity|]. split; [vm_compute; reflexivity|]. now split.
Qed.

(* ------------------------------------------------------------------ *)
(** * C41: materials *)

Theorem C41_order : forall a b,
  (mat_compare a b = Lt <-> (rank a < rank b)%nat) /\ (mat_compare a b = Eq <-> a = b) /\ (mat_compare a b = Gt <-> (rank b < rank a)%nat).
Proof.
  intros a b. rewrite mat_compare_rank, Nat.compare_lt_iff, Nat.compare_gt_iff, Nat.compare_eq_iff.
  split; [reflexivity|]. split; [|reflexivity]. split; [now destruct a, b|now intros ->].
Qed.

(** What a material of the input is taken for. *)
Theorem C41_deduce : forall epsilon mue kappa,
  (deduce_type epsilon mue kappa = AIR <-> epsilon == 1 /\ mue == 1 /\ kappa == 0)
  /\ (deduce_type epsilon mue kappa = CONDUCTOR <-> epsilon == 1 /\ mue == 1 /\ 0 < kappa)
  /\ deduce_type epsilon mue kappa <> PORT.
Proof.
  intros e m k. assert (Z : 0 < k \/ k == 0 \/ k < 0) by (destruct (Q_dec 0 k) as [[H|H]|H]; [now left|right; now right|right; left; now symmetry]).
  unfold deduce_type. pose proof (Qeq_bool_iff e 1) as E. pose proof (Qeq_bool_iff m 1) as M. pose proof (Qeq_bool_iff k 0) as K.
  pose proof (Qltb_lt 0 k) as L.
  destruct (Qeq_bool e 1), (Qeq_bool m 1), (Qeq_bool k 0), (Qltb 0 k), (Qltb 1 e), (Qle_bool 1 m); cbn [andb];
    (split; [split; intro H|split; [split; intro H|]]); try discriminate; try reflexivity; try tauto;
    exfalso; try (assert (k == 0) by tauto); try (assert (0 < k) by tauto); try lra; destruct H as (H1 & H2 & H3);
    apply E in H1 || apply M in H2 || apply K in H3 || apply L in H3; discriminate.
Qed.

(** The ambient material is that of a polygon there with the highest priority, then
    material; the background if there is none. *)
Theorem C41_ambient : forall srt b p s current m n, sorts_by srt -> find_ambient srt b p s current = (m, n) ->
  ((forall x, ~ ambient b p s current x) /\ m = b_background b /\ n = 0%nat)
  \/ (exists k, m = Some k /\ ambient b p s current (k, n) /\ forall x, ambient b p s current x -> above (k, n) x).
Proof. intros srt b p s current m n. apply find_ambient_spec. Qed.

(** One more polygon cannot lower it, wherever it is. *)
Theorem C41_more : forall srt b b' p s current k n m' n' p2 mat2 priority2 z2 points2, sorts_by srt ->
  add_polygon p2 mat2 priority2 z2 points2 b = Done b' ->
  (exists x, ambient b p s current x) -> find_ambient srt b p s current = (Some k, n) -> find_ambient srt b' p s current = (m', n') ->
  exists k', m' = Some k' /\ above (k', n') (k, n).
Proof.
  intros srt b b' p s current k n m' n' p2 mat2 pr2 z2 pts2 S E (x & X) A A'.
  destruct (find_ambient_spec _ _ _ _ _ _ _ S A) as [(No & _)|(k0 & K & Amb & _)]; [exfalso; now apply (No x)|]. injection K as <-.
  assert (More : forall y, ambient b p s current y -> ambient b' p s current y).
  { intros y (i & g & G & R). exists i, g. split; [|assumption]. unfold add_polygon in E.
    destruct (detect_bounding pts2); cbn in E; try discriminate. destruct (polygon_edges pts2); cbn in E; try discriminate.
    injection E as <-. cbn. rewrite nth_error_app1; [assumption|]. apply nth_error_Some. congruence. }
  destruct (find_ambient_spec _ _ _ _ _ _ _ S A') as [(No & _)|(k' & -> & _ & Max)]; [exfalso; apply (No (k, n)); now apply More|].
  exists k'. split; [reflexivity|]. apply Max. now apply More.
Qed.

Example C41_case :
  find_ambient isort_by side_by_side PXY (mk_seg (mk_pt 10 0) (mk_pt 10 10)) None = (Some CONDUCTOR, 1%nat)
  /\ find_ambient isort_by side_by_side PXY (mk_seg (mk_pt 20 0) (mk_pt 20 10)) None = (Some DIELECTRIC, 0%nat)
  /\ find_ambient isort_by side_by_side PXY (mk_seg (mk_pt 50 0) (mk_pt 50 10)) None = (Some AIR, 0%nat)
  /\ (exists x, ambient side_by_side PXY (mk_seg (mk_pt 20 0) (mk_pt 20 10)) None x).
Proof.
  split; [vm_compute; reflexivity|]. split; [vm_compute; reflexivity|]. split; [vm_compute; reflexivity|].
  exists (DIELECTRIC, 0%nat). apply ambient_iff. vm_compute. now left.
Qed.

(* ------------------------------------------------------------------ *)
(** * C43: consecutive matches *)

Theorem C43_runs : forall A (f : A -> bool) l, maximal_runs f l (find_consecutive_matches f l).
Proof. intros A f l. apply matches_runs. Qed.

(** The runs are no matter of choice. *)
Theorem C43_unique : forall A (f : A -> bool) l rs, maximal_runs f l rs -> rs = find_consecutive_matches f l.
Proof. intros A f l rs H. eapply runs_unique; [eassumption|apply C43_runs]. Qed.

Theorem C43_all : forall A (f : A -> bool) l,
  concat (find_consecutive_matches f l) = filter f l
  /\ Forall (fun r => r <> [] /\ Forall (fun x => f x = true) r) (find_consecutive_matches f l).
Proof.
  intros A f l. split; [apply runs_concat, C43_runs|]. eapply runs_good, C43_runs.
Qed.

Example C43_case : find_consecutive_matches Nat.odd [1; 3; 2; 4; 5; 6; 7; 7]%nat = [[1; 3]; [5]; [7; 7]]%nat.
Proof. reflexivity. Qed.

(* ------------------------------------------------------------------ *)
Print Assumptions C33_fits.
Print Assumptions C33_unique.
Print Assumptions C33_order.
Print Assumptions C33_permutation.
Print Assumptions C33_reversed.
Print Assumptions C33_solve.
Print Assumptions C34_frame.
Print Assumptions C34_grouped.
Print Assumptions C34_conflicts.
Print Assumptions C34_links.
Print Assumptions C34_classes.
Print Assumptions C34_transitive.
Print Assumptions C34_classes_refuted.
Print Assumptions C33_detected.
Print Assumptions C41_order.
Print Assumptions C41_deduce.
Print Assumptions C41_ambient.
Print Assumptions C41_more.
Print Assumptions C43_runs.
Print Assumptions C43_unique.
Print Assumptions C43_all.
