(** Property C79: a design that is moved gets the same mesh, moved. *)
From Coq Require Import List Arith Bool Lia QArith Qabs Lqa Sorting.Sorted Sorting.Permutation.
From Verif Require Import IntervalModel IntervalSpec ManagerModel ManagerSpec ManagerProofs ManagerMoreProofs GeomModel GeomSpec BoardModel BoardSpec BoardExamples
  OrderSpec PropertiesManager PropertiesOrder ShiftSpec ShiftProofs ShiftGeomProofs ShiftBoardProofs.
Import ListNotations.
Open Scope Q_scope.

(** One axis: if policies and zones are moved by [t], so are the policies and the lines at
    the end; and if the steps do not end, they do not end for either. *)
Theorem C79_axis : forall fuel g srt zs zs' ax ax' t, only_compares_keys srt -> unmeshed ax -> unmeshed ax' ->
  Forall2 (moved_policy t) (ax_policies ax) (ax_policies ax') -> Forall2 (moved_zone t) zs zs' ->
  same_end (moved_axis t) (finish_axis fuel g srt zs ax) (finish_axis fuel g srt zs' ax').
Proof.
  intros fuel g srt zs zs' ax ax' t Ok (C & S & L) (C' & S' & L') P Z.
  apply (end_mono (ma t)).
  - apply finish_moved; [exact Ok|exact Z|]. split; [|congruence|rewrite S, S'; constructor|rewrite L, L'; constructor].
    apply (rel_mono _ _ _ _ P). intros p q (A & B & D & E & F). split; [exact A|]. split; [now symmetry|]. split; [now symmetry|]. split; [now symmetry|now symmetry].
  - intros x x' M. split; [|apply (ma_lines _ _ _ M)]. apply (rel_mono _ _ _ _ (ma_policies _ _ _ M)). intros p q (A & B & D & E & F). split; [exact A|]. split; [now symmetry|]. split; [now symmetry|]. split; [now symmetry|now symmetry].
Qed.

(** A whole design: the shapes and the fixed lines are moved by a displacement along each
    axis. *)
Theorem C79_design : forall fuel g dp srt srt' ang fixed background shapes d,
  only_compares srt -> only_compares_keys srt' -> of_values ang ->
  same_end (fun b b' => forall ax, moved_axis (d ax) (on_axis (b_axes b) ax) (on_axis (b_axes b') ax))
    (mesh_of fuel g dp srt srt' ang fixed background shapes)
    (mesh_of fuel g dp srt srt' ang (move_fixed d fixed) background (map (move_shape d) shapes)).
Proof.
  intros fuel g dp srt srt' ang fixed background shapes d Oc Ok Ov.
  apply (end_mono _ _ _ _ (mesh_moved d fuel g dp srt srt' ang fixed background shapes Oc Ok Ov)).
  intros b b' H ax. specialize (H ax). split; [|apply (ma_lines _ _ _ H)]. apply (rel_mono _ _ _ _ (ma_policies _ _ _ H)). intros p q (A & B & D & E & F). split; [exact A|]. split; [now symmetry|]. split; [now symmetry|]. split; [now symmetry|now symmetry].
Qed.

(** Sorts that compare. *)
Lemma isort_compares : only_compares_keys isort.
Proof.
  intros A B R key key' l l' F H. unfold isort. induction F as [|x x' l l' X F IH]; [constructor|]. cbn. revert IH. generalize (fold_right (insert key) [] l) (fold_right (insert key') [] l'). clear l l' F.
  intros l l' F. induction F as [|y y' l l' Y F IH]; cbn; [constructor; [exact X|constructor]|].
  assert (E : Qle_bool (key x) (key y) = Qle_bool (key' x') (key' y')) by (apply eq_true_iff_eq; rewrite !Qle_bool_iff; now apply H). rewrite E. destruct (Qle_bool (key' x') (key' y')); [constructor; [exact X|]; now constructor|]. now constructor.
Qed.
Lemma isort_by_compares : only_compares isort_by.
Proof.
  intros A B R less less' l l' F H. unfold isort_by. induction F as [|x x' l l' X F IH]; [constructor|]. cbn. revert IH. generalize (fold_right (ins less) [] l) (fold_right (ins less') [] l'). clear l l' F.
  intros l l' F. induction F as [|y y' l l' Y F IH]; cbn; [constructor; [exact X|constructor]|].
  rewrite <- (H y y' x x' Y X). destruct (less y x); constructor; try assumption. now constructor.
Qed.

(** Two boxes beside each other in the plane XY, a triangle above them, and a fixed line. *)
Definition right_angles : point -> point -> Q := fun _ _ => 90.
Definition some_shapes : list shape :=
  [mk_shape PXY (Some CONDUCTOR) 1 (range_z 0 1) (box_points (mk_pt 0 0) (mk_pt 20 20));
   mk_shape PXY (Some DIELECTRIC) 0 (range_z 0 1) (box_points (mk_pt 20 0) (mk_pt 40 20));
   mk_shape PXY (Some CONDUCTOR) 2 (range_z 2 3) [mk_pt 0 0; mk_pt 20 0; mk_pt 0 20]].
Definition some_fixed : space (list Q) := mk_space [] [] [5; 15].
Definition some_mesh (shapes : list shape) (fixed : space (list Q)) : run board :=
  mesh_of 30 (mk_params 1 1 2 10) (mk_diag_params 5 20) isort_by isort right_angles fixed (Some AIR) shapes.
Definition away : displacement := fun ax => match ax with AX => 3 | AY => - (7) | AZ => 1 # 2 end.
Definition lines_on (m : run board) (ax : Axis3) : option (list Q) := match m with Done b => Some (map Qred (ax_lines (on_axis (b_axes b) ax))) | _ => None end.

Example C79_example : only_compares isort_by /\ only_compares_keys isort /\ of_values right_angles /\
  map (lines_on (some_mesh some_shapes some_fixed)) all_axes =
    [Some [5 # 2; 15 # 2; 10; 25 # 2; 35 # 2; 45 # 2; 55 # 2; 30; 100 # 3; 115 # 3]; Some [5 # 2; 15 # 2; 10; 25 # 2; 35 # 2]; Some [5; 1999 # 200; 10; 2001 # 200; 15]] /\
  map (lines_on (some_mesh (map (move_shape away) some_shapes) (move_fixed away some_fixed))) all_axes =
    [Some [11 # 2; 21 # 2; 13; 31 # 2; 41 # 2; 51 # 2; 61 # 2; 33; 109 # 3; 124 # 3]; Some [-9 # 2; 1 # 2; 3; 11 # 2; 21 # 2]; Some [11 # 2; 2099 # 200; 21 # 2; 2101 # 200; 31 # 2]].
Proof.
  split; [exact isort_by_compares|]. split; [exact isort_compares|]. split; [intros u u' v v' _ _ _ _; reflexivity|]. split; vm_compute; reflexivity.
Qed.

(** The mirror image is not meshed as the mirror image: with two pairs equally close, the
    one before is merged first, and then the other one is not close any more. *)
Definition symmetric : axis := of_policies [plain (-20) HALFS NNONE; plain 0 HALFS NNONE; plain 20 HALFS NNONE].
Example symmetric_lines : lines_of (finish_axis 30 (mk_params 20 1 2 10) isort [] symmetric) = Some [-15 # 2; -5 # 2; 5 # 2; 5; 15 # 2; 25 # 2; 35 # 2].
Proof. vm_compute. reflexivity. Qed.

Theorem C79_mirror_refuted : ~ (forall fuel g srt ax ax' r r', sorts srt -> natural_sort srt -> 0 <= g_proximity_limit g ->
  unmeshed ax -> unmeshed ax' -> all_consistent ax -> ax_policies ax' = rev (map mirror_policy (ax_policies ax)) ->
  finish_axis fuel g srt [] ax = Done r -> finish_axis fuel g srt [] ax' = Done r' -> same_lines (mirror_lines (ax_lines r)) (ax_lines r')).
Proof.
  intros H. pose proof symmetric_lines as L. specialize (H 30%nat (mk_params 20 1 2 10) isort symmetric symmetric). revert L H. generalize (finish_axis 30 (mk_params 20 1 2 10) isort [] symmetric). intros m L H.
  destruct m as [r| |]; [|discriminate L|discriminate L].
  assert (K : same_lines (mirror_lines (ax_lines r)) (ax_lines r)).
  { apply (H r r isort_sorts isort_natural); [discriminate|repeat split|repeat split|repeat constructor; cbn; intuition discriminate|reflexivity|reflexivity|reflexivity]. }
  cbn in L. injection L as L. clear -L K. destruct (ax_lines r) as [|l0 [|l1 [|l2 [|l3 [|l4 [|l5 [|l6 [|l7 l]]]]]]]]; try discriminate.
  injection L as E0 _ _ _ _ _ E6. unfold same_lines, mirror_lines in K. cbn in K. inversion K as [|x y u v X _]. subst. clear K. pose proof (Qred_correct l0) as A. pose proof (Qred_correct l6) as B. rewrite E0 in A. rewrite E6 in B. rewrite <- A, <- B in X. discriminate.
Qed.

(** Nor is the mesh the same in a smaller unit: what is nearer than 1e-8 is the same place,
    whatever the unit, so that a small design gets no line at all. *)
Definition both_boxes (k : Q) : run board :=
  mesh_of 30 (scale_params k (mk_params 1 1 2 10)) (scale_diag k (mk_diag_params 5 20)) isort_by isort right_angles (mk_space [] [] []) (Some AIR) (map (scale_shape k) (firstn 2 some_shapes)).
Definition tiny : Q := 1 # 10000000000.
Example both_lines : map (lines_on (both_boxes 1)) all_axes = [Some [5 # 3; 20 # 3; 10; 40 # 3; 55 # 3; 70 # 3; 85 # 3; 30; 100 # 3; 115 # 3]; Some [5 # 3; 20 # 3; 10; 40 # 3; 55 # 3]; Some []]
  /\ map (lines_on (both_boxes tiny)) all_axes = [Some []; Some []; Some []].
Proof. split; vm_compute; reflexivity. Qed.

Theorem C79_scale_refuted : ~ (forall fuel g dp srt srt' ang background shapes k b b', only_compares srt -> sorts_by srt -> only_compares_keys srt' -> sorts srt' -> of_values ang -> 0 < k ->
  mesh_of fuel g dp srt srt' ang (mk_space [] [] []) background shapes = Done b ->
  mesh_of fuel (scale_params k g) (scale_diag k dp) srt srt' ang (mk_space [] [] []) background (map (scale_shape k) shapes) = Done b' ->
  forall ax, Forall2 (fun x y => y == k * x) (ax_lines (on_axis (b_axes b) ax)) (ax_lines (on_axis (b_axes b') ax))).
Proof.
  intros H.
  assert (N : match mesh_of 30 (mk_params 1 1 2 10) (mk_diag_params 5 20) isort_by isort right_angles (mk_space [] [] []) (Some AIR) (firstn 2 some_shapes) with Done b => length (ax_lines (on_axis (b_axes b) AX)) | _ => 0%nat end = 10%nat) by (vm_compute; reflexivity).
  assert (N' : match both_boxes tiny with Done b => length (ax_lines (on_axis (b_axes b) AX)) | _ => 10%nat end = 0%nat) by (vm_compute; reflexivity).
  unfold both_boxes in N'. specialize (H 30%nat (mk_params 1 1 2 10) (mk_diag_params 5 20) isort_by isort right_angles (Some AIR) (firstn 2 some_shapes) tiny). revert N N' H.
  generalize (mesh_of 30 (mk_params 1 1 2 10) (mk_diag_params 5 20) isort_by isort right_angles (mk_space [] [] []) (Some AIR) (firstn 2 some_shapes))
    (mesh_of 30 (scale_params tiny (mk_params 1 1 2 10)) (scale_diag tiny (mk_diag_params 5 20)) isort_by isort right_angles (mk_space [] [] []) (Some AIR) (map (scale_shape tiny) (firstn 2 some_shapes))).
  intros m m' N N' H. destruct m as [b| |]; [|discriminate N|discriminate N]. destruct m' as [b'| |]; [|discriminate N'|discriminate N'].
  assert (F : Forall2 (fun x y => y == tiny * x) (ax_lines (on_axis (b_axes b) AX)) (ax_lines (on_axis (b_axes b') AX))).
  { apply (H b b' isort_by_compares isort_by_sorts isort_compares isort_sorts); [intros u u' v v' _ _ _ _; reflexivity|reflexivity|reflexivity|reflexivity]. }
  apply rel_length in F. congruence.
Qed.

Print Assumptions C79_axis.
Print Assumptions C79_design.
Print Assumptions C79_mirror_refuted.
Print Assumptions C79_scale_refuted.
