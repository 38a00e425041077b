(** C89: the merging of too close policies in doubles. *)
From Coq Require Import List Arith Bool Lia ZArith QArith Qabs Lqa Sorting.Sorted.
From Verif Require Import IntervalModel IntervalSpec ManagerModel ManagerSpec ManagerProofs ManagerMoreProofs RoundModel RoundSpec RoundProofs RoundCloseModel RoundCloseSpec RoundCloseProofs PropertiesRound.
Import ListNotations.
Open Scope Q_scope.

(** Without rounding this is the merging of C27 and C28. *)
Theorem C89_exact : forall n g srt ax limit,
  r_detect_closest (fun x => x) srt ax limit = detect_closest srt ax limit /\
  r_detect_and_solve_too_close (fun x => x) n g srt ax = detect_and_solve_too_close n g srt ax.
Proof.
  intros n g srt ax limit. split; [reflexivity|]. revert ax. induction n as [|n IH]; intros ax; [reflexivity|].
  cbn [r_detect_and_solve_too_close detect_and_solve_too_close].
  change (r_detect_closest (fun x => x)) with detect_closest. change (r_solve_too_close (fun x => x)) with solve_too_close.
  destruct (detect_closest srt ax (g_proximity_limit g)) as [[a b]|]; [|reflexivity].
  destruct (add_too_close ax a b) as [[[ax1 c]|]| |]; cbn [bind]; [|apply IH|reflexivity|reflexivity].
  destruct (solve_too_close g ax1 c); cbn [bind]; [apply IH|reflexivity|reflexivity].
Qed.

(** When no pair is found, the enabled policies are farther apart than the limit: not
    only their rounded distances. *)
Theorem C89_none : forall srt ax limit, sorts srt -> is_double limit -> r_detect_closest double srt ax limit = None ->
  forall i j p q, i <> j -> enabled_at ax i p -> enabled_at ax j q -> limit < Qabs (p_coord p - p_coord q).
Proof.
  intros srt ax limit S D E i j p q N Ei Ej. apply far_really; [assumption|].
  exact (detect_closest_none srt ax limit S E i j p q N Ei Ej).
Qed.

(** When a pair is found, it is two distinct enabled policies, in order, which are no
    farther than the limit up to two roundings, and whose difference, rounded, is not
    above any other one. *)
Theorem C89_some : forall srt ax limit a b, sorts srt -> r_detect_closest double srt ax limit = Some (a, b) ->
  exists pa pb, enabled_at ax a pa /\ enabled_at ax b pb /\ a <> b /\ p_coord pa <= p_coord pb /\
    p_coord pb - p_coord pa <= limit + 2 * rounding limit /\
    forall i j p q, i <> j -> enabled_at ax i p -> enabled_at ax j q -> p_coord p <= p_coord q ->
      double (p_coord pb - p_coord pa) <= double (p_coord q - p_coord p).
Proof.
  intros srt ax limit a b S E. destruct (detect_closest_some _ _ _ _ _ S E) as (pa & pb & Ea & Eb & N & O & D & M).
  exists pa, pb. split; [assumption|]. split; [assumption|]. split; [assumption|]. split; [assumption|]. split.
  - apply close_really in D. rewrite Qabs_neg in D by lra. lra.
  - intros i j p q Nij Ei Ej L. specialize (M i j p q Nij Ei Ej).
    assert (K : forall x y, x <= y -> r_distance double x y == double (y - x)).
    { intros x y H. rewrite r_distance_sym. unfold r_distance. apply Qabs_pos. apply double_nonneg. lra. }
    rewrite !K in M by assumption. exact M.
Qed.

(** It ends with fewer turns than enabled policies, and with all of them really apart,
    on doubles. *)
Theorem C89_ends_apart : forall g srt ax, sorts srt -> settled ax -> on_doubles ax -> is_double (g_proximity_limit g) ->
  exists ax', (forall n, (enabled_count ax < n)%nat -> r_detect_and_solve_too_close double n g srt ax = Done ax') /\
    settled ax' /\ on_doubles ax' /\
    forall i j p q, i <> j -> enabled_at ax' i p -> enabled_at ax' j q ->
      g_proximity_limit g < Qabs (p_coord p - p_coord q).
Proof.
  intros g srt ax S Se Db Li. destruct (solve_loop g srt S (enabled_count ax) ax (le_n _) Se) as (ax' & H & E).
  exists ax'. split; [exact E|]. split; [eapply solving_settled; eassumption|]. split; [eapply solving_doubles; eassumption|].
  intros i j p q N Ei Ej. exact (solving_apart g srt ax ax' S H i j p q N Ei Ej Li).
Qed.

(** What it leaves: as without rounding.  In particular the policy that replaces two
    others is between them. *)
Theorem C89_frame : forall n g srt ax ax', sorts srt -> r_detect_and_solve_too_close double n g srt ax = Done ax' ->
  all_consistent ax -> on_doubles ax -> Forall (well_solved ax) (ax_conflicts ax) ->
  (forall i p, policy_at ax i p -> policy_at ax' i p \/ policy_at ax' i (disable p)) /\
  (length (ax_conflicts ax') + enabled_count ax' = length (ax_conflicts ax) + enabled_count ax)%nat /\
  (exists new, ax_conflicts ax' = ax_conflicts ax ++ new) /\
  ax_segments ax' = ax_segments ax /\ ax_lines ax' = ax_lines ax /\
  Forall (well_solved ax') (ax_conflicts ax').
Proof.
  intros n g srt ax ax' S E C Db W. pose proof (solve_done srt g S n ax ax' E) as H.
  split; [exact (solving_frame g srt ax ax' H)|]. split; [eapply solving_count; eassumption|].
  destruct (solving_other _ _ _ _ H) as (A & B & D). split; [assumption|]. split; [assumption|]. split; [assumption|].
  eapply solving_well_solved; eassumption.
Qed.

(** The solutions of the conflicts found are on the only ONELINE policy or in the middle
    of the two, up to rounding. *)
Theorem C89_middle : forall n g srt ax ax', sorts srt -> r_detect_and_solve_too_close double n g srt ax = Done ax' ->
  all_consistent ax ->
  exists new, ax_conflicts ax' = ax_conflicts ax ++ new /\ Forall (well_placed (double (g_dmax g / 2)) ax') new.
Proof. intros n g srt ax ax' S E C. exact (solving_placed g srt ax ax' (solve_done srt g S n ax ax' E) C). Qed.

(** Every policy that was enabled is, in the end, replaced by an enabled one, which is
    ONELINE if it was, and at most 5/2 of the limit away, as without rounding, up to
    fourteen roundings for each conflict found. *)
Theorem C89_replaced : forall M n g srt ax ax' i p, sorts srt -> r_detect_and_solve_too_close double n g srt ax = Done ax' ->
  all_consistent ax -> on_doubles ax -> Forall (well_solved ax) (ax_conflicts ax) -> 0 <= g_proximity_limit g ->
  (forall k r, enabled_at ax k r -> Qabs (p_coord r) <= M) -> enabled_at ax i p ->
  exists j q, enabled_at ax' j q /\ replaced_by ax' i j /\
    Qabs (p_coord p - p_coord q) <= (5 # 2) * g_proximity_limit g
      + inject_Z (Z.of_nat (length (ax_conflicts ax') - length (ax_conflicts ax))) * (14 * rounding (2 * M)) /\
    (p_policy p = ONELINE -> p_policy q = ONELINE).
Proof.
  intros M n g srt ax ax' i p S E C Db W L Bd Ei. pose proof (solve_done srt g S n ax ax' E) as H.
  assert (M0 : 0 <= M) by (pose proof (Bd i p Ei); pose proof (Qabs_nonneg (p_coord p)); lra).
  assert (Bd' : bounded M ax) by (intros k r Ek; apply Qabs_Qle_condition, (Bd k r Ek)).
  destruct (solving_moved_by M g srt ax ax' i p S L M0 H C Db Bd' Ei) as (j & q & Ej & R & G).
  exists j, q. split; [assumption|]. split; [assumption|]. split; [assumption|]. intros O.
  pose proof (solving_well_solved _ _ _ _ H C Db W) as W'.
  destruct (solving_frame _ _ _ _ H i p (proj1 Ei)) as [P|P].
  - exact (replaced_oneline ax' i j p q W' R P (proj1 Ej) O).
  - exact (replaced_oneline ax' i j (disable p) q W' R P (proj1 Ej) O).
Qed.

(** The two steps together, in doubles.  However close its policies, an axis whose limit
    leaves room for the lines asked for is merged and meshed: the lines are in order,
    close enough, and on each ONELINE policy that is left. *)
Theorem C89_meshed : forall M lo D g zs srt ax, sorts srt -> crowded M lo D g zs ax -> ax_segments ax = [] -> ax_lines ax = [] ->
  exists ax1 ax2 ax3,
    (forall n, (enabled_count ax < n)%nat -> r_detect_and_solve_too_close double n g srt ax = Done ax1) /\
    r_detect_intervals double g srt ax1 = Done ax2 /\
    finishes (fun n => r_mesh_axis double n srt (apply_zones zs ax2)) ax3 /\
    StronglySorted Qle (ax_lines ax3) /\ within (D + 9 * rounding (4 * M)) (ax_lines ax3) /\
    forall i p, enabled_at ax1 i p -> p_policy p = ONELINE -> In (p_coord p) (ax_lines ax3).
Proof.
  intros M lo D g zs srt ax S C Es El.
  destruct (solve_loop g srt S (enabled_count ax) ax (le_n _) (cr_settled _ _ _ _ _ _ C)) as (ax1 & H & E).
  pose proof (crowded_tame _ _ _ _ _ _ _ _ S H C) as T. destruct (solving_other _ _ _ _ H) as (A & B & _).
  rewrite Es in A. rewrite El in B.
  destruct (C65_meshed M lo D g zs srt ax1 S T A B) as (ax2 & ax3 & E2 & F).
  exists ax1, ax2, ax3. split; [exact E|]. split; [exact E2|]. split; [exact F|].
  destruct (C65_spaced M lo D g zs srt ax1 ax2 ax3 S T A B E2 F) as [X Y]. split; [exact X|]. split; [exact Y|].
  exact (proj1 (C65_oneline M lo D g zs srt ax1 ax2 ax3 S T A B E2 F)).
Qed.

(** An axis with lines at the double next to 0.1 and the double next to 0.3, halfs at
    0.2, and thirds far away. *)
Definition dense_params : params := mk_params (1 # 2) 2 1 (double (3 # 10)).
Definition dense_axis : axis := mk_axis
  [mk_mlp (double (1 # 10)) ONELINE NNONE true 1; mk_mlp (double (3 # 10)) ONELINE NNONE true 1;
   mk_mlp (double (2 # 10)) HALFS NNONE true 1; mk_mlp 100 THIRDS NMIN true 1; mk_mlp 7 HALFS NNONE false 1] [] [] [].
Example C89_case : sorts isort /\ crowded 128 (1 # 8192) (double (3 # 10)) dense_params [mk_zone (-10) 10 (double (1 # 10))] dense_axis /\
  on_doubles dense_axis /\ all_consistent dense_axis /\
  exists ax, r_detect_and_solve_too_close double 5 dense_params isort dense_axis = Done ax /\
    map (fun p => Qred (p_coord p)) (filter p_enabled (ax_policies ax)) = [100; Qred (double (2 # 10))] /\
    length (ax_conflicts ax) = 2%nat.
Proof.
  assert (Al : forall i p, policy_at dense_axis i p -> is_double (p_coord p) /\ -(128) <= p_coord p <= 128 /\ is_double (p_d p) /\ 1 # 8192 <= p_d p /\ consistent p).
  { assert (D1 : is_double 1) by (exists 1%Z, 0%Z; repeat split; try lia; reflexivity).
    assert (D100 : is_double 100) by (exists 100%Z, 0%Z; repeat split; try lia; reflexivity).
    assert (D7 : is_double 7) by (exists 7%Z, 0%Z; repeat split; try lia; reflexivity).
    intros [|[|[|[|[|i]]]]] p P; unfold policy_at in P; cbn -[double] in P; try (injection P as <-); cbn -[double];
      try (destruct i; discriminate);
      (split; [assumption || apply double_is_double|]);
      (split; [split; vm_compute; discriminate|]); (split; [assumption|]); (split; [vm_compute; discriminate|]);
      unfold consistent; cbn; split; congruence. }
  split; [exact isort_sorts|]. split; [|split; [|split]].
  - split.
    + vm_compute. discriminate.
    + vm_compute. discriminate.
    + discriminate.
    + vm_compute. discriminate.
    + split; [apply double_is_double|]. split; vm_compute; discriminate.
    + repeat constructor; [apply double_is_double|vm_compute; discriminate..].
    + split; vm_compute; discriminate.
    + split; [exists 1%Z, (-1)%Z; repeat split; try lia; reflexivity|vm_compute; discriminate].
    + intros i p [P _]. exact (Al i p P).
    + split; [intros i p _ (c & [] & _)|intros i (c & [] & _)].
  - intros i p P. apply (Al i p P).
  - rewrite all_consistent_at. intros i p P. apply (Al i p P).
  - eexists. split; [vm_compute; reflexivity|]. split; vm_compute; reflexivity.
Qed.

(** Policies farther apart than the limit may be merged: -2^-60 and 1 when the limit is
    1.  The distance rounds to 1. *)
Theorem C89_far_refuted : exists g ax, is_double (g_proximity_limit g) /\ settled ax /\ on_doubles ax /\
  detect_closest isort ax (g_proximity_limit g) = None /\
  exists ax', r_detect_and_solve_too_close double 5 g isort ax = Done ax' /\
    (enabled_count ax' < enabled_count ax)%nat.
Proof.
  exists (mk_params 1 2 3 1), (mk_axis [mk_mlp (- 2 ^ (-60)) ONELINE NNONE true 1; mk_mlp 1 ONELINE NNONE true 1] [] [] []).
  split; [exists 1%Z, 0%Z; repeat split; try lia; reflexivity|].
  split; [split; [intros i p _ (c & [] & _)|intros i (c & [] & _)]|].
  split; [|split; [vm_compute; reflexivity|eexists; split; [vm_compute; reflexivity|vm_compute; lia]]].
  intros [|[|i]] p P; unfold policy_at in P; cbn in P; try (injection P as <-); [| |destruct i; discriminate].
  - exists (-1)%Z, (-60)%Z. repeat split; try lia; reflexivity.
  - exists 1%Z, 0%Z. repeat split; try lia; reflexivity.
Qed.

(** The pair found may not be the closest one, and what is left is elsewhere: of -2^-60,
    1 and 2 with the limit 1, the first two are merged rather than the last two. *)
Theorem C89_closest_refuted : exists g ax ax1 ax2, is_double (g_proximity_limit g) /\ settled ax /\ on_doubles ax /\
  r_detect_and_solve_too_close double 5 g isort ax = Done ax1 /\ detect_and_solve_too_close 5 g isort ax = Done ax2 /\
  exists i p, enabled_at ax1 i p /\
    forall j q, enabled_at ax2 j q -> (1 # 2) * g_proximity_limit g <= Qabs (p_coord p - p_coord q).
Proof.
  exists (mk_params 1 2 3 1), (mk_axis [mk_mlp (- 2 ^ (-60)) ONELINE NNONE true 1; mk_mlp 1 ONELINE NNONE true 1; mk_mlp 2 ONELINE NNONE true 1] [] [] []).
  eexists. eexists.
  split; [exists 1%Z, 0%Z; repeat split; try lia; reflexivity|].
  split; [split; [intros i p _ (c & [] & _)|intros i (c & [] & _)]|].
  split.
  { intros [|[|[|i]]] p P; unfold policy_at in P; cbn in P; try (injection P as <-); [| | |destruct i; discriminate].
    - exists (-1)%Z, (-60)%Z. repeat split; try lia; reflexivity.
    - exists 1%Z, 0%Z. repeat split; try lia; reflexivity.
    - exists 1%Z, 1%Z. repeat split; try lia; reflexivity. }
  split; [vm_compute; reflexivity|]. split; [vm_compute; reflexivity|].
  exists 2%nat. eexists. split; [split; reflexivity|].
  intros j q [P En]. unfold policy_at in P. cbn in P.
  destruct j as [|[|[|[|j]]]]; cbn in P; try (injection P as <-); try discriminate; [vm_compute; discriminate..|destruct j; discriminate].
Qed.

Print Assumptions C89_exact.
Print Assumptions C89_none.
Print Assumptions C89_some.
Print Assumptions C89_ends_apart.
Print Assumptions C89_frame.
Print Assumptions C89_middle.
Print Assumptions C89_replaced.
Print Assumptions C89_meshed.
Print Assumptions C89_far_refuted.
Print Assumptions C89_closest_refuted.
