(** Properties C26 to C32, C49 and C50, and what C24 becomes on a whole axis: policies,
    intervals and lines of one axis. *)
From Coq Require Import List Arith Bool Lia QArith Qabs Qminmax Lqa Sorting.Sorted Sorting.Permutation.
From Verif Require Import IntervalModel IntervalSpec.
From Verif Require Import ManagerModel ManagerSpec ManagerProofs ManagerMeshProofs ManagerMoreProofs ManagerCounterProofs ManagerSafetyProofs.
Import ListNotations.
Open Scope Q_scope.

(** The parameters of global.hpp 19-31, and small axes for the examples. *)
Definition usual : params := mk_params 1 2 2 (5 # 2).
Definition empty_axis : axis := mk_axis [] [] [] [].
Definition line (x : Q) : mlp := mk_mlp x ONELINE NNONE true (5 # 4).
Definition halfs (x : Q) : mlp := mk_mlp x HALFS NNONE true (5 # 4).
Definition thirds (x : Q) : mlp := mk_mlp x THIRDS NMIN true (5 # 4).
Definition of_policies (l : list mlp) : axis := mk_axis l [] [] [].

(* ------------------------------------------------------------------ *)
(** * C26: policies and normals are always consistent *)

Theorem C26_add : forall g ax policy normal coord enabled ax' address,
  add_meshline_policy g ax policy normal coord enabled = (ax', address) ->
  ((policy = THIRDS <-> normal <> NNONE) ->
     address = Some (length (ax_policies ax)) /\
     ax' = mk_axis (ax_policies ax ++ [mk_mlp coord policy normal enabled (g_dmax g / 2)])
                   (ax_conflicts ax) (ax_segments ax) (ax_lines ax)) /\
  (~ (policy = THIRDS <-> normal <> NNONE) -> address = None /\ ax' = ax).
Proof.
  intros g ax policy normal coord enabled ax' address E. unfold add_meshline_policy in E.
  pose proof (consistent_dec (mk_mlp coord policy normal enabled 0)) as H. unfold consistent in H. cbn in H.
  destruct (inconsistent policy normal); inversion E; subst.
  - split; [|now split]. intros X. apply H in X. discriminate.
  - split; [now split|]. intros X. exfalso. apply X, H. reflexivity.
Qed.

Theorem C26_always_consistent : forall srt ax, sorts srt -> reached srt ax -> all_consistent ax.
Proof. exact reached_consistent. Qed.

(** Consistent policies are also those whose two lines are [d] apart: a THIRDS policy
    without direction would put its lines 2[d] apart. *)
Theorem C26_span : forall p, consistent p -> p_policy p <> ONELINE ->
  d_init_before p (p_d p) + d_init_after p (p_d p) == p_d p.
Proof.
  intros p C O. unfold consistent in C. unfold d_init_before, d_init_after.
  destruct (p_policy p); [congruence|field|]. destruct (p_normal p); [exfalso; now apply C|ring|ring].
Qed.

Example C26_case : exists ax, reached isort ax /\ length (ax_policies ax) = 3%nat /\ length (ax_conflicts ax) = 1%nat.
Proof.
  eexists. split.
  - eapply (reached_close isort 3 usual).
    + eapply (reached_add isort usual _ THIRDS NMIN (1 # 2) true). eapply (reached_add isort usual _ HALFS NMAX 7 true).
      eapply (reached_add isort usual _ ONELINE NNONE 0 true). constructor.
    + vm_compute. reflexivity.
  - now split.
Qed.

(* ------------------------------------------------------------------ *)
(** * C27: the closest pair of policies *)

Theorem C27_none : forall srt ax limit, sorts srt ->
  detect_closest srt ax limit = None <->
  forall i j p q, i <> j -> enabled_at ax i p -> enabled_at ax j q -> limit < Qabs (p_coord p - p_coord q).
Proof.
  intros srt ax limit S. split; [apply detect_closest_none; assumption|]. intros H.
  destruct (detect_closest srt ax limit) as [[a b]|] eqn:E; [|reflexivity].
  destruct (detect_closest_some _ _ _ _ _ S E) as (pa & pb & Ea & Eb & N & _ & L & _).
  pose proof (H a b pa pb N Ea Eb). unfold gap in L. lra.
Qed.

Theorem C27_some : forall srt ax limit a b, sorts srt -> detect_closest srt ax limit = Some (a, b) ->
  exists p q, enabled_at ax a p /\ enabled_at ax b q /\ a <> b /\ p_coord p <= p_coord q /\
    p_coord q - p_coord p <= limit /\
    forall i j p' q', i <> j -> enabled_at ax i p' -> enabled_at ax j q' ->
      p_coord q - p_coord p <= Qabs (p_coord p' - p_coord q').
Proof.
  intros srt ax limit a b S E. destruct (detect_closest_some _ _ _ _ _ S E) as (p & q & Ea & Eb & N & O & L & M).
  exists p, q. split; [assumption|]. split; [assumption|]. split; [assumption|]. split; [assumption|].
  assert (gap p q == p_coord q - p_coord p) as G by (unfold gap; rewrite Qabs_neg by lra; ring).
  split; [lra|]. intros i j p' q' Nij Ei Ej. rewrite <- G. exact (M i j p' q' Nij Ei Ej).
Qed.

Example C27_case : detect_closest isort (of_policies [line 5; halfs 0; disable (line (51 # 10)); thirds (9 # 2)]) 1 = Some (3, 0)%nat.
Proof. reflexivity. Qed.

(* ------------------------------------------------------------------ *)
(** * C28: resolving too close policies *)

(** It ends with fewer turns than enabled policies and with all of them apart. *)
Theorem C28_ends_apart : forall g srt ax, sorts srt -> settled ax ->
  exists ax', (forall n, (enabled_count ax < n)%nat -> detect_and_solve_too_close n g srt ax = Done ax') /\
    settled ax' /\
    forall i j p q, i <> j -> enabled_at ax' i p -> enabled_at ax' j q ->
      g_proximity_limit g < Qabs (p_coord p - p_coord q).
Proof.
  intros g srt ax S Se. destruct (solve_loop g srt S (enabled_count ax) ax (le_n _) Se) as (ax' & H & E).
  exists ax'. split; [exact E|]. split; [eapply solving_settled; eassumption|]. exact (solving_apart g srt ax ax' S H).
Qed.

(** What it leaves: only [enabled] changes in existing policies, each enabled policy
    lost is a conflict won, conflicts are added at the end and all are well solved. *)
Theorem C28_frame : forall n g srt ax ax', sorts srt -> detect_and_solve_too_close n g srt ax = Done ax' ->
  all_consistent ax -> Forall (well_solved ax) (ax_conflicts ax) ->
  (forall i p, policy_at ax i p -> policy_at ax' i p \/ policy_at ax' i (disable p)) /\
  (length (ax_conflicts ax') + enabled_count ax' = length (ax_conflicts ax) + enabled_count ax)%nat /\
  (exists new, ax_conflicts ax' = ax_conflicts ax ++ new) /\
  ax_segments ax' = ax_segments ax /\ ax_lines ax' = ax_lines ax /\
  Forall (well_solved ax') (ax_conflicts ax').
Proof.
  intros n g srt ax ax' S E C W. pose proof (solve_done srt g S n ax ax' E) as H.
  split; [exact (solving_frame g srt ax ax' H)|]. split; [eapply solving_count; eassumption|].
  destruct (solving_other _ _ _ _ H) as (A & B & D). split; [assumption|]. split; [assumption|]. split; [assumption|].
  eapply solving_well_solved; eassumption.
Qed.

(** Every policy that was enabled is, in the end, replaced by an enabled one, which
    is ONELINE if it was, and at most 5/2 of the limit away. *)
Theorem C28_replaced : forall n g srt ax ax' i p, sorts srt -> detect_and_solve_too_close n g srt ax = Done ax' ->
  all_consistent ax -> Forall (well_solved ax) (ax_conflicts ax) -> 0 <= g_proximity_limit g -> enabled_at ax i p ->
  exists j q, enabled_at ax' j q /\ replaced_by ax' i j /\
    Qabs (p_coord p - p_coord q) <= (5 # 2) * g_proximity_limit g /\
    (p_policy p = ONELINE -> p_policy q = ONELINE).
Proof.
  intros n g srt ax ax' i p S E C W L Ei. pose proof (solve_done srt g S n ax ax' E) as H.
  destruct (solving_moved g srt ax ax' i p S H C Ei L) as (j & q & Ej & R & G).
  exists j, q. split; [assumption|]. split; [assumption|]. split; [assumption|]. intros O.
  pose proof (solving_well_solved _ _ _ _ H C W) as W'.
  destruct (solving_frame _ _ _ _ H i p (proj1 Ei)) as [P|P].
  - exact (replaced_oneline ax' i j p q W' R P (proj1 Ej) O).
  - exact (replaced_oneline ax' i j (disable p) q W' R P (proj1 Ej) O).
Qed.

(** The limit itself is not a bound. *)
Theorem C28_within_limit_refuted : exists n g ax ax' i p,
  reached isort ax /\ detect_and_solve_too_close n g isort ax = Done ax' /\ enabled_at ax i p /\
  forall j q, enabled_at ax' j q -> (13 # 10) * g_proximity_limit g <= Qabs (p_coord p - p_coord q).
Proof.
  exists 5%nat, usual.
  exists (of_policies [halfs (9 # 10); line 0; line (- (95 # 100))]). eexists. exists 0%nat, (halfs (9 # 10)).
  split; [|split; [vm_compute; reflexivity|split; [now split|]]].
  - apply (reached_add isort usual (of_policies [halfs (9 # 10); line 0]) ONELINE NNONE (- (95 # 100)) true).
    apply (reached_add isort usual (of_policies [halfs (9 # 10)]) ONELINE NNONE 0 true).
    apply (reached_add isort usual empty_axis HALFS NNONE (9 # 10) true). constructor.
  - intros j q [P En]. unfold policy_at in P. cbn in P.
    do 5 (destruct j as [|j]; [inversion P; subst; (discriminate || (vm_compute; discriminate))|cbn in P]).
    destruct j; discriminate.
Qed.

(** A closest pair with a policy that already is in a conflict: it never ends. *)
Theorem C28_stuck : forall g srt ax a b, detect_closest srt ax (g_proximity_limit g) = Some (a, b) ->
  conflicting ax a \/ conflicting ax b -> loops (fun n => detect_and_solve_too_close n g srt ax).
Proof. exact solve_stuck. Qed.

(** A reachable such axis: two lines are merged, the user enables one of them again,
    and the step runs again on the same axis. *)
Example C28_stuck_case : exists ax, reached isort ax /\ loops (fun n => detect_and_solve_too_close n usual isort ax).
Proof.
  eexists. split.
  - eapply (reached_edit isort _ 0 ONELINE NNONE true (5 # 4)).
    + eapply (reached_close isort 5 usual).
      * apply (reached_add isort usual (of_policies [line 0]) ONELINE NNONE (1 # 2) true).
        apply (reached_add isort usual empty_axis ONELINE NNONE 0 true). constructor.
      * vm_compute. reflexivity.
    + vm_compute. reflexivity.
  - eapply C28_stuck; [vm_compute; reflexivity|]. left. eexists. split; [now left|now left].
Qed.

Example C28_case : settled (of_policies [line 5; halfs 0; thirds (9 # 2); thirds (1 # 2)]) /\
  exists ax', detect_and_solve_too_close 6 usual isort (of_policies [line 5; halfs 0; thirds (9 # 2); thirds (1 # 2)]) = Done ax' /\
    map (fun p => (Qred (p_coord p), p_policy p)) (filter p_enabled (ax_policies ax')) = [(1 # 4, HALFS); (5, ONELINE)].
Proof.
  split; [split|].
  - intros i p _ (c & [] & _).
  - intros i (c & [] & _).
  - eexists. split; [vm_compute; reflexivity|reflexivity].
Qed.

(* ------------------------------------------------------------------ *)
(** * C29: merging two too close policies *)

Theorem C29_merge : forall a b, consistent a -> consistent b ->
  exists policy normal x, merged a b = Some (policy, normal, x) /\
    (policy = THIRDS <-> normal <> NNONE) /\
    between (p_coord a) (p_coord b) x /\
    (policy = ONELINE <-> p_policy a = ONELINE \/ p_policy b = ONELINE) /\
    (forall n, policy = THIRDS /\ normal = n <->
       p_policy a = THIRDS /\ p_normal a = n /\ p_policy b = THIRDS /\ p_normal b = n) /\
    (p_policy a = ONELINE -> p_policy b <> ONELINE -> x = p_coord a) /\
    (p_policy b = ONELINE -> p_policy a <> ONELINE -> x = p_coord b) /\
    ((p_policy a = ONELINE <-> p_policy b = ONELINE) -> x == (p_coord a + p_coord b) / 2).
Proof.
  intros a b Ca Cb. destruct (merged_consistent a b Ca Cb) as (policy & normal & x & M & I).
  exists policy, normal, x. split; [assumption|].
  split; [exact (proj1 (consistent_dec (mk_mlp 0 policy normal true 0)) I)|].
  split; [now apply (merged_between _ _ _ _ _ M)|].
  destruct (merged_kind _ _ _ _ _ Ca Cb M) as [K1 K2]. split; [assumption|]. split; [assumption|].
  unfold merged, coord_mid in M.
  destruct (p_policy a), (p_policy b); try destruct (p_normal a), (p_normal b); inversion M; subst;
  (split; [intros; congruence || reflexivity|]; split; [intros; congruence || reflexivity|]; intros [H1 H2];
   first [reflexivity | exfalso; (discriminate (H1 eq_refl) || discriminate (H2 eq_refl))]).
Qed.

Theorem C29_symmetric : forall a b,
  match merged a b, merged b a with
  | Some (p, n, x), Some (p', n', x') => p = p' /\ n = n' /\ x == x'
  | None, None => True
  | _, _ => False
  end.
Proof.
  intros a b. unfold merged, coord_mid.
  destruct (p_policy a), (p_policy b); try destruct (p_normal a), (p_normal b);
  first [exact I | split; [reflexivity|split; [reflexivity|]]; first [field | reflexivity]].
Qed.

(** Detecting and solving one conflict: both policies are disabled, and the solution
    is the enabled policy added at the end. *)
Theorem C29_solved : forall g ax a b pa pb, policy_at ax a pa -> policy_at ax b pb -> a <> b ->
  consistent pa -> consistent pb -> ~ conflicting ax a -> ~ conflicting ax b ->
  exists ax1 c ax' policy normal x, add_too_close ax a b = Done (Some (ax1, c)) /\ solve_too_close g ax1 c = Done ax' /\
    merged pa pb = Some (policy, normal, x) /\
    policy_at ax' a (disable pa) /\ policy_at ax' b (disable pb) /\
    policy_at ax' (length (ax_policies ax)) (mk_mlp x policy normal true (g_dmax g / 2)) /\
    (forall i p, i <> a -> i <> b -> policy_at ax i p -> policy_at ax' i p) /\
    ax_conflicts ax' = ax_conflicts ax ++ [mk_tc a b (Some (length (ax_policies ax)))].
Proof.
  intros g ax a b pa pb Pa Pb N Ca Cb Fa Fb.
  destruct (turn_ok g ax a b pa pb Pa Pb N Fa Fb) as (ax1 & ax' & E1 & E2 & T).
  destruct (merged_consistent pa pb Ca Cb) as (policy & normal & x & M & I).
  pose proof (tu_new _ _ _ _ _ _ _ T) as New. rewrite M, I in New. destruct New as (_ & Pn & Cs).
  exists ax1, (length (ax_conflicts ax)), ax', policy, normal, x.
  split; [assumption|]. split; [assumption|]. split; [assumption|]. split; [apply (tu_a _ _ _ _ _ _ _ T)|].
  split; [apply (tu_b _ _ _ _ _ _ _ T)|]. split; [exact Pn|]. split; [|exact Cs].
  intros i p Ni Nj P. eapply turn_keeps; eassumption.
Qed.

Example C29_case : merged (line 1) (thirds 2) = Some (ONELINE, NNONE, 1) /\
  merged (thirds 1) (thirds 2) = Some (THIRDS, NMIN, 3 # 2) /\ merged (halfs 1) (thirds 2) = Some (HALFS, NNONE, 3 # 2).
Proof. repeat split. Qed.

(* ------------------------------------------------------------------ *)
(** * C30: intervals tile the axis *)

(** [l] being the enabled policies in order, the new intervals are the consecutive
    pairs of [l]; nothing else changes but the [d] of the policies. *)
Theorem C30_tiling : forall g srt ax, sorts srt ->
  exists ax' new l, detect_intervals g srt ax = Done ax' /\ in_order ax l /\
    ax_segments ax' = ax_segments ax ++ new /\
    map (fun s => (sg_before s, sg_after s)) new = combine l (tl l) /\
    length new = pred (enabled_count ax) /\
    ax_conflicts ax' = ax_conflicts ax /\ ax_lines ax' = ax_lines ax /\
    Forall2 same_but_d (ax_policies ax) (ax_policies ax').
Proof.
  intros g srt ax S. destruct (detect_intervals_ok g srt ax S) as (ax' & new & l & E & O & Cs & Ls & Len & Ss & T & F & K).
  exists ax', new, l. split; [assumption|]. split; [assumption|]. split; [assumption|]. split; [assumption|].
  split; [|split; [assumption|split; [assumption|]]].
  - rewrite <- (map_length (fun s => (sg_before s, sg_after s)) new), T, combine_length.
    destruct (policies_exist ax l) as (pl & Fp).
    { intros i I. apply O in I. destruct I as (p & P & _). now exists p. }
    pose proof (Permutation_length (in_order_perm ax l pl O Fp)) as L. rewrite <- (forall2_length _ _ _ Fp) in L.
    unfold enabled_count. rewrite <- L. destruct l as [|i0 l0]; [reflexivity|]. cbn [tl length pred]. apply Nat.min_r. lia.
  - apply same_of_at; [assumption|]. intros i p P. destruct (K i p P) as (p' & P' & Cl). exists p'. split; [assumption|apply Cl].
Qed.

(** No enabled policy is strictly inside an interval. *)
Theorem C30_nothing_inside : forall g srt ax ax' s b a i p, sorts srt -> ax_segments ax = [] ->
  detect_intervals g srt ax = Done ax' -> In s (ax_segments ax') ->
  policy_at ax' (sg_before s) b -> policy_at ax' (sg_after s) a -> enabled_at ax' i p ->
  p_coord b <= p_coord a /\ ~ (p_coord b < p_coord p < p_coord a).
Proof.
  intros g srt ax ax' s b a i p S E0 E Is Pb Pa Ei.
  destruct (C30_tiling g srt ax S) as (ax1 & new & l & E1 & O & Ss & T & _ & _ & _ & Sm).
  assert (ax1 = ax') by congruence. subst ax1. rewrite E0 in Ss. cbn in Ss. subst new.
  apply (in_order_same ax ax' l Sm) in O. destruct O as (N & M & Or).
  assert (J : In (sg_before s, sg_after s) (combine l (tl l))) by (rewrite <- T; apply in_map_iff; now exists s).
  destruct (combine_tl_nth _ _ _ J) as (j & J1 & J2).
  split; [exact (Or j (Datatypes.S j) _ _ _ _ (Nat.lt_succ_diag_r j) J1 J2 Pb Pa)|].
  assert (Ii : In i l) by (apply M; eauto). apply In_nth_error in Ii. destruct Ii as (k & Ek). destruct Ei as [P _].
  intros [L1 L2]. destruct (lt_eq_lt_dec k j) as [[L|L]|L].
  - pose proof (Or k j _ _ _ _ L Ek J1 P Pb). lra.
  - subst k. unfold policy_at in *. assert (p = b) by congruence. subst. lra.
  - destruct (Nat.eq_dec k (Datatypes.S j)) as [->|N2].
    + unfold policy_at in *. assert (p = a) by congruence. subst. lra.
    + assert (Datatypes.S j < k)%nat as L' by lia. pose proof (Or _ k _ _ _ _ L' J2 Ek Pa P). lra.
Qed.

(** The [d] of a policy becomes the least of its value and the half lengths of the
    intervals it bounds. *)
Theorem C30_clamped : forall g srt ax ax' i p, sorts srt -> ax_segments ax = [] -> detect_intervals g srt ax = Done ax' ->
  policy_at ax i p -> exists p', policy_at ax' i p' /\ same_but_d p p' /\ p_d p' <= p_d p /\
    (forall s, In s (ax_segments ax') -> sg_before s = i \/ sg_after s = i -> p_d p' <= iv_h (sg_iv s)) /\
    (p_d p' = p_d p \/ exists s, In s (ax_segments ax') /\ (sg_before s = i \/ sg_after s = i) /\ p_d p' = iv_h (sg_iv s)).
Proof.
  intros g srt ax ax' i p S E0 E P.
  destruct (detect_intervals_ok g srt ax S) as (ax1 & new & l & E1 & O & Cs & Ls & Len & Ss & T & F & K).
  assert (ax1 = ax') by congruence. subst ax1. rewrite E0 in Ss. cbn in Ss. subst new.
  destruct (K i p P) as (p' & P' & Cl). exists p'. split; [assumption|exact Cl].
Qed.

Example C30_case : exists ax', detect_intervals usual isort (of_policies [line 5; halfs 0; disable (line 3); thirds (13 # 2)]) = Done ax' /\
  map (fun s => (sg_before s, sg_after s)) (ax_segments ax') = [(1, 0); (0, 3)]%nat /\
  map (fun p => Qred (p_d p)) (ax_policies ax') = [3 # 4; 5 # 4; 5 # 4; 3 # 4].
Proof. eexists. split; [vm_compute; reflexivity|]. split; reflexivity. Qed.

(* ------------------------------------------------------------------ *)
(** * C31: the final mesh of an axis *)

Theorem C31_detected_meshable : forall g srt ax, sorts srt -> 0 < g_dmax g -> 1 <= g_smoothness g ->
  ax_segments ax = [] -> ax_lines ax = [] -> distinct ax -> (forall i p, enabled_at ax i p -> 0 < p_d p) ->
  exists ax' l, detect_intervals g srt ax = Done ax' /\ meshable ax' l.
Proof.
  intros g srt ax S D S1 E0 L0 Di Po. destruct (intervals_meshable g srt ax S D S1 E0 L0 Di Po) as (ax' & l & E & _ & M & _).
  now exists ax', l.
Qed.

Theorem C31_mesh : forall srt ax l, sorts srt -> meshable ax l ->
  exists ax', finishes (fun n => mesh_axis n srt ax) ax' /\ meshed ax (ax_lines ax') /\
    Forall2 same_but_d (ax_policies ax) (ax_policies ax') /\ ax_conflicts ax' = ax_conflicts ax.
Proof. exact mesh_axis_meshed. Qed.

(** From the policies to the lines: too close policies, intervals, zones, mesh.  [D] is
    any bound of the [dmax] of the parameters and of the zones. *)
Theorem C31_whole_run : forall g srt zs ax D, sorts srt ->
  0 <= g_proximity_limit g -> 0 < g_dmax g <= D -> 1 <= g_smoothness g -> Forall (fun z => 0 < z_dmax z <= D) zs ->
  settled ax -> all_consistent ax -> Forall (well_solved ax) (ax_conflicts ax) ->
  ax_segments ax = [] -> ax_lines ax = [] -> (forall i p, enabled_at ax i p -> 0 < p_d p) ->
  exists ax1 ax2 ax3, finishes (fun n => detect_and_solve_too_close n g srt ax) ax1 /\
    detect_intervals g srt ax1 = Done ax2 /\ finishes (fun n => mesh_axis n srt (apply_zones zs ax2)) ax3 /\
    increasing (ax_lines ax3) /\ within D (ax_lines ax3) /\
    (forall i p, enabled_at ax1 i p -> p_policy p = ONELINE -> In (p_coord p) (ax_lines ax3)) /\
    (forall i p, enabled_at ax i p -> p_policy p = ONELINE ->
       exists x, In x (ax_lines ax3) /\ Qabs (p_coord p - x) <= (5 # 2) * g_proximity_limit g) /\
    (forall x, In x (ax_lines ax3) -> exists i p j q, enabled_at ax1 i p /\ enabled_at ax1 j q /\ p_coord p <= x <= p_coord q).
Proof.
  intros g srt zs ax D S L0 [D0 DD] S1 Z Se C W E0 Li Po.
  destruct (solve_loop g srt S (enabled_count ax) ax (le_n _) Se) as (ax1 & H & E).
  destruct (solving_other _ _ _ _ H) as (X1 & X2 & _).
  assert (Po1 : forall i p, enabled_at ax1 i p -> 0 < p_d p) by (eapply solving_pos; eassumption).
  assert (Di1 : distinct ax1) by (apply (apart_distinct (g_proximity_limit g)); [assumption|exact (solving_apart g srt ax ax1 S H)]).
  destruct (intervals_meshable g srt ax1 S D0 S1) as (ax2 & l & E2 & O2 & M2 & Sm2 & Cs2 & Dm2); try congruence; try assumption.
  assert (M3 : meshable (apply_zones zs ax2) l).
  { apply zones_meshable; [|assumption]. eapply Forall_impl; [|exact Z]. intros z [Hz _]. exact Hz. }
  destruct (mesh_axis_meshed srt _ l S M3) as (ax3 & F & [Inc Ins One _ Wi _ _] & _).
  assert (C2 : all_consistent ax2).
  { unfold all_consistent. eapply forall2_forall; [exact same_consistent|exact Sm2|]. eapply solving_consistent; eassumption. }
  assert (At : forall i p, enabled_at (apply_zones zs ax2) i p -> exists q, enabled_at ax1 i q /\ p_coord q = p_coord p).
  { intros i p [P En]. destruct (same_at _ _ _ _ Sm2 P) as (q & Q & (Cq & _ & _ & Eq)). exists q. split; [split; [assumption|congruence]|assumption]. }
  assert (On1 : forall i p, enabled_at ax1 i p -> p_policy p = ONELINE -> In (p_coord p) (ax_lines ax3)).
  { intros i p [P En] Op. destruct (same_at_l _ _ _ _ Sm2 P) as (q & Q & (Cq & Pq & _ & Eq)). rewrite Cq.
    apply (One i q); [split; [assumption|congruence]|congruence]. }
  exists ax1, ax2, ax3. split; [exists (Datatypes.S (enabled_count ax)); intros m Lm; apply E; lia|].
  split; [assumption|]. split; [assumption|]. split; [assumption|]. split; [|split; [assumption|split]].
  - apply Wi; [exact C2|]. apply (zones_dmax D); [eapply Forall_impl; [|exact Z]; intros z [_ Hz]; exact Hz|].
    intros s Is. rewrite (Dm2 s Is). assumption.
  - intros i p Ei Op. pose proof (E (Datatypes.S (enabled_count ax)) ltac:(lia)) as En.
    destruct (C28_replaced _ g srt ax ax1 i p S En C W L0 Ei) as (j & q & Ej & _ & G & Oq).
    exists (p_coord q). split; [apply (On1 j q Ej (Oq Op))|assumption].
  - intros x X. destruct (Ins x X) as [(i & p & Ei & _ & ->)|(i & p & j & q & Ei & Ej & L)].
    + destruct (At i p Ei) as (p' & E' & <-). exists i, p', i, p'. split; [assumption|]. split; [assumption|]. lra.
    + destruct (At i p Ei) as (p' & E' & Cp). destruct (At j q Ej) as (q' & F' & Cq).
      exists i, p', j, q'. rewrite Cp, Cq. split; [assumption|]. split; [assumption|]. lra.
Qed.

(** The outermost policies only carry a line if they are ONELINE: otherwise the mesh
    stops before them. *)
Theorem C31_outer_policy : forall srt ax l i p, sorts srt -> meshable ax l -> enabled_at ax i p -> p_policy p <> ONELINE ->
  exists ax', finishes (fun n => mesh_axis n srt ax) ax' /\
    ((forall j q, enabled_at ax j q -> p_coord p <= p_coord q) -> forall x, In x (ax_lines ax') -> p_coord p < x) /\
    ((forall j q, enabled_at ax j q -> p_coord q <= p_coord p) -> forall x, In x (ax_lines ax') -> x < p_coord p).
Proof.
  intros srt ax l i p S M Ei O. destruct (mesh_axis_meshed srt ax l S M) as (ax' & F & [_ Ins _ _ _ _ _] & _).
  exists ax'. split; [assumption|].
  assert (K : forall x, In x (ax_lines ax') ->
    (exists j q, enabled_at ax j q /\ p_policy q = ONELINE /\ x = p_coord q) \/
    (exists j q k r, enabled_at ax j q /\ enabled_at ax k r /\ p_coord q < x < p_coord r)) by exact Ins.
  assert (Ne : forall j q, enabled_at ax j q -> p_policy q = ONELINE -> ~ p_coord p == p_coord q).
  { intros j q Ej Oq. apply (me_distinct _ _ M i j); [|assumption|assumption]. intros ->. destruct Ei, Ej. unfold policy_at in *. congruence. }
  split; intros H x X; destruct (K x X) as [(j & q & Ej & Oq & ->)|(j & q & k & r & Ej & Ek & L)].
  - pose proof (H j q Ej). pose proof (Ne j q Ej Oq). destruct (Qlt_le_dec (p_coord p) (p_coord q)); [assumption|]. exfalso. lra.
  - pose proof (H j q Ej). lra.
  - pose proof (H j q Ej). pose proof (Ne j q Ej Oq). destruct (Qlt_le_dec (p_coord q) (p_coord p)); [assumption|]. exfalso. lra.
  - pose proof (H k r Ek). lra.
Qed.

(** Hence an axis with a single policy that is not ONELINE has no line at all. *)
Theorem C31_no_line : forall srt ax l i p, sorts srt -> meshable ax l -> enabled_at ax i p -> p_policy p <> ONELINE ->
  enabled_count ax = 1%nat -> exists ax', finishes (fun n => mesh_axis n srt ax) ax' /\ ax_lines ax' = [].
Proof.
  intros srt ax l i p S M Ei O N. destruct (C31_outer_policy srt ax l i p S M Ei O) as (ax' & F & H1 & H2).
  exists ax'. split; [assumption|].
  assert (One : forall j q, enabled_at ax j q -> q = p).
  { intros j q [Pj Ej]. destruct Ei as [Pi Ei]. unfold enabled_count in N. unfold policy_at in *.
    assert (In p (filter p_enabled (ax_policies ax))) by (apply filter_In; split; [eapply nth_error_In; eassumption|assumption]).
    assert (In q (filter p_enabled (ax_policies ax))) by (apply filter_In; split; [eapply nth_error_In; eassumption|assumption]).
    destruct (filter p_enabled (ax_policies ax)) as [|u [|v r]]; cbn in N; try lia.
    destruct H as [<-|[]], H0 as [<-|[]]. reflexivity. }
  destruct (ax_lines ax') as [|x r]; [reflexivity|exfalso].
  assert (p_coord p < x) by (apply H1; [intros j q Ej; rewrite (One j q Ej); lra|now left]).
  assert (x < p_coord p) by (apply H2; [intros j q Ej; rewrite (One j q Ej); lra|now left]). lra.
Qed.

(** A zone replaces the [dmax] of the intervals whose middle it contains, the last zone
    winning, even when its own [dmax] is larger. *)
Theorem C31_zone : forall zs z s ax, In s (ax_segments ax) ->
  z_min z <= iv_m (sg_iv s) <= z_max z ->
  exists s', In s' (ax_segments (apply_zones (zs ++ [z]) ax)) /\ sg_before s' = sg_before s /\ sg_after s' = sg_after s /\
    iv_dmax (sg_iv s') = z_dmax z.
Proof.
  intros zs z s ax I H. unfold apply_zones. rewrite fold_left_app. cbn [fold_left ax_segments set_segments].
  assert (K : forall zs l, In s l -> exists t, In t (fold_left (fun l z => map (apply_zone z) l) zs l) /\
    sg_before t = sg_before s /\ sg_after t = sg_after s /\ iv_m (sg_iv t) = iv_m (sg_iv s)).
  { clear. intros zs l I. assert (exists t, In t l /\ sg_before t = sg_before s /\ sg_after t = sg_after s /\ iv_m (sg_iv t) = iv_m (sg_iv s)) as K by now exists s.
    clear I. revert l K. induction zs as [|z zs IH]; intros l (t & T & B & A & M); cbn; [exists t; now split|]. apply IH.
    exists (apply_zone z t). split; [now apply in_map|]. destruct (apply_zone_same z t) as (-> & -> & E). split; [assumption|]. split; [assumption|].
    destruct E as [->| ->]; assumption. }
  destruct (K zs (ax_segments ax) I) as (t & T & B & A & M). exists (apply_zone z t).
  split; [now apply in_map|]. destruct (apply_zone_same z t) as (-> & -> & _). split; [assumption|]. split; [assumption|].
  unfold apply_zone, in_zone. rewrite M. destruct H as [H1 H2]. apply Qle_bool_iff in H1. apply Qle_bool_iff in H2. rewrite H1, H2. reflexivity.
Qed.

(** An interval whose middle is in no zone is left as it is. *)
Theorem C31_zone_outside : forall zs s ax, In s (ax_segments ax) ->
  (forall z, In z zs -> iv_m (sg_iv s) < z_min z \/ z_max z < iv_m (sg_iv s)) -> In s (ax_segments (apply_zones zs ax)).
Proof.
  intros zs s ax I H. unfold apply_zones. cbn [set_segments ax_segments]. revert I. generalize (ax_segments ax).
  induction zs as [|z zs IH]; intros l I; [exact I|]. cbn [fold_left]. apply IH; [intros z' Z; apply H; now right|].
  apply in_map_iff. exists s. split; [|exact I]. unfold apply_zone, in_zone.
  destruct (Qle_bool (z_min z) (iv_m (sg_iv s))) eqn:E1; [|reflexivity].
  destruct (Qle_bool (iv_m (sg_iv s)) (z_max z)) eqn:E2; [|reflexivity].
  apply Qle_bool_iff in E1. apply Qle_bool_iff in E2. destruct (H z (or_introl eq_refl)); lra.
Qed.

(** Zones change nothing but the intervals: neither their number, order nor policies. *)
Theorem C31_zone_frame : forall zs ax,
  ax_policies (apply_zones zs ax) = ax_policies ax /\ ax_conflicts (apply_zones zs ax) = ax_conflicts ax /\
  ax_lines (apply_zones zs ax) = ax_lines ax /\
  map (fun s => (sg_before s, sg_after s)) (ax_segments (apply_zones zs ax)) = map (fun s => (sg_before s, sg_after s)) (ax_segments ax).
Proof.
  intros zs ax. split; [reflexivity|]. split; [reflexivity|]. split; [reflexivity|].
  unfold apply_zones. cbn [set_segments ax_segments]. generalize (ax_segments ax).
  induction zs as [|z zs IH]; intros l; [reflexivity|]. cbn [fold_left]. rewrite IH, map_map. apply map_ext.
  intros t. destruct (apply_zone_same z t) as (-> & -> & _). reflexivity.
Qed.

(** Meshing again keeps the lines already there: run twice on the same axis, each
    line of a ONELINE policy is there twice. *)
Theorem C31_mesh_again : forall n srt ax ax', sorts srt -> mesh_axis n srt ax = Done ax' ->
  (forall x, In x (ax_lines ax) -> In x (ax_lines ax')) /\
  (length (ax_lines ax) + length (filter (fun p => p_enabled p && is_oneline (p_policy p)) (ax_policies ax'))
     <= length (ax_lines ax'))%nat.
Proof.
  intros n srt ax ax' S E. unfold mesh_axis in E. cbn zeta in E.
  destruct (first_pass n ax _) as [ax1| |] eqn:F; try discriminate. cbn [bind] in E.
  destruct (second_pass n ax1 _) as [[ax2 ls]| |] eqn:G; try discriminate. cbn [bind] in E. inversion E; subst.
  cbn [set_lines ax_lines ax_policies].
  destruct (S Q (fun x => x) (ax_lines ax2 ++ concat ls ++ flat_map mesh_policy (ax_policies ax2))) as [P _].
  rewrite (second_pass_lines _ _ _ _ _ G), (first_pass_lines _ _ _ _ F) in *. split.
  - intros x X. apply (Permutation_in _ P). apply in_or_app. now left.
  - rewrite <- (Permutation_length P), !app_length.
    assert (length (flat_map mesh_policy (ax_policies ax2)) = length (filter (fun p => p_enabled p && is_oneline (p_policy p)) (ax_policies ax2))) as ->; [|lia].
    clear. induction (ax_policies ax2) as [|p l IH]; [reflexivity|]. cbn [flat_map filter]. rewrite app_length, IH. unfold mesh_policy.
    destruct (p_enabled p && is_oneline (p_policy p)); reflexivity.
Qed.

(** The lines drawn for the policies are those of the enabled ones. *)
Theorem C31_policies_lines : forall ax x, In x (policies_lines ax) <-> exists i p, enabled_at ax i p /\ x = p_coord p.
Proof.
  intros ax x. unfold policies_lines. split.
  - intros I. apply in_map_iff in I. destruct I as (p & <- & I). apply filter_In in I. destruct I as [I En].
    apply In_nth_error in I. destruct I as (i & P). exists i, p. now split.
  - intros (i & p & [P En] & ->). apply in_map, filter_In. split; [eapply nth_error_In; exact P|exact En].
Qed.

(** The number shown as a cell number is the number of nodes of the grid. *)
Theorem C31_cell_number : forall x y z,
  mesh_cell_number x y z = length (list_prod (list_prod (ax_lines x) (ax_lines y)) (ax_lines z)).
Proof. intros x y z. rewrite !prod_length. reflexivity. Qed.

(** It is always more than the number of cells between the lines. *)
Theorem C31_cell_count_refuted : forall x y z,
  (1 <= length (ax_lines x) -> 1 <= length (ax_lines y) -> 1 <= length (ax_lines z) ->
   (length (ax_lines x) - 1) * (length (ax_lines y) - 1) * (length (ax_lines z) - 1) < mesh_cell_number x y z)%nat.
Proof.
  intros x y z X Y Z. unfold mesh_cell_number.
  destruct (length (ax_lines x)) as [|u]; [lia|]. destruct (length (ax_lines y)) as [|v]; [lia|].
  destruct (length (ax_lines z)) as [|w]; [lia|]. cbn [Nat.sub]. rewrite !Nat.sub_0_r. nia.
Qed.

Example C31_case : settled (of_policies [halfs 0; line 5; thirds 12]) /\ all_consistent (of_policies [halfs 0; line 5; thirds 12]) /\
  exists ax2 ax3, detect_intervals usual isort (of_policies [halfs 0; line 5; thirds 12]) = Done ax2 /\
    finishes (fun n => mesh_axis n isort (apply_zones [mk_zone 1 4 (1 # 2)] ax2)) ax3 /\
    increasing (ax_lines ax3) /\ within (5 # 2) (ax_lines ax3) /\ In 5 (ax_lines ax3).
Proof.
  assert (Se : settled (of_policies [halfs 0; line 5; thirds 12])) by (split; [intros i p _ (c & [] & _)|intros i (c & [] & _)]).
  assert (C : all_consistent (of_policies [halfs 0; line 5; thirds 12])).
  { repeat constructor; unfold consistent; cbn; intros; congruence. }
  split; [exact Se|]. split; [exact C|].
  destruct (C31_whole_run usual isort [mk_zone 1 4 (1 # 2)] (of_policies [halfs 0; line 5; thirds 12]) (5 # 2))
    as (ax1 & ax2 & ax3 & F1 & E2 & F3 & I & W & O & _); try assumption; try reflexivity; try (cbn; lra).
  - exact isort_sorts.
  - repeat constructor; cbn; lra.
  - constructor.
  - intros i p [P _]. unfold policy_at in P. apply nth_error_In in P. cbn in P. destruct P as [<-|[<-|[<-|[]]]]; reflexivity.
  - assert (ax1 = of_policies [halfs 0; line 5; thirds 12]).
    { destruct F1 as (n & F1). specialize (F1 (n + 4)%nat ltac:(lia)). rewrite Nat.add_comm in F1. vm_compute in F1. now inversion F1. }
    subst ax1. exists ax2, ax3. repeat (split; [assumption|]). apply (O 1%nat (line 5)); [now split|reflexivity].
Qed.

(* ------------------------------------------------------------------ *)
(** * C24 on a whole axis: the two lines of a policy need not match *)

(** The mesh of an interval can lower the [d] of a policy after the interval on its
    other side has been meshed.  Here the HALFS policy at 8 has its lines at
    distances 1 and less than 0.83. *)
Theorem C24_on_axis_refuted : exists ax ax' i p x y, reached isort ax /\
  enabled_at ax i p /\ p_policy p = HALFS /\
  finishes (fun n => mesh_axis n isort ax) ax' /\
  In x (ax_lines ax') /\ In y (ax_lines ax') /\ x < p_coord p < y /\
  (forall z, In z (ax_lines ax') -> z <= x \/ y <= z) /\
  y - p_coord p < p_coord p - x.
Proof.
  destruct stale_mesh as (ax' & x & y & F & X & Y & Lx & Ly & Z & Dx & Dy).
  exists stale_1, ax', 1%nat, (mk_mlp 8 HALFS NNONE true (4 # 2)), x, y. split.
  - apply (reached_intervals isort stale_params stale_start).
    + unfold stale_start. cbv zeta. repeat apply reached_add. constructor.
    + vm_compute. reflexivity.
  - split; [now split|]. split; [reflexivity|]. split; [assumption|]. split; [assumption|]. split; [assumption|].
    cbn [p_coord]. split; [now split|]. split; [assumption|]. lra.
Qed.

(* ------------------------------------------------------------------ *)
(** * C32: fixed lines *)

Theorem C32_requested : forall g ax coords x, In x coords -> has_oneline_near (add_fixed_policies g ax coords) x.
Proof. intros g ax coords x. apply fixed_near. Qed.

(** Only policies are added, at the end, each an enabled ONELINE at a requested
    place, none near an existing one. *)
Theorem C32_frame : forall g ax coords, exists new,
  add_fixed_policies g ax coords = mk_axis (ax_policies ax ++ new) (ax_conflicts ax) (ax_segments ax) (ax_lines ax) /\
  Forall (fun p => In (p_coord p) coords /\ p = mk_mlp (p_coord p) ONELINE NNONE true (g_dmax g / 2)) new.
Proof.
  intros g ax coords. destruct (fixed_appends g coords ax) as (l & E & F). exists l. split; [exact E|].
  eapply Forall_impl; [|exact F]. intros p (x & X & ->). now split.
Qed.

Theorem C32_once : forall g ax x,
  (has_oneline_near ax x -> add_fixed_policy g ax x = ax) /\
  (~ has_oneline_near ax x -> length (ax_policies (add_fixed_policy g ax x)) = S (length (ax_policies ax))).
Proof.
  intros g ax x. destruct (fixed_spec g ax x) as [(H & E)|(H & E)]; (split; [intros K|intros K]); try contradiction.
  - assumption.
  - rewrite E. cbn. rewrite app_length. cbn. lia.
Qed.

Theorem C32_idempotent : forall g g' ax coords,
  add_fixed_policies g' (add_fixed_policies g ax coords) coords = add_fixed_policies g ax coords.
Proof. intros g g' ax coords. apply fixed_noop. intros x X. now apply fixed_near. Qed.

(** A fixed line can move: it is merged with a line less than the limit away. *)
Theorem C32_stays_refuted : exists g ax x n ax', reached isort ax /\
  detect_and_solve_too_close n g isort (add_fixed_policies g ax [x]) = Done ax' /\
  forall i p, enabled_at ax' i p -> 1 # 4 <= Qabs (p_coord p - x).
Proof.
  exists usual, (of_policies [line 0]), (1 # 2), 4%nat. eexists. split; [|split; [vm_compute; reflexivity|]].
  - apply (reached_add isort usual empty_axis ONELINE NNONE 0 true). constructor.
  - intros j q [P En]. unfold policy_at in P. cbn in P.
    do 3 (destruct j as [|j]; [inversion P; subst; (discriminate || (vm_compute; discriminate))|cbn in P]).
    destruct j; discriminate.
Qed.

(** A disabled line is taken for an existing one: the fixed line is then not meshed. *)
Theorem C32_enabled_refuted : exists g ax x, reached isort ax /\
  forall i p, enabled_at (add_fixed_policies g ax [x]) i p -> ~ p_coord p == x.
Proof.
  exists usual, (of_policies [disable (line 3)]), 3. split.
  - apply (reached_add isort usual empty_axis ONELINE NNONE 3 false). constructor.
  - intros i p [P En]. unfold policy_at in P. cbn in P. destruct i as [|[|i]]; cbn in P; inversion P; subst; discriminate.
Qed.

Example C32_case : map (fun p => (p_coord p, p_policy p)) (ax_policies (add_fixed_policies usual (of_policies [halfs 3; line 4]) [4; 3; 4 + (1 # 1000000000); 9]))
  = [(3, HALFS); (4, ONELINE); (3, ONELINE); (9, ONELINE)].
Proof. reflexivity. Qed.

(* ------------------------------------------------------------------ *)
(** * C49: an accepted edit can make the next run hang *)

(** The dialog accepts any number for [d].  If it is not positive and another policy is
    enabled, the run that follows the edit never ends. *)
Theorem C49_edit_d_hangs : forall g srt ax i policy normal d ax1 ax2 j q, sorts srt -> 0 <= g_smoothness g ->
  (policy = THIRDS <-> normal <> NNONE) -> d <= 0 -> ax_segments ax = [] ->
  edit_policy ax i policy normal true d = Done ax1 -> distinct ax1 -> enabled_at ax j q -> i <> j ->
  detect_intervals g srt ax1 = Done ax2 -> loops (fun n => mesh_axis n srt ax2).
Proof.
  intros g srt ax i policy normal d ax1 ax2 j q S Sm C D E0 E Di Ej N E2.
  unfold edit_policy in E. apply (consistent_dec (mk_mlp 0 policy normal true 0)) in C. cbn in C. rewrite C in E.
  destruct (read (ax_policies ax) i) as [p| |]; try discriminate. cbn [bind] in E.
  destruct (write (ax_policies ax) i (mk_mlp (p_coord p) policy normal true d)) as [ps| |] eqn:W; try discriminate. inversion E; subst.
  destruct (write_inv _ _ _ _ W) as (_ & _ & Hi & Ho).
  eapply (hang_after_detection g srt (set_policies ax ps) ax2 i (mk_mlp (p_coord p) policy normal true d) j q); try assumption.
  - now split.
  - split; [|apply Ej]. unfold policy_at. cbn. rewrite Ho by congruence. apply Ej.
Qed.

Example C49_case : exists ax1 ax2, edit_policy (of_policies [line 0; halfs 8]) 1 HALFS NNONE true 0 = Done ax1 /\
  detect_intervals usual isort ax1 = Done ax2 /\ loops (fun n => mesh_axis n isort ax2).
Proof.
  eexists _, _. split; [reflexivity|]. split; [vm_compute; reflexivity|].
  eapply (C49_edit_d_hangs usual isort (of_policies [line 0; halfs 8]) 1 HALFS NNONE 0 _ _ 0 (line 0));
    [exact isort_sorts|cbn; lra|split; congruence|lra|reflexivity|reflexivity| |now split|lia|vm_compute; reflexivity].
  intros i j p q N [Pi _] [Pj _]. unfold policy_at in *.
  destruct i as [|[|i]], j as [|[|j]]; cbn in Pi, Pj; try (exfalso; lia); try (destruct i; discriminate); try (destruct j; discriminate);
    inversion Pi; inversion Pj; subst; cbn; lra.
Qed.

(** Nor does it check the [dmax] of an interval. *)
Theorem C49_edit_dmax_hangs : forall srt ax i dmax lb sb la sa ax', sorts srt -> reached srt ax -> dmax <= 0 -> 0 <= sb ->
  edit_interval ax i dmax lb sb la sa = Done ax' -> loops (fun n => mesh_axis n srt ax').
Proof.
  intros srt ax i dmax lb sb la sa ax' S R D Sb E.
  pose proof (reached_good srt ax' S (reached_edit_interval srt ax i dmax lb sb la sa ax' R E)) as G.
  unfold edit_interval in E. destruct (read (ax_segments ax) i) as [s| |]; try discriminate. cbn [bind] in E.
  destruct (write (ax_segments ax) i _) as [ss| |] eqn:W; try discriminate. inversion E; subst ax'.
  destruct (write_inv _ _ _ _ W) as (_ & _ & H & _).
  eapply hang_without_dmax; [exact S| |exact H|exact Sb|exact D].
  intros k t Et. exact (proj1 G t (nth_error_In _ _ Et)).
Qed.

Example C49_dmax_case : exists ax ax', reached isort ax /\ edit_interval ax 0 0 2 2 2 2 = Done ax'.
Proof.
  eexists _, _. split.
  - eapply (reached_intervals isort usual).
    + apply (reached_fixed isort usual empty_axis [0; 8]). constructor.
    + vm_compute. reflexivity.
  - vm_compute. reflexivity.
Qed.

(* ------------------------------------------------------------------ *)
(** * C50: pointers between policies, intervals and conflicts stay valid *)

Theorem C50_valid : forall srt ax, sorts srt -> reached srt ax -> pointers_valid ax.
Proof. intros srt ax S R. apply good_iff. eapply reached_good; eassumption. Qed.

(** So nothing the application does to an axis follows a bad pointer; for an edit, the
    edited object must exist. *)
Theorem C50_safe : forall srt ax, sorts srt -> reached srt ax ->
  (forall n g, safe (detect_and_solve_too_close n g srt ax)) /\
  (forall g, safe (detect_intervals g srt ax)) /\
  (forall n zs, safe (mesh_axis n srt (apply_zones zs ax))) /\
  (forall i policy normal enabled d, (i < length (ax_policies ax))%nat -> safe (edit_policy ax i policy normal enabled d)) /\
  (forall i dmax lb sb la sa, (i < length (ax_segments ax))%nat -> safe (edit_interval ax i dmax lb sb la sa)).
Proof.
  intros srt ax S R. pose proof (reached_good srt ax S R) as G.
  split; [intros n g; eapply ok_safe, good_detect_and_solve; eassumption|].
  split; [intros g; eapply ok_safe, good_detect_intervals; eassumption|].
  split; [intros n zs; eapply ok_safe, good_mesh; [exact S|now apply good_zones]|].
  split; intros; eapply ok_safe; [now apply good_edit|now apply good_edit_interval].
Qed.

Example C50_case : exists ax, reached isort ax /\ length (ax_conflicts ax) = 1%nat /\ length (ax_segments ax) = 1%nat.
Proof.
  eexists. split.
  - eapply (reached_intervals isort usual).
    + eapply (reached_close isort 4 usual).
      * apply (reached_fixed isort usual empty_axis [0; 1 # 2; 8]). constructor.
      * vm_compute. reflexivity.
    + vm_compute. reflexivity.
  - now split.
Qed.

(* ------------------------------------------------------------------ *)
Print Assumptions C26_add.
Print Assumptions C26_always_consistent.
Print Assumptions C26_span.
Print Assumptions C27_none.
Print Assumptions C27_some.
Print Assumptions C28_ends_apart.
Print Assumptions C28_frame.
Print Assumptions C28_replaced.
Print Assumptions C28_within_limit_refuted.
Print Assumptions C28_stuck.
Print Assumptions C29_merge.
Print Assumptions C29_symmetric.
Print Assumptions C29_solved.
Print Assumptions C30_tiling.
Print Assumptions C30_nothing_inside.
Print Assumptions C30_clamped.
Print Assumptions C31_detected_meshable.
Print Assumptions C31_mesh.
Print Assumptions C31_whole_run.
Print Assumptions C31_outer_policy.
Print Assumptions C31_no_line.
Print Assumptions C31_zone.
Print Assumptions C31_zone_outside.
Print Assumptions C31_zone_frame.
Print Assumptions C31_mesh_again.
Print Assumptions C31_policies_lines.
Print Assumptions C31_cell_number.
Print Assumptions C31_cell_count_refuted.
Print Assumptions C24_on_axis_refuted.
Print Assumptions C32_requested.
Print Assumptions C32_frame.
Print Assumptions C32_once.
Print Assumptions C32_idempotent.
Print Assumptions C32_stays_refuted.
Print Assumptions C32_enabled_refuted.
Print Assumptions C49_edit_d_hangs.
Print Assumptions C49_edit_dmax_hangs.
Print Assumptions C50_valid.
Print Assumptions C50_safe.
