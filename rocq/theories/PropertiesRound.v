(** Property C65: the lines of an axis, each operation rounded to a double. *)
From Coq Require Import List Arith Bool ZArith QArith Qabs Lia Lqa Sorting.Sorted Sorting.Permutation.
From Verif Require Import IntervalModel IntervalSpec IntervalProofs ManagerModel ManagerSpec ManagerProofs ManagerMeshProofs ManagerMoreProofs BoardLinesProofs.
From Verif Require Import RoundModel RoundSpec RoundProofs RoundLinesProofs RoundCellProofs RoundDetectProofs RoundCounterProofs RoundShareProofs RoundDoubleProofs.
Import ListNotations.
Open Scope Q_scope.

(** ** Rounding *)

(** [double x] is a double, and none is nearer to [x]. *)
Theorem C65_double : forall x, is_double (double x) /\ forall y, is_double y -> Qabs (double x - x) <= Qabs (y - x).
Proof. intros x. split; [apply double_is_double|]. intros y D. now apply double_nearest. Qed.

(** Halfway between two consecutive doubles, [m] and [m + 1] times 2^[e], it is the even
    one; and rounding does not depend on the sign. *)
Theorem C65_ties : forall m e, (0 <= m < 2 ^ 53)%Z -> (-1074 <= e)%Z -> (2 ^ 52 <= m)%Z \/ e = (-1074)%Z ->
  double ((inject_Z m + (1 # 2)) * 2 ^ e) == inject_Z (if Z.even m then m else (m + 1)%Z) * 2 ^ e.
Proof. exact ties. Qed.
Theorem C65_sign : forall x, double (- x) == - double x.
Proof. exact double_opp. Qed.

(** The error is at most [rounding] of the size. *)
Theorem C65_error : forall x, Qabs (double x - x) <= rounding (Qabs x).
Proof. exact double_error. Qed.

Example C65_double_case : double (1 # 10) == 3602879701896397 # 36028797018963968 /\ double (2 ^ 53 + 1) == 2 ^ 53 /\ double (2 ^ 53 + 3) == 2 ^ 53 + 4
  /\ double (2 ^ (-1075)) == 0 /\ double (- (3 # 1) * 2 ^ (-1075)) == - (2 ^ (-1073)).
Proof. repeat split; vm_compute; reflexivity. Qed.

(** Without rounding, the functions are those of ManagerModel.v. *)
Theorem C65_exact : forall n g srt ax,
  r_detect_intervals (fun x => x) g srt ax = detect_intervals g srt ax /\ r_mesh_axis (fun x => x) n srt ax = mesh_axis n srt ax.
Proof. now split. Qed.

(** ** The lines on one side of an interval *)

(** The lines found are doubles, in order; the last one is the first not below [s]; none
    is farther from the one before than [dmax], up to the rounding of one addition, nor
    nearer than the size asked for; they grow no faster than [sm], again up to rounding. *)
Theorem C65_lines : forall n d sm dmax s ls, is_double d -> is_double dmax -> 0 < d -> 0 < dmax -> 1 <= sm -> 0 < s ->
  r_find_ls double n d sm dmax s = Some ls ->
  Forall is_double ls /\ ascending (0 :: ls) /\ just_covers s ls /\
  within (dmax + rounding (s + dmax)) (0 :: ls) /\ apart (qmin d dmax - rounding (s + dmax)) (0 :: ls) /\
  growth_near sm ((sm + 2) * rounding (s + dmax)) d (0 :: ls).
Proof.
  intros n d sm dmax s ls D1 D2 P1 P2 S Ps E. apply find_ls_drun in E. pose proof (qmin_pos d dmax P1 P2) as P. pose proof (qmin_le_r d dmax) as Q. pose proof (qmin_le_l d dmax) as Q'.
  pose proof (qmin_double d dmax D1 D2) as Dq. pose proof (rounding_pos (s + dmax) ltac:(lra)).
  destruct (drun_spec sm dmax s S _ _ _ E is_double_0 (Qle_refl 0) ltac:(lra)) as (I1 & I2 & I3 & _ & I5).
  split; [exact I2|]. split; [exact I1|]. split; [now apply I5|]. split; [exact I3|]. split.
  - apply (drun_apart sm dmax s S D2 (qmin d dmax) (qmin d dmax)); try assumption; lra.
  - apply (drun_growth sm dmax s S _ _ _ E); lra.
Qed.

(** They are found, if the size asked for is not lost in the rounding. *)
Theorem C65_ends : forall d sm dmax s, is_double d -> is_double dmax -> 0 < d -> 0 < dmax -> 1 <= sm -> 2 * rounding (s + dmax) <= qmin d dmax ->
  exists ls, ends (fun n => r_find_ls double n d sm dmax s) ls.
Proof.
  intros d sm dmax s D1 D2 P1 P2 S H. destruct (r_find_ls_ends d sm dmax s D1 D2 P1 P2 S) as (ls & R).
  - assert (E : qmin d dmax / 2 == (1 # 2) * qmin d dmax) by field. lra.
  - exists ls. now apply ends_drun.
Qed.

Example C65_lines_case : exists ls, r_find_ls double 20 (double (1 # 10)) 2 (double (3 # 10)) 1 = Some ls /\ length ls = 4%nat
  /\ 2 * rounding (1 + double (3 # 10)) <= qmin (double (1 # 10)) (double (3 # 10)).
Proof. eexists. split; [vm_compute; reflexivity|]. split; [reflexivity|]. vm_compute. discriminate. Qed.

(** Otherwise they may not be: two policies at 0 and 2^55, cells of size 1. *)
Theorem C65_stuck_refuted : exists g ax ax1, is_double (g_dmax g) /\ 0 < g_dmax g /\ 1 <= g_smoothness g /\ distinct ax /\
  (forall i p, enabled_at ax i p -> is_double (p_coord p) /\ is_double (p_d p) /\ 0 < p_d p) /\
  r_detect_intervals double g isort ax = Done ax1 /\ loops (fun n => r_mesh_axis double n isort ax1).
Proof.
  destruct stuck_axis as (ax1 & E & L). exists far_params, far_axis, ax1. split; [exists 1%Z, 0%Z; split; [discriminate|]; split; [lia|reflexivity]|].
  split; [reflexivity|]. split; [discriminate|]. split; [|split; [|now split]].
  - clear E L. intros [|[|i]] [|[|j]] p q N [P _] [Q _]; unfold policy_at in P, Q; cbn in P, Q; try congruence; try (destruct i; discriminate); try (destruct j; discriminate);
      injection P as <-; injection Q as <-; discriminate.
  - clear E L. intros [|[|i]] p [P _]; unfold policy_at in P; cbn in P; [| |destruct i; discriminate]; injection P as <-; (split; [|split; [|reflexivity]]); cbn.
    + apply is_double_0.
    + exists 1%Z, 0%Z. split; [discriminate|]. split; [lia|reflexivity].
    + apply (is_double_two 55). lia.
    + exists 1%Z, 0%Z. split; [discriminate|]. split; [lia|reflexivity].
Qed.

(** ** The lines of an axis *)

(** On a tame axis the lines are found. *)
Theorem C65_meshed : forall M lo D g zs srt ax, sorts srt -> tame M lo D g zs ax -> ax_segments ax = [] -> ax_lines ax = [] ->
  exists ax1 ax2, r_detect_intervals double g srt ax = Done ax1 /\ finishes (fun n => r_mesh_axis double n srt (apply_zones zs ax1)) ax2.
Proof.
  intros M lo D g zs srt ax S T E L. destruct (tame_axis M lo D g zs ax srt T S E L) as (ax1 & ax2 & E1 & F & _). now exists ax1, ax2.
Qed.

Section Known.
Variables (M lo D : Q) (g : params) (zs : list zone) (srt : sorter) (ax ax1 ax2 : axis).
Hypotheses (S : sorts srt) (T : tame M lo D g zs ax) (E : ax_segments ax = []) (L : ax_lines ax = [])
  (E1 : r_detect_intervals double g srt ax = Done ax1) (F : finishes (fun n => r_mesh_axis double n srt (apply_zones zs ax1)) ax2).
Lemma known_axis : StronglySorted Qle (ax_lines ax2) /\ within (D + 9 * rounding (4 * M)) (ax_lines ax2) /\
    (forall i p, enabled_at ax i p -> p_policy p = ONELINE -> In (p_coord p) (ax_lines ax2)) /\
    (forall x, In x (ax_lines ax2) -> exists i p j q, enabled_at ax i p /\ enabled_at ax j q /\ p_coord p <= x <= p_coord q) /\
    (forall p q, neighbours ax p q -> exists c, dcell M D p q c /\ placed M lo p q (snd (r_make_interval double g p q)) /\ forall x, In x c -> In x (ax_lines ax2)) /\
    Forall2 same_but_d (ax_policies ax) (ax_policies ax2) /\ ax_conflicts ax2 = ax_conflicts ax.
Proof.
  destruct (tame_axis M lo D g zs ax srt T S E L) as (ax1' & ax2' & E1' & F' & H). rewrite E1 in E1'. injection E1' as <-.
  now rewrite (finishes_unique _ _ _ F F').
Qed.
End Known.

(** They are in order, and no farther apart than the largest size asked for, up to nine
    roundings. *)
Theorem C65_spaced : forall M lo D g zs srt ax ax1 ax2, sorts srt -> tame M lo D g zs ax -> ax_segments ax = [] -> ax_lines ax = [] ->
  r_detect_intervals double g srt ax = Done ax1 -> finishes (fun n => r_mesh_axis double n srt (apply_zones zs ax1)) ax2 ->
  StronglySorted Qle (ax_lines ax2) /\ within (D + 9 * rounding (4 * M)) (ax_lines ax2).
Proof. intros M lo D g zs srt ax ax1 ax2 S T E L E1 F. destruct (known_axis M lo D g zs srt ax ax1 ax2 S T E L E1 F) as (A & B & _). now split. Qed.

(** There is one exactly on each ONELINE policy, and none beyond the policies. *)
Theorem C65_oneline : forall M lo D g zs srt ax ax1 ax2, sorts srt -> tame M lo D g zs ax -> ax_segments ax = [] -> ax_lines ax = [] ->
  r_detect_intervals double g srt ax = Done ax1 -> finishes (fun n => r_mesh_axis double n srt (apply_zones zs ax1)) ax2 ->
  (forall i p, enabled_at ax i p -> p_policy p = ONELINE -> In (p_coord p) (ax_lines ax2)) /\
  (forall x, In x (ax_lines ax2) -> exists i p j q, enabled_at ax i p /\ enabled_at ax j q /\ p_coord p <= x <= p_coord q).
Proof. intros M lo D g zs srt ax ax1 ax2 S T E L E1 F. destruct (known_axis M lo D g zs srt ax ax1 ax2 S T E L E1 F) as (_ & _ & A & B & _). now split. Qed.

(** There is one in the middle of two neighbour policies, up to two roundings. *)
Theorem C65_middle : forall M lo D g zs srt ax ax1 ax2 p q, sorts srt -> tame M lo D g zs ax -> ax_segments ax = [] -> ax_lines ax = [] ->
  r_detect_intervals double g srt ax = Done ax1 -> finishes (fun n => r_mesh_axis double n srt (apply_zones zs ax1)) ax2 -> neighbours ax p q ->
  exists x, In x (ax_lines ax2) /\ Qabs (x - (p_coord p + p_coord q) / 2) <= 2 * rounding (4 * M).
Proof.
  intros M lo D g zs srt ax ax1 ax2 p q S T E L E1 F N. destruct (known_axis M lo D g zs srt ax ax1 ax2 S T E L E1 F) as (_ & _ & _ & _ & H & _).
  destruct (H p q N) as (c & Ce & Pl & Sub). exists (r_mid double (p_coord p) (p_coord q)). split; [apply Sub, Ce|].
  assert (Low : 2 ^ (-1000) <= lo). { pose proof (ta_low _ _ _ _ _ _ T). assert (2 ^ (-1000) <= 2 ^ (-990)) by (vm_compute; discriminate). lra. }
  pose proof (m_near M lo (tame_size _ _ _ _ _ _ T) Low _ _ _ Pl) as K. rewrite (pl_m _ _ _ _ _ Pl) in K.
  assert (Z : (p_coord p + p_coord q) / 2 == (1 # 2) * (p_coord q + p_coord p)) by field. rewrite Z. apply Qabs_Qle_condition. lra.
Qed.

(** On each side of a policy that is not ONELINE where there is another policy, the next
    line is at the right share, up to three roundings, of a cell of size at most [D]. *)
Theorem C65_around : forall M lo D g zs srt ax ax1 ax2 p q, sorts srt -> tame M lo D g zs ax -> ax_segments ax = [] -> ax_lines ax = [] ->
  r_detect_intervals double g srt ax = Done ax1 -> finishes (fun n => r_mesh_axis double n srt (apply_zones zs ax1)) ax2 -> neighbours ax p q ->
  (p_policy p <> ONELINE -> exists d x, 0 < d <= D /\ In x (ax_lines ax2) /\ Qabs (x - (p_coord p + share_above p d)) <= 3 * rounding (4 * M)) /\
  (p_policy q <> ONELINE -> exists d x, 0 < d <= D /\ In x (ax_lines ax2) /\ Qabs (x - (p_coord q - share_below q d)) <= 3 * rounding (4 * M)).
Proof.
  intros M lo D g zs srt ax ax1 ax2 p q S T E L E1 F N. destruct (known_axis M lo D g zs srt ax ax1 ax2 S T E L E1 F) as (_ & _ & _ & _ & H & _).
  destruct (H p q N) as (c & Ce & Pl & Sub). destruct N as (i & j & Pi & Pj & _).
  pose proof (tame_lo _ _ _ _ _ _ T). pose proof (ta_dmax _ _ _ _ _ _ T) as (_ & Dm). pose proof (ta_D _ _ _ _ _ _ T). pose proof (tame_size _ _ _ _ _ _ T).
  destruct (ta_policies _ _ _ _ _ _ T i p Pi) as (_ & Bp & _ & _ & Cp). destruct (ta_policies _ _ _ _ _ _ T j q Pj) as (_ & Bq & _ & _ & Cq).
  split; intros O.
  - assert (O' : is_oneline (p_policy p) = false) by (destruct (p_policy p); [congruence|reflexivity..]).
    destruct (dc_first _ _ _ _ _ Ce O') as (d & r & Ec & _ & Pd). exists d, (double (p_coord p + r_d_init_before double p d)).
    split; [exact Pd|]. split; [apply Sub; rewrite Ec; now left|]. exact (proj1 (placed_near M p d Cp O' ltac:(lra) Bp ltac:(lra) ltac:(lra))).
  - assert (O' : is_oneline (p_policy q) = false) by (destruct (p_policy q); [congruence|reflexivity..]).
    destruct (dc_last _ _ _ _ _ Ce O') as (d & r & Ec & _ & Pd). exists d, (double (p_coord q - r_d_init_after double q d)).
    split; [exact Pd|]. split; [apply Sub; rewrite Ec; apply in_app_iff; right; now left|]. exact (proj2 (placed_near M q d Cq O' ltac:(lra) Bq ltac:(lra) ltac:(lra))).
Qed.

(** The policies are those there were, [d] apart. *)
Theorem C65_policies : forall M lo D g zs srt ax ax1 ax2, sorts srt -> tame M lo D g zs ax -> ax_segments ax = [] -> ax_lines ax = [] ->
  r_detect_intervals double g srt ax = Done ax1 -> finishes (fun n => r_mesh_axis double n srt (apply_zones zs ax1)) ax2 ->
  Forall2 same_but_d (ax_policies ax) (ax_policies ax2) /\ ax_conflicts ax2 = ax_conflicts ax.
Proof. intros M lo D g zs srt ax ax1 ax2 S T E L E1 F. destruct (known_axis M lo D g zs srt ax ax1 ax2 S T E L E1 F) as (_ & _ & _ & _ & _ & A). exact A. Qed.

(** Whatever the parameters and the distances: the lines of any run that ends are
    doubles, when the coordinates of the policies are. *)
Theorem C65_doubles : forall n g zs srt ax ax1 ax2, sorts srt -> (forall i p, enabled_at ax i p -> is_double (p_coord p)) ->
  ax_segments ax = [] -> ax_lines ax = [] ->
  r_detect_intervals double g srt ax = Done ax1 -> r_mesh_axis double n srt (apply_zones zs ax1) = Done ax2 ->
  forall x, In x (ax_lines ax2) -> is_double x.
Proof. intros n g zs srt ax ax1 ax2 So P S L E1 E2. apply Forall_forall. exact (run_doubles _ _ _ _ _ _ _ So P S L E1 E2). Qed.

(** A tame axis with the three policies, lines one tenth of a metre away in millimetres
    and cells of two micrometres: there is room for [lmin] 10. *)
Definition fine_params : params := mk_params 1 2 10 (double (3 # 10)).
Definition fine_axis : axis := mk_axis
  [mk_mlp 100 ONELINE NNONE true 1; mk_mlp 0 HALFS NNONE true (1 # 2); mk_mlp 7 ONELINE NNONE false 0; mk_mlp (double (- (3334 # 100))) THIRDS NMAX true 1] [] [] [].
Example C65_case : tame 128 (1 # 8192) (double (3 # 10)) fine_params [mk_zone (-10) 10 (double (1 # 10))] fine_axis
  /\ (exists p q, neighbours fine_axis p q /\ p_policy p = THIRDS /\ p_policy q = HALFS)
  /\ exists ax1, r_detect_intervals double fine_params isort fine_axis = Done ax1 /\ length (ax_segments ax1) = 2%nat.
Proof.
  assert (En : forall i p, enabled_at fine_axis i p -> (i = 0%nat /\ p = mk_mlp 100 ONELINE NNONE true 1) \/ (i = 1%nat /\ p = mk_mlp 0 HALFS NNONE true (1 # 2))
    \/ (i = 3%nat /\ p = mk_mlp (double (- (3334 # 100))) THIRDS NMAX true 1)).
  { intros [|[|[|[|i]]]] p [P X]; unfold policy_at in P; cbn -[double] in P; try (injection P as <-); try discriminate; auto; destruct i; discriminate. }
  split; [|split].
  - constructor.
    + vm_compute. discriminate.
    + vm_compute. discriminate.
    + discriminate.
    + vm_compute. discriminate.
    + split; [apply double_is_double|]. split; [vm_compute; discriminate|apply Qle_refl].
    + constructor; [|constructor]. split; [apply double_is_double|]. split; vm_compute; discriminate.
    + split; discriminate.
    + intros i p P. destruct (En i p P) as [[-> ->]|[[-> ->]|[-> ->]]]; cbn [p_coord p_d].
      * split; [apply (known_double 100 0); [lia|lia|reflexivity]|]. split; [split; discriminate|]. split; [apply (known_double 1 0); [lia|lia|reflexivity]|]. split; [discriminate|].
        split; [discriminate|]. cbn. congruence.
      * split; [apply is_double_0|]. split; [split; discriminate|]. split; [apply (known_double 1 (-1)); [lia|lia|reflexivity]|]. split; [discriminate|].
        split; [discriminate|]. cbn. congruence.
      * split; [apply double_is_double|]. split; [split; vm_compute; discriminate|]. split; [apply (known_double 1 0); [lia|lia|reflexivity]|]. split; [discriminate|].
        split; [discriminate|reflexivity].
    + intros i j p q N P Q. destruct (En i p P) as [[-> ->]|[[-> ->]|[-> ->]]], (En j q Q) as [[-> ->]|[[-> ->]|[-> ->]]]; try congruence; vm_compute; discriminate.
  - exists (mk_mlp (double (- (3334 # 100))) THIRDS NMAX true 1), (mk_mlp 0 HALFS NNONE true (1 # 2)). split; [|now split].
    exists 3%nat, 1%nat. split; [now split|]. split; [now split|]. split; [vm_compute; reflexivity|].
    intros k r R. destruct (En k r R) as [[-> ->]|[[-> ->]|[-> ->]]]; cbn [p_coord]; [right; discriminate|right; discriminate|left; apply Qle_refl].
  - eexists. split; [vm_compute; reflexivity|reflexivity].
Qed.

(** Two lines may be at the same place, or 2^-52 apart: rounding puts a sum of cells just
    below the middle it should reach, and one more line is kept.  The axis is tame. *)
Theorem C65_distinct_refuted : exists M lo D g zs ax ax1 ax2, tame M lo D g zs ax /\ ax_segments ax = [] /\ ax_lines ax = [] /\
  r_detect_intervals double g isort ax = Done ax1 /\ finishes (fun n => r_mesh_axis double n isort (apply_zones zs ax1)) ax2 /\
  exists u x y z v, ax_lines ax2 = u ++ x :: y :: z :: v /\ 0 < y - x /\ y - x <= 2 ^ (-52) /\ y == z.
Proof. exact close_refuted. Qed.

(** Far from zero the run may never end: doubles are too sparse to place cells of
    1000000.1 from 0 to a thousand millions, and the tolerance is absolute. *)
Theorem C65_far_refuted : exists g ax ax1, is_double (g_dmax g) /\ 1000000 <= g_dmax g <= 1000001 /\ g_smoothness g == 2 /\
  map p_coord (ax_policies ax) = [0; 1000000000] /\ (forall i p, policy_at ax i p -> p_policy p = ONELINE /\ p_d p == 1000) /\
  r_detect_intervals double g isort ax = Done ax1 /\ loops (fun n => r_mesh_axis double n isort ax1).
Proof.
  destruct wide_loops as (ax1 & E & L). exists wide_params, wide_axis, ax1. split; [exact wide_double|]. split; [split; vm_compute; discriminate|].
  split; [reflexivity|]. split; [reflexivity|]. split; [|now split].
  intros [|[|i]] p P; unfold policy_at in P; cbn in P; [| |destruct i; discriminate]; injection P as <-; now split.
Qed.

Print Assumptions C65_double.
Print Assumptions C65_ties.
Print Assumptions C65_sign.
Print Assumptions C65_error.
Print Assumptions C65_exact.
Print Assumptions C65_lines.
Print Assumptions C65_ends.
Print Assumptions C65_stuck_refuted.
Print Assumptions C65_meshed.
Print Assumptions C65_spaced.
Print Assumptions C65_oneline.
Print Assumptions C65_middle.
Print Assumptions C65_around.
Print Assumptions C65_policies.
Print Assumptions C65_doubles.
Print Assumptions C65_distinct_refuted.
Print Assumptions C65_far_refuted.
