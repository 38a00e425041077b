(** Properties C16 to C25: the meshing of one interval. *)
From Coq Require Import List Arith Bool QArith Qabs Qround Qminmax Lia Lqa.
From Verif Require Import IntervalModel IntervalSpec IntervalProofs IntervalSolveProofs
  IntervalMeshProofs IntervalMoreProofs.
Import ListNotations.
Open Scope Q_scope.

(* ------------------------------------------------------------------ *)
(** * C16: filling half an interval ends and just covers it *)

Theorem C16_find_ls_ends : forall d smoothness dmax s,
  0 < d -> 0 < dmax -> 1 <= smoothness ->
  exists ls, ends (fun n => find_ls n d smoothness dmax s) ls /\
    (ls = [] <-> s <= 0) /\ (0 < s -> just_covers s ls).
Proof.
  intros d sm dmax s D M S. destruct (lines_exist d sm dmax s D M S) as [ls R]. exists ls.
  split; [now apply ends_lines|]. split; [exact (lines_nil _ _ _ _ _ R)|]. exact (lines_covers _ _ _ _ _ R).
Qed.

(** However the fuel is chosen, a finished placement is that one. *)
Theorem C16_find_ls_fuel : forall d smoothness dmax s n ls,
  find_ls n d smoothness dmax s = Some ls -> ends (fun m => find_ls m d smoothness dmax s) ls.
Proof. intros d sm dmax s n ls E. exists n. intros m L. eapply find_ls_mono; eassumption. Qed.

Example C16_case : option_map (map Qred) (find_ls 10 (1 # 2) 2 3 6) = Some [1; 3; 6] /\
  option_map (map Qred) (find_ls 10 (1 # 2) 2 3 7) = Some [1; 3; 6; 9].
Proof. split; reflexivity. Qed.

(* ------------------------------------------------------------------ *)
(** * C17: the spaces grow by the smoothness factor up to dmax *)

Theorem C17_closed_form : forall d smoothness dmax s ls,
  0 < d -> 0 < dmax -> 1 <= smoothness -> ends (fun n => find_ls n d smoothness dmax s) ls ->
  forall k, (k < length ls)%nat -> space ls k == Qmin (d * qpow smoothness (S k)) dmax.
Proof. intros d sm dmax s ls D M S E. apply ends_lines in E. now apply (lines_closed d sm dmax s). Qed.

Theorem C17_spaces : forall d smoothness dmax s ls,
  0 < d -> 0 < dmax -> 1 <= smoothness -> ends (fun n => find_ls n d smoothness dmax s) ls ->
  (forall k, (k < length ls)%nat ->
     0 < space ls k /\ space ls k <= dmax /\ space ls k <= smoothness * space_before d ls k) /\
  (forall k, (S k < length ls)%nat -> space ls k <= space ls (S k)).
Proof.
  intros d sm dmax s ls D M S E. apply ends_lines in E. split.
  - now apply (lines_spaces d sm dmax s).
  - now apply (lines_nondecreasing d sm dmax s).
Qed.

(** More room means the same lines and possibly more. *)
Theorem C17_more_room : forall d smoothness dmax s s' ls ls',
  ends (fun n => find_ls n d smoothness dmax s) ls -> ends (fun n => find_ls n d smoothness dmax s') ls' ->
  s <= s' -> exists r, ls' = ls ++ r.
Proof.
  intros d sm dmax s s' ls ls' E E' L. apply ends_lines in E. apply ends_lines in E'.
  eapply lines_more; eassumption.
Qed.

Example C17_case : map (fun k => Qred (space [1; 3; 6; 9] k)) [0; 1; 2; 3]%nat = [1; 2; 3; 3] /\
  option_map (map Qred) (find_ls 10 (1 # 2) 2 3 7) = Some [1; 3; 6; 9].
Proof. split; reflexivity. Qed.

(* ------------------------------------------------------------------ *)
(** * C18: a distance that is not positive makes the placement hang *)

Theorem C18_find_ls_hangs : forall d smoothness dmax s,
  0 <= smoothness -> d <= 0 \/ dmax <= 0 -> 0 < s -> hangs (fun n => find_ls n d smoothness dmax s).
Proof. exact find_ls_hangs. Qed.

(** Together with C16: with a smoothness of at least 1 it ends exactly when it
    has nothing to do or both distances are positive. *)
Theorem C18_ends_iff : forall d smoothness dmax s, 1 <= smoothness ->
  (exists ls, ends (fun n => find_ls n d smoothness dmax s) ls) <-> s <= 0 \/ (0 < d /\ 0 < dmax).
Proof.
  intros d sm dmax s S. split.
  - intros [ls [n E]]. destruct (Qlt_le_dec 0 s) as [P|P]; [right|now left].
    destruct (Qlt_le_dec 0 d) as [D|D]; [destruct (Qlt_le_dec 0 dmax) as [M|M]; [auto|]|].
    + pose proof (find_ls_hangs d sm dmax s ltac:(lra) (or_intror M) P n) as H. cbn beta in H. rewrite E in H; [discriminate|lia].
    + pose proof (find_ls_hangs d sm dmax s ltac:(lra) (or_introl D) P n) as H. cbn beta in H. rewrite E in H; [discriminate|lia].
  - intros [P|[D M]].
    + exists []. apply ends_lines. now apply lines_empty.
    + destruct (lines_exist d sm dmax s D M S) as [ls R]. exists ls. now apply ends_lines.
Qed.

(** Solving an interval with such a policy hangs. *)
Theorem C18_zero_d_hangs : forall b a iv,
  0 <= sd_smoothness (iv_before iv) -> 0 <= sd_smoothness (iv_after iv) ->
  (p_d b <= 0 /\ d_init_before b (p_d b) < iv_h iv) \/ (p_d a <= 0 /\ d_init_after a (p_d a) < iv_h iv) ->
  hangs (fun n => auto_solve_d n b a iv).
Proof.
  intros b a iv S1 S2 [[D H]|[D H]].
  - apply auto_solve_d_hangs_before; auto.
  - apply auto_solve_d_hangs_after; auto.
Qed.

(** And so does solving the interval between two policies at the same place,
    whatever their kind. *)
Theorem C18_coincident_policies_hang : forall g b a b' a' iv,
  p_coord b == p_coord a -> 0 <= p_d b -> 0 <= p_d a -> 0 <= g_dmax g ->
  make_interval g b a = (b', a', iv) -> hangs (fun n => auto_solve_d n b' a' iv).
Proof. intros g b a b' a' iv C Db Da M. now apply coincident_hangs. Qed.

(** The default parameters of global.hpp 19-31. *)
Definition default_params : params := mk_params 1 2 2 (5 # 2).

Example C18_case : exists b' a' iv,
  make_interval default_params (mk_mlp 3 THIRDS NMIN true (5 # 4)) (mk_mlp 3 ONELINE NNONE true (5 # 4)) = (b', a', iv) /\
  hangs (fun n => auto_solve_d n b' a' iv).
Proof.
  eexists _, _, _. split; [reflexivity|].
  eapply C18_coincident_policies_hang; [| | | |reflexivity]; cbn; lra.
Qed.

(* ------------------------------------------------------------------ *)
(** * C19: the validity check *)

Theorem C19_valid_iff_conform : forall ls d smoothness dmax lmin,
  is_ls_valid ls d smoothness dmax lmin = true <-> conform equality_tolerance ls d smoothness dmax lmin.
Proof. exact valid_iff. Qed.

Theorem C19_placement_valid_iff : forall d smoothness dmax s ls lmin,
  0 < d -> 0 < dmax -> 1 <= smoothness -> ends (fun n => find_ls n d smoothness dmax s) ls ->
  is_ls_valid ls d smoothness dmax lmin = true <-> d <= dmax /\ (lmin <= length ls)%nat /\ ls <> [].
Proof.
  intros d sm dmax s ls lmin D M S E. apply ends_lines in E.
  rewrite (lines_valid _ _ _ _ _ lmin E D M S). pose proof (lines_nil _ _ _ _ _ E) as N.
  split; intros (A & B & C); (split; [exact A|split; [exact B|]]).
  - intros H. apply N in H. lra.
  - apply Qnot_le_lt. intros H. apply C. now apply N.
Qed.

(** The last criterion of the comment above the function (interval.cpp 161),
    "the last space should not be less than dmax/smoothness", is not checked. *)
Theorem C19_last_space_refuted : exists ls d smoothness dmax lmin,
  1 <= smoothness /\ is_ls_valid ls d smoothness dmax lmin = true /\
  space ls (length ls - 1) < dmax / smoothness.
Proof.
  exists [1; 2], 1, 2, (5 # 2), 2%nat. split; [lra|]. split; [reflexivity|]. cbn. reflexivity.
Qed.

Example C19_case : is_ls_valid [1; 3; 6; 9] (1 # 2) 2 3 2 = true /\ is_ls_valid [1; 4] (1 # 2) 2 3 2 = false.
Proof. split; reflexivity. Qed.

(* ------------------------------------------------------------------ *)
(** * C20: lowering d *)

(** [d] goes with a half interval that has enough lines and respects the rules, exactly. *)
Definition fits (d_init : mlp -> Q -> Q) (h dmax : Q) (p : mlp) (sd : side) (d : Q) : Prop :=
  exists ls, ends (fun n => find_ls n d (sd_smoothness sd) dmax (h - d_init p d)) ls /\
    conform 0 ls d (sd_smoothness sd) dmax (sd_lmin sd).

Lemma fits_acceptable di h dmax p sd d : 0 < d -> 0 < dmax -> 1 <= sd_smoothness sd ->
  (fits di h dmax p sd d <-> acceptable di h dmax p sd d).
Proof.
  intros D M S. split.
  - intros (ls & E & A & B & C & F). apply ends_lines in E. exists ls. split; [exact E|].
    apply valid_iff. split; [exact A|]. split; [exact B|]. split; [exact C|].
    intros k K. destruct (F k K). unfold equality_tolerance. lra.
  - intros (ls & E & V). exists ls. split; [now apply ends_lines|].
    apply valid_iff in V. destruct V as (A & B & C & _). split; [exact A|]. split; [exact B|]. split; [exact C|].
    intros k K. pose proof (lines_spaces _ _ _ _ _ E D M S k K) as (_ & H1 & H2). split; lra.
Qed.

(** The search ends with the first value that fits among d, d less a thousandth,
    and so on (starting from dmax when d exceeds it). *)
Theorem C20_adjust_d : forall d_init h dmax p sd,
  d_init = d_init_before \/ d_init = d_init_after ->
  0 < h -> 0 < dmax -> 1 <= sd_smoothness sd -> 0 < p_d p ->
  ends (fun n => find_ls n (p_d p) (sd_smoothness sd) dmax (h - d_init p (p_d p))) (sd_ls sd) ->
  exists d k,
    ends (fun n => adjust_d n d_init h dmax p sd) d /\
    0 < d /\ d <= p_d p /\ d <= dmax /\ fits d_init h dmax p sd d /\
    (p_d p <= dmax -> d = lowered (p_d p) k /\ forall j, (j < k)%nat -> ~ fits d_init h dmax p sd (lowered (p_d p) j)).
Proof.
  intros di h dmax p sd DI H M S D E. apply ends_lines in E.
  assert (proportional di) as P by (destruct DI as [-> | ->]; [apply before_proportional|apply after_proportional]).
  destruct (adjust_d_total di h dmax p sd P H M S D E) as (d & k & A1 & A2 & A3 & A4 & A5 & A6 & A7 & A8).
  exists d, k. split; [exact A1|]. split; [exact A2|]. split; [exact A3|]. split; [exact A4|].
  split; [now apply fits_acceptable|].
  intros L. destruct (qmin_cases (p_d p) dmax) as [[_ Q]|[? _]]; [|lra]. rewrite Q in *.
  split; [exact A6|]. intros [|j] J.
  - cbn. rewrite fits_acceptable by assumption. apply A8; [lia|exact L].
  - rewrite fits_acceptable; [apply A7; lia| |assumption|assumption].
    clear - D. generalize (S j). intros n. induction n as [|n IH]; [exact D|]. cbn.
    apply (lower_pos _ IH).
Qed.

Example C20_case : exists d, 
  ends (fun n => adjust_d n d_init_before 4 3 (mk_mlp 0 HALFS NNONE true (5 # 2)) (mk_side 2 (3 # 2) [3])) d /\ d < 5 # 2.
Proof.
  destruct (C20_adjust_d d_init_before 4 3 (mk_mlp 0 HALFS NNONE true (5 # 2)) (mk_side 2 (3 # 2) [3])
    (or_introl eq_refl) ltac:(lra) ltac:(lra) ltac:(cbn; lra) ltac:(cbn; lra)) as (d & k & E & _ & L & _ & F & G).
  { exists 5%nat. intros [|[|[|m]]] Hm; try lia. reflexivity. }
  exists d. split; [exact E|]. apply Qle_lteq in L. destruct L as [L|L]; [exact L|exfalso].
  destruct (G ltac:(cbn; lra)) as [Ek _]. destruct k as [|k].
  - cbn in Ek. subst d. destruct F as (ls & [n Ls] & _ & Len & _).
    specialize (Ls (n + 5)%nat ltac:(lia)). replace (n + 5)%nat with (S (S (S (n + 2)))) in Ls by lia.
    cbn in Ls. injection Ls as <-. cbn in Len. lia.
  - rewrite Ek in L. clear - L.
    assert (forall j, 0 < lowered (p_d (mk_mlp 0 HALFS NNONE true (5 # 2))) j <= 5 # 2) as B.
    { induction j as [|j IH]; cbn in *; [lra|]. destruct (lower_pos _ (proj1 IH)). lra. }
    cbn [lowered] in L. specialize (B k). set (x := lowered _ k) in *. clearbody x. cbn in L.
    assert (x / 1000 == x * (1 # 1000)) as X by field. rewrite X in L. lra.
Qed.

(* ------------------------------------------------------------------ *)
(** * C21: lowering the smoothness *)

Theorem C21_adjust_smoothness : forall d_init h dmax p sd,
  0 < dmax -> 0 < p_d p -> 1 <= sd_smoothness sd ->
  ends (fun n => find_ls n (p_d p) (sd_smoothness sd) dmax (h - d_init p (p_d p))) (sd_ls sd) ->
  exists r, ends (fun n => adjust_smoothness n d_init h dmax p sd) r /\
    1 <= r /\ r <= sd_smoothness sd /\
    (exists ls, ends (fun n => find_ls n (p_d p) r dmax (h - d_init p (p_d p))) ls /\
       (length ls <= length (sd_ls sd))%nat) /\
    (* it cannot be lowered further *)
    (r == 1 \/ exists r' ls, 1 <= r' /\ r' <= r /\ r - r / 10000 <= r' /\
       ends (fun n => find_ls n (p_d p) r' dmax (h - d_init p (p_d p))) ls /\
       (length (sd_ls sd) < length ls)%nat).
Proof.
  intros di h dmax p sd M D S E. apply ends_lines in E.
  destruct (adjust_smoothness_total di h dmax p sd M D S E) as (r & A1 & A2 & A3 & (ls & A4 & A5) & A6).
  exists r. split; [exact A1|]. split; [exact A2|]. split; [exact A3|]. split.
  - exists ls. split; [now apply ends_lines|exact A5].
  - destruct A6 as [A6|(l & B1 & B2)]; [now left|right].
    exists (next_smoothness r), l. split; [apply next_smoothness_ge|]. split; [now apply next_smoothness_le|].
    split; [unfold next_smoothness; destruct (Qltb_spec (r - r / 10000) 1); lra|].
    split; [now apply ends_lines|exact B2].
Qed.

Example C21_case :
  let ls s := match find_ls 20 1 (10002 # 10000) 3 s with Some l => l | None => [] end in
  let p := mk_mlp 0 ONELINE NNONE true 1 in
  option_map Qred (adjust_smoothness 20 d_init_before (6003 # 1000) 3 p (mk_side 2 (10002 # 10000) (ls (6003 # 1000))))
    = Some (5001 # 5000) /\
  option_map Qred (adjust_smoothness 20 d_init_before 6 3 p (mk_side 2 (10002 # 10000) (ls 6))) = Some 1.
Proof. split; vm_compute; reflexivity. Qed.

(* ------------------------------------------------------------------ *)
(** * C22: the mesh of an interval *)

Theorem C22_new_interval_ready : forall g b a b' a' iv,
  0 < g_dmax g -> 1 <= g_smoothness g -> 0 < p_d b -> 0 < p_d a -> p_coord b < p_coord a ->
  make_interval g b a = (b', a', iv) -> ready b' a' iv.
Proof. intros g b a b' a' iv M S Db Da C. now apply make_interval_ready. Qed.

(** Solving d ends; it only lowers d and dmax. *)
Theorem C22_auto_solve_d : forall b a iv, ready b a iv ->
  exists b' a' iv', ends (fun n => auto_solve_d n b a iv) (b', a', iv') /\ ready b' a' iv' /\
    b' = set_d b (p_d b') /\ a' = set_d a (p_d a') /\
    p_d b' <= p_d b /\ p_d a' <= p_d a /\ p_d b' <= iv_dmax iv /\ p_d a' <= iv_dmax iv /\
    iv_dmax iv' <= iv_dmax iv /\
    (sd_lmin (iv_before iv) <= length (sd_ls (iv_before iv')))%nat /\
    (sd_lmin (iv_after iv) <= length (sd_ls (iv_after iv')))%nat.
Proof.
  intros b a iv R. destruct (auto_solve_d_total _ _ _ R) as (b' & a' & iv' & E & S).
  exists b', a', iv'. split; [exact E|]. split; [exact (solved_d_ready _ _ _ _ _ _ R S)|].
  destruct (sd_b _ _ _ _ _ _ S) as (d1 & E1 & D1). destruct (sd_a _ _ _ _ _ _ S) as (d2 & E2 & D2).
  pose proof (sd_db _ _ _ _ _ _ S). pose proof (sd_da _ _ _ _ _ _ S). pose proof (sd_dmax _ _ _ _ _ _ S).
  subst b' a'. cbn [p_d set_d] in *.
  split; [reflexivity|]. split; [reflexivity|]. split; [lra|]. split; [lra|]. split; [lra|]. split; [lra|]. split; [lra|].
  split; [apply (sd_many_b _ _ _ _ _ _ S)|apply (sd_many_a _ _ _ _ _ _ S)].
Qed.

(** The new dmax is what the ends of both halves allow, before d is lowered. *)
Theorem C22_dmax_lowered : forall b a iv b' a' iv', ready b a iv ->
  ends (fun n => auto_solve_d n b a iv) (b', a', iv') ->
  exists lb la,
    ends (fun n => find_ls n (p_d b) (sd_smoothness (iv_before iv)) (iv_dmax iv) (iv_h iv - d_init_before b (p_d b))) lb /\
    ends (fun n => find_ls n (p_d a) (sd_smoothness (iv_after iv)) (iv_dmax iv) (iv_h iv - d_init_after a (p_d a))) la /\
    iv_dmax iv' == Qmin (allowed (sd_smoothness (iv_before iv)) (iv_dmax iv) lb)
                        (allowed (sd_smoothness (iv_after iv)) (iv_dmax iv) la).
Proof.
  intros b a iv b' a' iv' R E. destruct (auto_solve_d_total _ _ _ R) as (b1 & a1 & iv1 & E1 & S).
  pose proof (ends_fun _ _ _ E E1) as X. injection X as -> -> ->.
  destruct (sd_allowed _ _ _ _ _ _ S) as (lb & la & A & B & C). exists lb, la.
  split; [now apply ends_lines|]. split; [now apply ends_lines|exact C].
Qed.

(** Solving d then the smoothness ends (MeshlinePolicyManager::mesh 212-213), and
    then the lines are strictly increasing from one policy to the other, include
    the middle, are never farther apart than dmax, and their distances grow by at
    most the smoothness going away from each policy. *)
Theorem C22_mesh : forall b a iv b1 a1 iv1, ready b a iv ->
  ends (fun n => auto_solve_d n b a iv) (b1, a1, iv1) ->
  exists iv2, ends (fun n => auto_solve_smoothness n b1 a1 iv1) iv2 /\
  iv_dmax iv2 <= iv_dmax iv /\
  sd_smoothness (iv_before iv2) <= sd_smoothness (iv_before iv) /\
  sd_smoothness (iv_after iv2) <= sd_smoothness (iv_after iv) /\
  exists l1 l2 m,
    mesh_interval b1 a1 iv2 = l1 ++ [m] ++ l2 /\
    m == (p_coord b + p_coord a) / 2 /\
    increasing (p_coord b :: (l1 ++ [m] ++ l2) ++ [p_coord a]) /\
    (let first := (if is_oneline (p_policy b) then [p_coord b] else []) ++ l1 ++ [m] in
     within (iv_dmax iv2) first /\ growth (sd_smoothness (iv_before iv2)) (p_d b1) first) /\
    (let second := [m] ++ l2 ++ (if is_oneline (p_policy a) then [p_coord a] else []) in
     within (iv_dmax iv2) second /\ growth (sd_smoothness (iv_after iv2)) (p_d a1) (map Qopp (rev second))).
Proof.
  intros b a iv b1 a1 iv1 R E. destruct (auto_solve_d_total _ _ _ R) as (b' & a' & iv' & E' & S).
  pose proof (ends_fun _ _ _ E E') as X. injection X as -> -> ->. clear E'.
  pose proof (solved_d_ready _ _ _ _ _ _ R S) as R1.
  destruct (auto_solve_smoothness_total _ _ _ R1) as (iv2 & E2 & S2). exists iv2. split; [exact E2|].
  pose proof (solved_s_ready _ _ _ _ R1 S2) as R2.
  split; [rewrite (ss_dmax _ _ _ _ S2); apply (sd_dmax _ _ _ _ _ _ S)|].
  split; [rewrite <- (sd_smb _ _ _ _ _ _ S); apply (ss_smb _ _ _ _ S2)|].
  split; [rewrite <- (sd_sma _ _ _ _ _ _ S); apply (ss_sma _ _ _ _ S2)|].
  destruct (mesh_facts b' a' iv2 R2 (ss_solved_b _ _ _ _ S2) (ss_solved_a _ _ _ _ S2)) as (l1 & l2 & A & B & C & D).
  - rewrite (ss_h _ _ _ _ S2), (sd_h _ _ _ _ _ _ S). apply (sd_room_b _ _ _ _ _ _ S).
  - rewrite (ss_h _ _ _ _ S2), (sd_h _ _ _ _ _ _ S). apply (sd_room_a _ _ _ _ _ _ S).
  - pose proof (ready_m _ _ _ R2) as Hm.
    destruct (sd_b _ _ _ _ _ _ S) as (d1 & E3 & _). destruct (sd_a _ _ _ _ _ _ S) as (d2 & E4 & _).
    subst b' a'. cbn [p_coord p_policy set_d] in *.
    exists l1, l2, (iv_m iv2). split; [exact A|]. split; [rewrite Hm; field|]. split; [exact B|]. split; [exact C|exact D].
Qed.

Definition c22_b := mk_mlp 0 THIRDS NMAX true (5 # 4).
Definition c22_a := mk_mlp 12 ONELINE NNONE true (5 # 4).

Example C22_case : exists b a iv, make_interval default_params c22_b c22_a = (b, a, iv) /\ ready b a iv /\
  mesh_interval b a (mk_interval 6 6 (5 # 2) (mk_side 2 2 [2; 4; 6]) (mk_side 2 2 [5 # 2; 5; 15 # 2]))
    = [0 + (2 # 3) * (5 # 4); 0 + (2 # 3) * (5 # 4) + 2; 0 + (2 # 3) * (5 # 4) + 4; 6; 12 - 0 - 5; 12 - 0 - (5 # 2)].
Proof.
  eexists _, _, _. split; [reflexivity|]. split; [|vm_compute; reflexivity].
  eapply C22_new_interval_ready; [| | | | |reflexivity]; cbn; lra.
Qed.

(* ------------------------------------------------------------------ *)
(** * C23: adjacent distances may differ by more than the smoothness *)

(** The rule of doc/interval.md: after solving, any two adjacent cells differ by a
    factor of at most the smoothness.  It fails for every smoothness up to 3/2, with
    the two ONELINE policies and the parameters as the code creates them (dmax = 2,
    d = dmax/2 = 1, lmin = 2); d is solved twice, as MeshlinePolicyManager::mesh does. *)
Theorem C23_smooth_refuted : forall smoothness, 1 < smoothness -> smoothness <= 3 # 2 ->
  exists x, let g := mk_params 1 smoothness 2 2 in
  let b := mk_mlp 0 ONELINE NNONE true 1 in
  let a := mk_mlp x ONELINE NNONE true 1 in
  exists b0 a0 iv0 b1 a1 iv1 b2 a2 iv2 iv3,
    0 < x /\ make_interval g b a = (b0, a0, iv0) /\
    ends (fun n => auto_solve_d n b0 a0 iv0) (b1, a1, iv1) /\
    ends (fun n => auto_solve_d n b1 a1 iv1) (b2, a2, iv2) /\
    ends (fun n => auto_solve_smoothness n b2 a2 iv2) iv3 /\
    ~ smooth smoothness (p_coord b :: mesh_interval b2 a2 iv3 ++ [p_coord a]).
Proof.
  intros sm S1 S2. exists (2 * sm + 2 * (1 # 10)). cbn zeta.
  destruct (narrow_start sm (1 # 10) S1 ltac:(lra) ltac:(lra)) as (iv0 & E0 & N0).
  destruct (narrow_solve sm (1 # 10) _ _ _ S1 ltac:(lra) ltac:(lra) N0) as (iv1 & E1 & N1).
  destruct (narrow_solve sm (1 # 10) _ _ _ S1 ltac:(lra) ltac:(lra) N1) as (iv2 & E2 & N2).
  destruct (narrow_mesh sm (1 # 10) sm _ _ _ S1 ltac:(lra) ltac:(lra) ltac:(nra) N2) as (iv3 & E3 & F).
  eexists _, _, iv0, _, _, iv1, _, _, iv2, iv3.
  split; [lra|]. split; [exact E0|]. split; [exact E1|]. split; [exact E2|]. split; [exact E3|exact F].
Qed.


(** The factor can be as large as one likes. *)
Theorem C23_factor_refuted : forall K, 1 < K ->
  exists smoothness x, 1 < smoothness /\ smoothness <= 2 /\
  let g := mk_params 1 smoothness 2 2 in
  let b := mk_mlp 0 ONELINE NNONE true 1 in
  let a := mk_mlp x ONELINE NNONE true 1 in
  exists b0 a0 iv0 b1 a1 iv1 b2 a2 iv2 iv3,
    0 < x /\ make_interval g b a = (b0, a0, iv0) /\
    ends (fun n => auto_solve_d n b0 a0 iv0) (b1, a1, iv1) /\
    ends (fun n => auto_solve_d n b1 a1 iv1) (b2, a2, iv2) /\
    ends (fun n => auto_solve_smoothness n b2 a2 iv2) iv3 /\
    ~ smooth K (p_coord b :: mesh_interval b2 a2 iv3 ++ [p_coord a]).
Proof.
  intros K HK. assert (0 < 1 / (4 * K)) as P by (apply Qlt_shift_div_l; lra).
  assert (1 / (4 * K) < 1 # 4) as P2 by (apply Qlt_shift_div_r; lra).
  assert (K * (1 / (4 * K)) == 1 # 4) as P3 by (field; lra).
  set (e := 1 / (4 * K)) in *. clearbody e.
  exists (1 + e), (2 * (1 + e) + 2 * e). split; [lra|]. split; [lra|]. cbn zeta.
  destruct (narrow_start (1 + e) e ltac:(lra) P ltac:(lra)) as (iv0 & E0 & N0).
  destruct (narrow_solve (1 + e) e _ _ _ ltac:(lra) P ltac:(lra) N0) as (iv1 & E1 & N1).
  destruct (narrow_solve (1 + e) e _ _ _ ltac:(lra) P ltac:(lra) N1) as (iv2 & E2 & N2).
  destruct (narrow_mesh (1 + e) e K _ _ _ ltac:(lra) P ltac:(lra) ltac:(nra) N2) as (iv3 & E3 & F).
  eexists _, _, iv0, _, _, iv1, _, _, iv2, iv3.
  split; [lra|]. split; [exact E0|]. split; [exact E1|]. split; [exact E2|]. split; [exact E3|exact F].
Qed.

(* ------------------------------------------------------------------ *)
(** * C24: the lines on both sides of a policy *)

(** [p] has an interval on each side; [x] is the last line of the lower one and
    [y] the first of the upper one. *)
Theorem C24_around_policy : forall q p r low high,
  p_policy p <> ONELINE -> (p_policy p = THIRDS -> p_normal p <> NNONE) ->
  exists l1 x y l2,
    mesh_interval q p low = l1 ++ [x] /\ mesh_interval p r high = y :: l2 /\
    y - x == p_d p /\
    (p_policy p = HALFS -> p_coord p - x == y - p_coord p) /\
    (p_policy p = THIRDS -> p_normal p = NMAX -> y - p_coord p == 2 * (p_coord p - x)) /\
    (p_policy p = THIRDS -> p_normal p = NMIN -> p_coord p - x == 2 * (y - p_coord p)).
Proof.
  intros q p r low high O N. unfold mesh_interval. cbn zeta.
  assert (is_oneline (p_policy p) = false) as -> by (destruct (p_policy p); [congruence|reflexivity|reflexivity]).
  rewrite !app_assoc.
  eexists _, _, _, _. split; [reflexivity|]. split; [rewrite <- !app_assoc; reflexivity|].
  unfold d_init_before, d_init_after. set (d := p_d p). set (c := p_coord p). clearbody d c.
  assert (d / 2 == d * (1 # 2)) as H by field.
  destruct (p_policy p); [congruence| |].
  - rewrite H. split; [lra|]. split; [intros; lra|]. split; intros; discriminate.
  - destruct (p_normal p); [exfalso; now apply N| |];
      (split; [lra|]; split; [intros; discriminate|]; split; intros; try discriminate; lra).
Qed.

Example C24_case : 
  let p := mk_mlp 10 THIRDS NMAX true 3 in
  let iv := mk_interval 5 5 3 (mk_side 2 2 [3; 6]) (mk_side 2 2 [3; 6]) in
  map Qred (mesh_interval (mk_mlp 0 HALFS NNONE true 2) p iv) = [1; 4; 5; 6; 9] /\
  map Qred (mesh_interval p (mk_mlp 30 HALFS NNONE true 2) (mk_interval 10 20 3 (mk_side 2 2 [3; 6; 9]) (mk_side 2 2 [3; 6; 9])))
    = [12; 15; 18; 20; 23; 26; 29].
Proof. split; reflexivity. Qed.

(* ------------------------------------------------------------------ *)
(** * C25: d never passes the middle *)

Theorem C25_clamped : forall g b a b' a' iv, make_interval g b a = (b', a', iv) ->
  b' = set_d b (p_d b') /\ a' = set_d a (p_d a') /\
  p_d b' == Qmin (p_d b) (Qabs (p_coord b - p_coord a) / 2) /\
  p_d a' == Qmin (p_d a) (Qabs (p_coord b - p_coord a) / 2).
Proof.
  intros g b a b' a' iv E. unfold make_interval in E. injection E as <- <- _.
  set (h := calc_h (p_coord b) (p_coord a)).
  assert (forall p, clamp_d h p = set_d p (p_d (clamp_d h p)) /\ p_d (clamp_d h p) == Qmin (p_d p) h) as H.
  { intros p. unfold clamp_d. destruct (Qltb_spec h (p_d p)); (split; [destruct p; reflexivity|]); cbn.
    - rewrite Q.min_r; lra.
    - rewrite Q.min_l; lra. }
  split; [apply H|]. split; [apply H|]. split; apply H.
Qed.

(** Hence the policy lines stay on their side of the middle. *)
Theorem C25_no_crossing : forall g b a b' a' iv, make_interval g b a = (b', a', iv) ->
  0 <= p_d b -> 0 <= p_d a -> p_coord b <= p_coord a ->
  p_coord b' + d_init_before b' (p_d b') <= (p_coord b + p_coord a) / 2 /\
  (p_coord b + p_coord a) / 2 <= p_coord a' - d_init_after a' (p_d a').
Proof.
  intros g b a b' a' iv E Db Da C. destruct (C25_clamped _ _ _ _ _ _ E) as (E1 & E2 & E3 & E4).
  rewrite Qabs_neg in E3, E4 by lra.
  assert (- (p_coord b - p_coord a) / 2 == (1 # 2) * (p_coord a - p_coord b)) as H by field. rewrite H in *.
  assert ((p_coord b + p_coord a) / 2 == (1 # 2) * (p_coord b + p_coord a)) as H2 by field. rewrite H2.
  set (hh := (1 # 2) * (p_coord a - p_coord b)) in *.
  pose proof (Q.le_min_r (p_d b) hh). pose proof (Q.le_min_r (p_d a) hh).
  assert (0 <= Qmin (p_d b) hh) by (apply Q.min_glb; [assumption|unfold hh; lra]).
  assert (0 <= Qmin (p_d a) hh) by (apply Q.min_glb; [assumption|unfold hh; lra]).
  pose proof (di_le d_init_before b' (p_d b') before_proportional ltac:(lra)).
  pose proof (di_le d_init_after a' (p_d a') after_proportional ltac:(lra)).
  assert (p_coord b' = p_coord b) as -> by (rewrite E1; reflexivity).
  assert (p_coord a' = p_coord a) as -> by (rewrite E2; reflexivity).
  unfold hh in *. split; lra.
Qed.

Example C25_case : exists b a iv,
  make_interval default_params (mk_mlp 0 HALFS NNONE true 5) (mk_mlp 4 THIRDS NMIN true 1) = (b, a, iv) /\
  p_d b == 2 /\ p_d a == 1.
Proof. eexists _, _, _. split; [reflexivity|]. split; reflexivity. Qed.

Print Assumptions C16_find_ls_ends.
Print Assumptions C16_find_ls_fuel.
Print Assumptions C17_closed_form.
Print Assumptions C17_spaces.
Print Assumptions C17_more_room.
Print Assumptions C18_find_ls_hangs.
Print Assumptions C18_ends_iff.
Print Assumptions C18_zero_d_hangs.
Print Assumptions C18_coincident_policies_hang.
Print Assumptions C19_valid_iff_conform.
Print Assumptions C19_placement_valid_iff.
Print Assumptions C19_last_space_refuted.
Print Assumptions C20_adjust_d.
Print Assumptions C21_adjust_smoothness.
Print Assumptions C22_new_interval_ready.
Print Assumptions C22_auto_solve_d.
Print Assumptions C22_dmax_lowered.
Print Assumptions C22_mesh.
Print Assumptions C23_smooth_refuted.
Print Assumptions C23_factor_refuted.
Print Assumptions C24_around_policy.
Print Assumptions C25_clamped.
Print Assumptions C25_no_crossing.
