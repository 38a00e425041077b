(** Proofs about the search of d and of the smoothness, with doubles. *)
From Coq Require Import List Arith Bool ZArith QArith Qabs Qround Qpower Lia Lqa Setoid.
From Verif Require Import IntervalModel IntervalSpec IntervalProofs InfraModel RoundModel RoundSpec RoundProofs RoundLinesProofs.
Import ListNotations.
Open Scope Q_scope.

(** ** Checking what was just placed *)

Lemma tolerance_low : 99 # 10000000000 <= r_tolerance double. Proof. unfold r_tolerance. vm_compute. discriminate. Qed.
Lemma smallest_low : smallest <= 1 # 1000000000000000000. Proof. vm_compute. discriminate. Qed.
Lemma smallest_pos : 0 < smallest. Proof. reflexivity. Qed.

(** Sizes up to which the tolerance is larger than the roundings. *)
Definition limit : Q := 4194304.
Lemma rounding_limit x : x <= limit -> rounding x <= 1 # 2000000000.
Proof. intros H. rewrite rounding_eq. pose proof smallest_low. unfold unit_roundoff, limit in *. lra. Qed.

Lemma product_low sm y : 1 <= sm <= 2 -> 0 <= y <= limit + 1 -> sm * y - (3 # 1000000000) <= double (sm * double y).
Proof.
  intros S Y. pose proof smallest_low. pose proof smallest_pos. pose proof (double_bounds y ltac:(lra)) as B.
  assert (B' : y - (1 # 1900000000) <= double y <= y + (1 # 1900000000)) by (unfold unit_roundoff, limit in *; lra).
  pose proof (double_nonneg y ltac:(lra)) as N. set (z := double y) in *. clearbody z.
  assert (P : 0 <= sm * z <= 2 * (limit + 2)) by (unfold limit in *; split; nra).
  pose proof (double_bounds (sm * z) ltac:(lra)) as C.
  assert (C' : sm * z - (1 # 1000000000) <= double (sm * z)) by (unfold unit_roundoff, limit in *; lra). nra.
Qed.
Lemma product_low' sm y : 1 <= sm <= 2 -> 0 <= y <= limit + 1 -> sm * y - (3 # 1000000000) <= double (sm * y).
Proof.
  intros S Y. pose proof smallest_low. pose proof smallest_pos.
  assert (P : 0 <= sm * y <= 2 * (limit + 1)) by (unfold limit in *; split; nra).
  pose proof (double_bounds (sm * y) ltac:(lra)) as C. unfold unit_roundoff, limit in *. lra.
Qed.

Section Valid.
Variables sm dmax : Q.
Hypothesis Sm : 1 <= sm <= 2.
Variables room delta : Q.
Hypothesis Room : room <= 1 # 2000000000.
Hypothesis Delta : delta <= 4 # 1000000000.
Hypothesis Big : 0 <= dmax <= limit.

Lemma grows_ok prev x : 0 <= prev <= limit + 1 -> x <= sm * prev + delta ->
  Qltb (double (double (sm * double prev) + r_tolerance double)) (double x) = false.
Proof.
  intros P L. apply Qltb_ge. apply double_mono. pose proof (product_low sm prev Sm P). pose proof tolerance_low. lra.
Qed.
Lemma grows_ok' prev x : 0 <= prev <= limit + 1 -> x <= sm * prev + delta ->
  Qltb (double (double (sm * prev) + r_tolerance double)) (double x) = false.
Proof.
  intros P L. apply Qltb_ge. apply double_mono. pose proof (product_low' sm prev Sm P). pose proof tolerance_low. lra.
Qed.
Lemma dmax_ok x : x <= dmax + room -> Qltb (double (dmax + r_tolerance double)) (double x) = false.
Proof. intros L. apply Qltb_ge. apply double_mono. pose proof tolerance_low. lra. Qed.
Lemma without_double x y : is_double x -> Qltb y (double x) = false -> Qltb y x = false.
Proof. intros D H. apply Qltb_ge. apply Qltb_ge in H. now rewrite (double_fixed x D) in H. Qed.

Lemma spaces_ok ls : forall a b, 0 <= b - a <= limit + 1 -> ascending (b :: ls) -> within (dmax + room) (b :: ls) ->
  growth_near sm delta (b - a) (b :: ls) -> r_spaces_valid double sm dmax a b ls = true.
Proof.
  induction ls as [|c ls IH]; intros a b P A W G; [reflexivity|]. cbn [r_spaces_valid].
  destruct A as [A1 A2]. destruct W as [W1 W2]. destruct G as [G1 G2].
  rewrite (grows_ok (b - a) (c - b) P G1), (dmax_ok (c - b) W1). cbn [orb]. apply IH; [lra|exact A2|exact W2|exact G2].
Qed.

Lemma lines_ok ls d lmin : 0 < d <= dmax -> Forall is_double ls -> ascending (0 :: ls) -> within (dmax + room) (0 :: ls) ->
  growth_near sm delta d (0 :: ls) -> r_is_ls_valid double ls d sm dmax lmin = (lmin <=? length ls)%nat && negb (match ls with [] => true | _ => false end).
Proof.
  intros D F A W G. unfold r_is_ls_valid. destruct (Qltb_spec dmax d) as [C|_]; [lra|]. cbn [orb].
  destruct (Nat.ltb_spec (length ls) lmin) as [L|L].
  - cbn [orb]. destruct (Nat.leb_spec lmin (length ls)); [lia|reflexivity].
  - destruct (Nat.leb_spec lmin (length ls)); [|lia]. cbn [orb andb]. destruct ls as [|a r]; [reflexivity|]. cbn [negb].
    inversion F as [|? ? Fa Fr]; subst. destruct A as [A1 A2]. destruct W as [W1 W2]. destruct G as [G1 G2].
    rewrite (without_double a _ Fa (grows_ok' d a ltac:(lra) ltac:(lra))), (without_double a _ Fa (dmax_ok a ltac:(lra))). cbn [orb].
    destruct r as [|b r]; [reflexivity|]. destruct A2 as [A2 A3]. destruct W2 as [W2 W3]. destruct G2 as [G2 G3].
    rewrite (grows_ok' a (b - a) ltac:(lra) ltac:(lra)), (dmax_ok (b - a) W2). cbn [orb]. apply spaces_ok; [lra|exact A3|exact W3|exact G3].
Qed.
End Valid.

Lemma drun_valid sm dmax s d ls lmin : 1 <= sm <= 2 -> is_double d -> is_double dmax -> 0 < d <= dmax -> s + dmax <= limit ->
  drun sm dmax s d 0 ls ->
  r_is_ls_valid double ls d sm dmax lmin = (lmin <=? length ls)%nat && negb (match ls with [] => true | _ => false end).
Proof.
  intros S D1 D2 D L R. destruct (Qlt_le_dec s 0) as [C|C].
  - inversion R as [cd cs K|cd cs r K]; subst; [|lra]. unfold r_is_ls_valid. rewrite !orb_true_r. now rewrite andb_false_r.
  - destruct (drun_spec sm dmax s ltac:(lra) d 0 ls R is_double_0 ltac:(lra) ltac:(lra)) as (A & F & W & _).
    pose proof (drun_growth sm dmax s ltac:(lra) d 0 ls R d C ltac:(lra) ltac:(lra)) as G.
    pose proof (rounding_limit (s + dmax) L) as Rm. pose proof (rounding_pos (s + dmax) ltac:(lra)) as Rp.
    apply (lines_ok sm dmax S (rounding (s + dmax)) ((sm + 2) * rounding (s + dmax))); try assumption; [nra|lra|].
    apply G. lra.
Qed.

(** ** Enough lines *)

Lemma is_double_scaled d k : (0 <= k)%Z -> is_double d -> is_double (d * 2 ^ k).
Proof. intros K (m & e & M & L & E). exists m, (e + k)%Z. split; [exact M|]. split; [lia|]. rewrite E, two_plus. ring. Qed.

Lemma drun_many sm dmax s d : 1 <= sm <= 2 -> is_double d -> is_double dmax -> 0 < d <= dmax ->
  forall j k cd cs ls, drun sm dmax s cd cs ls -> (0 <= k)%Z -> is_double cd -> 0 <= cs -> 0 <= cd <= dmax -> cd <= d * 2 ^ k -> cs <= d * 2 ^ (k + 1) ->
  d * 2 ^ (k + Z.of_nat j + 1) < s -> (j <= length ls)%nat.
Proof.
  intros Sm D1 D2 D. induction j as [|j IH]; intros k cd cs ls R K Dc P C B1 B2 H; [lia|].
  assert (L : cs < s).
  { apply Qle_lt_trans with (1 := B2). apply Qle_lt_trans with (2 := H). rewrite !(Qmult_comm d). apply Qmult_le_compat_r; [|lra]. apply two_le. lia. }
  inversion R as [? ? N|? ? r N R']; subst; [lra|]. cbn [length]. apply le_n_S.
  pose proof (next_range sm dmax ltac:(lra) cd C) as C'.
  assert (X : r_next_space double sm dmax cd <= d * 2 ^ (k + 1)).
  { unfold r_next_space. pose proof (two_succ k) as T. pose proof (two_pos k). assert (d * 2 ^ (k + 1) == 2 * (d * 2 ^ k)) by (rewrite T; ring).
    assert (Z : double (cd * sm) <= d * 2 ^ (k + 1)) by (apply double_le; [apply is_double_scaled; [lia|exact D1]|nra]).
    destruct (Qltb_spec cd dmax) as [Y|Y]; cbv zeta; [|nra]. destruct (Qltb_spec dmax (double (cd * sm))); lra. }
  apply (IH (k + 1)%Z _ _ _ R'); try lia.
  - now apply next_double.
  - apply double_nonneg. lra.
  - exact C'.
  - exact X.
  - apply double_le; [apply is_double_scaled; [lia|exact D1]|]. assert (E : d * 2 ^ (k + 1 + 1) == 2 * (d * 2 ^ (k + 1))) by (rewrite (two_succ (k + 1)); ring). lra.
  - replace (k + 1 + Z.of_nat j + 1)%Z with (k + Z.of_nat (S j) + 1)%Z by lia. exact H.
Qed.
Lemma drun_count sm dmax s d ls lmin : 1 <= sm <= 2 -> is_double d -> is_double dmax -> 0 < d <= dmax -> drun sm dmax s d 0 ls ->
  d * 2 ^ (Z.of_nat lmin + 1) < s -> (lmin <= length ls)%nat.
Proof.
  intros Sm D1 D2 D R H. apply (drun_many sm dmax s d Sm D1 D2 D lmin 0 d 0 ls R); try lra; try lia; try assumption.
  assert (E : d * 2 ^ (0 + 1) == 2 * d) by (cbn; ring). lra.
Qed.

Lemma drun_more sm dmax s s' cd cs ls ls' : s <= s' -> drun sm dmax s cd cs ls -> drun sm dmax s' cd cs ls' -> (length ls <= length ls')%nat.
Proof.
  intros L R. revert ls'. induction R as [cd cs K|cd cs ls K R IH]; intros ls' R'; [cbn; lia|].
  inversion R' as [? ? N|? ? r N R'']; subst; [lra|]. cbn [length]. apply le_n_S. now apply IH.
Qed.

(** ** Lowering d *)

Lemma smallest_small d : 2 ^ (-1000) <= d -> smallest <= (1 # 1000000) * d.
Proof. intros H. assert (smallest <= (1 # 1000000) * 2 ^ (-1000)) by (vm_compute; discriminate). lra. Qed.

Lemma lowered_range d : 2 ^ (-1000) <= d -> (1 # 2) * d <= double (d - double (d / 1000)) <= d - (1 # 2000) * d.
Proof.
  intros H. pose proof (smallest_small d H) as T. assert (P : 0 < d) by (assert (0 < 2 ^ (-1000)) by reflexivity; lra).
  assert (E : d / 1000 == (1 # 1000) * d) by field. pose proof (double_bounds (d / 1000)) as B. rewrite E in B. specialize (B ltac:(lra)).
  rewrite E. set (z := double ((1 # 1000) * d)) in *. clearbody z. unfold unit_roundoff in *.
  pose proof (double_bounds (d - z) ltac:(lra)) as C. unfold unit_roundoff in C. lra.
Qed.

(** What is used of the two functions that give the place of the first line. *)
Definition inits (di : mlp -> Q -> Q) : Prop :=
  (forall p d d', is_double d -> is_double d' -> 0 <= d <= d' -> 0 <= di p d /\ di p d <= d /\ di p d <= di p d')
  /\ forall p x, di (set_d p x) = di p.
Lemma inits_scaled c : 0 <= c <= 1 -> forall d d', is_double d -> is_double d' -> 0 <= d <= d' ->
  0 <= double (c * d) /\ double (c * d) <= d /\ double (c * d) <= double (c * d').
Proof.
  intros C d d' D D' L. split; [apply double_nonneg; nra|]. split; [apply double_le; [exact D|nra]|]. apply double_mono. nra.
Qed.
Lemma half_double d : double (d / 2) == double ((1 # 2) * d). Proof. apply double_comp. field. Qed.
Lemma third_range : 0 <= double (1 # 3) <= 1. Proof. split; vm_compute; discriminate. Qed.
Lemma two_thirds_range : 0 <= double (2 # 3) <= 1. Proof. split; vm_compute; discriminate. Qed.
Lemma inits_before : inits (r_d_init_before double).
Proof.
  split; [|reflexivity]. intros p d d' D D' L. unfold r_d_init_before. destruct (p_policy p); [lra| |destruct (p_normal p)].
  - rewrite !half_double. apply inits_scaled; [lra|assumption..].
  - lra.
  - apply inits_scaled; [apply third_range|assumption..].
  - apply inits_scaled; [apply two_thirds_range|assumption..].
Qed.
Lemma inits_after : inits (r_d_init_after double).
Proof.
  split; [|reflexivity]. intros p d d' D D' L. unfold r_d_init_after. destruct (p_policy p); [lra| |destruct (p_normal p)].
  - rewrite !half_double. apply inits_scaled; [lra|assumption..].
  - lra.
  - apply inits_scaled; [apply two_thirds_range|assumption..].
  - apply inits_scaled; [apply third_range|assumption..].
Qed.

(** A policy by thirds has a direction; then the first line is well before the middle. *)
Definition directed (p : mlp) : Prop := p_policy p = THIRDS -> p_normal p <> NNONE.
Definition near_inits (di : mlp -> Q -> Q) : Prop :=
  forall p d, directed p -> 2 ^ (-1000) <= d -> di p d <= (7 # 10) * d.
Lemma near_scaled c d : 0 <= c <= (2 # 3) + (1 # 1000) -> 2 ^ (-1000) <= d -> double (c * d) <= (7 # 10) * d.
Proof.
  intros C H. pose proof (smallest_small d H) as T. assert (P : 0 < d) by (assert (0 < 2 ^ (-1000)) by reflexivity; lra).
  assert (X : double (c * d) <= double (((2 # 3) + (1 # 1000)) * d)) by (apply double_mono; nra). set (k := ((2 # 3) + (1 # 1000)) * d) in *.
  assert (K : k == (2003 # 3000) * d) by (unfold k; ring). clearbody k.
  pose proof (double_bounds k ltac:(lra)) as B. unfold unit_roundoff in B. lra.
Qed.
Lemma near_third : 0 <= double (1 # 3) <= (2 # 3) + (1 # 1000). Proof. split; vm_compute; discriminate. Qed.
Lemma near_two_thirds : 0 <= double (2 # 3) <= (2 # 3) + (1 # 1000). Proof. split; vm_compute; discriminate. Qed.
Lemma near_before : near_inits (r_d_init_before double).
Proof.
  intros p d D H. unfold r_d_init_before, directed in *. assert (0 < 2 ^ (-1000)) by reflexivity.
  destruct (p_policy p); [lra| |destruct (p_normal p)].
  - rewrite half_double. apply near_scaled; [lra|assumption].
  - now destruct (D eq_refl).
  - apply near_scaled; [apply near_third|assumption].
  - apply near_scaled; [apply near_two_thirds|assumption].
Qed.
Lemma near_after : near_inits (r_d_init_after double).
Proof.
  intros p d D H. unfold r_d_init_after, directed in *. assert (0 < 2 ^ (-1000)) by reflexivity.
  destruct (p_policy p); [lra| |destruct (p_normal p)].
  - rewrite half_double. apply near_scaled; [lra|assumption].
  - now destruct (D eq_refl).
  - apply near_scaled; [apply near_two_thirds|assumption].
  - apply near_scaled; [apply near_third|assumption].
Qed.
(** With [d] no larger than [h], the first line leaves more than a quarter of [h]. *)
Lemma far_middle di h p d : inits di -> near_inits di -> directed p -> is_double d -> 2 ^ (-1000) <= d -> d <= h -> (1 # 4) * h < double (h - di p d).
Proof.
  intros I N Dp D H L. assert (0 < 2 ^ (-1000)) by reflexivity. pose proof (N p d Dp H). destruct (proj1 I p d d D D ltac:(lra)) as (A & _).
  pose proof (smallest_small d H). pose proof (double_bounds (h - di p d) ltac:(lra)) as C. unfold unit_roundoff in C. lra.
Qed.

Section Adjust.
Variable di : mlp -> Q -> Q.
Hypothesis Di : inits di.
Variables h dmax : Q.
Variable p : mlp.
Variable sd : side.
Let sm := sd_smoothness sd.
Let lmin := sd_lmin sd.
Hypothesis Sm : 1 <= sm <= 2.
Hypothesis Dh : is_double h.
Hypothesis Ddmax : is_double dmax.
Hypothesis Small : h + dmax <= limit.
Hypothesis Pdmax : 0 < dmax.
(** Below this there are enough lines. *)
Let enough := h * 2 ^ (- (Z.of_nat lmin + 4)).
Variable lo : Q.
Hypothesis Low : 2 ^ (-1000) <= lo.
Hypothesis Lo : lo <= (1 # 2) * enough.
Hypothesis Room : rounding (h + dmax) <= (1 # 2) * lo.

Let s d := double (h - di p d).

Lemma lo_pos : 0 < lo. Proof. assert (0 < 2 ^ (-1000)) by reflexivity. lra. Qed.
Lemma enough_pos : 0 < enough. Proof. pose proof lo_pos. lra. Qed.
Lemma enough_h : enough <= (1 # 8) * h.
Proof.
  assert (H : 0 < h). { pose proof enough_pos as E. unfold enough in E. pose proof (two_pos (- (Z.of_nat lmin + 4))). nra. }
  unfold enough. rewrite (Qmult_comm h). apply Qmult_le_compat_r; [|lra]. change (1 # 8) with (2 ^ (-3)). apply two_le. lia.
Qed.
Lemma s_le d : is_double d -> 0 <= d -> s d <= h.
Proof. intros D P. apply double_le; [exact Dh|]. destruct (proj1 Di p d d D D ltac:(lra)). lra. Qed.
Lemma s_low d : is_double d -> 0 <= d <= enough -> (1 # 2) * h < s d.
Proof.
  intros D P. destruct (proj1 Di p d d D D ltac:(lra)) as (A & B & _). pose proof enough_h. pose proof enough_pos. unfold s.
  pose proof (double_bounds (h - di p d) ltac:(lra)) as C. pose proof (smallest_small lo Low). unfold unit_roundoff in C. lra.
Qed.

Lemma room_le d : is_double d -> 0 <= d -> rounding (s d + dmax) <= rounding (h + dmax).
Proof. intros D P. apply rounding_mono. pose proof (s_le d D P). lra. Qed.
Lemma lines_at s0 d : is_double d -> lo <= d <= dmax -> s0 <= h -> exists ls, drun sm dmax s0 d 0 ls.
Proof.
  intros D P L. pose proof lo_pos. assert (E : qmin d dmax = d) by (destruct (qmin_cases d dmax) as [[_ ?]|[? _]]; [assumption|lra]).
  destruct (r_find_ls_ends d sm dmax s0 D Ddmax ltac:(lra) ltac:(lra) ltac:(lra)) as (ls & R).
  - rewrite E. assert (d / 2 == (1 # 2) * d) as -> by field. assert (rounding (s0 + dmax) <= rounding (h + dmax)) by (apply rounding_mono; lra). lra.
  - rewrite E in R. now exists ls.
Qed.
Lemma valid_at s0 d ls : is_double d -> lo <= d <= dmax -> s0 <= h -> drun sm dmax s0 d 0 ls ->
  r_is_ls_valid double ls d sm dmax lmin = true <-> (lmin <= length ls)%nat /\ ls <> [].
Proof.
  intros D P L R. pose proof lo_pos. rewrite (drun_valid sm dmax s0 d ls lmin Sm D Ddmax ltac:(lra) ltac:(lra) R).
  rewrite andb_true_iff, Nat.leb_le. destruct ls; cbn; intuition congruence.
Qed.
Lemma valid_small s0 d ls : is_double d -> lo <= d <= dmax -> d <= enough -> (1 # 4) * h < s0 -> drun sm dmax s0 d 0 ls ->
  (lmin <= length ls)%nat /\ ls <> [].
Proof.
  intros D P L S R. pose proof lo_pos. pose proof enough_h. pose proof enough_pos.
  split.
  - apply (drun_count sm dmax s0 d ls lmin Sm D Ddmax ltac:(lra) R). apply Qle_lt_trans with (2 := S).
    apply Qle_trans with (enough * 2 ^ (Z.of_nat lmin + 1)); [apply Qmult_le_compat_r; [lra|apply Qlt_le_weak, two_pos]|].
    unfold enough. rewrite <- Qmult_assoc, <- two_plus. replace (- (Z.of_nat lmin + 4) + (Z.of_nat lmin + 1))%Z with (-3)%Z by lia.
    change (2 ^ (-3)) with (1 # 8). lra.
  - intros ->. inversion R; subst. lra.
Qed.

(** What a search that ends gives. *)
Definition found (d r : Q) : Prop := is_double r /\ lo <= r <= d /\
  exists s0 ls, s0 <= s r /\ drun sm dmax s0 r 0 ls /\ (lmin <= length ls)%nat /\ ls <> [].

Lemma adjust_from k : forall d ls, is_double d -> lo <= d <= dmax -> drun sm dmax (s d) d 0 ls ->
  d <= enough + inject_Z (Z.of_nat k) * ((1 # 2000) * enough) ->
  exists r N, found d r /\ forall n, (N <= n)%nat -> r_adjust_d_loop double n di h dmax p sd d ls = Some r.
Proof.
  assert (Stop : forall d ls, is_double d -> lo <= d <= dmax -> drun sm dmax (s d) d 0 ls -> (lmin <= length ls)%nat /\ ls <> [] ->
    exists r N, found d r /\ forall n, (N <= n)%nat -> r_adjust_d_loop double n di h dmax p sd d ls = Some r).
  { intros d ls D P R V. exists d, 1%nat. split; [split; [exact D|split; [lra|exists (s d), ls; split; [lra|split; [exact R|exact V]]]]|].
    intros [|n] L; [lia|]. cbn [r_adjust_d_loop]. fold sm lmin.
    pose proof lo_pos. now rewrite (proj2 (valid_at (s d) d ls D P (s_le d D ltac:(lra)) R) V). }
  induction k as [|k IH]; intros d ls D P R K; pose proof lo_pos; pose proof enough_pos.
  - apply (Stop d ls D P R). change (inject_Z (Z.of_nat 0)) with 0 in K. pose proof (s_low d D ltac:(lra)). pose proof enough_h. apply (valid_small (s d) d ls D P); [lra|lra|exact R].
  - destruct (r_is_ls_valid double ls d sm dmax lmin) eqn:V.
    { apply (Stop d ls D P R). now apply (valid_at (s d) d ls D P (s_le d D ltac:(lra)) R). }
    assert (G : enough < d).
    { apply Qnot_le_lt. intros G. pose proof (s_low d D ltac:(lra)). pose proof enough_h. pose proof (valid_small (s d) d ls D P G ltac:(lra) R) as W. apply (valid_at (s d) d ls D P (s_le d D ltac:(lra)) R) in W. congruence. }
    pose proof (lowered_range d ltac:(lra)) as Lr. set (d' := double (d - double (d / 1000))) in *.
    assert (D' : is_double d') by apply double_is_double. assert (P' : lo <= d' <= dmax) by lra.
    destruct (lines_at (s d') d' D' P' (s_le d' D' ltac:(lra))) as (ls' & R').
    destruct (IH d' ls' D' P' R') as (r & N & (F1 & F2 & F3) & E).
    { rewrite Nat2Z.inj_succ, <- Z.add_1_r, inject_Z_plus in K. change (inject_Z 1) with 1 in K. set (w := inject_Z (Z.of_nat k)) in *. clearbody w. lra. }
    exists r, (S (S (N + length ls'))). split; [split; [exact F1|split; [lra|exact F3]]|].
    intros [|n] L; [lia|]. cbn [r_adjust_d_loop]. fold sm lmin. rewrite V. fold d'. cbv zeta. unfold r_find_ls. 
    assert (Em : qmin d' dmax = d') by (destruct (qmin_cases d' dmax) as [[_ ?]|[? _]]; [assumption|lra]). rewrite Em. fold (s d').
    rewrite (drun_loop sm dmax (s d') _ _ _ R') by lia. apply E. lia.
Qed.

Lemma adjust_ends d s0 ls : is_double d -> d == qmin (p_d p) dmax -> qmin (p_d p) dmax = d -> lo <= d -> (1 # 4) * h < s0 -> s0 <= s d -> s0 <= h ->
  drun sm dmax s0 d 0 ls -> sd_ls sd = ls ->
  exists r, ends (fun n => r_adjust_d double n di h dmax p sd) r /\ found d r.
Proof.
  intros D _ Em P Big0 Hs Hh R El. pose proof lo_pos. assert (Dm : d <= dmax) by (rewrite <- Em; apply qmin_le_r).
  unfold r_adjust_d. rewrite Em, El. destruct (r_is_ls_valid double ls d sm dmax lmin) eqn:V.
  - exists d. split.
    + exists 1%nat. intros [|n] L; [lia|]. cbn [r_adjust_d_loop]. fold sm lmin. now rewrite V.
    + split; [exact D|]. split; [lra|]. exists s0, ls. split; [exact Hs|]. split; [exact R|]. now apply (valid_at s0 d ls D ltac:(lra) Hh R).
  - assert (G : enough < d).
    { apply Qnot_le_lt. intros G. pose proof (valid_small s0 d ls D ltac:(lra) G Big0 R) as W. apply (valid_at s0 d ls D ltac:(lra) Hh R) in W. congruence. }
    pose proof (lowered_range d ltac:(lra)) as Lr. set (d' := double (d - double (d / 1000))) in *.
    assert (D' : is_double d') by apply double_is_double. assert (P' : lo <= d' <= dmax) by lra.
    destruct (lines_at (s d') d' D' P' (s_le d' D' ltac:(lra))) as (ls' & R').
    pose proof enough_pos as Pe. destruct (nat_bound (d' / ((1 # 2000) * enough))) as (k & K).
    destruct (adjust_from k d' ls' D' P' R') as (r & N & (F1 & F2 & F3) & E).
    { assert (Z : d' == d' / ((1 # 2000) * enough) * ((1 # 2000) * enough)) by (field; lra).
      assert (d' / ((1 # 2000) * enough) * ((1 # 2000) * enough) <= inject_Z (Z.of_nat k) * ((1 # 2000) * enough)) by (apply Qmult_le_compat_r; [exact K|lra]). lra. }
    exists r. split; [|split; [exact F1|split; [lra|exact F3]]].
    exists (S (S (N + length ls'))). intros [|n] L; [lia|]. cbn [r_adjust_d_loop]. fold sm lmin. rewrite V. fold d'. cbv zeta. unfold r_find_ls.
    assert (Em' : qmin d' dmax = d') by (destruct (qmin_cases d' dmax) as [[_ ?]|[? _]]; [assumption|lra]). rewrite Em'. fold (s d').
    rewrite (drun_loop sm dmax (s d') _ _ _ R') by lia. apply E. lia.
Qed.
End Adjust.
