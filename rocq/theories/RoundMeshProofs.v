(** Proofs about the meshing of an interval, with doubles. *)
From Coq Require Import List Arith Bool ZArith QArith Qabs Qround Qpower Lia Lqa Setoid.
From Verif Require Import IntervalModel IntervalSpec IntervalProofs InfraModel RoundModel RoundSpec RoundProofs RoundLinesProofs RoundSolveProofs.
Import ListNotations.
Open Scope Q_scope.

(** ** Lowering the smoothness *)

Definition less_smooth (c : Q) : Q := let next := double (c - double (c / 10000)) in if Qltb next 1 then 1 else next.
Lemma less_smooth_range c : 1 <= c <= 2 -> 1 <= less_smooth c <= c /\ (less_smooth c == 1 \/ less_smooth c <= c - (1 # 20000)).
Proof.
  intros C. unfold less_smooth. assert (E : c / 10000 == (1 # 10000) * c) by field. pose proof smallest_low as T.
  pose proof (double_bounds (c / 10000) ltac:(lra)) as B. set (z := double (c / 10000)) in *. clearbody z. unfold unit_roundoff in *.
  pose proof (double_bounds (c - z) ltac:(lra)) as D. unfold unit_roundoff in D. cbv zeta.
  destruct (Qltb_spec (double (c - z)) 1) as [H|H]; lra.
Qed.

Section Smoothness.
Variable di : mlp -> Q -> Q.
Variables h dmax : Q.
Variable p : mlp.
Let s := double (h - di p (p_d p)).
Let d := qmin (p_d p) dmax.
Variable nlines : nat.
Hypothesis Lines : forall c, 1 <= c -> exists ls, drun c dmax s d 0 ls.

Lemma smooth_from k : forall c ls, 1 <= c <= 2 -> drun c dmax s d 0 ls -> (length ls <= nlines)%nat -> c <= 1 + inject_Z (Z.of_nat k) * (1 # 20000) ->
  exists r N, 1 <= r <= c /\ (exists ls, drun r dmax s d 0 ls /\ (length ls <= nlines)%nat) /\
    forall n, (N <= n)%nat -> r_adjust_smoothness_loop double n di h dmax p nlines c = Some r.
Proof.
  induction k as [|k IH]; intros c ls C R Le K; destruct (less_smooth_range c C) as [A B];
    destruct (Lines (less_smooth c) ltac:(lra)) as (ls' & R').
  all: assert (Go : forall n, (length ls' < n)%nat -> r_adjust_smoothness_loop double (S n) di h dmax p nlines c =
    if (nlines <? length ls')%nat then Some c else if Qeq_bool (less_smooth c) 1 then Some (less_smooth c)
    else r_adjust_smoothness_loop double n di h dmax p nlines (less_smooth c)) by
    (intros n L; cbn [r_adjust_smoothness_loop]; fold (less_smooth c); unfold r_find_ls; fold s; fold d;
     rewrite (drun_loop (less_smooth c) dmax s _ _ _ R') by lia; reflexivity).
  all: destruct (Nat.ltb_spec nlines (length ls')) as [M|M];
    [exists c, (S (S (length ls'))); split; [lra|]; split; [now exists ls|]; intros [|n] L; [lia|rewrite Go by lia; reflexivity]|].
  all: destruct (Qeq_bool (less_smooth c) 1) eqn:Q1;
    [exists (less_smooth c), (S (S (length ls'))); split; [lra|]; split; [now exists ls'|]; intros [|n] L; [lia|rewrite Go by lia; reflexivity]|].
  all: assert (N1 : ~ less_smooth c == 1) by (intros X; apply Qeq_bool_iff in X; congruence).
  - exfalso. change (inject_Z (Z.of_nat 0)) with 0 in K. lra.
  - destruct (IH (less_smooth c) ls' ltac:(lra) R' M) as (r & N & F1 & F2 & E).
    { rewrite Nat2Z.inj_succ, <- Z.add_1_r, inject_Z_plus in K. change (inject_Z 1) with 1 in K. set (w := inject_Z (Z.of_nat k)) in *. clearbody w. lra. }
    exists r, (S (S (N + length ls'))). split; [lra|]. split; [exact F2|]. intros [|n] L; [lia|]. rewrite Go by lia. apply E. lia.
Qed.
Lemma smooth_ends c ls : 1 <= c <= 2 -> drun c dmax s d 0 ls -> (length ls <= nlines)%nat ->
  exists r, 1 <= r <= c /\ (exists ls, drun r dmax s d 0 ls /\ (length ls <= nlines)%nat) /\
    ends (fun n => r_adjust_smoothness_loop double n di h dmax p nlines c) r.
Proof.
  intros C R L. destruct (nat_bound ((c - 1) * 20000)) as (k & K).
  destruct (smooth_from k c ls C R L) as (r & N & F1 & F2 & E); [lra|]. exists r. split; [exact F1|]. split; [exact F2|]. now exists N.
Qed.
End Smoothness.

(** ** The largest distance *)

Lemma apart_app x l a b r : apart x (l ++ a :: b :: r) -> x <= b - a.
Proof.
  induction l as [|y l IH]; [intros [H _]; exact H|]. intros H. apply IH. destruct l as [|z l]; [exact (proj2 H)|exact (proj2 H)].
Qed.
Lemma find_dmax_range sm dmax s d sd : 1 <= sm <= 2 -> is_double d -> is_double dmax -> 0 < d <= dmax -> sd_smoothness sd = sm ->
  drun sm dmax s d 0 (sd_ls sd) -> 2 ^ (-1000) <= d -> rounding (s + dmax) <= (1 # 2) * d ->
  is_double (r_find_dmax_side double sd dmax) /\ (1 # 4) * d <= r_find_dmax_side double sd dmax <= dmax.
Proof.
  intros Sm D1 D2 P Es R L Rm. pose proof (drun_apart sm dmax s ltac:(lra) D2 d d 0 (sd_ls sd) R D1 ltac:(lra) ltac:(lra) ltac:(lra)) as A.
  pose proof (smallest_small d L) as T.
  assert (Low : forall x, (1 # 2) * d <= x -> (1 # 4) * d <= double (sm * x)).
  { intros x X. apply Qle_trans with (double ((1 # 2) * d)); [|apply double_mono; nra]. pose proof (double_bounds ((1 # 2) * d) ltac:(lra)) as B. unfold unit_roundoff in B. lra. }
  assert (Low' : forall x, (1 # 2) * d <= x -> (1 # 4) * d <= double (sm * double x)).
  { intros x X. assert (Y : double ((1 # 2) * d) <= double x) by now apply double_mono.
    apply Qle_trans with (double (double ((1 # 2) * d))); [|apply double_mono; pose proof (double_nonneg ((1 # 2) * d) ltac:(lra)); nra].
    rewrite (double_fixed (double _)) by apply double_is_double. pose proof (double_bounds ((1 # 2) * d) ltac:(lra)) as B. unfold unit_roundoff in B. lra. }
  unfold r_find_dmax_side. rewrite Es. destruct (rev (sd_ls sd)) as [|x [|y r]] eqn:E.
  - split; [exact D2|]. lra.
  - apply (f_equal (@rev Q)) in E. rewrite rev_involutive in E. cbn in E. rewrite E in A. destruct A as [A _].
    split; [apply qmin_double; [exact D2|apply double_is_double]|]. pose proof (Low x ltac:(lra)). split; [|apply qmin_le_l].
    destruct (qmin_cases dmax (double (sm * x))) as [[_ ->]|[_ ->]]; lra.
  - apply (f_equal (@rev Q)) in E. rewrite rev_involutive in E. cbn in E. rewrite <- app_assoc in E. cbn in E. rewrite E in A.
    change (0 :: rev r ++ [y; x]) with ((0 :: rev r) ++ y :: x :: []) in A. apply apart_app in A.
    split; [apply qmin_double; [exact D2|apply double_is_double]|]. pose proof (Low' (x - y) ltac:(lra)). split; [|apply qmin_le_l].
    destruct (qmin_cases dmax (double (sm * double (x - y)))) as [[_ ->]|[_ ->]]; lra.
Qed.

(** ** An interval *)

(** What is needed of an interval: its numbers are doubles, not too small compared to the
    roundings. *)
Record sized (lo : Q) (b a : mlp) (iv : interval) : Prop :=
  { sz_h : is_double (iv_h iv); sz_dmax : is_double (iv_dmax iv); sz_db : is_double (p_d b); sz_da : is_double (p_d a);
    sz_smb : 1 <= sd_smoothness (iv_before iv) <= 2; sz_sma : 1 <= sd_smoothness (iv_after iv) <= 2;
    sz_big : iv_h iv + iv_dmax iv <= limit;
    sz_lo : 2 ^ (-1000) <= lo;
    sz_lo_dmax : lo <= iv_dmax iv; sz_lo_b : lo <= p_d b <= iv_h iv; sz_lo_a : lo <= p_d a <= iv_h iv;
    sz_dir_b : directed b; sz_dir_a : directed a;
    sz_lo_hb : lo <= (1 # 2) * (iv_h iv * 2 ^ (- (Z.of_nat (sd_lmin (iv_before iv)) + 4)));
    sz_lo_ha : lo <= (1 # 2) * (iv_h iv * 2 ^ (- (Z.of_nat (sd_lmin (iv_after iv)) + 4)));
    sz_room : rounding (iv_h iv + iv_dmax iv) <= (1 # 2) * lo }.

(** What is reached on one side: lines for the current [d], at least one and at least [lmin]. *)
Definition side_done (di : mlp -> Q -> Q) (h dmax : Q) (p : mlp) (sd : side) : Prop :=
  drun (sd_smoothness sd) dmax (double (h - di p (p_d p))) (qmin (p_d p) dmax) 0 (sd_ls sd).

Section Side.
Variable di : mlp -> Q -> Q.
Hypothesis Di : inits di.
Variables h dmax lo : Q.
Variable p : mlp.
Hypothesis Dh : is_double h.
Hypothesis Ddmax : is_double dmax.
Hypothesis Dd : is_double (p_d p).
Hypothesis Big : h + dmax <= limit.
Hypothesis Low : 2 ^ (-1000) <= lo.
Hypothesis Lo_dmax : lo <= dmax.
Hypothesis Lo_d : lo <= p_d p.
Hypothesis Room : rounding (h + dmax) <= (1 # 2) * lo.

Lemma side_pos : 0 < lo. Proof. assert (0 < 2 ^ (-1000)) by reflexivity. lra. Qed.
Lemma side_s_le : double (h - di p (p_d p)) <= h.
Proof. pose proof side_pos. apply double_le; [exact Dh|]. destruct (proj1 Di p (p_d p) (p_d p) Dd Dd ltac:(lra)). lra. Qed.
Lemma side_min : is_double (qmin (p_d p) dmax) /\ lo <= qmin (p_d p) dmax.
Proof. split; [now apply qmin_double|]. destruct (qmin_cases (p_d p) dmax) as [[_ ->]|[_ ->]]; assumption. Qed.
Lemma side_room x : lo <= x -> rounding (double (h - di p (p_d p)) + dmax) <= (1 # 2) * x.
Proof. intros L. pose proof side_pos. pose proof side_s_le. assert (rounding (double (h - di p (p_d p)) + dmax) <= rounding (h + dmax)) by (apply rounding_mono; lra). lra. Qed.

Lemma side_lines sm : 1 <= sm -> exists ls, drun sm dmax (double (h - di p (p_d p))) (qmin (p_d p) dmax) 0 ls.
Proof.
  intros S. destruct side_min as [D M]. pose proof side_pos.
  apply (r_find_ls_ends (p_d p) sm dmax); [assumption|assumption|lra|lra|exact S|].
  assert (E : qmin (p_d p) dmax / 2 == (1 # 2) * qmin (p_d p) dmax) by field. rewrite E. now apply side_room.
Qed.
Lemma side_update sd : 1 <= sd_smoothness sd -> exists ls,
  side_done di h dmax p (mk_side (sd_lmin sd) (sd_smoothness sd) ls) /\
  ends (fun n => r_update_ls double n di h dmax p sd) (mk_side (sd_lmin sd) (sd_smoothness sd) ls).
Proof.
  intros S. destruct (side_lines (sd_smoothness sd) S) as (ls & R). exists ls. split; [exact R|].
  apply ends_drun in R. destruct R as (n & E). exists n. intros m L. unfold r_update_ls. now rewrite (E m L).
Qed.
Lemma side_adjust sd : 1 <= sd_smoothness sd <= 2 -> side_done di h dmax p sd ->
  lo <= (1 # 2) * (h * 2 ^ (- (Z.of_nat (sd_lmin sd) + 4))) -> near_inits di -> directed p -> p_d p <= h ->
  exists r ls, ends (fun n => r_adjust_d double n di h dmax p sd) r /\ is_double r /\ lo <= r /\ r <= p_d p /\ r <= dmax /\
    side_done di h dmax (set_d p r) (mk_side (sd_lmin sd) (sd_smoothness sd) ls) /\
    ends (fun n => r_update_ls double n di h dmax (set_d p r) sd) (mk_side (sd_lmin sd) (sd_smoothness sd) ls) /\
    (sd_lmin sd <= length ls)%nat /\ ls <> [].
Proof.
  intros Sm R Lo Ni Dp Ph. destruct side_min as [D M]. pose proof side_pos. pose proof side_s_le as S.
  assert (M1 := qmin_le_l (p_d p) dmax). assert (M2 := qmin_le_r (p_d p) dmax).
  assert (Mono : double (h - di p (p_d p)) <= double (h - di p (qmin (p_d p) dmax))).
  { apply double_mono. destruct (proj1 Di p (qmin (p_d p) dmax) (p_d p) D Dd ltac:(lra)) as (_ & _ & K). lra. }
  destruct (adjust_ends di Di h dmax p sd Sm Dh Ddmax Big ltac:(lra) lo Low Lo Room (qmin (p_d p) dmax) _ (sd_ls sd) D ltac:(lra) eq_refl M (far_middle di h p (p_d p) Di Ni Dp Dd ltac:(lra) Ph) Mono S R eq_refl)
    as (r & E & F1 & F2 & s0 & ls0 & F3 & F4 & F5 & F6).
  destruct (lines_at h dmax sd Sm Ddmax ltac:(lra) lo Low Room (double (h - di p r)) r F1 ltac:(lra)) as (ls & R').
  { apply (s_le di Di h p Dh r F1 ltac:(lra)). }
  exists r, ls. split; [exact E|]. split; [exact F1|]. split; [lra|]. split; [lra|]. split; [lra|].
  assert (Em : qmin r dmax = r) by (destruct (qmin_cases r dmax) as [[_ ?]|[? _]]; [assumption|lra]).
  pose proof (drun_more _ _ _ _ _ _ _ _ F3 F4 R') as Mo.
  assert (Y : side_done di h dmax (set_d p r) (mk_side (sd_lmin sd) (sd_smoothness sd) ls)).
  { unfold side_done. cbn [sd_smoothness sd_ls p_d set_d]. rewrite (proj2 Di), Em. exact R'. }
  split; [exact Y|]. split; [|split; [lia|intros ->; destruct ls0; [congruence|cbn in Mo; lia]]].
  unfold side_done in Y. cbn [sd_smoothness sd_ls] in Y. apply ends_drun in Y. destruct Y as (n & Y). exists n. intros m L. unfold r_update_ls. now rewrite (Y m L).
Qed.
End Side.

(** ** Solving *)

Record solved (lo : Q) (b a : mlp) (iv : interval) (b' a' : mlp) (iv' : interval) : Prop :=
  { so_b : b' = set_d b (p_d b'); so_a : a' = set_d a (p_d a');
    so_db : is_double (p_d b') /\ lo <= p_d b' <= p_d b /\ p_d b' <= iv_dmax iv;
    so_da : is_double (p_d a') /\ lo <= p_d a' <= p_d a /\ p_d a' <= iv_dmax iv;
    so_h : iv_h iv' = iv_h iv; so_m : iv_m iv' = iv_m iv;
    so_dmax : is_double (iv_dmax iv') /\ (1 # 4) * lo <= iv_dmax iv' <= iv_dmax iv;
    so_smb : sd_smoothness (iv_before iv') = sd_smoothness (iv_before iv); so_sma : sd_smoothness (iv_after iv') = sd_smoothness (iv_after iv);
    so_lminb : sd_lmin (iv_before iv') = sd_lmin (iv_before iv); so_lmina : sd_lmin (iv_after iv') = sd_lmin (iv_after iv);
    so_lines_b : side_done (r_d_init_before double) (iv_h iv) (iv_dmax iv) b' (iv_before iv');
    so_lines_a : side_done (r_d_init_after double) (iv_h iv) (iv_dmax iv) a' (iv_after iv');
    so_many_b : (sd_lmin (iv_before iv) <= length (sd_ls (iv_before iv')))%nat /\ sd_ls (iv_before iv') <> [];
    so_many_a : (sd_lmin (iv_after iv) <= length (sd_ls (iv_after iv')))%nat /\ sd_ls (iv_after iv') <> [] }.

Lemma solve_d_ends lo b a iv : sized lo b a iv ->
  exists b' a' iv', ends (fun n => r_auto_solve_d double n b a iv) (b', a', iv') /\ solved lo b a iv b' a' iv'.
Proof.
  intros [Dh Dm Db Da Smb Sma Big Low Lm [Lb Lb'] [La La'] Tb Ta Hb Ha Room].
  assert (Pl : 0 < lo) by (assert (0 < 2 ^ (-1000)) by reflexivity; lra).
  destruct (side_update _ inits_before (iv_h iv) (iv_dmax iv) lo b Dh Dm Db Low Lm Lb Room (iv_before iv) ltac:(lra)) as (lb & Rb & Ub).
  destruct (side_update _ inits_after (iv_h iv) (iv_dmax iv) lo a Dh Dm Da Low Lm La Room (iv_after iv) ltac:(lra)) as (la & Ra & Ua).
  set (sb := mk_side (sd_lmin (iv_before iv)) (sd_smoothness (iv_before iv)) lb) in *.
  set (sa := mk_side (sd_lmin (iv_after iv)) (sd_smoothness (iv_after iv)) la) in *.
  destruct (side_adjust _ inits_before (iv_h iv) (iv_dmax iv) lo b Dh Dm Db Big Low Lm Lb Room sb Smb Rb Hb near_before Tb Lb') as (rb & lb' & Eb & D1 & D2 & D3 & D4 & Rb' & Ub' & Nb).
  destruct (side_adjust _ inits_after (iv_h iv) (iv_dmax iv) lo a Dh Dm Da Big Low Lm La Room sa Sma Ra Ha near_after Ta La') as (ra & la' & Ea & G1 & G2 & G3 & G4 & Ra' & Ua' & Na).
  assert (Mb := side_min (iv_dmax iv) lo b Dm Db Lm Lb). assert (Ma := side_min (iv_dmax iv) lo a Dm Da Lm La).
  assert (Fb : is_double (r_find_dmax_side double sb (iv_dmax iv)) /\ (1 # 4) * qmin (p_d b) (iv_dmax iv) <= r_find_dmax_side double sb (iv_dmax iv) <= iv_dmax iv).
  { apply (find_dmax_range (sd_smoothness (iv_before iv)) _ (double (iv_h iv - r_d_init_before double b (p_d b)))); try assumption; try tauto.
    - split; [lra|apply qmin_le_r]. - lra.
    - apply (side_room _ inits_before _ _ lo b Dh Db Low Lb Room). apply Mb. }
  assert (Fa : is_double (r_find_dmax_side double sa (iv_dmax iv)) /\ (1 # 4) * qmin (p_d a) (iv_dmax iv) <= r_find_dmax_side double sa (iv_dmax iv) <= iv_dmax iv).
  { apply (find_dmax_range (sd_smoothness (iv_after iv)) _ (double (iv_h iv - r_d_init_after double a (p_d a)))); try assumption; try tauto.
    - split; [lra|apply qmin_le_r]. - lra.
    - apply (side_room _ inits_after _ _ lo a Dh Da Low La Room). apply Ma. }
  exists (set_d b rb), (set_d a ra), (mk_interval (iv_h iv) (iv_m iv) (r_find_dmax double sb sa (iv_dmax iv))
    (mk_side (sd_lmin sb) (sd_smoothness sb) lb') (mk_side (sd_lmin sa) (sd_smoothness sa) la')).
  split.
  - destruct Ub as (n1 & Ub). destruct Ua as (n2 & Ua). destruct Eb as (n3 & Eb). destruct Ea as (n4 & Ea). destruct Ub' as (n5 & Ub'). destruct Ua' as (n6 & Ua').
    exists (n1 + n2 + n3 + n4 + n5 + n6)%nat. intros n L. unfold r_auto_solve_d.
    rewrite (Ub n) by lia. rewrite (Ua n) by lia.
    assert (Ub2 : r_update_ls double n (r_d_init_before double) (iv_h iv) (iv_dmax iv) b sb = Some sb) by (rewrite <- (Ub n) by lia; reflexivity).
    assert (Ua2 : r_update_ls double n (r_d_init_after double) (iv_h iv) (iv_dmax iv) a sa = Some sa) by (rewrite <- (Ua n) by lia; reflexivity).
    rewrite Ub2, Ua2. rewrite (Eb n) by lia. rewrite (Ub' n) by lia. rewrite (Ea n) by lia. rewrite (Ua' n) by lia. reflexivity.
  - constructor; cbn [p_d set_d iv_h iv_m iv_dmax iv_before iv_after sd_smoothness sd_lmin sd_ls]; try reflexivity; try assumption; try (split; [assumption|split; [split; assumption|assumption]]).
    unfold r_find_dmax. split; [apply qmin_double; tauto|].
    destruct (qmin_cases (r_find_dmax_side double sb (iv_dmax iv)) (r_find_dmax_side double sa (iv_dmax iv))) as [[_ ->]|[_ ->]]; lra.
Qed.

Record smoothed (b a : mlp) (iv iv' : interval) : Prop :=
  { sm_h : iv_h iv' = iv_h iv; sm_m : iv_m iv' = iv_m iv; sm_dmax : iv_dmax iv' = iv_dmax iv;
    sm_smb : 1 <= sd_smoothness (iv_before iv') <= sd_smoothness (iv_before iv);
    sm_sma : 1 <= sd_smoothness (iv_after iv') <= sd_smoothness (iv_after iv);
    sm_lines_b : side_done (r_d_init_before double) (iv_h iv) (iv_dmax iv) b (iv_before iv');
    sm_lines_a : side_done (r_d_init_after double) (iv_h iv) (iv_dmax iv) a (iv_after iv') }.

Section SideSmooth.
Variable di : mlp -> Q -> Q.
Hypothesis Di : inits di.
Variables h dmax lo : Q.
Variable p : mlp.
Hypothesis Dh : is_double h.
Hypothesis Ddmax : is_double dmax.
Hypothesis Dd : is_double (p_d p).
Hypothesis Low : 2 ^ (-1000) <= lo.
Hypothesis Lo_dmax : lo <= dmax.
Hypothesis Lo_d : lo <= p_d p.
Hypothesis Room : rounding (h + dmax) <= (1 # 2) * lo.
Lemma side_smooth sd : 1 <= sd_smoothness sd <= 2 -> side_done di h dmax p sd ->
  exists r ls, ends (fun n => r_adjust_smoothness double n di h dmax p sd) r /\ 1 <= r <= sd_smoothness sd /\
    side_done di h dmax p (mk_side (sd_lmin sd) r ls) /\
    ends (fun n => r_update_ls double n di h dmax p (set_smoothness sd r)) (mk_side (sd_lmin sd) r ls).
Proof.
  intros Sm R. assert (L : forall c, 1 <= c -> exists ls, drun c dmax (double (h - di p (p_d p))) (qmin (p_d p) dmax) 0 ls)
    by (intros c C; apply (side_lines di Di h dmax lo p); assumption).
  destruct (smooth_ends di h dmax p (length (sd_ls sd)) L (sd_smoothness sd) (sd_ls sd) Sm R (le_n _)) as (r & Rr & (ls & Rl & _) & E).
  exists r, ls. split; [exact E|]. split; [exact Rr|]. split; [exact Rl|].
  apply ends_drun in Rl. destruct Rl as (n & Y). exists n. intros m M. unfold r_update_ls. cbn [set_smoothness sd_smoothness sd_lmin]. now rewrite (Y m M).
Qed.
End SideSmooth.

Lemma solve_smoothness_ends lo b a iv : is_double (iv_h iv) -> is_double (iv_dmax iv) -> is_double (p_d b) -> is_double (p_d a) ->
  1 <= sd_smoothness (iv_before iv) <= 2 -> 1 <= sd_smoothness (iv_after iv) <= 2 ->
  2 ^ (-1000) <= lo -> lo <= iv_dmax iv -> lo <= p_d b -> lo <= p_d a -> rounding (iv_h iv + iv_dmax iv) <= (1 # 2) * lo ->
  exists iv', ends (fun n => r_auto_solve_smoothness double n b a iv) iv' /\ smoothed b a iv iv'.
Proof.
  intros Dh Dm Db Da Smb Sma Low Lm Lb La Room.
  destruct (side_update _ inits_before (iv_h iv) (iv_dmax iv) lo b Dh Dm Db Low Lm Lb Room (iv_before iv) ltac:(lra)) as (lb & Rb & Ub).
  destruct (side_update _ inits_after (iv_h iv) (iv_dmax iv) lo a Dh Dm Da Low Lm La Room (iv_after iv) ltac:(lra)) as (la & Ra & Ua).
  destruct (side_smooth _ inits_before (iv_h iv) (iv_dmax iv) lo b Dh Dm Db Low Lm Lb Room (mk_side (sd_lmin (iv_before iv)) (sd_smoothness (iv_before iv)) lb) Smb Rb) as (rb & lb' & Eb & B1 & B2 & B3).
  destruct (side_smooth _ inits_after (iv_h iv) (iv_dmax iv) lo a Dh Dm Da Low Lm La Room (mk_side (sd_lmin (iv_after iv)) (sd_smoothness (iv_after iv)) la) Sma Ra) as (ra & la' & Ea & A1 & A2 & A3).
  exists (mk_interval (iv_h iv) (iv_m iv) (iv_dmax iv) (mk_side (sd_lmin (iv_before iv)) rb lb') (mk_side (sd_lmin (iv_after iv)) ra la')).
  split.
  - destruct Ub as (n1 & Ub). destruct Ua as (n2 & Ua). destruct Eb as (n3 & Eb). destruct Ea as (n4 & Ea). destruct B3 as (n5 & B3). destruct A3 as (n6 & A3).
    exists (n1 + n2 + n3 + n4 + n5 + n6)%nat. intros n L. unfold r_auto_solve_smoothness.
    rewrite (Ub n) by lia. rewrite (Ua n) by lia. rewrite (Eb n) by lia. rewrite (Ea n) by lia. rewrite (B3 n) by lia. rewrite (A3 n) by lia. reflexivity.
  - constructor; cbn [iv_h iv_m iv_dmax iv_before iv_after sd_smoothness sd_lmin sd_ls]; try reflexivity; assumption.
Qed.
