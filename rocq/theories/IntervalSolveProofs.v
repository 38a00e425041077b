(** The solvers of an interval end, and what they give. *)
From Coq Require Import List Arith Bool QArith Qabs Qround Qminmax Lia Lqa.
From Verif Require Import IntervalModel IntervalSpec IntervalProofs.
Import ListNotations.
Open Scope Q_scope.

(* ------------------------------------------------------------------ *)
(** * d_init *)

Definition proportional (di : mlp -> Q -> Q) : Prop :=
  forall p, exists c, 0 <= c /\ c <= 1 /\ forall d, di p d == c * d.

Lemma before_proportional : proportional d_init_before.
Proof.
  intros p. unfold d_init_before. destruct (p_policy p); [| |destruct (p_normal p)].
  - exists 0. repeat split; intros; lra.
  - exists (1#2). repeat split; try lra. intros d. field.
  - exists 1. repeat split; intros; lra.
  - exists (1#3). repeat split; intros; lra.
  - exists (2#3). repeat split; intros; lra.
Qed.

Lemma after_proportional : proportional d_init_after.
Proof.
  intros p. unfold d_init_after. destruct (p_policy p); [| |destruct (p_normal p)].
  - exists 0. repeat split; intros; lra.
  - exists (1#2). repeat split; try lra. intros d. field.
  - exists 1. repeat split; intros; lra.
  - exists (2#3). repeat split; intros; lra.
  - exists (1#3). repeat split; intros; lra.
Qed.

Lemma di_le di p d : proportional di -> 0 <= d -> 0 <= di p d /\ di p d <= d.
Proof. intros P D. destruct (P p) as (c & A & B & E). rewrite (E d). split; nra. Qed.

Lemma di_mono di p d d' : proportional di -> d <= d' -> di p d <= di p d'.
Proof. intros P D. destruct (P p) as (c & A & B & E). rewrite (E d), (E d'). nra. Qed.

(* ------------------------------------------------------------------ *)
(** * Many lines when d is small *)

Lemma nat_q_nonneg n : 0 <= inject_Z (Z.of_nat n).
Proof. change 0 with (inject_Z 0). rewrite <- Zle_Qle. lia. Qed.

Lemma nat_q_S n : inject_Z (Z.of_nat (S n)) == inject_Z (Z.of_nat n) + 1.
Proof. rewrite Nat2Z.inj_succ. unfold Z.succ. rewrite inject_Z_plus. reflexivity. Qed.

Lemma nat_q_le n m : (n <= m)%nat -> inject_Z (Z.of_nat n) <= inject_Z (Z.of_nat m).
Proof. intros L. rewrite <- Zle_Qle. lia. Qed.

Lemma run_reach sm dmax s cd cs ls : run sm dmax s cd cs ls -> 1 <= sm -> 0 < cd -> cd <= dmax ->
  s <= cs + inject_Z (Z.of_nat (length ls)) * (cd * qpow sm (length ls)).
Proof.
  induction 1 as [cd cs L|cd cs ls L R IH]; intros S D M.
  - cbn [length]. change (inject_Z (Z.of_nat 0)) with 0. lra.
  - pose proof (next_space_pos sm dmax cd S D M) as P.
    pose proof (next_space_le_dmax sm dmax cd M) as P2.
    pose proof (next_space_le_sm sm dmax cd S D) as P3.
    specialize (IH S P P2). cbn [length]. rewrite nat_q_S. cbn [qpow].
    pose proof (nat_q_nonneg (length ls)) as N. pose proof (qpow_ge1 sm (length ls) S) as G.
    set (n := inject_Z (Z.of_nat (length ls))) in *. set (x := next_space sm dmax cd) in *.
    set (q := qpow sm (length ls)) in *. clearbody n x q.
    assert (x * q <= cd * (q * sm)) as A by nra.
    assert (x <= x * q) as B by nra.
    assert (n * (x * q) <= n * (cd * (q * sm))) as C by nra.
    lra.
Qed.

Lemma qpow_mono sm n m : 1 <= sm -> (n <= m)%nat -> qpow sm n <= qpow sm m.
Proof.
  intros S L. induction L as [|m L IH]; [lra|]. cbn. pose proof (qpow_ge1 sm m S). nra.
Qed.

Lemma lines_many d sm dmax s ls k : lines d sm dmax s ls -> 0 < d -> 0 < dmax -> 1 <= sm ->
  d * (inject_Z (Z.of_nat k) * qpow sm k) < s -> (k < length ls)%nat.
Proof.
  intros R D M S B. destruct (Nat.lt_ge_cases k (length ls)) as [L|L]; [exact L|exfalso].
  pose proof (run_reach _ _ _ _ _ _ R S (qmin_pos _ _ D M) (qmin_le_r _ _)) as H.
  pose proof (qmin_le_l d dmax) as Q1. pose proof (qmin_pos _ _ D M) as Q2.
  pose proof (nat_q_le _ _ L) as N. pose proof (nat_q_nonneg (length ls)) as N0.
  pose proof (qpow_mono sm _ _ S L) as P. pose proof (qpow_ge1 sm (length ls) S) as P0.
  set (n := inject_Z (Z.of_nat (length ls))) in *. set (n' := inject_Z (Z.of_nat k)) in *.
  set (q := qpow sm (length ls)) in *. set (q' := qpow sm k) in *. set (c := qmin d dmax) in *.
  clearbody n n' q q' c.
  assert (n * q <= n' * q') as A by nra.
  assert (0 <= n * q) as A0 by nra.
  assert (c * (n * q) <= d * (n * q)) as A1 by nra.
  assert (d * (n * q) <= d * (n' * q')) as A2 by nra.
  lra.
Qed.

Lemma small_valid di p h dmax sm lmin : proportional di -> 0 < h -> 0 < dmax -> 1 <= sm ->
  exists beta, 0 < beta /\ forall d ls, 0 < d -> d <= beta -> d <= dmax ->
    lines d sm dmax (h - di p d) ls -> is_ls_valid ls d sm dmax lmin = true.
Proof.
  intros P H M S.
  set (w := inject_Z (Z.of_nat lmin) * qpow sm lmin).
  assert (0 <= w) as W.
  { unfold w. pose proof (nat_q_nonneg lmin). pose proof (qpow_ge1 sm lmin S). nra. }
  exists (h / (w + 2)).
  assert (0 < w + 2) as W2 by lra.
  assert (0 < h / (w + 2)) as B0 by (apply Qlt_shift_div_l; lra).
  split; [exact B0|]. intros d ls D L DM R.
  assert (d * (w + 2) <= h) as A.
  { assert (h / (w + 2) * (w + 2) == h) as E by (field; lra).
    rewrite <- E. apply Qmult_le_compat_r; lra. }
  pose proof (di_le di p d P ltac:(lra)) as [D0 D1].
  apply (lines_valid _ _ _ _ _ lmin R D M S). split; [exact DM|].
  assert (d * w < h - di p d) as F by nra.
  split.
  - apply Nat.lt_le_incl. exact (lines_many _ _ _ _ _ lmin R D M S F).
  - nra.
Qed.

(* ------------------------------------------------------------------ *)
(** * Geometric decay *)

Lemma qpow_pos x k : 0 < x -> 0 < qpow x k.
Proof. intros X. induction k; cbn; [lra|]. apply Qmult_lt_0_compat; assumption. Qed.

Lemma decay_bound e n : 0 <= e -> e < 1 -> qpow (1 - e) n * (1 + inject_Z (Z.of_nat n) * e) <= 1.
Proof.
  intros E0 E1. induction n as [|n IH].
  - change (inject_Z (Z.of_nat 0)) with 0. cbn [qpow]. lra.
  - rewrite nat_q_S. cbn [qpow]. pose proof (qpow_pos (1 - e) n ltac:(lra)) as P.
    pose proof (nat_q_nonneg n) as N. set (q := qpow (1 - e) n) in *. set (k := inject_Z (Z.of_nat n)) in *.
    clearbody q k.
    assert ((1 - e) * (1 + (k + 1) * e) <= 1 + k * e) as A by nra.
    assert (q * ((1 - e) * (1 + (k + 1) * e)) <= q * (1 + k * e)) as B by nra.
    lra.
Qed.

Lemma decay e x y : 0 < e -> e < 1 -> 0 < x -> 0 < y -> exists n, x * qpow (1 - e) n <= y.
Proof.
  intros E0 E1 X Y. destruct (archimed (x / y) e E0) as [n A]. exists n.
  pose proof (decay_bound e n ltac:(lra) E1) as B. pose proof (qpow_pos (1 - e) n ltac:(lra)) as P.
  assert (x <= y * (inject_Z (Z.of_nat n) * e)) as C.
  { assert (x == y * (x / y)) as E by (field; lra). rewrite E. pose proof (Qmult_le_compat_r _ _ y A ltac:(lra)). lra. }
  set (q := qpow (1 - e) n) in *. set (k := inject_Z (Z.of_nat n) * e) in *. clearbody q k.
  assert (x * q <= y * k * q) as D by nra.
  assert (q * k <= 1) as F by nra.
  assert (y * (q * k) <= y * 1) by nra. lra.
Qed.

(* ------------------------------------------------------------------ *)
(** * adjust_d_for_dmax_lmin *)

Section AdjustD.
Variables (di : mlp -> Q -> Q) (h dmax : Q) (p : mlp) (sd : side).
Hypothesis prop : proportional di.
Hypothesis h_pos : 0 < h.
Hypothesis dmax_pos : 0 < dmax.
Hypothesis sm_ge : 1 <= sd_smoothness sd.

Inductive adj : Q -> list Q -> Q -> Prop :=
| adj_stop d ls : is_ls_valid ls d (sd_smoothness sd) dmax (sd_lmin sd) = true -> adj d ls d
| adj_step d ls ls' r : is_ls_valid ls d (sd_smoothness sd) dmax (sd_lmin sd) = false ->
    lines (d - d / 1000) (sd_smoothness sd) dmax (h - di p (d - d / 1000)) ls' ->
    adj (d - d / 1000) ls' r -> adj d ls r.

Lemma adj_loop d ls r : adj d ls r -> ends (fun n => adjust_d_loop n di h dmax p sd d ls) r.
Proof.
  induction 1 as [d ls V|d ls ls' r V R A IH].
  - exists 1%nat. intros [|m] L; [lia|]. cbn. now rewrite V.
  - destruct IH as [n IH]. exists (S (n + S (length ls')))%nat. intros [|m] L; [lia|].
    cbn [adjust_d_loop]. rewrite V. rewrite (lines_find_ls _ _ _ _ _ R) by lia.
    apply IH. lia.
Qed.

Lemma lower_pos d : 0 < d -> 0 < d - d / 1000 /\ d - d / 1000 <= d.
Proof. intros D. assert (d / 1000 == d * (1 # 1000)) as -> by field. lra. Qed.

Lemma adj_exists beta : 0 < beta ->
  (forall d ls, 0 < d -> d <= beta -> d <= dmax ->
    lines d (sd_smoothness sd) dmax (h - di p d) ls ->
    is_ls_valid ls d (sd_smoothness sd) dmax (sd_lmin sd) = true) ->
  forall n d ls, 0 < d -> d <= dmax -> d * qpow (1 - (1 # 1000)) n <= beta -> exists r, adj d ls r.
Proof.
  intros B V. induction n as [|n IH]; intros d ls D M L;
    (destruct (is_ls_valid ls d (sd_smoothness sd) dmax (sd_lmin sd)) eqn:E; [exists d; now constructor|]);
    destruct (lower_pos d D) as [D1 D2];
    destruct (lines_exist (d - d / 1000) (sd_smoothness sd) dmax (h - di p (d - d / 1000)) D1 dmax_pos sm_ge) as [ls' R].
  - cbn in L. exists (d - d / 1000). econstructor; [exact E|exact R|]. constructor.
    apply V; auto; lra.
  - destruct (IH (d - d / 1000) ls') as [r A]; [exact D1|lra| |].
    + cbn [qpow] in L. assert (d - d / 1000 == d * (1 - (1 # 1000))) as -> by field. lra.
    + exists r. econstructor; eassumption.
Qed.

Lemma adj_total d ls : 0 < d -> d <= dmax -> exists r, adj d ls r.
Proof.
  intros D M. destruct (small_valid di p h dmax (sd_smoothness sd) (sd_lmin sd) prop h_pos dmax_pos sm_ge) as (beta & B & V).
  destruct (decay (1 # 1000) d beta) as [n L]; try lra.
  eapply (adj_exists beta B V n); eassumption.
Qed.

Lemma adj_facts d ls r : adj d ls r -> 0 < d -> 0 < r /\ r <= d.
Proof.
  induction 1 as [d ls V|d ls ls' r V R A IH]; intros D; [lra|].
  destruct (lower_pos d D) as [D1 D2]. destruct (IH D1). lra.
Qed.

(** The lines that go with a value of [d] are accepted. *)
Definition acceptable (d : Q) : Prop :=
  exists l, lines d (sd_smoothness sd) dmax (h - di p d) l /\
    is_ls_valid l d (sd_smoothness sd) dmax (sd_lmin sd) = true.

Lemma lowered_S d k : lowered (d - d / 1000) k = lowered d (S k).
Proof. induction k as [|k IH]; [reflexivity|]. cbn [lowered] in *. now rewrite IH. Qed.

Lemma adj_first d ls r : adj d ls r ->
  (r = d /\ is_ls_valid ls d (sd_smoothness sd) dmax (sd_lmin sd) = true) \/
  exists k, r = lowered d (S k) /\ acceptable r /\
    is_ls_valid ls d (sd_smoothness sd) dmax (sd_lmin sd) = false /\
    forall j, (0 < j < S k)%nat -> ~ acceptable (lowered d j).
Proof.
  induction 1 as [d ls V|d ls ls' r V R A IH]; [now left|right].
  destruct IH as [[-> W]|(k & -> & C & W & N)].
  - exists 0%nat. split; [reflexivity|]. split; [exists ls'; auto|]. split; [exact V|]. intros j J. lia.
  - exists (S k). split; [apply lowered_S|]. split; [exact C|]. split; [exact V|].
    intros [|[|j]] J; [lia| |].
    + intros (l & R' & W'). cbn in R', W'. rewrite (lines_fun _ _ _ _ _ _ R' R) in W'. congruence.
    + rewrite <- lowered_S. apply N. lia.
Qed.

Lemma sane_d d ls : 0 < d -> lines d (sd_smoothness sd) dmax (h - di p d) ls ->
  is_ls_valid ls (qmin d dmax) (sd_smoothness sd) dmax (sd_lmin sd) = true ->
  acceptable (qmin d dmax).
Proof.
  intros D R V. destruct (qmin_cases d dmax) as [[L E]|[L E]]; rewrite E in *.
  - exists ls. auto.
  - destruct (lines_exist dmax (sd_smoothness sd) dmax (h - di p dmax) dmax_pos dmax_pos sm_ge) as [l R'].
    exists l. split; [exact R'|].
    pose proof (di_mono di p dmax d prop ltac:(lra)) as G.
    assert (lines dmax (sd_smoothness sd) dmax (h - di p d) ls) as R0.
    { unfold lines in *. rewrite E in R.
      destruct (qmin_cases dmax dmax) as [[_ ->]|[? _]]; [exact R|lra]. }
    destruct (lines_more _ _ _ _ _ _ _ R0 R' ltac:(lra)) as [x ->].
    apply (lines_valid _ _ _ _ _ _ R0 dmax_pos dmax_pos sm_ge) in V. destruct V as (V1 & V2 & V3).
    apply (lines_valid _ _ _ _ _ _ R' dmax_pos dmax_pos sm_ge).
    rewrite app_length. repeat split; [lra|lia|lra].
Qed.

Lemma adjust_d_total : 0 < p_d p -> lines (p_d p) (sd_smoothness sd) dmax (h - di p (p_d p)) (sd_ls sd) ->
  exists d' k, ends (fun n => adjust_d n di h dmax p sd) d' /\
    0 < d' /\ d' <= p_d p /\ d' <= dmax /\ acceptable d' /\
    d' = lowered (qmin (p_d p) dmax) k /\
    (forall j, (0 < j < k)%nat -> ~ acceptable (lowered (qmin (p_d p) dmax) j)) /\
    ((0 < k)%nat -> p_d p <= dmax -> ~ acceptable (p_d p)).
Proof.
  intros D R. pose proof (qmin_pos _ _ D dmax_pos) as Q0.
  pose proof (qmin_le_l (p_d p) dmax). pose proof (qmin_le_r (p_d p) dmax).
  destruct (adj_total (qmin (p_d p) dmax) (sd_ls sd) Q0 (qmin_le_r _ _)) as [d' A].
  destruct (adj_facts _ _ _ A Q0) as [P L].
  destruct (adj_first _ _ _ A) as [[E V]|(k & E & C & V & N)].
  - exists d', 0%nat. split; [now apply adj_loop|]. split; [exact P|]. split; [lra|]. split; [lra|].
    split; [subst d'; now apply (sane_d (p_d p) (sd_ls sd))|]. split; [exact E|]. split; [intros; lia|intros; lia].
  - exists d', (S k). split; [now apply adj_loop|]. split; [exact P|]. split; [lra|]. split; [lra|].
    split; [exact C|]. split; [exact E|]. split; [exact N|].
    intros _ LE (l & R' & V'). rewrite (lines_fun _ _ _ _ _ _ R' R) in V'.
    destruct (qmin_cases (p_d p) dmax) as [[? Eq]|[? ?]]; [|lra]. rewrite Eq in V. congruence.
Qed.
End AdjustD.

(* ------------------------------------------------------------------ *)
(** * adjust_smoothness_for_s *)

Section AdjustS.
Variables (di : mlp -> Q -> Q) (h dmax : Q) (p : mlp).
Hypothesis dmax_pos : 0 < dmax.
Hypothesis d_pos : 0 < p_d p.

Definition next_smoothness (c : Q) : Q :=
  let next := c - c / 10000 in if Qltb next 1 then 1 else next.

Lemma next_smoothness_ge c : 1 <= next_smoothness c.
Proof. unfold next_smoothness. qcases; lra. Qed.

Lemma next_smoothness_le c : 1 <= c -> next_smoothness c <= c.
Proof.
  intros C. unfold next_smoothness. assert (c - c / 10000 <= c).
  { assert (c / 10000 == c * (1 # 10000)) as -> by field. lra. }
  qcases; lra.
Qed.

Inductive ads (nlines : nat) : Q -> Q -> Prop :=
| ads_more c ls : lines (p_d p) (next_smoothness c) dmax (h - di p (p_d p)) ls ->
    (nlines < length ls)%nat -> ads nlines c c
| ads_one c ls : lines (p_d p) (next_smoothness c) dmax (h - di p (p_d p)) ls ->
    (length ls <= nlines)%nat -> next_smoothness c == 1 -> ads nlines c (next_smoothness c)
| ads_step c ls r : lines (p_d p) (next_smoothness c) dmax (h - di p (p_d p)) ls ->
    (length ls <= nlines)%nat -> ~ next_smoothness c == 1 -> ads nlines (next_smoothness c) r -> ads nlines c r.

Lemma ads_loop nlines c r : ads nlines c r -> ends (fun n => adjust_smoothness_loop n di h dmax p nlines c) r.
Proof.
  induction 1 as [c ls R L|c ls R L E|c ls r R L E A IH].
  - exists (S (S (length ls))). intros [|m] M; [lia|]. cbn [adjust_smoothness_loop]. cbn zeta.
    change (if Qltb (c - c / 10000) 1 then 1 else c - c / 10000) with (next_smoothness c).
    rewrite (lines_find_ls _ _ _ _ _ R) by lia.
    destruct (Nat.ltb_spec nlines (length ls)); [reflexivity|lia].
  - exists (S (S (length ls))). intros [|m] M; [lia|]. cbn [adjust_smoothness_loop]. cbn zeta.
    change (if Qltb (c - c / 10000) 1 then 1 else c - c / 10000) with (next_smoothness c).
    rewrite (lines_find_ls _ _ _ _ _ R) by lia.
    destruct (Nat.ltb_spec nlines (length ls)); [lia|].
    apply Qeq_bool_iff in E. now rewrite E.
  - destruct IH as [n IH]. exists (S (n + S (length ls))). intros [|m] M; [lia|].
    cbn [adjust_smoothness_loop]. cbn zeta.
    change (if Qltb (c - c / 10000) 1 then 1 else c - c / 10000) with (next_smoothness c).
    rewrite (lines_find_ls _ _ _ _ _ R) by lia.
    destruct (Nat.ltb_spec nlines (length ls)); [lia|].
    destruct (Qeq_bool (next_smoothness c) 1) eqn:B; [apply Qeq_bool_iff in B; contradiction|].
    apply IH. lia.
Qed.

Lemma ads_exists nlines n : forall c, 1 <= c -> c * qpow (1 - (1 # 10000)) n <= 1 ->
  exists r, ads nlines c r.
Proof.
  induction n as [|n IH]; intros c C B;
    destruct (lines_exist (p_d p) (next_smoothness c) dmax (h - di p (p_d p)) d_pos dmax_pos (next_smoothness_ge c)) as [ls R];
    (destruct (Nat.lt_ge_cases nlines (length ls)) as [L|L]; [exists c; eapply ads_more; eassumption|]);
    (destruct (Qeq_dec (next_smoothness c) 1) as [E|E]; [exists (next_smoothness c); eapply ads_one; eassumption|]).
  - cbn in B. pose proof (next_smoothness_le c C). pose proof (next_smoothness_ge c). exfalso. apply E. lra.
  - destruct (IH (next_smoothness c)) as [r A]; [apply next_smoothness_ge| |].
    + cbn [qpow] in B. unfold next_smoothness in *. destruct (Qltb_spec (c - c / 10000) 1) as [G|G]; [lra|].
      assert (c - c / 10000 == c * (1 - (1 # 10000))) as -> by field. lra.
    + exists r. eapply ads_step; eassumption.
Qed.

Lemma ads_total nlines c : 1 <= c -> exists r, ads nlines c r.
Proof.
  intros C. destruct (decay (1 # 10000) c 1) as [n B]; try lra.
  eapply ads_exists; eassumption.
Qed.

Lemma ads_facts nlines c r : ads nlines c r -> 1 <= c ->
  forall ls0, lines (p_d p) c dmax (h - di p (p_d p)) ls0 -> (length ls0 <= nlines)%nat ->
  1 <= r /\ r <= c /\
  (exists ls, lines (p_d p) r dmax (h - di p (p_d p)) ls /\ (length ls <= nlines)%nat) /\
  (r == 1 \/ exists ls, lines (p_d p) (next_smoothness r) dmax (h - di p (p_d p)) ls /\ (nlines < length ls)%nat).
Proof.
  induction 1 as [c ls R L|c ls R L E|c ls r R L E A IH]; intros C ls0 R0 L0.
  - repeat split; [assumption|lra|eauto|right; eauto].
  - pose proof (next_smoothness_ge c). pose proof (next_smoothness_le c C).
    repeat split; [assumption|assumption|eauto|left; assumption].
  - pose proof (next_smoothness_ge c) as G. pose proof (next_smoothness_le c C) as G2.
    destruct (IH G ls R L) as (I1 & I2 & I3 & I4). repeat split; [assumption|lra|assumption|assumption].
Qed.
End AdjustS.

(* ------------------------------------------------------------------ *)
(** * Determinism of loops *)

Lemma ends_fun {A} (f : nat -> option A) r r' : ends f r -> ends f r' -> r = r'.
Proof.
  intros [n H] [m K]. specialize (H (n + m)%nat ltac:(lia)). specialize (K (n + m)%nat ltac:(lia)). congruence.
Qed.

Lemma ends_ret {A} (x : A) : ends (fun _ => Some x) x.
Proof. exists 0%nat. reflexivity. Qed.

Lemma ends_bind {A B} (f : nat -> option A) (g : nat -> A -> option B) x y :
  ends f x -> ends (fun n => g n x) y ->
  ends (fun n => match f n with Some v => g n v | None => None end) y.
Proof.
  intros [n H] [m K]. exists (n + m)%nat. intros k L. rewrite H by lia. apply K. lia.
Qed.

Lemma update_ls_ends di h dmax p sd ls : lines (p_d p) (sd_smoothness sd) dmax (h - di p (p_d p)) ls ->
  ends (fun n => update_ls n di h dmax p sd) (mk_side (sd_lmin sd) (sd_smoothness sd) ls).
Proof.
  intros R. unfold update_ls. eapply ends_bind; [apply ends_lines; exact R|apply ends_ret].
Qed.

(* ------------------------------------------------------------------ *)
(** * auto_solve_d *)

Lemma ready_h_pos b a iv : ready b a iv -> 0 < iv_h iv.
Proof. intros R. rewrite (ready_h _ _ _ R). pose proof (ready_order _ _ _ R). apply Qlt_shift_div_l; lra. Qed.

(** The side of an interval has the lines that go with its policy. *)
Definition solved (di : mlp -> Q -> Q) (h dmax : Q) (p : mlp) (sd : side) : Prop :=
  lines (p_d p) (sd_smoothness sd) dmax (h - di p (p_d p)) (sd_ls sd).

Lemma find_dmax_side_facts di h dmax p sd : proportional di -> solved di h dmax p sd ->
  0 < p_d p -> 0 < dmax -> 1 <= sd_smoothness sd ->
  0 < find_dmax_side sd dmax /\ find_dmax_side sd dmax <= dmax.
Proof.
  intros P R D M S. unfold find_dmax_side. unfold solved in R.
  destruct (rev (sd_ls sd)) as [|x [|y r]] eqn:E.
  - lra.
  - split; [|apply qmin_le_l]. apply qmin_pos; [exact M|].
    assert (sd_ls sd = [x]) as EL by (rewrite <- (rev_involutive (sd_ls sd)), E; reflexivity).
    pose proof (lines_spaces _ _ _ _ _ R D M S 0%nat) as H. rewrite EL in H. specialize (H ltac:(cbn; lia)).
    unfold space in H. cbn in H. nra.
  - split; [|apply qmin_le_l]. apply qmin_pos; [exact M|].
    assert (sd_ls sd = rev r ++ [y; x]) as EL.
    { rewrite <- (rev_involutive (sd_ls sd)), E. cbn. rewrite <- app_assoc. reflexivity. }
    pose proof (lines_spaces _ _ _ _ _ R D M S (Datatypes.S (length (rev r)))) as H. rewrite EL in H.
    specialize (H ltac:(rewrite app_length; cbn; lia)).
    unfold space in H. rewrite !app_nth2 in H by lia.
    replace (Datatypes.S (length (rev r)) - length (rev r))%nat with 1%nat in H by lia.
    replace (length (rev r) - length (rev r))%nat with 0%nat in H by lia. cbn in H. nra.
Qed.

Lemma find_dmax_side_allowed lmin sm ls dmax : find_dmax_side (mk_side lmin sm ls) dmax == allowed sm dmax ls.
Proof.
  unfold find_dmax_side. cbn [sd_ls sd_smoothness].
  destruct (rev ls) as [|x [|y r]] eqn:E.
  - assert (ls = []) as -> by (rewrite <- (rev_involutive ls), E; reflexivity). reflexivity.
  - assert (ls = [x]) as -> by (rewrite <- (rev_involutive ls), E; reflexivity).
    rewrite qmin_min. unfold allowed, space. cbn. assert (sm * (x - 0) == sm * x) as -> by ring. reflexivity.
  - assert (ls = rev r ++ [y; x]) as EL.
    { rewrite <- (rev_involutive ls), E. cbn. rewrite <- app_assoc. reflexivity. }
    rewrite qmin_min. unfold allowed.
    assert (space ls (length ls - 1) == x - y) as H.
    { unfold space. rewrite EL, app_length. cbn [length].
      replace (length (rev r) + 2 - 1)%nat with (S (length (rev r))) by lia.
      rewrite !app_nth2 by lia.
      replace (S (length (rev r)) - length (rev r))%nat with 1%nat by lia.
      replace (length (rev r) - length (rev r))%nat with 0%nat by lia. reflexivity. }
    destruct ls as [|z t]; [destruct (rev r); discriminate|]. rewrite H. reflexivity.
Qed.

Lemma acceptable_facts di h dmax p sd d : proportional di -> 0 < dmax -> 1 <= sd_smoothness sd -> 0 < d ->
  acceptable di h dmax p sd d ->
  exists l, lines d (sd_smoothness sd) dmax (h - di p d) l /\ d <= dmax /\ (sd_lmin sd <= length l)%nat /\ di p d < h.
Proof.
  intros P M S D (l & R & V). exists l.
  apply (lines_valid _ _ _ _ _ _ R D M S) in V. destruct V as (A & B & C).
  repeat split; auto. lra.
Qed.

Record solved_d (b a : mlp) (iv : interval) (b' a' : mlp) (iv' : interval) : Prop :=
  { sd_b : exists d, b' = set_d b d /\ 0 < d <= p_d b;
    sd_a : exists d, a' = set_d a d /\ 0 < d <= p_d a;
    sd_h : iv_h iv' = iv_h iv;
    sd_m : iv_m iv' = iv_m iv;
    sd_dmax : 0 < iv_dmax iv' <= iv_dmax iv;
    sd_allowed : exists lb la,
      lines (p_d b) (sd_smoothness (iv_before iv)) (iv_dmax iv) (iv_h iv - d_init_before b (p_d b)) lb /\
      lines (p_d a) (sd_smoothness (iv_after iv)) (iv_dmax iv) (iv_h iv - d_init_after a (p_d a)) la /\
      iv_dmax iv' == Qmin (allowed (sd_smoothness (iv_before iv)) (iv_dmax iv) lb)
                          (allowed (sd_smoothness (iv_after iv)) (iv_dmax iv) la);
    sd_smb : sd_smoothness (iv_before iv') = sd_smoothness (iv_before iv);
    sd_sma : sd_smoothness (iv_after iv') = sd_smoothness (iv_after iv);
    sd_lminb : sd_lmin (iv_before iv') = sd_lmin (iv_before iv);
    sd_lmina : sd_lmin (iv_after iv') = sd_lmin (iv_after iv);
    sd_db : p_d b' <= iv_dmax iv;
    sd_da : p_d a' <= iv_dmax iv;
    sd_solved_b : solved d_init_before (iv_h iv) (iv_dmax iv) b' (iv_before iv');
    sd_solved_a : solved d_init_after (iv_h iv) (iv_dmax iv) a' (iv_after iv');
    sd_many_b : (sd_lmin (iv_before iv) <= length (sd_ls (iv_before iv')))%nat;
    sd_many_a : (sd_lmin (iv_after iv) <= length (sd_ls (iv_after iv')))%nat;
    sd_room_b : d_init_before b' (p_d b') < iv_h iv;
    sd_room_a : d_init_after a' (p_d a') < iv_h iv }.

Lemma di_set_d_before b d x : d_init_before (set_d b d) x = d_init_before b x.
Proof. reflexivity. Qed.

Lemma auto_solve_d_total b a iv : ready b a iv ->
  exists b' a' iv', ends (fun n => auto_solve_d n b a iv) (b', a', iv') /\ solved_d b a iv b' a' iv'.
Proof.
  intros R. pose proof (ready_h_pos _ _ _ R) as H.
  destruct R as [Ro Rh Rm Rd Rsb Rsa Rdb Rda].
  destruct (lines_exist (p_d b) (sd_smoothness (iv_before iv)) (iv_dmax iv)
    (iv_h iv - d_init_before b (p_d b)) Rdb Rd Rsb) as [lb Lb].
  destruct (lines_exist (p_d a) (sd_smoothness (iv_after iv)) (iv_dmax iv)
    (iv_h iv - d_init_after a (p_d a)) Rda Rd Rsa) as [la La].
  set (sb := mk_side (sd_lmin (iv_before iv)) (sd_smoothness (iv_before iv)) lb).
  set (sa := mk_side (sd_lmin (iv_after iv)) (sd_smoothness (iv_after iv)) la).
  destruct (adjust_d_total d_init_before (iv_h iv) (iv_dmax iv) b sb before_proportional H Rd Rsb Rdb Lb)
    as (d1 & k1 & E1 & P1 & Q1 & M1 & C1 & _).
  destruct (adjust_d_total d_init_after (iv_h iv) (iv_dmax iv) a sa after_proportional H Rd Rsa Rda La)
    as (d2 & k2 & E2 & P2 & Q2 & M2 & C2 & _).
  destruct (acceptable_facts _ _ _ _ _ _ before_proportional Rd Rsb P1 C1) as (lb' & Lb' & _ & Nb & Hb).
  destruct (acceptable_facts _ _ _ _ _ _ after_proportional Rd Rsa P2 C2) as (la' & La' & _ & Na & Ha).
  exists (set_d b d1), (set_d a d2),
    (mk_interval (iv_h iv) (iv_m iv) (find_dmax sb sa (iv_dmax iv))
      (mk_side (sd_lmin (iv_before iv)) (sd_smoothness (iv_before iv)) lb')
      (mk_side (sd_lmin (iv_after iv)) (sd_smoothness (iv_after iv)) la')).
  split.
  - unfold auto_solve_d. cbn zeta.
    eapply ends_bind; [exact (update_ls_ends _ _ _ _ _ _ Lb)|].
    eapply ends_bind; [exact (update_ls_ends _ _ _ _ _ _ La)|].
    eapply ends_bind; [exact (update_ls_ends _ _ _ _ sb _ Lb)|].
    eapply ends_bind; [exact (update_ls_ends _ _ _ _ sa _ La)|].
    eapply ends_bind; [exact E1|].
    eapply ends_bind; [exact (update_ls_ends d_init_before _ _ (set_d b d1) sb _ Lb')|].
    eapply ends_bind; [exact E2|].
    eapply ends_bind; [exact (update_ls_ends d_init_after _ _ (set_d a d2) sa _ La')|].
    apply ends_ret.
  - destruct (find_dmax_side_facts d_init_before (iv_h iv) (iv_dmax iv) b sb before_proportional Lb Rdb Rd Rsb).
    destruct (find_dmax_side_facts d_init_after (iv_h iv) (iv_dmax iv) a sa after_proportional La Rda Rd Rsa).
    constructor; cbn; try reflexivity; try assumption.
    + exists d1. split; [reflexivity|lra].
    + exists d2. split; [reflexivity|lra].
    + unfold find_dmax. split; [now apply qmin_pos|]. eapply Qle_trans; [apply qmin_le_l|assumption].
    + exists lb, la. split; [exact Lb|]. split; [exact La|]. unfold find_dmax, sb, sa.
      rewrite qmin_min, !find_dmax_side_allowed. reflexivity.
Qed.

Lemma solved_d_ready b a iv b' a' iv' : ready b a iv -> solved_d b a iv b' a' iv' -> ready b' a' iv'.
Proof.
  intros R S. destruct R as [Ro Rh Rm Rd Rsb Rsa Rdb Rda].
  destruct (sd_b _ _ _ _ _ _ S) as (d1 & -> & D1). destruct (sd_a _ _ _ _ _ _ S) as (d2 & -> & D2).
  constructor; cbn.
  - exact Ro.
  - rewrite (sd_h _ _ _ _ _ _ S). exact Rh.
  - rewrite (sd_m _ _ _ _ _ _ S). exact Rm.
  - apply (sd_dmax _ _ _ _ _ _ S).
  - rewrite (sd_smb _ _ _ _ _ _ S). exact Rsb.
  - rewrite (sd_sma _ _ _ _ _ _ S). exact Rsa.
  - lra.
  - lra.
Qed.

(* ------------------------------------------------------------------ *)
(** * auto_solve_smoothness *)

Record solved_s (b a : mlp) (iv iv' : interval) : Prop :=
  { ss_h : iv_h iv' = iv_h iv;
    ss_m : iv_m iv' = iv_m iv;
    ss_dmax : iv_dmax iv' = iv_dmax iv;
    ss_smb : 1 <= sd_smoothness (iv_before iv') <= sd_smoothness (iv_before iv);
    ss_sma : 1 <= sd_smoothness (iv_after iv') <= sd_smoothness (iv_after iv);
    ss_lminb : sd_lmin (iv_before iv') = sd_lmin (iv_before iv);
    ss_lmina : sd_lmin (iv_after iv') = sd_lmin (iv_after iv);
    ss_solved_b : solved d_init_before (iv_h iv') (iv_dmax iv') b (iv_before iv');
    ss_solved_a : solved d_init_after (iv_h iv') (iv_dmax iv') a (iv_after iv') }.

Lemma adjust_smoothness_total di h dmax p sd : 0 < dmax -> 0 < p_d p -> 1 <= sd_smoothness sd ->
  solved di h dmax p sd ->
  exists r, ends (fun n => adjust_smoothness n di h dmax p sd) r /\
  1 <= r /\ r <= sd_smoothness sd /\
  (exists ls, lines (p_d p) r dmax (h - di p (p_d p)) ls /\ (length ls <= length (sd_ls sd))%nat) /\
  (r == 1 \/ exists ls, lines (p_d p) (next_smoothness r) dmax (h - di p (p_d p)) ls /\ (length (sd_ls sd) < length ls)%nat).
Proof.
  intros M D S R. destruct (ads_total di h dmax p M D (length (sd_ls sd)) (sd_smoothness sd) S) as [r A].
  exists r. split; [now apply ads_loop|].
  eapply ads_facts; eauto.
Qed.

Lemma auto_solve_smoothness_total b a iv : ready b a iv ->
  exists iv', ends (fun n => auto_solve_smoothness n b a iv) iv' /\ solved_s b a iv iv'.
Proof.
  intros [Ro Rh Rm Rd Rsb Rsa Rdb Rda].
  destruct (lines_exist (p_d b) (sd_smoothness (iv_before iv)) (iv_dmax iv)
    (iv_h iv - d_init_before b (p_d b)) Rdb Rd Rsb) as [lb Lb].
  destruct (lines_exist (p_d a) (sd_smoothness (iv_after iv)) (iv_dmax iv)
    (iv_h iv - d_init_after a (p_d a)) Rda Rd Rsa) as [la La].
  set (sb := mk_side (sd_lmin (iv_before iv)) (sd_smoothness (iv_before iv)) lb).
  set (sa := mk_side (sd_lmin (iv_after iv)) (sd_smoothness (iv_after iv)) la).
  destruct (adjust_smoothness_total d_init_before (iv_h iv) (iv_dmax iv) b sb Rd Rdb Rsb Lb) as (s1 & E1 & G1 & U1 & _).
  destruct (adjust_smoothness_total d_init_after (iv_h iv) (iv_dmax iv) a sa Rd Rda Rsa La) as (s2 & E2 & G2 & U2 & _).
  destruct (lines_exist (p_d b) s1 (iv_dmax iv) (iv_h iv - d_init_before b (p_d b)) Rdb Rd G1) as [lb' Lb'].
  destruct (lines_exist (p_d a) s2 (iv_dmax iv) (iv_h iv - d_init_after a (p_d a)) Rda Rd G2) as [la' La'].
  exists (mk_interval (iv_h iv) (iv_m iv) (iv_dmax iv)
      (mk_side (sd_lmin (iv_before iv)) s1 lb') (mk_side (sd_lmin (iv_after iv)) s2 la')).
  split.
  - unfold auto_solve_smoothness. cbn zeta.
    eapply ends_bind; [exact (update_ls_ends _ _ _ _ _ _ Lb)|].
    eapply ends_bind; [exact (update_ls_ends _ _ _ _ _ _ La)|].
    eapply ends_bind; [exact E1|]. eapply ends_bind; [exact E2|].
    eapply ends_bind; [exact (update_ls_ends d_init_before _ _ b (set_smoothness sb s1) _ Lb')|].
    eapply ends_bind; [exact (update_ls_ends d_init_after _ _ a (set_smoothness sa s2) _ La')|].
    apply ends_ret.
  - constructor; cbn; try reflexivity; try assumption; split; assumption.
Qed.

Lemma solved_s_ready b a iv iv' : ready b a iv -> solved_s b a iv iv' -> ready b a iv'.
Proof.
  intros [Ro Rh Rm Rd Rsb Rsa Rdb Rda] S. constructor.
  - exact Ro.
  - rewrite (ss_h _ _ _ _ S). exact Rh.
  - rewrite (ss_m _ _ _ _ S). exact Rm.
  - rewrite (ss_dmax _ _ _ _ S). exact Rd.
  - apply (ss_smb _ _ _ _ S).
  - apply (ss_sma _ _ _ _ S).
  - exact Rdb.
  - exact Rda.
Qed.
