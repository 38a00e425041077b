(** Proofs about the lines next to a policy, and about ties, with doubles. *)
From Coq Require Import List Arith Bool ZArith QArith Qabs Qround Qpower Lia Lqa Setoid Sorting.Sorted Sorting.Permutation.
From Verif Require Import IntervalModel IntervalSpec IntervalProofs InfraModel InfraNumberProofs ManagerModel ManagerSpec ManagerProofs ManagerMeshProofs ManagerMoreProofs.
From Verif Require Import RoundModel RoundSpec RoundProofs RoundLinesProofs RoundSolveProofs RoundMeshProofs RoundCellProofs RoundAxisProofs RoundRunProofs RoundDetectProofs.
Import ListNotations.
Open Scope Q_scope.

Section Share.
Variable M : Q.
Let rho := rounding (4 * M).

Lemma scaled_both c e d : 0 <= c <= 1 -> 0 <= e <= 1 -> e - unit_roundoff <= c <= e + unit_roundoff -> 0 < d <= M ->
  e * d - 2 * rho <= double (c * d) <= e * d + 2 * rho.
Proof.
  intros C E K P. assert (X : 0 <= c * d <= M) by nra. pose proof (double_close M (c * d) ltac:(lra)) as B. fold rho in B.
  assert (Y : - (unit_roundoff * M) <= c * d - e * d <= unit_roundoff * M) by (assert (0 < unit_roundoff) by reflexivity; nra).
  assert (Z : unit_roundoff * M <= rho). { unfold rho. rewrite rounding_eq. assert (0 < smallest) by reflexivity. assert (0 < unit_roundoff) by reflexivity. nra. }
  lra.
Qed.
Lemma third_both : (1 # 3) - unit_roundoff <= double (1 # 3) <= (1 # 3) + unit_roundoff. Proof. split; vm_compute; discriminate. Qed.
Lemma two_thirds_both : (2 # 3) - unit_roundoff <= double (2 # 3) <= (2 # 3) + unit_roundoff. Proof. split; vm_compute; discriminate. Qed.

Lemma init_near p d : consistent p -> is_oneline (p_policy p) = false -> 0 < d <= M ->
  share_above p d - 2 * rho <= r_d_init_before double p d <= share_above p d + 2 * rho /\
  share_below p d - 2 * rho <= r_d_init_after double p d <= share_below p d + 2 * rho.
Proof.
  intros C O P. unfold consistent in C. unfold r_d_init_before, r_d_init_after, share_above, share_below. destruct (p_policy p); [discriminate| |].
  - rewrite !half_double. pose proof (scaled_both (1 # 2) (1 # 2) d ltac:(lra) ltac:(lra) ltac:(unfold unit_roundoff; lra) P). split; lra.
  - pose proof (scaled_both (double (1 # 3)) (1 # 3) d third_range ltac:(lra) third_both P).
    pose proof (scaled_both (double (2 # 3)) (2 # 3) d two_thirds_range ltac:(lra) two_thirds_both P).
    destruct (p_normal p); [exfalso; now apply C|split; lra|split; lra].
Qed.

Lemma share_range p d : 0 < d -> 0 < share_above p d <= d /\ 0 < share_below p d <= d.
Proof. intros P. unfold share_above, share_below. destruct (p_policy p), (p_normal p); split; lra. Qed.

Lemma placed_near p d : consistent p -> is_oneline (p_policy p) = false -> 0 < d <= M -> - M <= p_coord p <= M -> 0 < M -> rho <= M ->
  Qabs (double (p_coord p + r_d_init_before double p d) - (p_coord p + share_above p d)) <= 3 * rho /\
  Qabs (double (p_coord p - r_d_init_after double p d) - (p_coord p - share_below p d)) <= 3 * rho.
Proof.
  intros C O P B PM Pr. destruct (init_near p d C O P) as [I1 I2]. destruct (share_range p d (proj1 P)) as [S1 S2].
  assert (0 < rho) by (apply rounding_pos; lra).
  split; apply Qabs_Qle_condition.
  - pose proof (double_close M (p_coord p + r_d_init_before double p d) ltac:(lra)) as E. fold rho in E. lra.
  - pose proof (double_close M (p_coord p - r_d_init_after double p d) ltac:(lra)) as E. fold rho in E. lra.
Qed.
End Share.

(** Halfway between two doubles the even one is taken. *)
Lemma round_even_half m : round_even (inject_Z m + (1 # 2)) = if Z.even m then m else (m + 1)%Z.
Proof.
  unfold round_even. assert (F : Qfloor (inject_Z m + (1 # 2)) = m).
  { pose proof (Qfloor_le (inject_Z m + (1 # 2))) as A. pose proof (Qlt_floor (inject_Z m + (1 # 2))) as B.
    set (f := Qfloor _) in *. clearbody f. rewrite inject_Z_plus in B. change (inject_Z 1) with 1 in B.
    assert (A' : inject_Z f < inject_Z (m + 1)) by (rewrite inject_Z_plus; change (inject_Z 1) with 1; lra).
    assert (B' : inject_Z m < inject_Z (f + 1)) by (rewrite inject_Z_plus; change (inject_Z 1) with 1; lra).
    rewrite <- Zlt_Qlt in A', B'. lia. }
  rewrite F. replace (Qcompare (inject_Z m + (1 # 2) - inject_Z m) (1 # 2)) with Eq; [reflexivity|].
  symmetry. apply Qeq_alt. ring.
Qed.
Lemma ties m e : (0 <= m < 2 ^ 53)%Z -> (-1074 <= e)%Z -> (2 ^ 52 <= m)%Z \/ e = (-1074)%Z ->
  double ((inject_Z m + (1 # 2)) * 2 ^ e) == inject_Z (if Z.even m then m else (m + 1)%Z) * 2 ^ e.
Proof.
  intros B He K. pose proof (two_pos e) as Pe. set (x := (inject_Z m + (1 # 2)) * 2 ^ e).
  assert (Zm : 0 <= inject_Z m) by (change 0 with (inject_Z 0); rewrite <- Zle_Qle; lia).
  assert (Px : 0 < x) by (unfold x; nra).
  assert (U : x < 2 ^ (e + 53)).
  { unfold x. rewrite two_plus. assert (inject_Z m <= inject_Z (2 ^ 53 - 1)) by (rewrite <- Zle_Qle; lia).
    change (2 ^ 53) with 9007199254740992. change (inject_Z (2 ^ 53 - 1)) with 9007199254740991 in H. nra. }
  assert (L : last_bit x = e).
  { destruct (log2_spec x Px) as [L1 L2]. assert (log2 x < e + 53)%Z by (apply two_lt_inv; lra). unfold last_bit.
    destruct K as [K|K]; [|lia]. assert (2 ^ (e + 52) <= x).
    { unfold x. rewrite two_plus. assert (inject_Z (2 ^ 52) <= inject_Z m) by (rewrite <- Zle_Qle; lia).
      change (2 ^ 52) with 4503599627370496. change (inject_Z (2 ^ 52)) with 4503599627370496 in H0. nra. }
    assert (e + 52 < log2 x + 1)%Z by (apply two_lt_inv; lra). lia. }
  rewrite double_of_pos by exact Px. rewrite L.
  assert (Q : x / 2 ^ e == inject_Z m + (1 # 2)) by (unfold x; field; lra).
  rewrite (round_even_comp _ _ Q), round_even_half. reflexivity.
Qed.
