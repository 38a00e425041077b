(** C85: a circle becomes a convex polygon, turning left, that touches the circle where the axes
    cross it. *)
From Coq Require Import List Arith Reals Lra Lia Psatz.
From Verif Require GeomModel.
From Verif Require Import CircleModel CircleSpec CircleProofs.
Import ListNotations.
Open Scope R_scope.

Lemma point_in c r n p : In p (circle_to_points c r n) <-> exists i, (i < slices n * 4)%nat /\ p = point_at c r n i.
Proof.
  split.
  - intros I. apply In_nth_error in I as [i E]. assert (L : (i < slices n * 4)%nat) by (rewrite <- (circle_length c r n); apply nth_error_Some; congruence).
    exists i. split; [exact L|]. rewrite circle_nth in E by exact L. congruence.
  - intros (i & L & ->). apply (nth_error_In _ i). now apply circle_nth.
Qed.

Lemma within x y : Rabs x <= y -> - y <= x <= y.
Proof. intros H. unfold Rabs in H. destruct (Rcase_abs x); lra. Qed.

(** Four times as many points as asked for by quarter, or four if none is; each on the circle. *)
Theorem C85_count : forall c r n, length (circle_to_points c r n) = (4 * max 1 n)%nat.
Proof. intros c r n. rewrite circle_length. destruct n; cbn; lia. Qed.
Theorem C85_on : forall c r n p, In p (circle_to_points c r n) -> apart2 p c = r * r.
Proof. intros c r n p I. apply point_in in I as (i & _ & ->). apply on_circle. Qed.
(** The four points of the circle on the axes through its centre are there. *)
Theorem C85_axes : forall c r n,
  let l := circle_to_points c r n in
  In (mkR (rx c + r) (ry c)) l /\ In (mkR (rx c - r) (ry c)) l /\ In (mkR (rx c) (ry c + r)) l /\ In (mkR (rx c) (ry c - r)) l.
Proof.
  intros c r n l. pose proof (slices_pos n) as M. pose proof (m_d n) as E.
  assert (H : forall k, (k < 4)%nat -> In (mkR (rx c + r * cos (INR k * (PI / 2))) (ry c + r * sin (INR k * (PI / 2)))) l).
  { intros k K. apply point_in. exists (k * slices n)%nat. split; [nia|]. unfold point_at. replace (slice_angle n * INR (k * slices n)) with (INR k * (PI / 2)); [reflexivity|]. rewrite mult_INR, <- E. ring. }
  pose proof (H 0%nat ltac:(lia)) as H0. pose proof (H 1%nat ltac:(lia)) as H1. pose proof (H 2%nat ltac:(lia)) as H2. pose proof (H 3%nat ltac:(lia)) as H3. clear H.
  replace (INR 0 * (PI / 2)) with 0 in H0 by (cbn; field). replace (INR 1 * (PI / 2)) with (PI / 2) in H1 by (cbn; field).
  replace (INR 2 * (PI / 2)) with PI in H2 by (cbn; field). replace (INR 3 * (PI / 2)) with (3 * (PI / 2)) in H3 by (cbn; field).
  rewrite cos_0, sin_0 in H0. rewrite cos_PI2, sin_PI2 in H1. rewrite cos_PI, sin_PI in H2. rewrite cos_3PI2, sin_3PI2 in H3.
  repeat apply conj.
  - replace (mkR (rx c + r) (ry c)) with (mkR (rx c + r * 1) (ry c + r * 0)) by (f_equal; ring). exact H0.
  - replace (mkR (rx c - r) (ry c)) with (mkR (rx c + r * -1) (ry c + r * 0)) by (f_equal; ring). exact H2.
  - replace (mkR (rx c) (ry c + r)) with (mkR (rx c + r * 0) (ry c + r * 1)) by (f_equal; ring). exact H1.
  - replace (mkR (rx c) (ry c - r)) with (mkR (rx c + r * 0) (ry c + r * -1)) by (f_equal; ring). exact H3.
Qed.

(** No point comes twice, whatever the radius is but nought. *)
Theorem C85_once : forall c r n, r <> 0 -> NoDup (circle_to_points c r n).
Proof.
  intros c r n Z. apply NoDup_nth_error. intros i j L E. rewrite circle_length in L. rewrite circle_nth in E by exact L.
  assert (J : (j < slices n * 4)%nat) by (rewrite <- (circle_length c r n); apply nth_error_Some; congruence). rewrite circle_nth in E by exact J. injection E as Ex Ey.
  assert (P : point_at c r n i = point_at c r n j) by (unfold point_at; congruence).
  destruct (lt_eq_lt_dec i j) as [[X|X]|X]; [|exact X|].
  - destruct (distinct c r n i j Z (conj X J) P).
  - destruct (distinct c r n j i Z (conj X L) (eq_sym P)).
Qed.
(** Going along the polygon turns left around the centre, and all points but the two ends of a side
    are on its left: the polygon is convex. *)
Theorem C85_left : forall c r n p q, r <> 0 -> side (circle_to_points c r n) p q -> 0 < turn c p q.
Proof.
  intros c r n p q Z S. apply side_at in S as (i & _ & -> & ->). rewrite left_turn. apply Rmult_lt_0_compat; [|apply whole_sin]. apply Rsqr_pos_lt in Z. exact Z.
Qed.
Theorem C85_convex : forall c r n p q s, r <> 0 -> side (circle_to_points c r n) p q -> In s (circle_to_points c r n) -> s <> p -> s <> q -> 0 < turn p q s.
Proof.
  intros c r n p q s Z S I P Q. apply side_at in S as (i & L & -> & ->). apply point_in in I as (j & J & ->).
  assert (K : exists k, (k < slices n * 4)%nat /\ point_at c r n j = point_at c r n (i + k)).
  { destruct (le_lt_dec i j) as [X|X].
    - exists (j - i)%nat. split; [lia|]. f_equal. lia.
    - exists (slices n * 4 + j - i)%nat. split; [lia|]. replace (i + (slices n * 4 + j - i))%nat with (slices n * 4 + j)%nat by lia. now rewrite once_around. }
  destruct K as (k & K & E). rewrite E in *. destruct k as [|[|k]].
  - destruct P. f_equal. lia.
  - destruct Q. f_equal. lia.
  - apply beyond_left; [exact Z|lia].
Qed.
(** No side is along an axis: its ends are at least [2 |r| sin(d/2)^2] apart both ways, [d] being the
    angle of a slice. *)
Theorem C85_slanted : forall c r n p q, side (circle_to_points c r n) p q ->
  let h := sin (PI / 2 / INR (max 1 n) / 2) in
  2 * Rabs r * (h * h) <= Rabs (rx q - rx p) /\ 2 * Rabs r * (h * h) <= Rabs (ry q - ry p).
Proof.
  intros c r n p q S h. assert (E : h = sin (slice_angle n / 2)) by (unfold h, slice_angle; now destruct n). rewrite E. clearbody h. clear E h. apply side_at in S as (i & _ & -> & ->).
  destruct (moves c r n i) as [-> ->]. destruct (steep n i) as [A B]. pose proof (half_sin n) as H. pose proof (Rabs_pos r) as Z. rewrite <- !Rmult_assoc.
  split; apply Rmult_le_compat_l; try assumption; apply Rmult_le_pos; lra.
Qed.
(** So, unless the circle is tiny, all sides are diagonal, and mesh lines come from the bounding box
    and not from the sides. *)
Theorem C85_diagonal : forall c r n p q, side (circle_to_points c r n) p q ->
  let h := sin (PI / 2 / INR (max 1 n) / 2) in
  tolerance <= 2 * Rabs r * (h * h) -> axis_of_side p q = GeomModel.SDIAG.
Proof.
  intros c r n p q S h T. destruct (C85_slanted c r n p q S) as [A B]. fold h in A, B. unfold axis_of_side, same_coord. rewrite !Rminus_0_r.
  destruct (Rlt_dec (Rabs (rx q - rx p)) tolerance); [lra|]. destruct (Rlt_dec (Rabs (ry q - ry p)) tolerance); [lra|]. reflexivity.
Qed.
(** The sides are in the circle, and never nearer to the centre than [r cos(d/2)]. *)
Theorem C85_near : forall c r n p q t, side (circle_to_points c r n) p q -> 0 <= t <= 1 ->
  let k := cos (PI / 2 / INR (max 1 n) / 2) in
  r * r * (k * k) <= apart2 (along p q t) c <= r * r.
Proof.
  intros c r n p q t S T k. assert (E : k = cos (slice_angle n / 2)) by (unfold k, slice_angle; now destruct n). rewrite E. apply side_at in S as (i & _ & -> & ->). now apply near.
Qed.
(** The bounding box is the square around the circle. *)
Theorem C85_bounding : forall c r n, bounding (circle_to_points c r n) = Some (mkB (rx c - Rabs r) (rx c + Rabs r) (ry c - Rabs r) (ry c + Rabs r)).
Proof.
  intros c r n. destruct (bounding (circle_to_points c r n)) as [b|] eqn:E.
  - apply bounding_tight in E as (A & (p1 & I1 & E1) & (p2 & I2 & E2) & (p3 & I3 & E3) & (p4 & I4 & E4)). destruct (C85_axes c r n) as (X1 & X2 & X3 & X4).
    apply A in X1, X2, X3, X4. cbn in X1, X2, X3, X4.
    assert (H : forall p, In p (circle_to_points c r n) -> Rabs (rx p - rx c) <= Rabs r /\ Rabs (ry p - ry c) <= Rabs r).
    { intros p I. apply C85_on in I. unfold apart2 in I. split; apply Rsqr_le_abs_0; unfold Rsqr.
      - pose proof (Rle_0_sqr (ry p - ry c)) as Q. unfold Rsqr in Q. lra.
      - pose proof (Rle_0_sqr (rx p - rx c)) as Q. unfold Rsqr in Q. lra. }
    apply H in I1 as [I1 _], I2 as [I2 _], I3 as [_ I3], I4 as [_ I4]. apply within in I1, I2, I3, I4. destruct b as [x0 x1 y0 y1]. cbn in *.
    f_equal. unfold Rabs in *. destruct (Rcase_abs r); f_equal; lra.
  - assert (N := circle_length c r n). pose proof (slices_pos n). destruct (circle_to_points c r n); [cbn in N; lia|discriminate E].
Qed.
(** The polygon is seen as turning left from a radius of 1e-4 on, and never as turning right. *)
Theorem C85_sense : forall c r n, / 10000 <= Rabs r -> sense (circle_to_points c r n) = GeomModel.CCW.
Proof.
  intros c r n L. destruct (area_range c r n) as [A _]. assert (Q : / 10000 * / 10000 <= r * r). { replace (r * r) with (Rabs r * Rabs r) by (rewrite <- Rabs_mult; apply Rabs_right, Rle_ge, Rle_0_sqr). nra. }
  unfold sense, same_coord, tolerance. rewrite Rminus_0_r, Rabs_right by lra. destruct (Rlt_dec _ (/ 100000000)); [lra|]. destruct (Rlt_dec 0 _); [reflexivity|lra].
Qed.
Theorem C85_never : forall c r n, sense (circle_to_points c r n) <> GeomModel.CW.
Proof.
  intros c r n. destruct (area_range c r n) as [A _]. pose proof (Rle_0_sqr r) as Q. unfold Rsqr in Q. unfold sense, same_coord, tolerance. rewrite Rminus_0_r, Rabs_right by lra.
  destruct (Rlt_dec _ (/ 100000000)); [discriminate|]. destruct (Rlt_dec 0 _); [discriminate|lra].
Qed.
(** A radius below 5e-5, as of a via of 80 um in a file in metres, makes a polygon seen as flat, whose
    sides have no outside. *)
Theorem C85_tiny : forall c r n, Rabs r < / 20000 -> sense (circle_to_points c r n) = GeomModel.COLINEAR.
Proof.
  intros c r n L. destruct (area_range c r n) as [A B]. pose proof (Rle_0_sqr r) as Q0. unfold Rsqr in Q0. pose proof (Rabs_pos r) as R0.
  assert (Q : r * r < / 20000 * / 20000). { replace (r * r) with (Rabs r * Rabs r) by (rewrite <- Rabs_mult; apply Rabs_right, Rle_ge, Rle_0_sqr). nra. }
  pose proof PI_4 as P. pose proof PI_RGT_0.
  unfold sense, same_coord, tolerance. rewrite Rminus_0_r, Rabs_right by lra. destruct (Rlt_dec _ (/ 100000000)) as [|N]; [reflexivity|]. destruct N. nra.
Qed.
(** Wrong: that every circle is seen as turning left. *)
Theorem C85_sense_refuted : ~ (forall c r n, r <> 0 -> sense (circle_to_points c r n) = GeomModel.CCW).
Proof. intros H. specialize (H (mkR 0 0) (/ 25000) 9%nat ltac:(lra)). rewrite C85_tiny in H; [discriminate H|]. rewrite Rabs_right; lra. Qed.

(** ** A circle *)

(** With a quarter in one slice, the square on its corner. *)
Example C85_square : circle_to_points (mkR 3 5) 2 0 = [mkR 5 5; mkR 3 7; mkR 1 5; mkR 3 3].
Proof.
  unfold circle_to_points, slice_angle. cbn [slices seq Nat.mul Nat.add map rx ry].
  replace (PI / 2 / INR 1 * INR 0) with 0 by (cbn; field). replace (PI / 2 / INR 1 * INR 1) with (PI / 2) by (cbn; field).
  replace (PI / 2 / INR 1 * INR 2) with PI by (cbn; field). replace (PI / 2 / INR 1 * INR 3) with (3 * (PI / 2)) by (cbn; field).
  rewrite cos_0, sin_0, cos_PI2, sin_PI2, cos_PI, sin_PI, cos_3PI2, sin_3PI2. repeat f_equal; lra.
Qed.
Example C85_square_side : side (circle_to_points (mkR 3 5) 2 0) (mkR 3 3) (mkR 5 5) /\ axis_of_side (mkR 3 3) (mkR 5 5) = GeomModel.SDIAG /\ 0 < turn (mkR 3 3) (mkR 5 5) (mkR 1 5).
Proof.
  split; [|split].
  - rewrite C85_square. exists 3%nat. now split.
  - unfold axis_of_side, same_coord, tolerance. cbn [rx ry]. rewrite !Rminus_0_r, !Rabs_right by lra. destruct (Rlt_dec (5 - 3) (/ 100000000)); [lra|]. reflexivity.
  - unfold turn. cbn. lra.
Qed.
(** The sides of the default, nine slices by quarter, of a radius of 1e-5 or more. *)
Example C85_default : forall c r p q, / 100000 <= Rabs r -> side (circle_to_points c r 9) p q -> axis_of_side p q = GeomModel.SDIAG.
Proof.
  intros c r p q L S. apply (C85_diagonal c r 9 p q S). change (max 1 9) with 9%nat. set (x := PI / 2 / INR 9 / 2).
  assert (X : x = PI / 36) by (unfold x; replace (INR 9) with 9 by (cbn; lra); field). pose proof PI2_3_2 as P. unfold PI2 in P.
  assert (H : / 16 <= sin x).
  { pose proof (PI_RGT_0). pose proof PI_4. assert (0 < x) by lra. assert (x <= / 8) by lra. destruct (pre_sin_bound x 0) as [A _]; [lra|lra|]. unfold sin_approx, sum_f_R0, sin_term in A. cbn in A. nra. }
  unfold tolerance. nra.
Qed.

Print Assumptions C85_count.
Print Assumptions C85_on.
Print Assumptions C85_axes.
Print Assumptions C85_once.
Print Assumptions C85_left.
Print Assumptions C85_convex.
Print Assumptions C85_slanted.
Print Assumptions C85_diagonal.
Print Assumptions C85_near.
Print Assumptions C85_bounding.
Print Assumptions C85_sense.
Print Assumptions C85_never.
Print Assumptions C85_tiny.
Print Assumptions C85_sense_refuted.
