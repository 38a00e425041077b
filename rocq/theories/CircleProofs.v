(** The points of a circle. *)
From Coq Require Import List Arith Reals Lra Lia Psatz.
From Verif Require Import CircleModel CircleSpec.
Import ListNotations.
Open Scope R_scope.

Section Circle.
Context (c : rpoint) (r : R) (n : nat).
Local Notation m := (slices n).
Local Notation d := (slice_angle n).

Lemma slices_pos : (1 <= m)%nat.
Proof. destruct n; cbn; lia. Qed.
Lemma m_pos : 1 <= INR m.
Proof. replace 1 with (INR 1) by reflexivity. apply le_INR, slices_pos. Qed.
Lemma m_d : INR m * d = PI / 2.
Proof. unfold slice_angle. pose proof m_pos. field. lra. Qed.
Lemma d_range : 0 < d <= PI / 2.
Proof.
  pose proof PI_RGT_0. pose proof m_pos. pose proof m_d as E. split.
  - unfold slice_angle. apply Rdiv_lt_0_compat; lra.
  - apply (Rmult_le_reg_l (INR m)); [lra|]. rewrite E. nra.
Qed.
Lemma half_sin : 0 < sin (d / 2).
Proof. pose proof d_range. pose proof PI_RGT_0. apply sin_gt_0; lra. Qed.
Lemma whole_sin : 0 < sin d.
Proof. pose proof d_range. pose proof PI_RGT_0. apply sin_gt_0; lra. Qed.

(** The point number [i], going around as often as it takes. *)
Definition point_at (i : nat) : rpoint := mkR (rx c + r * cos (d * INR i)) (ry c + r * sin (d * INR i)).
Lemma circle_length : length (circle_to_points c r n) = (m * 4)%nat.
Proof. unfold circle_to_points. now rewrite map_length, seq_length. Qed.
Lemma circle_nth i : (i < m * 4)%nat -> nth_error (circle_to_points c r n) i = Some (point_at i).
Proof.
  intros L. unfold circle_to_points. rewrite nth_error_map. replace (nth_error (seq 0 (m * 4)) i) with (Some i); [reflexivity|]. symmetry.
  rewrite (nth_error_nth' _ 0%nat) by (now rewrite seq_length). now rewrite seq_nth.
Qed.
Lemma once_around i : point_at (m * 4 + i) = point_at i.
Proof.
  unfold point_at. replace (d * INR (m * 4 + i)) with (d * INR i + 2 * PI).
  - now rewrite cos_plus, sin_plus, cos_2PI, sin_2PI, !Rmult_1_r, !Rmult_0_r, Rminus_0_r, Rplus_0_r.
  - rewrite plus_INR, mult_INR. replace (INR 4) with 4 by (cbn; lra). pose proof m_d. nra.
Qed.
Lemma side_at p q : side (circle_to_points c r n) p q -> exists i, (i < m * 4)%nat /\ p = point_at i /\ q = point_at (S i).
Proof.
  intros (i & P & Q). rewrite circle_length in Q. assert (L : (i < m * 4)%nat) by (rewrite <- circle_length; apply nth_error_Some; congruence).
  exists i. split; [exact L|]. rewrite circle_nth in P by exact L. split; [congruence|]. pose proof slices_pos.
  destruct (Nat.eq_dec (S i) (m * 4)) as [E|N].
  - rewrite E, Nat.mod_same in Q by lia. rewrite circle_nth in Q by lia. rewrite E. replace (m * 4)%nat with (m * 4 + 0)%nat by lia. rewrite once_around. congruence.
  - rewrite Nat.mod_small in Q by lia. rewrite circle_nth in Q by lia. congruence.
Qed.
Lemma at_side i : (i < m * 4)%nat -> side (circle_to_points c r n) (point_at i) (point_at (S i)).
Proof.
  intros L. exists i. split; [now apply circle_nth|]. rewrite circle_length. pose proof slices_pos. destruct (Nat.eq_dec (S i) (m * 4)) as [E|N].
  - rewrite E, Nat.mod_same by lia. rewrite circle_nth by lia. replace (m * 4)%nat with (m * 4 + 0)%nat by lia. now rewrite once_around.
  - rewrite Nat.mod_small by lia. apply circle_nth. lia.
Qed.

Lemma around a b : cos a * cos b + sin a * sin b = cos (a - b) /\ cos a * sin b - cos b * sin a = sin (b - a).
Proof. rewrite cos_minus, sin_minus. split; ring. Qed.
Lemma next_angle i : d * INR (S i) = d * INR i + d.
Proof. rewrite S_INR. ring. Qed.

Lemma on_circle i : apart2 (point_at i) c = r * r.
Proof. unfold apart2, point_at. cbn. pose proof (sin2_cos2 (d * INR i)) as E. unfold Rsqr in E. transitivity (r * r * (sin (d * INR i) * sin (d * INR i) + cos (d * INR i) * cos (d * INR i))); [ring|]. rewrite E. ring. Qed.
Lemma left_turn i : turn c (point_at i) (point_at (S i)) = r * r * sin d.
Proof.
  unfold turn, point_at. cbn [rx ry]. rewrite next_angle. set (a := d * INR i). destruct (around a (a + d)) as [_ E]. replace (a + d - a) with d in E by ring.
  transitivity (r * r * (cos a * sin (a + d) - cos (a + d) * sin a)); [ring|]. now rewrite E.
Qed.
(** Where the point [k] further is, seen from a side. *)
Lemma beyond i k : turn (point_at i) (point_at (S i)) (point_at (i + k)) = 4 * (r * r) * sin (d / 2) * (sin (INR k * d / 2) * sin ((INR k - 1) * d / 2)).
Proof.
  unfold turn, point_at. cbn [rx ry]. rewrite next_angle, plus_INR. set (a := d * INR i). replace (d * (INR i + INR k)) with (a + INR k * d) by (unfold a; ring). set (x := INR k * d).
  replace ((INR k - 1) * d / 2) with (x / 2 - d / 2) by (unfold x; field).
  destruct (around a (a + d)) as [_ E]. destruct (around (a + d) (a + x)) as [_ F]. destruct (around a (a + x)) as [_ G].
  replace (a + d - a) with d in E by ring. replace (a + x - (a + d)) with (x - d) in F by ring. replace (a + x - a) with x in G by ring.
  transitivity (r * r * ((cos a * sin (a + d) - cos (a + d) * sin a) + (cos (a + d) * sin (a + x) - cos (a + x) * sin (a + d)) - (cos a * sin (a + x) - cos (a + x) * sin a))); [ring|].
  rewrite E, F, G. clear E F G. set (h := x / 2). set (e := d / 2). replace x with (2 * h) by (unfold h; field). replace d with (2 * e) by (unfold e; field). clearbody h e. replace (2 * h - 2 * e) with (2 * (h - e)) by ring.
  rewrite !sin_2a, sin_minus, cos_minus. pose proof (sin2_cos2 h) as E. pose proof (sin2_cos2 e) as F. unfold Rsqr in E, F.
  set (ch := cos h) in *. set (sh := sin h) in *. set (ce := cos e) in *. set (se := sin e) in *. clearbody ch sh ce se.
  transitivity (r * r * (4 * se * (sh * (sh * ce - ch * se)) + 2 * sh * ch * ((se * se + ce * ce) - 1) - 2 * se * ce * ((sh * sh + ch * ch) - 1))); [ring|]. rewrite E, F. ring.
Qed.
Lemma beyond_left i k : r <> 0 -> (1 < k < m * 4)%nat -> 0 < turn (point_at i) (point_at (S i)) (point_at (i + k)).
Proof.
  intros Z K. rewrite beyond. pose proof d_range as [D0 D1]. pose proof m_d as M. pose proof half_sin.
  assert (K0 : 2 <= INR k) by (replace 2 with (INR 2) by (cbn; lra); apply le_INR; lia).
  assert (K1 : INR k + 1 <= INR m * 4) by (rewrite <- S_INR; replace (INR m * 4) with (INR (m * 4)) by (rewrite mult_INR; cbn; lra); apply le_INR; lia).
  assert (0 < r * r) by (apply Rsqr_pos_lt in Z; exact Z).
  assert (0 < sin (INR k * d / 2)) by (apply sin_gt_0; nra). assert (0 < sin ((INR k - 1) * d / 2)) by (apply sin_gt_0; nra).
  apply Rmult_lt_0_compat; [|now apply Rmult_lt_0_compat]. apply Rmult_lt_0_compat; [|assumption]. lra.
Qed.

(** ** No side is along an axis *)

Lemma steep i : sin (d / 2) <= Rabs (sin ((INR i + / 2) * d)) /\ sin (d / 2) <= Rabs (cos ((INR i + / 2) * d)).
Proof.
  pose proof PI_RGT_0. pose proof d_range as [D0 D1]. pose proof m_d as E. pose proof m_pos as M.
  induction i as [i IH] using (well_founded_induction lt_wf). destruct (le_lt_dec m i) as [L|L].
  - destruct (IH (i - m)%nat) as [A B]; [pose proof slices_pos; lia|].
    replace ((INR i + / 2) * d) with ((INR (i - m) + / 2) * d + PI / 2) by (rewrite minus_INR by exact L; lra).
    rewrite sin_plus, cos_plus, sin_PI2, cos_PI2, !Rmult_0_r, !Rmult_1_r, Rplus_0_l, Rminus_0_l, Rabs_Ropp. split; assumption.
  - assert (I0 : 0 <= INR i) by apply pos_INR. assert (I1 : INR i + 1 <= INR m) by (rewrite <- S_INR; apply le_INR; lia).
    set (x := (INR i + / 2) * d). assert (X0 : d / 2 <= x) by (unfold x; nra). assert (X1 : x <= PI / 2 - d / 2) by (unfold x; nra). clearbody x.
    rewrite !Rabs_right.
    + split; [apply sin_incr_1; lra|]. rewrite <- sin_shift. apply sin_incr_1; lra.
    + apply Rle_ge, cos_ge_0; lra.
    + apply Rle_ge, sin_ge_0; lra.
Qed.
Lemma moves i : Rabs (rx (point_at (S i)) - rx (point_at i)) = 2 * Rabs r * sin (d / 2) * Rabs (sin ((INR i + / 2) * d))
  /\ Rabs (ry (point_at (S i)) - ry (point_at i)) = 2 * Rabs r * sin (d / 2) * Rabs (cos ((INR i + / 2) * d)).
Proof.
  unfold point_at. cbn [rx ry]. rewrite next_angle. set (a := d * INR i). assert (H := half_sin).
  replace ((INR i + / 2) * d) with (a + d / 2) by (unfold a; lra). set (h := a + d / 2). replace a with (h - d / 2) by (unfold h; lra). replace (h - d / 2 + d) with (h + d / 2) by lra.
  split.
  - replace (rx c + r * cos (h + d / 2) - (rx c + r * cos (h - d / 2))) with (- (2 * (r * sin (d / 2) * sin h))) by (rewrite cos_plus, cos_minus; ring).
    rewrite Rabs_Ropp, !Rabs_mult, (Rabs_right 2), (Rabs_right (sin (d / 2))) by lra. ring.
  - replace (ry c + r * sin (h + d / 2) - (ry c + r * sin (h - d / 2))) with (2 * (r * sin (d / 2) * cos h)) by (rewrite sin_plus, sin_minus; ring).
    rewrite !Rabs_mult, (Rabs_right 2), (Rabs_right (sin (d / 2))) by lra. ring.
Qed.

(** ** Sides stay near the circle *)

Lemma near i t : 0 <= t <= 1 -> r * r * (cos (d / 2) * cos (d / 2)) <= apart2 (along (point_at i) (point_at (S i)) t) c <= r * r.
Proof.
  intros T. unfold apart2, along, point_at. cbn [rx ry]. rewrite next_angle. set (a := d * INR i). set (h := a + d / 2).
  replace a with (h - d / 2) by (unfold h; lra). replace (h - d / 2 + d) with (h + d / 2) by lra. rewrite cos_plus, cos_minus, sin_plus, sin_minus.
  pose proof (sin2_cos2 h) as E. pose proof (sin2_cos2 (d / 2)) as F. unfold Rsqr in E, F.
  set (ch := cos h) in *. set (sh := sin h) in *. set (k := cos (d / 2)) in *. set (s := sin (d / 2)) in *. clearbody ch sh k s h a.
  match goal with |- _ <= ?x <= _ => assert (X : x = r * r * (k * k + (1 - 2 * t) * (1 - 2 * t) * (s * s))) end.
  { transitivity (r * r * ((sh * sh + ch * ch) * (k * k + (1 - 2 * t) * (1 - 2 * t) * (s * s)))); [ring|]. rewrite E. ring. }
  rewrite X. assert (R0 : 0 <= r * r) by apply Rle_0_sqr. assert (S0 : 0 <= s * s) by apply Rle_0_sqr.
  assert (U0 : 0 <= (1 - 2 * t) * (1 - 2 * t)) by apply Rle_0_sqr. assert (U1 : (1 - 2 * t) * (1 - 2 * t) <= 1) by nra. split.
  - apply Rmult_le_compat_l; [exact R0|]. nra.
  - rewrite <- (Rmult_1_r (r * r)) at 2. apply Rmult_le_compat_l; [exact R0|]. nra.
Qed.

(** ** No point comes twice *)

Lemma not_whole x : 0 < x < 2 * PI -> cos x <> 1.
Proof.
  intros X E. assert (P : 0 < sin (x / 2)) by (apply sin_gt_0; lra). replace x with (2 * (x / 2)) in E by lra. rewrite cos_2a_sin in E. nra.
Qed.
Lemma distinct i j : r <> 0 -> (i < j < m * 4)%nat -> point_at i <> point_at j.
Proof.
  intros R L E. unfold point_at in E. injection E as Ex Ey. assert (Cx : cos (d * INR i) = cos (d * INR j)) by nra. assert (Cy : sin (d * INR i) = sin (d * INR j)) by nra.
  pose proof d_range as [D0 _]. pose proof m_d as M.
  apply (not_whole (d * INR j - d * INR i)).
  - assert (I : INR i + 1 <= INR j) by (rewrite <- S_INR; apply le_INR; lia). assert (J : INR j + 1 <= INR m * 4) by (rewrite <- S_INR; replace (INR m * 4) with (INR (m * 4)) by (rewrite mult_INR; cbn; lra); apply le_INR; lia).
    pose proof (pos_INR i). split; nra.
  - rewrite cos_minus, <- Cx, <- Cy. pose proof (sin2_cos2 (d * INR i)) as S. unfold Rsqr in S. lra.
Qed.

(** ** The signed area *)

Lemma term_turn p q : term p q = turn c p q + (rx c * (ry q - ry p) - ry c * (rx q - rx p)).
Proof. unfold term, turn. ring. Qed.
Lemma terms_from k : forall i, (k + i = m * 4)%nat -> (0 < k)%nat ->
  terms (point_at 0) (map point_at (seq i k)) = INR k * (r * r * sin d) + (rx c * (ry (point_at 0) - ry (point_at i)) - ry c * (rx (point_at 0) - rx (point_at i))).
Proof.
  induction k as [|k IH]; intros i E K; [lia|]. cbn [seq map terms]. rewrite S_INR. destruct k as [|k].
  - cbn [seq map terms]. assert (Z : point_at 0 = point_at (S i)). { replace (S i) with (m * 4 + 0)%nat by lia. now rewrite once_around. }
    rewrite Z at 1. rewrite term_turn, left_turn. rewrite <- Z. cbn [INR]. ring.
  - rewrite IH by lia. change (match map point_at (seq (S i) (S k)) with [] => point_at 0 | q :: _ => q end) with (point_at (S i)). rewrite term_turn, left_turn. ring.
Qed.
Lemma area : signed_area (circle_to_points c r n) = 2 * INR m * (r * r) * sin d.
Proof.
  assert (E : circle_to_points c r n = map point_at (seq 0 (m * 4))) by reflexivity. pose proof slices_pos.
  assert (T := terms_from (m * 4) 0 ltac:(lia) ltac:(lia)). unfold signed_area. rewrite E. destruct (seq 0 (m * 4)) as [|i l] eqn:Q; [destruct m; [lia|discriminate]|].
  assert (i = 0)%nat. { destruct m; [lia|]. cbn in Q. now injection Q as <-. } subst i. cbn [map]. change (point_at 0 :: map point_at l) with (map point_at (0%nat :: l)). rewrite T.
  rewrite mult_INR. replace (INR 4) with 4 by (cbn; lra). lra.
Qed.

Lemma sin_times x k : Rabs (sin (INR k * x)) <= INR k * Rabs (sin x).
Proof.
  induction k as [|k IH]; [cbn; rewrite Rmult_0_l, sin_0, Rabs_R0; lra|]. rewrite S_INR. replace ((INR k + 1) * x) with (INR k * x + x) by ring. rewrite sin_plus.
  eapply Rle_trans; [apply Rabs_triang|]. rewrite !Rabs_mult. pose proof (COS_bound x). pose proof (COS_bound (INR k * x)).
  assert (C1 : Rabs (cos x) <= 1) by (apply Rabs_le; lra). assert (C2 : Rabs (cos (INR k * x)) <= 1) by (apply Rabs_le; lra).
  pose proof (Rabs_pos (sin x)). pose proof (Rabs_pos (sin (INR k * x))). pose proof (Rabs_pos (cos x)). pose proof (Rabs_pos (cos (INR k * x))). nra.
Qed.
Lemma area_range : 2 * (r * r) <= signed_area (circle_to_points c r n) <= PI * (r * r).
Proof.
  rewrite area. pose proof whole_sin as W. pose proof d_range as [D0 _]. assert (R0 : 0 <= r * r) by apply Rle_0_sqr. pose proof m_pos. split.
  - assert (S1 := sin_times d m). rewrite m_d, sin_PI2, Rabs_R1, Rabs_right in S1 by lra. nra.
  - pose proof (sin_lt_x d D0) as L. assert (M := m_d). replace (PI * (r * r)) with (2 * (PI / 2) * (r * r)) by field. rewrite <- M.
    replace (2 * (INR m * d) * (r * r)) with (2 * INR m * (r * r) * d) by ring. apply Rmult_le_compat_l; [|lra]. apply Rmult_le_pos; [lra|exact R0].
Qed.
End Circle.

(** ** Bounding boxes *)

Lemma grow_keeps l : forall b, bx0 (fold_left grow l b) <= bx0 b /\ bx1 b <= bx1 (fold_left grow l b) /\ by0 (fold_left grow l b) <= by0 b /\ by1 b <= by1 (fold_left grow l b).
Proof.
  induction l as [|p l IH]; intros b; cbn [fold_left]; [lra|]. destruct (IH (grow b p)) as (A & B & C & D). unfold grow in *. cbn in *.
  destruct (Rlt_dec (rx p) (bx0 b)), (Rlt_dec (bx1 b) (rx p)), (Rlt_dec (ry p) (by0 b)), (Rlt_dec (by1 b) (ry p)); lra.
Qed.
Lemma grow_holds l : forall b p, In p l -> bx0 (fold_left grow l b) <= rx p <= bx1 (fold_left grow l b) /\ by0 (fold_left grow l b) <= ry p <= by1 (fold_left grow l b).
Proof.
  induction l as [|q l IH]; intros b p I; [easy|]. cbn [fold_left]. destruct I as [->|I]; [|now apply IH].
  destruct (grow_keeps l (grow b p)) as (A & B & C & D). set (w := fold_left grow l (grow b p)) in *. clearbody w. cbn in A, B, C, D.
  destruct (Rlt_dec (rx p) (bx0 b)), (Rlt_dec (bx1 b) (rx p)), (Rlt_dec (ry p) (by0 b)), (Rlt_dec (by1 b) (ry p)); lra.
Qed.
Lemma grow_touch (P : rbox -> Prop) l : forall b, P b -> (forall b p, In p l -> P b -> P (grow b p)) -> P (fold_left grow l b).
Proof. induction l as [|q l IH]; intros b B H; cbn; [exact B|]. apply IH; [apply H; [now left|exact B]|]. intros; apply H; [now right|assumption]. Qed.
Lemma bounding_tight l b : bounding l = Some b -> tight_box b l.
Proof.
  destruct l as [|q l]; [easy|]. unfold bounding. set (w := q :: l). assert (I : In q w) by now left. clearbody w. intros [= <-]. split; [intros p P; exact (grow_holds w _ p P)|].
  apply (grow_touch (fun b => (exists p, In p w /\ rx p = bx0 b) /\ (exists p, In p w /\ rx p = bx1 b) /\ (exists p, In p w /\ ry p = by0 b) /\ (exists p, In p w /\ ry p = by1 b))).
  - split; [|split; [|split]]; exists q; (split; [exact I|reflexivity]).
  - intros b p P (A & B & C & D). unfold grow. cbn. split; [|split; [|split]];
    match goal with |- context [Rlt_dec ?x ?y] => destruct (Rlt_dec x y) end; try assumption; exists p; (split; [exact P|reflexivity]).
Qed.
