(** The geometry of moved points. *)
From Coq Require Import List Arith Bool Lia QArith Qabs Lqa.
From Verif Require Import IntervalModel ManagerModel GeomModel BoardModel OrderValueProofs ShiftSpec ShiftProofs.
Import ListNotations.
Local Open Scope Q_scope.

Lemma leb_m a a' b b' : a == a' -> b == b' -> Qle_bool a b = Qle_bool a' b'.
Proof. intros A B. apply eq_true_iff_eq. now rewrite !Qle_bool_iff, A, B. Qed.
Lemma eqb_m a a' b b' : a == a' -> b == b' -> coord_eqb a b = coord_eqb a' b'.
Proof. intros A B. unfold coord_eqb. apply Qltb_m; [apply Qabs_wd; now rewrite A, B|reflexivity]. Qed.
Lemma Qeqb_m a a' b b' : a == a' -> b == b' -> Qeq_bool a b = Qeq_bool a' b'.
Proof. intros A B. apply eq_true_iff_eq. now rewrite !Qeq_bool_iff, A, B. Qed.

Definition eqpt (p q : point) : Prop := px p == px q /\ py p == py q.

Lemma axis_of_eq u u' : eqpt u u' -> axis_of_vector u = axis_of_vector u'.
Proof. intros [A B]. unfold axis_of_vector. now rewrite (eqb_m _ _ 0 0 A (Qeq_refl 0)), (eqb_m _ _ 0 0 B (Qeq_refl 0)). Qed.

Lemma signum_eq x y : x == y -> signum x = signum y.
Proof. intros E. unfold signum. now rewrite (Qltb_m 0 0 (Qeq_refl 0) _ _ E), (Qltb_m _ _ E 0 0 (Qeq_refl 0)). Qed.

Section Move.
Context (v : point).

Definition mpt (p q : point) : Prop := px q == px p + px v /\ py q == py p + py v.
Definition mseg (s s' : seg) : Prop := mpt (s0 s) (s0 s') /\ mpt (s1 s) (s1 s').
Definition mbox (b b' : box) : Prop := xmin b' == xmin b + px v /\ xmax b' == xmax b + px v /\ ymin b' == ymin b + py v /\ ymax b' == ymax b + py v.

Lemma vec_eq s s' : mseg s s' -> eqpt (seg_vec s) (seg_vec s').
Proof. intros [[A B] [C D]]. split; cbn; lra. Qed.
Lemma seg_axis_eq s s' : mseg s s' -> seg_axis s = seg_axis s'.
Proof. intros M. apply axis_of_eq. now apply vec_eq. Qed.
Lemma pt_eqb_eq a a' b b' : mpt a a' -> mpt b b' -> pt_eqb a b = pt_eqb a' b'.
Proof. intros [A B] [C D]. unfold pt_eqb. now rewrite (shift_eqb _ _ _ _ _ A C), (shift_eqb _ _ _ _ _ B D). Qed.
Lemma seg_eqb_eq a a' b b' : mseg a a' -> mseg b b' -> seg_eqb a b = seg_eqb a' b'.
Proof. intros [A B] [C D]. unfold seg_eqb. now rewrite (pt_eqb_eq _ _ _ _ A C), (pt_eqb_eq _ _ _ _ B D), (pt_eqb_eq _ _ _ _ A D), (pt_eqb_eq _ _ _ _ B C). Qed.
Lemma mid_moved a a' : mseg a a' -> mpt (seg_mid a) (seg_mid a').
Proof. intros [[A B] [C D]]. split; cbn; now apply shift_mid. Qed.

(** The part of the displacement along a view axis. *)
Definition along (w : ViewAxis) : Q := match w with VH => px v | VV => py v end.
Lemma coord_moved p q w : mpt p q -> pt_coord q w == pt_coord p w + along w.
Proof. intros [A B]. now destruct w. Qed.

Lemma bounding_moved a a' : mseg a a' -> mbox (seg_bounding a) (seg_bounding a').
Proof.
  intros [[A B] [C D]]. unfold seg_bounding, mbox. cbn.
  rewrite (shift_ltb _ _ _ _ _ A C), (shift_ltb _ _ _ _ _ C A), (shift_ltb _ _ _ _ _ B D), (shift_ltb _ _ _ _ _ D B).
  repeat split; destruct (Qltb _ _); assumption.
Qed.
Lemma qmax_moved t a b a' b' : a' == a + t -> b' == b + t -> qmax a' b' == qmax a b + t.
Proof. intros A B. unfold qmax. rewrite (shift_ltb _ _ _ _ _ A B). now destruct (Qltb _ _). Qed.
Lemma qmin_moved t a b a' b' : a' == a + t -> b' == b + t -> qmin a' b' == qmin a b + t.
Proof. intros A B. unfold qmin. rewrite (shift_ltb _ _ _ _ _ B A). now destruct (Qltb _ _). Qed.
Lemma overlap2_eq a a' b b' : mbox a a' -> mbox b b' -> overlap2 a b = overlap2 a' b'.
Proof.
  intros (A1 & A2 & A3 & A4) (B1 & B2 & B3 & B4). unfold overlap2.
  pose proof (qmax_moved _ _ _ _ _ A1 B1) as X1. pose proof (qmin_moved _ _ _ _ _ A2 B2) as X2. pose proof (qmax_moved _ _ _ _ _ A3 B3) as X3. pose proof (qmin_moved _ _ _ _ _ A4 B4) as X4.
  now rewrite (shift_leb _ _ _ _ _ X1 X2), (shift_leb _ _ _ _ _ X3 X4).
Qed.
Lemma overlap2_strict_eq a a' b b' : mbox a a' -> mbox b b' -> overlap2_strict a b = overlap2_strict a' b'.
Proof.
  intros (A1 & A2 & A3 & A4) (B1 & B2 & B3 & B4). unfold overlap2_strict.
  pose proof (qmax_moved _ _ _ _ _ A1 B1) as X1. pose proof (qmin_moved _ _ _ _ _ A2 B2) as X2. pose proof (qmax_moved _ _ _ _ _ A3 B3) as X3. pose proof (qmin_moved _ _ _ _ _ A4 B4) as X4.
  now rewrite (shift_ltb _ _ _ _ _ X1 X2), (shift_ltb _ _ _ _ _ X3 X4).
Qed.

(** Twice the area of a closed polygon is the same anywhere. *)
Lemma sums_moved f f' : mpt f f' -> forall l l' h, Forall2 mpt l l' -> hd_error l = Some h ->
  fst (sums f' l') - snd (sums f' l') == fst (sums f l) - snd (sums f l) + py v * (px h - px f) + px v * (py f - py h).
Proof.
  intros [F1 F2] l l' h M. revert h. induction M as [|p p' l l' [P1 P2] M IH]; intros h E; [discriminate|]. injection E as <-. destruct M as [|q q' l l' [Q1 Q2] M].
  - cbn. rewrite P1, P2, F1, F2. ring.
  - specialize (IH q eq_refl). cbn [sums] in *. destruct (sums f (q :: l)) as [x y] eqn:E1. destruct (sums f' (q' :: l')) as [x' y'] eqn:E2. cbn [sums] in E1, E2. rewrite E1, E2 in *. cbn [fst snd] in *.
    rewrite P1, P2, Q1, Q2. lra || (assert (Z : x' == x - y + py v * (px q - px f) + px v * (py f - py q) + y') by lra; rewrite Z; ring).
Qed.
Lemma rotation_eq l l' : Forall2 mpt l l' -> detect_rotation l = detect_rotation l'.
Proof.
  intros M. pose proof M as M'. destruct M as [|p p' l l' P M]; [reflexivity|]. pose proof (sums_moved p p' P (p :: l) (p' :: l') p M' eq_refl) as H. unfold detect_rotation.
  destruct (sums p (p :: l)) as [x y], (sums p' (p' :: l')) as [x' y']. cbn [fst snd] in H.
  assert (E : (1 # 2) * (x - y) == (1 # 2) * (x' - y')) by (rewrite H; ring). now rewrite (eqb_m _ _ 0 0 E (Qeq_refl 0)), (Qltb_m 0 0 (Qeq_refl 0) _ _ E).
Qed.
Lemma rotation3_eq a a' b b' c c' : mpt a a' -> mpt b b' -> mpt c c' -> detect_rotation [a; b; c] = detect_rotation [a'; b'; c'].
Proof. intros A B C. apply rotation_eq. constructor; [exact A|]. constructor; [exact B|]. constructor; [exact C|constructor]. Qed.

Lemma parallel_eq a a' b b' : mseg a a' -> mseg b b' -> are_parallel a b = are_parallel a' b'.
Proof.
  intros A B. unfold are_parallel. rewrite (seg_axis_eq _ _ A), (seg_axis_eq _ _ B). destruct (vec_eq _ _ A) as [A1 A2], (vec_eq _ _ B) as [B1 B2]. cbn zeta.
  rewrite (Qeqb_m _ _ 0 0 A1 (Qeq_refl 0)), (Qeqb_m _ _ 0 0 B1 (Qeq_refl 0)). do 2 f_equal. destruct (_ || _); [reflexivity|]. apply eqb_m; [now rewrite A1, A2|now rewrite B1, B2].
Qed.

Lemma touch_eq t a0 a1 b0 b1 a0' a1' b0' b1' : a0' == a0 + t -> a1' == a1 + t -> b0' == b0 + t -> b1' == b1 + t -> sides_touch a0 a1 b0 b1 = sides_touch a0' a1' b0' b1'.
Proof.
  intros A B C D. unfold sides_touch.
  now rewrite (shift_leb _ _ _ _ _ C A), (shift_leb _ _ _ _ _ A D), (shift_leb _ _ _ _ _ C B), (shift_leb _ _ _ _ _ B D), (shift_leb _ _ _ _ _ A C), (shift_leb _ _ _ _ _ D B).
Qed.

Lemma relation_seg_eq a a' b b' : mseg a a' -> mseg b b' -> relation_seg a b = relation_seg a' b'.
Proof.
  intros A B. pose proof A as [A0 A1]. pose proof B as [B0 B1]. unfold relation_seg. cbn zeta.
  rewrite (rotation3_eq _ _ _ _ _ _ A0 A1 B0), (rotation3_eq _ _ _ _ _ _ A0 A1 B1), (rotation3_eq _ _ _ _ _ _ B0 B1 A0), (rotation3_eq _ _ _ _ _ _ B0 B1 A1).
  destruct (bounding_moved _ _ A) as (X1 & X2 & X3 & X4), (bounding_moved _ _ B) as (Y1 & Y2 & Y3 & Y4).
  now rewrite (touch_eq _ _ _ _ _ _ _ _ _ Y1 Y2 X1 X2), (touch_eq _ _ _ _ _ _ _ _ _ Y3 Y4 X3 X4).
Qed.
Lemma relation_point_eq a a' p p' : mseg a a' -> mpt p p' -> relation_point a p = relation_point a' p'.
Proof.
  intros [A0 A1] P. unfold relation_point. rewrite (rotation3_eq _ _ _ _ _ _ A0 A1 P). destruct A0 as [X0 Y0], A1 as [X1 Y1], P as [X Y].
  rewrite (shift_leb _ _ _ _ _ X (qmax_moved _ _ _ _ _ X0 X1)), (shift_leb _ _ _ _ _ (qmin_moved _ _ _ _ _ X0 X1) X), (shift_leb _ _ _ _ _ Y (qmax_moved _ _ _ _ _ Y0 Y1)), (shift_leb _ _ _ _ _ (qmin_moved _ _ _ _ _ Y0 Y1) Y). reflexivity.
Qed.

Lemma intersection_moved a a' b b' : mseg a a' -> mseg b b' -> orel mpt (intersection a b) (intersection a' b').
Proof.
  intros A B. unfold intersection. rewrite (seg_axis_eq _ _ A), (seg_axis_eq _ _ B). destruct (vec_eq _ _ A) as [A1 A2], (vec_eq _ _ B) as [B1 B2]. cbn zeta.
  assert (G : orel mpt
    (if Qeq_bool (px (seg_vec a) * py (seg_vec b) - py (seg_vec a) * px (seg_vec b)) 0 then None
     else if Qle_bool 0 ((px (seg_vec a) * py (s0 a) - px (seg_vec a) * py (s0 b) - py (seg_vec a) * px (s0 a) + py (seg_vec a) * px (s0 b)) / (px (seg_vec a) * py (seg_vec b) - py (seg_vec a) * px (seg_vec b)))
          && Qle_bool ((px (seg_vec a) * py (s0 a) - px (seg_vec a) * py (s0 b) - py (seg_vec a) * px (s0 a) + py (seg_vec a) * px (s0 b)) / (px (seg_vec a) * py (seg_vec b) - py (seg_vec a) * px (seg_vec b))) 1
          then Some (pt_add (s0 b) (mk_pt ((px (seg_vec a) * py (s0 a) - px (seg_vec a) * py (s0 b) - py (seg_vec a) * px (s0 a) + py (seg_vec a) * px (s0 b)) / (px (seg_vec a) * py (seg_vec b) - py (seg_vec a) * px (seg_vec b)) * px (seg_vec b))
            ((px (seg_vec a) * py (s0 a) - px (seg_vec a) * py (s0 b) - py (seg_vec a) * px (s0 a) + py (seg_vec a) * px (s0 b)) / (px (seg_vec a) * py (seg_vec b) - py (seg_vec a) * px (seg_vec b)) * py (seg_vec b)))) else None)
    (if Qeq_bool (px (seg_vec a') * py (seg_vec b') - py (seg_vec a') * px (seg_vec b')) 0 then None
     else if Qle_bool 0 ((px (seg_vec a') * py (s0 a') - px (seg_vec a') * py (s0 b') - py (seg_vec a') * px (s0 a') + py (seg_vec a') * px (s0 b')) / (px (seg_vec a') * py (seg_vec b') - py (seg_vec a') * px (seg_vec b')))
          && Qle_bool ((px (seg_vec a') * py (s0 a') - px (seg_vec a') * py (s0 b') - py (seg_vec a') * px (s0 a') + py (seg_vec a') * px (s0 b')) / (px (seg_vec a') * py (seg_vec b') - py (seg_vec a') * px (seg_vec b'))) 1
          then Some (pt_add (s0 b') (mk_pt ((px (seg_vec a') * py (s0 a') - px (seg_vec a') * py (s0 b') - py (seg_vec a') * px (s0 a') + py (seg_vec a') * px (s0 b')) / (px (seg_vec a') * py (seg_vec b') - py (seg_vec a') * px (seg_vec b')) * px (seg_vec b'))
            ((px (seg_vec a') * py (s0 a') - px (seg_vec a') * py (s0 b') - py (seg_vec a') * px (s0 a') + py (seg_vec a') * px (s0 b')) / (px (seg_vec a') * py (seg_vec b') - py (seg_vec a') * px (seg_vec b')) * py (seg_vec b')))) else None)).
  { destruct A as [[X Y] _], B as [[X' Y'] _].
    set (n := px (seg_vec a) * py (s0 a) - px (seg_vec a) * py (s0 b) - py (seg_vec a) * px (s0 a) + py (seg_vec a) * px (s0 b)).
    set (n' := px (seg_vec a') * py (s0 a') - px (seg_vec a') * py (s0 b') - py (seg_vec a') * px (s0 a') + py (seg_vec a') * px (s0 b')).
    set (k := px (seg_vec a) * py (seg_vec b) - py (seg_vec a) * px (seg_vec b)). set (k' := px (seg_vec a') * py (seg_vec b') - py (seg_vec a') * px (seg_vec b')).
    assert (N : n == n') by (unfold n, n'; rewrite <- A1, <- A2, X, Y, X', Y'; ring). assert (K : k == k') by (unfold k, k'; now rewrite A1, A2, B1, B2).
    assert (D : n / k == n' / k') by now rewrite N, K. rewrite (Qeqb_m _ _ 0 0 K (Qeq_refl 0)). destruct (Qeq_bool k' 0); [exact I|].
    rewrite (leb_m 0 0 _ _ (Qeq_refl 0) D), (leb_m _ _ 1 1 D (Qeq_refl 1)). destruct (_ && _); [|exact I]. split; cbn [px py pt_add]; [rewrite X'|rewrite Y']; rewrite D, ?B1, ?B2; ring. }
  destruct A as [[X Y] _], B as [[X' Y'] _]. destruct (seg_axis a'), (seg_axis b'); try exact G; try exact I; (split; cbn; assumption).
Qed.

(** The ends of a bounding are in order, so one of the two tests for the upper end succeeds. *)
Definition side_moved (side : Q -> Q -> Q -> Q -> option (Q * Q)) : Prop :=
  forall t a0 a1 b0 b1 a0' a1' b0' b1', a0 <= a1 -> b0 <= b1 -> a0' == a0 + t -> a1' == a1 + t -> b0' == b0 + t -> b1' == b1 + t ->
  orel (fun x y => fst y == fst x + t /\ snd y == snd x + t) (side a0 a1 b0 b1) (side a0' a1' b0' b1').
Lemma merge_side_moved : side_moved merge_side.
Proof.
  intros t a0 a1 b0 b1 a0' a1' b0' b1' La Lb A B C D. unfold merge_side. cbn zeta.
  rewrite <- (shift_leb _ _ _ _ _ C A), <- (shift_leb _ _ _ _ _ A D), <- (shift_leb _ _ _ _ _ C B), <- (shift_leb _ _ _ _ _ B D), <- (shift_leb _ _ _ _ _ A C), <- (shift_leb _ _ _ _ _ D B).
  destruct (Qle_bool b0 a0) eqn:E1, (Qle_bool a0 b1) eqn:E2, (Qle_bool b0 a1) eqn:E3, (Qle_bool a1 b1) eqn:E4, (Qle_bool a0 b0) eqn:E5, (Qle_bool b1 a1) eqn:E6; cbn; try exact I; try (split; assumption);
    exfalso; repeat match goal with H : Qle_bool _ _ = true |- _ => apply Qle_bool_iff in H | H : Qle_bool ?x ?y = false |- _ => assert (y < x) by (apply Qnot_le_lt; intros ?Z; apply Qle_bool_iff in Z; congruence); clear H end; lra.
Qed.
Lemma overlap_side_moved : side_moved overlap_side.
Proof.
  intros t a0 a1 b0 b1 a0' a1' b0' b1' La Lb A B C D. unfold overlap_side. cbn zeta.
  rewrite <- (shift_leb _ _ _ _ _ C A), <- (shift_leb _ _ _ _ _ A D), <- (shift_leb _ _ _ _ _ C B), <- (shift_leb _ _ _ _ _ B D), <- (shift_leb _ _ _ _ _ A C), <- (shift_leb _ _ _ _ _ D B).
  destruct (Qle_bool b0 a0) eqn:E1, (Qle_bool a0 b1) eqn:E2, (Qle_bool b0 a1) eqn:E3, (Qle_bool a1 b1) eqn:E4, (Qle_bool a0 b0) eqn:E5, (Qle_bool b1 a1) eqn:E6; cbn; try exact I; try (split; assumption);
    exfalso; repeat match goal with H : Qle_bool _ _ = true |- _ => apply Qle_bool_iff in H | H : Qle_bool ?x ?y = false |- _ => assert (y < x) by (apply Qnot_le_lt; intros ?Z; apply Qle_bool_iff in Z; congruence); clear H end; lra.
Qed.

Lemma bounding_order a : xmin (seg_bounding a) <= xmax (seg_bounding a) /\ ymin (seg_bounding a) <= ymax (seg_bounding a).
Proof.
  assert (H : forall x y, (if Qltb x y then x else y) <= (if Qltb y x then x else y)).
  { intros x y. unfold Qltb. destruct (Qle_bool y x) eqn:E1, (Qle_bool x y) eqn:E2; cbn; try apply Qle_refl.
    - now apply Qle_bool_iff.
    - now apply Qle_bool_iff. }
  split; apply H.
Qed.

Lemma combine_moved side a a' b b' : side_moved side -> mseg a a' -> mseg b b' -> orel mseg (combine_segs side a b) (combine_segs side a' b').
Proof.
  intros H A B. unfold combine_segs. rewrite (parallel_eq _ _ _ _ A B). destruct (are_parallel a' b'); [|exact I]. cbn zeta.
  destruct (bounding_moved _ _ A) as (X1 & X2 & X3 & X4), (bounding_moved _ _ B) as (Y1 & Y2 & Y3 & Y4), (bounding_order a) as [LA LA'], (bounding_order b) as [LB LB'].
  pose proof (H _ _ _ _ _ _ _ _ _ LA LB X1 X2 Y1 Y2) as H1. pose proof (H _ _ _ _ _ _ _ _ _ LA' LB' X3 X4 Y3 Y4) as H2.
  destruct (side (xmin (seg_bounding a)) _ _ _) as [[x0 x1]|], (side (xmin (seg_bounding a')) _ _ _) as [[x0' x1']|]; cbn in H1; try contradiction; [|exact I].
  destruct (side (ymin (seg_bounding a)) _ _ _) as [[y0 y1]|], (side (ymin (seg_bounding a')) _ _ _) as [[y0' y1']|]; cbn in H2; try contradiction; [|exact I].
  destruct H1, H2. split; split; cbn; assumption.
Qed.

Lemma normal_eq r s s' : mseg s s' -> edge_normal r s = edge_normal r s'.
Proof.
  intros M. unfold edge_normal, edge_direction. rewrite (seg_axis_eq _ _ M). destruct (vec_eq _ _ M) as [A B].
  now rewrite (Qltb_m 0 0 (Qeq_refl 0) _ _ A), (Qltb_m _ _ A 0 0 (Qeq_refl 0)), (Qltb_m 0 0 (Qeq_refl 0) _ _ B), (Qltb_m _ _ B 0 0 (Qeq_refl 0)).
Qed.

Lemma last_rel {A B} (R : A -> B -> Prop) l l' x x' : Forall2 R l l' -> R x x' -> R (last l x) (last l' x').
Proof. intros F E. induction F as [|y y' l l' Ey F IH]; [exact E|]. destruct F; [exact Ey|exact IH]. Qed.

Lemma edges_from_moved l l' : Forall2 mpt l l' -> forall p p', mpt p p' -> Forall2 mseg (edges_from p l) (edges_from p' l').
Proof. intros F. induction F as [|q q' l l' Q F IH]; intros p p' P; cbn; constructor; [now split|now apply IH]. Qed.
Lemma detect_edges_moved l l' : Forall2 mpt l l' -> same_end (Forall2 mseg) (detect_edges l) (detect_edges l').
Proof. intros F. pose proof F as F'. destruct F as [|p p' l l' P F]; [exact I|]. apply edges_from_moved; [exact F'|]. now apply last_rel. Qed.

Lemma bounding_loop_moved l l' : Forall2 mpt l l' -> forall b b', mbox b b' -> mbox (bounding_loop b l) (bounding_loop b' l').
Proof.
  intros F. induction F as [|p p' l l' [X Y] F IH]; intros b b' B; [exact B|]. cbn [bounding_loop]. apply IH. destruct B as (B1 & B2 & B3 & B4). unfold mbox. cbn.
  rewrite (shift_ltb _ _ _ _ _ X B1), (shift_ltb _ _ _ _ _ B2 X), (shift_ltb _ _ _ _ _ Y B3), (shift_ltb _ _ _ _ _ B4 Y). repeat split; destruct (Qltb _ _); assumption.
Qed.
Lemma detect_bounding_moved l l' : Forall2 mpt l l' -> same_end mbox (detect_bounding l) (detect_bounding l').
Proof. intros F. pose proof F as F'. destruct F as [|p p' l l' P F]; [exact I|]. apply bounding_loop_moved; [exact F'|]. destruct P. now repeat split. Qed.

Lemma ray_end_moved b b' p p' n : mbox b b' -> mpt p p' -> mpt (ray_end b p n) (ray_end b' p' n).
Proof. intros (B1 & B2 & B3 & B4) [X Y]. destruct n as [|[|[|[|n]]]]; split; cbn; rewrite ?B1, ?B2, ?B3, ?B4, ?X, ?Y; ring. Qed.
Lemma vertex_eq r r' p p' l l' : mseg r r' -> mpt p p' -> Forall2 mpt l l' -> vertex_on_ray r p l = vertex_on_ray r' p' l'.
Proof. intros R P F. induction F as [|q q' l l' Q F IH]; [reflexivity|]. cbn. now rewrite (pt_eqb_eq _ _ _ _ Q P), (relation_point_eq _ _ _ _ R Q), IH. Qed.
Lemma crossings_eq r r' p p' l l' : mseg r r' -> mpt p p' -> Forall2 mseg l l' -> forall n, count_crossings r p l n = count_crossings r' p' l' n.
Proof. intros R P F. induction F as [|e e' l l' E F IH]; intros n; [reflexivity|]. cbn. now rewrite (relation_point_eq _ _ _ _ E P), (relation_seg_eq _ _ _ _ E R), IH. Qed.
Lemma ray_loop_eq n : forall b b' l l' es es' p p' k, mbox b b' -> Forall2 mpt l l' -> Forall2 mseg es es' -> mpt p p' -> ray_loop n b l es p k = ray_loop n b' l' es' p' k.
Proof.
  induction n as [|n IH]; intros b b' l l' es es' p p' k B L E P; [reflexivity|]. cbn [ray_loop]. cbn zeta.
  assert (R : mseg (mk_seg p (ray_end b p k)) (mk_seg p' (ray_end b' p' k))) by (split; [exact P|now apply ray_end_moved]).
  rewrite (vertex_eq _ _ _ _ _ _ R P L), (crossings_eq _ _ _ _ _ _ R P E). now rewrite (IH _ _ _ _ _ _ _ _ (S k) B L E P).
Qed.
Lemma end_eq {A} (m m' : run A) : m = m' -> same_end eq m m'.
Proof. intros <-. now destruct m. Qed.
Lemma relation_polygon_eq n l l' p p' : Forall2 mpt l l' -> mpt p p' -> same_end eq (relation_polygon n l p) (relation_polygon n l' p').
Proof.
  intros L P. unfold relation_polygon. apply (end_bind _ _ _ _ _ _ (detect_bounding_moved _ _ L)). intros b b' B. apply (end_bind _ _ _ _ _ _ (detect_edges_moved _ _ L)). intros e e' E. apply end_eq. now apply ray_loop_eq.
Qed.

Definition with_same (x y : seg * Normal) : Prop := mseg (fst x) (fst y) /\ snd x = snd y.
Lemma normals_moved r l l' : Forall2 mseg l l' -> same_end (Forall2 with_same) (with_normals r l) (with_normals r l').
Proof.
  intros F. induction F as [|e e' l l' E F IH]; [constructor|]. cbn [with_normals]. rewrite <- (normal_eq r _ _ E). apply (end_bind eq); [now apply end_eq|]. intros n n' <-.
  apply (end_bind _ _ _ _ _ _ IH). intros u u' U. constructor; [now split|exact U].
Qed.
Lemma polygon_edges_moved l l' : Forall2 mpt l l' -> same_end (Forall2 with_same) (polygon_edges l) (polygon_edges l').
Proof. intros F. unfold polygon_edges. rewrite <- (rotation_eq _ _ F). apply (end_bind _ _ _ _ _ _ (detect_edges_moved _ _ F)). intros e e' E. now apply normals_moved. Qed.

(** ** Points along an edge *)

Context (srt : sort_by) (Oc : only_compares srt).

Lemma before_eq u u' : eqpt u u' -> orel (fun f f' => forall x x' y y', mpt x x' -> mpt y y' -> f x y = f' x' y') (before u) (before u').
Proof.
  intros [A B]. unfold before. rewrite (signum_eq _ _ A), (signum_eq _ _ B).
  destruct (signum (px u')), (signum (py u')); try exact I; intros x x' y y' [X1 X2] [Y1 Y2]; rewrite ?(shift_ltb _ _ _ _ _ X1 Y1), ?(shift_ltb _ _ _ _ _ X2 Y2), ?(shift_ltb _ _ _ _ _ Y1 X1), ?(shift_ltb _ _ _ _ _ Y2 X2); reflexivity.
Qed.
Lemma sort_points_moved u u' l l' : eqpt u u' -> Forall2 mpt l l' -> Forall2 mpt (sort_points srt u l) (sort_points srt u' l').
Proof. intros E F. unfold sort_points. pose proof (before_eq _ _ E) as H. destruct (before u), (before u'); try contradiction; [|exact F]. now apply Oc. Qed.
Lemma unique_from_moved l l' : Forall2 mpt l l' -> forall k k', mpt k k' -> Forall2 mpt (unique_from k l) (unique_from k' l').
Proof. intros F. induction F as [|p p' l l' P F IH]; intros k k' K; [constructor|]. cbn. rewrite (pt_eqb_eq _ _ _ _ K P). destruct (pt_eqb k' p'); [now apply IH|constructor; [exact P|now apply IH]]. Qed.
Lemma unique_moved l l' : Forall2 mpt l l' -> Forall2 mpt (unique l) (unique l').
Proof. intros F. destruct F as [|p p' l l' P F]; [constructor|]. constructor; [exact P|now apply unique_from_moved]. Qed.
End Move.
