(** Lemmas about pairs of segments (C39) and about boxes (C37). *)
From Coq Require Import List Arith Bool QArith Qabs Qminmax Lqa Lia.
From Verif Require Import IntervalModel ManagerModel IntervalProofs ManagerMoreProofs GeomModel GeomSpec GeomProofs.
Import ListNotations.
Open Scope Q_scope.

(** * Overlap and merge on one coordinate *)

Lemma overlap_side_spec a0 a1 b0 b1 : a0 <= a1 -> b0 <= b1 ->
  match overlap_side a0 a1 b0 b1 with
  | Some (x0, x1) => x0 <= x1 /\ forall x, x0 <= x <= x1 <-> a0 <= x <= a1 /\ b0 <= x <= b1
  | None => forall x, ~ (a0 <= x <= a1 /\ b0 <= x <= b1)
  end.
Proof.
  intros Ha Hb. unfold overlap_side.
  destruct (Qle_spec b0 a0), (Qle_spec a0 b1), (Qle_spec a0 b0), (Qle_spec b0 a1), (Qle_spec a1 b1), (Qle_spec b1 a1);
    cbn [andb]; try (exfalso; lra); try (split; [lra|]); intros; try split; intros; try split; lra.
Qed.

Lemma merge_side_spec a0 a1 b0 b1 : a0 <= a1 -> b0 <= b1 ->
  match merge_side a0 a1 b0 b1 with
  | Some (x0, x1) => x0 <= x1 /\ (exists x, a0 <= x <= a1 /\ b0 <= x <= b1)
      /\ forall x, x0 <= x <= x1 <-> a0 <= x <= a1 \/ b0 <= x <= b1
  | None => forall x, ~ (a0 <= x <= a1 /\ b0 <= x <= b1)
  end.
Proof.
  intros Ha Hb. unfold merge_side.
  destruct (Qle_spec b0 a0), (Qle_spec a0 b1), (Qle_spec a0 b0), (Qle_spec b0 a1), (Qle_spec a1 b1), (Qle_spec b1 a1);
    cbn [andb]; try (exfalso; lra);
    try (intros; lra);
    (split; [lra|]); (split; [first [exists a0; lra | exists b0; lra | exists a1; lra | exists b1; lra]|]);
    intros x; destruct (Qlt_le_dec x a0), (Qlt_le_dec x b0), (Qlt_le_dec a1 x), (Qlt_le_dec b1 x);
    split; intros; try lra; try (destruct H; lra); try (left; lra); try (right; lra).
Qed.

Lemma sides_touch_spec a0 a1 b0 b1 : a0 <= a1 -> b0 <= b1 ->
  sides_touch a0 a1 b0 b1 = true <-> exists x, a0 <= x <= a1 /\ b0 <= x <= b1.
Proof.
  intros Ha Hb. unfold sides_touch.
  destruct (Qle_spec b0 a0), (Qle_spec a0 b1), (Qle_spec b0 a1), (Qle_spec a1 b1), (Qle_spec a0 b0), (Qle_spec b1 a1);
    cbn [andb orb]; (split; [intro K; try discriminate; first [exists a0; lra|exists b0; lra]|intros [x ?]; try reflexivity; exfalso; lra]).
Qed.

Lemma seg_bounding_ordered s : xmin (seg_bounding s) <= xmax (seg_bounding s) /\ ymin (seg_bounding s) <= ymax (seg_bounding s).
Proof. destruct (seg_bounding_cases s) as [Hx Hy]. lra. Qed.

Lemma seg_bounding_of x0 y0 x1 y1 : x0 <= x1 -> y0 <= y1 ->
  let b := seg_bounding (mk_seg (mk_pt x0 y0) (mk_pt x1 y1)) in
  xmin b == x0 /\ xmax b == x1 /\ ymin b == y0 /\ ymax b == y1.
Proof. intros Hx Hy. cbn. destruct (Qltb_spec x0 x1), (Qltb_spec x1 x0), (Qltb_spec y0 y1), (Qltb_spec y1 y0); lra. Qed.

(** * Overlap and merge of any two parallel segments, seen through their boxes *)

Lemma overlap_boxes a b : are_parallel a b = true ->
  match overlap a b with
  | Some r => forall p, in_box (seg_bounding r) p <-> in_box (seg_bounding a) p /\ in_box (seg_bounding b) p
  | None => forall p, ~ (in_box (seg_bounding a) p /\ in_box (seg_bounding b) p)
  end.
Proof.
  intro P. unfold overlap, combine_segs. rewrite P.
  destruct (seg_bounding_ordered a) as [Ax Ay], (seg_bounding_ordered b) as [Bx By].
  pose proof (overlap_side_spec _ _ _ _ Ax Bx) as X. pose proof (overlap_side_spec _ _ _ _ Ay By) as Y.
  destruct (overlap_side (xmin (seg_bounding a)) _ _ _) as [[x0 x1]|].
  - destruct X as [Ox X]. destruct (overlap_side (ymin (seg_bounding a)) _ _ _) as [[y0 y1]|].
    + destruct Y as [Oy Y]. intro p.
      destruct (seg_bounding_of x0 y0 x1 y1 Ox Oy) as (E1 & E2 & E3 & E4).
      unfold in_box. rewrite E1, E2, E3, E4, X, Y. tauto.
    + intros p [[H1 H2] [H3 H4]]. apply (Y (py p)). tauto.
  - intros p [[H1 H2] [H3 H4]]. apply (X (px p)). tauto.
Qed.

Lemma merge_boxes a b : are_parallel a b = true ->
  match merge a b with
  | Some r => (exists p, in_box (seg_bounding a) p /\ in_box (seg_bounding b) p)
      /\ (forall x, xmin (seg_bounding r) <= x <= xmax (seg_bounding r) <->
            xmin (seg_bounding a) <= x <= xmax (seg_bounding a) \/ xmin (seg_bounding b) <= x <= xmax (seg_bounding b))
      /\ (forall y, ymin (seg_bounding r) <= y <= ymax (seg_bounding r) <->
            ymin (seg_bounding a) <= y <= ymax (seg_bounding a) \/ ymin (seg_bounding b) <= y <= ymax (seg_bounding b))
  | None => forall p, ~ (in_box (seg_bounding a) p /\ in_box (seg_bounding b) p)
  end.
Proof.
  intro P. unfold merge, combine_segs. rewrite P.
  destruct (seg_bounding_ordered a) as [Ax Ay], (seg_bounding_ordered b) as [Bx By].
  pose proof (merge_side_spec _ _ _ _ Ax Bx) as X. pose proof (merge_side_spec _ _ _ _ Ay By) as Y.
  destruct (merge_side (xmin (seg_bounding a)) _ _ _) as [[x0 x1]|].
  - destruct X as (Ox & [x Hx] & X). destruct (merge_side (ymin (seg_bounding a)) _ _ _) as [[y0 y1]|].
    + destruct Y as (Oy & [y Hy] & Y).
      destruct (seg_bounding_of x0 y0 x1 y1 Ox Oy) as (E1 & E2 & E3 & E4).
      split; [exists (mk_pt x y); unfold in_box; cbn; tauto|].
      split; intro z; [rewrite E1, E2; apply X|rewrite E3, E4; apply Y].
    + intros p [[H1 H2] [H3 H4]]. apply (Y (py p)). tauto.
  - intros p [[H1 H2] [H3 H4]]. apply (X (px p)). tauto.
Qed.

(** * Straight segments *)

Lemma on_range x0 x1 x : x0 <= x <= x1 -> exists t, 0 <= t <= 1 /\ x == x0 + t * (x1 - x0).
Proof.
  intro H. destruct (Qlt_le_dec x0 x1) as [K|K].
  - exists ((x - x0) / (x1 - x0)). split; [split|].
    + apply Qle_shift_div_l; lra.
    + apply Qle_shift_div_r; lra.
    + field. lra.
  - exists 0. split; lra.
Qed.

Lemma straight_box_gen s v : level v (s0 s) == level v (s1 s) ->
  forall p, on_seg s p <-> in_box (seg_bounding s) p.
Proof.
  intros L p. split; [apply seg_bounding_in|]. intros [Hx Hy].
  destruct (seg_bounding_cases s) as [Cx Cy].
  assert (F : forall a b x, b <= x <= a -> exists t, 0 <= t <= 1 /\ x == a + t * (b - a)).
  { intros a b x H. destruct (on_range b a x H) as (t & Ht & E). exists (1 - t). split; [lra|].
    rewrite E. ring. }
  destruct v; cbn in L.
  - assert (T : exists t, 0 <= t <= 1 /\ px p == px (s0 s) + t * (px (s1 s) - px (s0 s))).
    { destruct Cx as [(C & E1 & E2)|(C & E1 & E2)]; rewrite E1, E2 in Hx; [now apply on_range|now apply F]. }
    destruct T as (t & Ht & E). exists t. split; [assumption|]. split; [assumption|].
    assert (Z : py (s1 s) - py (s0 s) == 0) by lra. rewrite Z.
    destruct Cy as [(C & E1 & E2)|(C & E1 & E2)]; rewrite E1, E2 in Hy; lra.
  - assert (T : exists t, 0 <= t <= 1 /\ py p == py (s0 s) + t * (py (s1 s) - py (s0 s))).
    { destruct Cy as [(C & E1 & E2)|(C & E1 & E2)]; rewrite E1, E2 in Hy; [now apply on_range|now apply F]. }
    destruct T as (t & Ht & E). exists t. split; [assumption|]. split; [|assumption].
    assert (Z : px (s1 s) - px (s0 s) == 0) by lra. rewrite Z.
    destruct Cx as [(C & E1 & E2)|(C & E1 & E2)]; rewrite E1, E2 in Hx; lra.
Qed.

Lemma straight_axis v s : straight v s -> seg_axis s = segaxis_of_view v.
Proof.
  intros [L A]. pose proof (seg_axis_cases s) as C.
  assert (Z : forall x, x == 0 -> Qabs x < equality_tolerance) by (intros x ->; reflexivity).
  destruct v; cbn [level along segaxis_of_view] in *.
  - assert (A' : equality_tolerance <= Qabs (px (seg_vec s))) by exact A.
    assert (Y : Qabs (py (seg_vec s)) < equality_tolerance) by (apply Z; cbn; lra).
    destruct (seg_axis s); try reflexivity; lra.
  - assert (A' : equality_tolerance <= Qabs (py (seg_vec s))) by exact A.
    assert (X : Qabs (px (seg_vec s)) < equality_tolerance) by (apply Z; cbn; lra).
    destruct (seg_axis s); try reflexivity; lra.
Qed.

Lemma straight_parallel v a b : straight v a -> straight v b -> are_parallel a b = true.
Proof.
  intros A B. unfold are_parallel. rewrite (straight_axis _ _ A), (straight_axis _ _ B).
  destruct v; reflexivity.
Qed.

(** The level of the box of a straight segment. *)
Lemma straight_level v s : level v (s0 s) == level v (s1 s) ->
  match v with
  | VH => ymin (seg_bounding s) == py (s0 s) /\ ymax (seg_bounding s) == py (s0 s)
  | VV => xmin (seg_bounding s) == px (s0 s) /\ xmax (seg_bounding s) == px (s0 s)
  end.
Proof.
  destruct (seg_bounding_cases s) as [Cx Cy]. destruct v; cbn [level]; intro L.
  - destruct Cy as [(C & -> & ->)|(C & -> & ->)]; split; lra.
  - destruct Cx as [(C & -> & ->)|(C & -> & ->)]; split; lra.
Qed.

Lemma box_collapse s v : (forall p q, in_box (seg_bounding s) p -> in_box (seg_bounding s) q -> level v p == level v q) ->
  level v (s0 s) == level v (s1 s).
Proof. intro H. apply H; apply seg_bounding_in; [apply on_seg_s0|apply on_seg_s1]. Qed.

Lemma overlap_straight v a b : straight v a -> straight v b -> same_line v a b ->
  match overlap a b with
  | Some r => (forall p, on_seg r p <-> on_seg a p /\ on_seg b p)
  | None => forall p, ~ (on_seg a p /\ on_seg b p)
  end.
Proof.
  intros A B L. pose proof (overlap_boxes a b (straight_parallel v a b A B)) as O.
  destruct A as [A _], B as [B _].
  destruct (overlap a b) as [r|].
  - assert (R : level v (s0 r) == level v (s1 r)).
    { apply box_collapse. intros p q Hp Hq. apply O in Hp. apply O in Hq.
      destruct Hp as [[Hpx Hpy] _], Hq as [[Hqx Hqy] _]. pose proof (straight_level v a A) as K.
      destruct v; cbn; destruct K as [K1 K2]; lra. }
    intro p. rewrite (straight_box_gen r v R), (straight_box_gen a v A), (straight_box_gen b v B). apply O.
  - intros p. rewrite (straight_box_gen a v A), (straight_box_gen b v B). apply O.
Qed.

Lemma merge_straight v a b : straight v a -> straight v b -> same_line v a b ->
  match merge a b with
  | Some r => (forall p, on_seg r p <-> on_seg a p \/ on_seg b p) /\ (exists p, on_seg a p /\ on_seg b p)
  | None => forall p, ~ (on_seg a p /\ on_seg b p)
  end.
Proof.
  intros A B L. pose proof (merge_boxes a b (straight_parallel v a b A B)) as O.
  destruct A as [A _], B as [B _]. unfold same_line in L.
  pose proof (straight_level v a A) as KA. pose proof (straight_level v b B) as KB.
  destruct (merge a b) as [r|].
  - destruct O as ([c Hc] & Ox & Oy).
    assert (R : level v (s0 r) == level v (s1 r)).
    { apply box_collapse. intros p q [Hpx Hpy] [Hqx Hqy]. apply Ox in Hpx, Hqx. apply Oy in Hpy, Hqy.
      destruct v; cbn in *; destruct KA, KB; lra. }
    split.
    + intro p. rewrite (straight_box_gen r v R), (straight_box_gen a v A), (straight_box_gen b v B).
      unfold in_box. rewrite Ox, Oy. destruct v; cbn in L; destruct KA, KB.
      * split; [intros [[H3|H3] [H4|H4]]; [left|left|right|right]|intros [[H3 H4]|[H3 H4]]]; lra.
      * split; [intros [[H3|H3] [H4|H4]]; [left|right|left|right]|intros [[H3 H4]|[H3 H4]]]; lra.
    + exists c. rewrite (straight_box_gen a v A), (straight_box_gen b v B). exact Hc.
  - intros p. rewrite (straight_box_gen a v A), (straight_box_gen b v B). apply O.
Qed.

(** * Symmetry *)

Lemma coord_eqb_sym a b : coord_eqb a b = coord_eqb b a.
Proof. unfold coord_eqb. rewrite Qabs_Qminus. reflexivity. Qed.

Lemma parallel_sym a b : are_parallel a b = are_parallel b a.
Proof.
  unfold are_parallel. rewrite (coord_eqb_sym (py (seg_vec a) / px (seg_vec a))).
  rewrite (orb_comm (Qeq_bool (px (seg_vec a)) 0)).
  destruct (seg_axis a), (seg_axis b); reflexivity.
Qed.

Lemma overlap_side_sym a0 a1 b0 b1 : a0 <= a1 -> b0 <= b1 ->
  same_side (overlap_side a0 a1 b0 b1) (overlap_side b0 b1 a0 a1).
Proof.
  intros Ha Hb. unfold overlap_side, same_side.
  destruct (Qle_spec b0 a0), (Qle_spec a0 b1), (Qle_spec a0 b0), (Qle_spec b0 a1), (Qle_spec a1 b1), (Qle_spec b1 a1);
    cbn [andb]; try (exfalso; lra); try exact I; lra.
Qed.

Lemma merge_side_sym a0 a1 b0 b1 : a0 <= a1 -> b0 <= b1 ->
  same_side (merge_side a0 a1 b0 b1) (merge_side b0 b1 a0 a1).
Proof.
  intros Ha Hb. unfold merge_side, same_side.
  destruct (Qle_spec b0 a0), (Qle_spec a0 b1), (Qle_spec a0 b0), (Qle_spec b0 a1), (Qle_spec a1 b1), (Qle_spec b1 a1);
    cbn [andb]; try (exfalso; lra); try exact I; lra.
Qed.

Lemma combine_sym side a b :
  (forall a0 a1 b0 b1, a0 <= a1 -> b0 <= b1 -> same_side (side a0 a1 b0 b1) (side b0 b1 a0 a1)) ->
  same_seg (combine_segs side a b) (combine_segs side b a).
Proof.
  intro H. unfold combine_segs. rewrite (parallel_sym a b). destruct (are_parallel b a); [|exact I].
  destruct (seg_bounding_ordered a) as [Ax Ay], (seg_bounding_ordered b) as [Bx By].
  pose proof (H _ _ _ _ Ax Bx) as X. pose proof (H _ _ _ _ Ay By) as Y.
  destruct (side (xmin (seg_bounding a)) _ _ _) as [[x0 x1]|], (side (xmin (seg_bounding b)) _ _ _) as [[x2 x3]|];
    cbn in X; try contradiction; try exact I.
  destruct (side (ymin (seg_bounding a)) _ _ _) as [[y0 y1]|], (side (ymin (seg_bounding b)) _ _ _) as [[y2 y3]|];
    cbn in Y; try contradiction; try exact I.
  cbn. unfold same_pt. cbn. tauto.
Qed.

Lemma relation_seg_sym a b : relation_seg a b = relation_seg b a.
Proof.
  unfold relation_seg, sides_touch.
  destruct (detect_rotation [s0 a; s1 a; s0 b]), (detect_rotation [s0 a; s1 a; s1 b]),
    (detect_rotation [s0 b; s1 b; s0 a]), (detect_rotation [s0 b; s1 b; s1 a]); cbn [rotation_eqb andb negb]; try reflexivity.
  repeat match goal with |- context [Qle_bool ?x ?y] => destruct (Qle_bool x y) end; reflexivity.
Qed.

(** * Relation of two segments *)

Lemma rotation_triangle a b c : detect_rotation [a; b; c] = turn (cross a b c).
Proof. rewrite rotation_turn. apply turn_wd. unfold area2. cbn. unfold det, cross. ring. Qed.

Lemma relation_line v a b : straight v a -> straight v b -> same_line v a b ->
  (relation_seg a b = OVERLAPPING /\ exists p, on_seg a p /\ on_seg b p)
  \/ (relation_seg a b = COLINEAR_ /\ forall p, ~ (on_seg a p /\ on_seg b p)).
Proof.
  intros [A _] [B _] L. unfold same_line in L.
  assert (Z : forall x, x == 0 -> turn x = COLINEAR) by (intros x E; rewrite (turn_wd _ _ E); reflexivity).
  assert (F : detect_rotation [s0 a; s1 a; s0 b] = COLINEAR /\ detect_rotation [s0 a; s1 a; s1 b] = COLINEAR
              /\ detect_rotation [s0 b; s1 b; s0 a] = COLINEAR /\ detect_rotation [s0 b; s1 b; s1 a] = COLINEAR).
  { rewrite !rotation_triangle. unfold cross. destruct v; cbn in *.
    - repeat split; apply Z; [setoid_replace (py (s1 a)) with (py (s0 a)) by lra; setoid_replace (py (s0 b)) with (py (s0 a)) by lra; ring
       | setoid_replace (py (s1 a)) with (py (s0 a)) by lra; setoid_replace (py (s1 b)) with (py (s0 a)) by lra; ring
       | setoid_replace (py (s1 b)) with (py (s0 b)) by lra; setoid_replace (py (s0 a)) with (py (s0 b)) by lra; ring
       | setoid_replace (py (s1 b)) with (py (s0 b)) by lra; setoid_replace (py (s1 a)) with (py (s0 b)) by lra; ring].
    - repeat split; apply Z; [setoid_replace (px (s1 a)) with (px (s0 a)) by lra; setoid_replace (px (s0 b)) with (px (s0 a)) by lra; ring
       | setoid_replace (px (s1 a)) with (px (s0 a)) by lra; setoid_replace (px (s1 b)) with (px (s0 a)) by lra; ring
       | setoid_replace (px (s1 b)) with (px (s0 b)) by lra; setoid_replace (px (s0 a)) with (px (s0 b)) by lra; ring
       | setoid_replace (px (s1 b)) with (px (s0 b)) by lra; setoid_replace (px (s1 a)) with (px (s0 b)) by lra; ring]. }
  destruct F as (F1 & F2 & F3 & F4). unfold relation_seg. rewrite F1, F2, F3, F4. cbn [rotation_eqb andb].
  destruct (seg_bounding_ordered a) as [Ax Ay], (seg_bounding_ordered b) as [Bx By].
  pose proof (sides_touch_spec _ _ _ _ Bx Ax) as X. pose proof (sides_touch_spec _ _ _ _ By Ay) as Y.
  destruct (sides_touch (xmin (seg_bounding b)) _ _ _) eqn:Ex.
  - destruct (sides_touch (ymin (seg_bounding b)) _ _ _) eqn:Ey.
    + left. split; [reflexivity|]. destruct (proj1 X eq_refl) as [x Hx], (proj1 Y eq_refl) as [y Hy].
      exists (mk_pt x y). rewrite (straight_box_gen a v A), (straight_box_gen b v B). unfold in_box. cbn. tauto.
    + right. split; [reflexivity|]. intros p. rewrite (straight_box_gen a v A), (straight_box_gen b v B).
      intros [[H1 H2] [H3 H4]]. assert (false = true); [|discriminate]. apply Y. exists (py p). tauto.
  - right. split; [reflexivity|]. intros p. rewrite (straight_box_gen a v A), (straight_box_gen b v B).
    intros [[H1 H2] [H3 H4]]. assert (false = true); [|discriminate]. apply X. exists (px p). tauto.
Qed.

(** Two segments whose ends are strictly on both sides of each other meet. *)
Lemma meet a b :
  cross (s0 a) (s1 a) (s0 b) * cross (s0 a) (s1 a) (s1 b) < 0 ->
  cross (s0 b) (s1 b) (s0 a) * cross (s0 b) (s1 b) (s1 a) < 0 ->
  exists p, on_seg a p /\ on_seg b p.
Proof.
  set (c1 := cross (s0 a) (s1 a) (s0 b)). set (c2 := cross (s0 a) (s1 a) (s1 b)).
  set (c3 := cross (s0 b) (s1 b) (s0 a)). set (c4 := cross (s0 b) (s1 b) (s1 a)).
  intros H12 H34.
  assert (D : c3 - c4 == c2 - c1) by (unfold c1, c2, c3, c4, cross; ring).
  assert (N1 : ~ c2 - c1 == 0) by (intro Z; nra).
  assert (N2 : ~ c3 - c4 == 0) by lra.
  assert (U : forall x y, x * y < 0 -> 0 <= x / (x - y) <= 1).
  { intros x y H. destruct (Qlt_le_dec 0 x) as [K|K].
    - assert (y < 0) by nra. split; [apply Qle_shift_div_l; lra|apply Qle_shift_div_r; lra].
    - assert (x < 0) by (destruct (Qeq_dec x 0) as [Z|Z]; [rewrite Z in H; lra|lra]). assert (0 < y) by nra.
      assert (E : x / (x - y) == (- x) / (y - x)) by (field; split; lra).
      rewrite E. split; [apply Qle_shift_div_l; lra|apply Qle_shift_div_r; lra]. }
  set (t := c3 / (c3 - c4)). set (u := c1 / (c1 - c2)).
  exists (mk_pt (px (s0 a) + t * (px (s1 a) - px (s0 a))) (py (s0 a) + t * (py (s1 a) - py (s0 a)))).
  split.
  - exists t. split; [now apply U|]. cbn. split; reflexivity.
  - exists u. split; [now apply U|]. cbn.
    assert (N3 : ~ c1 - c2 == 0) by (intro; apply N1; lra).
    unfold t, u.
    assert (Et : c3 / (c3 - c4) == c3 / (c2 - c1)) by (now rewrite D). rewrite Et.
    assert (Eu : c1 / (c1 - c2) == - c1 / (c2 - c1)) by (field; split; assumption). rewrite Eu.
    split.
    + setoid_replace (px (s0 a) + c3 / (c2 - c1) * (px (s1 a) - px (s0 a)))
        with ((px (s0 a) * (c2 - c1) + c3 * (px (s1 a) - px (s0 a))) / (c2 - c1)) by (field; assumption).
      setoid_replace (px (s0 b) + - c1 / (c2 - c1) * (px (s1 b) - px (s0 b)))
        with ((px (s0 b) * (c2 - c1) + - c1 * (px (s1 b) - px (s0 b))) / (c2 - c1)) by (field; assumption).
      apply Qmult_comp; [|reflexivity]. unfold c1, c2, c3, cross. ring.
    + setoid_replace (py (s0 a) + c3 / (c2 - c1) * (py (s1 a) - py (s0 a)))
        with ((py (s0 a) * (c2 - c1) + c3 * (py (s1 a) - py (s0 a))) / (c2 - c1)) by (field; assumption).
      setoid_replace (py (s0 b) + - c1 / (c2 - c1) * (py (s1 b) - py (s0 b)))
        with ((py (s0 b) * (c2 - c1) + - c1 * (py (s1 b) - py (s0 b))) / (c2 - c1)) by (field; assumption).
      apply Qmult_comp; [|reflexivity]. unfold c1, c2, c3, cross. ring.
Qed.

Lemma rotation_eqb_eq a b : rotation_eqb a b = true <-> a = b.
Proof. destruct a, b; cbn; split; congruence. Qed.

(** If the ends of each segment are clearly (by twice the tolerance, as doubled
    areas) on different sides of the other one, the answer is CROSSING. *)
Lemma turn_opposite x y : Rotation -> turn x <> COLINEAR -> turn y <> COLINEAR -> turn x <> turn y -> x * y < 0.
Proof.
  intros _ Hx Hy N. destruct (turn x) eqn:Ex; [| |congruence]; destruct (turn y) eqn:Ey; try congruence;
    repeat match goal with
    | H : turn _ = CCW |- _ => apply turn_ccw in H
    | H : turn _ = CW |- _ => apply turn_cw in H
    end; unfold equality_tolerance in *; nra.
Qed.

Lemma crossing_meets a b : relation_seg a b = CROSSING ->
  (forall p, In p [s0 b; s1 b] -> equality_tolerance <= Qabs (cross (s0 a) (s1 a) p) / 2) ->
  (forall p, In p [s0 a; s1 a] -> equality_tolerance <= Qabs (cross (s0 b) (s1 b) p) / 2) ->
  exists p, on_seg a p /\ on_seg b p.
Proof.
  intros H A B.
  assert (N : forall x, equality_tolerance <= Qabs x / 2 -> turn x <> COLINEAR).
  { intros x K T. apply turn_colinear in T. apply Qabs_Qlt_condition in T.
    assert (E : Qabs x / 2 == (1 # 2) * Qabs x) by field. rewrite E in K. lra. }
  unfold relation_seg in H. rewrite !rotation_triangle in H.
  assert (A0 := N _ (A (s0 b) ltac:(cbn; tauto))). assert (A1 := N _ (A (s1 b) ltac:(cbn; tauto))).
  assert (B0 := N _ (B (s0 a) ltac:(cbn; tauto))). assert (B1 := N _ (B (s1 a) ltac:(cbn; tauto))).
  apply meet; (apply (turn_opposite _ _ CW); [assumption|assumption|]); intro E; rewrite E in H;
    repeat match type of H with context [rotation_eqb ?x ?x] => 
      replace (rotation_eqb x x) with true in H by (symmetry; now apply rotation_eqb_eq) end;
    cbn [negb andb] in H; rewrite ?andb_false_r, ?andb_true_r in H;
    repeat match type of H with (if ?c then _ else _) = _ => destruct c end; discriminate.
Qed.

Lemma crossing_complete a b :
  (exists x y, [x; y] = [cross (s0 a) (s1 a) (s0 b); cross (s0 a) (s1 a) (s1 b)]
     /\ ((2 * equality_tolerance <= x /\ y <= - (2 * equality_tolerance))
         \/ (x <= - (2 * equality_tolerance) /\ 2 * equality_tolerance <= y))) ->
  (exists x y, [x; y] = [cross (s0 b) (s1 b) (s0 a); cross (s0 b) (s1 b) (s1 a)]
     /\ ((2 * equality_tolerance <= x /\ y <= - (2 * equality_tolerance))
         \/ (x <= - (2 * equality_tolerance) /\ 2 * equality_tolerance <= y))) ->
  relation_seg a b = CROSSING.
Proof.
  intros (x & y & E & H) (z & w & F & K). injection E as -> ->. injection F as -> ->.
  unfold relation_seg. rewrite !rotation_triangle.
  destruct H as [[H1 H2]|[H1 H2]], K as [[K1 K2]|[K1 K2]];
    repeat match goal with
    | H : 2 * equality_tolerance <= ?x |- _ => apply turn_ccw in H; rewrite H
    | H : ?x <= - (2 * equality_tolerance) |- _ => apply turn_cw in H; rewrite H
    end; reflexivity.
Qed.

(** * Intersection point *)

Lemma exact_axis s : exact s ->
  match seg_axis s with
  | SPOINT => px (seg_vec s) == 0 /\ py (seg_vec s) == 0
  | SV => px (seg_vec s) == 0
  | SH => py (seg_vec s) == 0
  | SDIAG => True
  end.
Proof.
  intros [Hx Hy]. pose proof (seg_axis_cases s) as C. unfold seg_vec, pt_sub in *. cbn in *.
  destruct (seg_axis s); try exact I.
  - destruct C as [_ C]. apply Hy in C. lra.
  - destruct C as [C _]. apply Hx in C. lra.
  - destruct C as [C1 C2]. apply Hx in C1. apply Hy in C2. lra.
Qed.

Lemma intersection_common a b q : exact a -> exact b ->
  ~ px (seg_vec a) * py (seg_vec b) - py (seg_vec a) * px (seg_vec b) == 0 ->
  on_seg a q -> on_seg b q ->
  exists p, intersection a b = Some p /\ same_pt p q.
Proof.
  intros Ea Eb N (s & Hs & Sx & Sy) (t & Ht & Tx & Ty).
  apply exact_axis in Ea, Eb.
  change (px (s1 a) - px (s0 a)) with (px (seg_vec a)) in *. change (py (s1 a) - py (s0 a)) with (py (seg_vec a)) in *.
  change (px (s1 b) - px (s0 b)) with (px (seg_vec b)) in *. change (py (s1 b) - py (s0 b)) with (py (seg_vec b)) in *.
  assert (D : exists p,
    (if Qeq_bool (px (seg_vec a) * py (seg_vec b) - py (seg_vec a) * px (seg_vec b)) 0 then None else
      let m := (px (seg_vec a) * py (s0 a) - px (seg_vec a) * py (s0 b) - py (seg_vec a) * px (s0 a) + py (seg_vec a) * px (s0 b))
               / (px (seg_vec a) * py (seg_vec b) - py (seg_vec a) * px (seg_vec b)) in
        if Qle_bool 0 m && Qle_bool m 1
        then Some (pt_add (s0 b) (mk_pt (m * px (seg_vec b)) (m * py (seg_vec b))))
        else None) = Some p /\ same_pt p q).
  { destruct (Qeq_bool (px (seg_vec a) * py (seg_vec b) - py (seg_vec a) * px (seg_vec b)) 0) eqn:E.
    { apply Qeq_bool_iff in E. contradiction. }
    set (m := _ / _).
    assert (M : m == t).
    { unfold m. set (dv := px (seg_vec a) * py (seg_vec b) - py (seg_vec a) * px (seg_vec b)) in *.
      assert (K : px (seg_vec a) * py (s0 a) - px (seg_vec a) * py (s0 b) - py (seg_vec a) * px (s0 a) + py (seg_vec a) * px (s0 b)
                  == t * dv).
      { setoid_replace (py (s0 a)) with (py q - s * py (seg_vec a)) by lra.
        setoid_replace (px (s0 a)) with (px q - s * px (seg_vec a)) by lra.
        setoid_replace (py (s0 b)) with (py q - t * py (seg_vec b)) by lra.
        setoid_replace (px (s0 b)) with (px q - t * px (seg_vec b)) by lra.
        unfold dv. ring. }
      rewrite K. field. assumption. }
    cbv zeta. destruct (Qle_spec 0 m); [|lra]. destruct (Qle_spec m 1); [|lra]. cbn [andb].
    eexists. split; [reflexivity|]. unfold same_pt, pt_add. cbn [px py]. rewrite M. split; lra. }
  unfold intersection. cbv zeta in D.
  destruct (seg_axis a), (seg_axis b); try exact D.
  - exfalso. apply N. rewrite Ea, Eb. ring.
  - eexists. split; [reflexivity|]. split; cbn; [rewrite Eb in Tx; lra|rewrite Ea in Sy; lra].
  - exfalso. apply N. destruct Eb as [-> ->]. ring.
  - eexists. split; [reflexivity|]. split; cbn; [rewrite Ea in Sx; lra|rewrite Eb in Ty; lra].
  - exfalso. apply N. rewrite Ea, Eb. ring.
  - exfalso. apply N. destruct Eb as [-> ->]. ring.
  - exfalso. apply N. destruct Ea as [-> ->]. ring.
  - exfalso. apply N. destruct Ea as [-> ->]. ring.
  - exfalso. apply N. destruct Ea as [-> ->]. ring.
Qed.
