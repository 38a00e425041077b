(** Boards whose policies are found: what is enough for the reads of the intersections to
    be in range and for the location of points to stop. *)
From Coq Require Import List Arith Bool Lia QArith Qabs Lqa Sorting.Sorted Sorting.Permutation.
From Verif Require Import IntervalModel IntervalProofs ManagerModel ManagerSpec ManagerProofs GeomModel GeomSpec GeomProofs GeomSegProofs GeomBoxProofs GeomLocateProofs.
From Verif Require Import BoardModel BoardSpec BoardProofs BoardColinearProofs BoardCoverProofs BoardDetectProofs BoardBuiltProofs BoardSafetyProofs EndSpec.
Import ListNotations.
Open Scope Q_scope.

(** * Two points or more are left *)

Lemma unique_single x l : unique_from x l = [] -> forall y, In y l -> pt_eqb x y = true.
Proof.
  induction l as [|z l IH]; cbn; intros E y H; [destruct H|]. destruct (pt_eqb x z) eqn:Z; [|discriminate]. destruct H as [<-|H]; [assumption|now apply IH].
Qed.

Lemma unique_two l : l <> [] -> (forall x, In x l -> exists y, In y l /\ y <> x /\ pt_eqb x y = false) -> (2 <= length (unique l))%nat.
Proof.
  intros Ne H. destruct l as [|x l]; [contradiction|]. cbn. destruct (unique_from x l) as [|y r] eqn:U; cbn; [|lia].
  destruct (H x (or_introl eq_refl)) as (y & [E|I] & N & F); [congruence|]. rewrite (unique_single x l U y I) in F. discriminate.
Qed.

(** Against the first one only. *)
Lemma unique_two_first x l y : In y l -> pt_eqb x y = false -> (2 <= length (unique (x :: l)))%nat.
Proof.
  intros I F. cbn. destruct (unique_from x l) as [|z r] eqn:U; cbn; [|lia]. rewrite (unique_single x l U y I) in F. discriminate.
Qed.

Lemma sort_points_in srt v l x : permutes srt -> In x (sort_points srt v l) <-> In x l.
Proof.
  intros Pm. unfold sort_points. destruct (before v) as [less|]; [|reflexivity]. split; apply Permutation_in; [symmetry|]; apply Pm.
Qed.

Definition far (a b : point) : Prop := 2 * equality_tolerance <= Qabs (px a - px b) \/ 2 * equality_tolerance <= Qabs (py a - py b).

Lemma far_not_both a b x : far a b -> pt_eqb x a = false \/ pt_eqb x b = false.
Proof.
  intros F. destruct (pt_eqb x a) eqn:A; [|now left]. destruct (pt_eqb x b) eqn:B; [|now right]. exfalso.
  apply pt_eqb_close in A, B. unfold close in *. destruct A as [A1 A2], B as [B1 B2]. change (1 # 100000000) with equality_tolerance in *.
  assert (T : forall u v w, Qabs (w - u) < equality_tolerance -> Qabs (w - v) < equality_tolerance -> Qabs (u - v) < 2 * equality_tolerance).
  { intros u v w Hu Hv. setoid_replace (u - v) with ((w - v) + - (w - u)) by ring. eapply Qle_lt_trans; [apply Qabs_triangle|]. rewrite Qabs_opp. lra. }
  pose proof (T _ _ _ A1 B1). pose proof (T _ _ _ A2 B2). destruct F; lra.
Qed.

Lemma far_two srt v l a b : permutes srt -> far a b -> (2 <= length (unique (sort_points srt v (l ++ [a; b]))))%nat.
Proof.
  intros Pm F. assert (Ia : In a (sort_points srt v (l ++ [a; b]))) by (apply sort_points_in; [assumption|]; apply in_or_app; right; now left).
  assert (Ib : In b (sort_points srt v (l ++ [a; b]))) by (apply sort_points_in; [assumption|]; apply in_or_app; right; right; now left).
  assert (Rf : forall x, pt_eqb x x = true) by (intros x; apply pt_eqb_same; reflexivity).
  apply unique_two; [intros E; rewrite E in Ia; destruct Ia|]. intros x _. destruct (far_not_both a b x F) as [N|N].
  - exists a. split; [assumption|]. split; [intros ->; rewrite Rf in N; discriminate|assumption].
  - exists b. split; [assumption|]. split; [intros ->; rewrite Rf in N; discriminate|assumption].
Qed.

(** An edge that goes along an axis, exactly, is sorted along it. *)
Lemma key_order {A} (f : A -> Q) l : weak_order (fun x y => Qltb (f x) (f y)) l.
Proof.
  split; [|split].
  - intros x _. destruct (Qltb_spec (f x) (f x)); [lra|reflexivity].
  - intros x y z _ _ _ A1 B1. apply Qltb_lt in A1, B1. apply Qltb_lt. lra.
  - intros x y z _ _ _ A1 B1. apply Qltb_ge in A1, B1. apply Qltb_ge. lra.
Qed.

Lemma first_least {A} (f : A -> Q) srt l x r : sorts_by srt -> srt A (fun x y => Qltb (f x) (f y)) l = x :: r -> forall y, In y (x :: r) -> f x <= f y.
Proof.
  intros So E y I. destruct (So A (fun x y => Qltb (f x) (f y)) l (key_order f l)) as [_ S]. rewrite E in S. apply StronglySorted_inv in S. destruct S as [_ S].
  destruct I as [<-|I]; [apply Qle_refl|]. rewrite Forall_forall in S. specialize (S y I). now apply Qltb_ge in S.
Qed.

Lemma key_two (f : point -> Q) srt l a b : sorts_by srt -> (forall x y, equality_tolerance <= Qabs (f y - f x) -> pt_eqb x y = false) ->
  equality_tolerance <= f b - f a -> In a l -> In b l -> (2 <= length (unique (srt point (fun x y => Qltb (f x) (f y)) l)))%nat.
Proof.
  intros So K F Ia Ib. destruct (So point (fun x y => Qltb (f x) (f y)) l (key_order f l)) as [Pm _].
  apply (Permutation_in _ Pm) in Ia, Ib. destruct (srt point (fun x y => Qltb (f x) (f y)) l) as [|x r] eqn:E; [destruct Ia|].
  pose proof (first_least f srt l x r So E a Ia) as La. assert (X : pt_eqb x b = false).
  { apply K. rewrite Qabs_pos; unfold equality_tolerance in *; lra. }
  destruct Ib as [->|Ib]; [unfold equality_tolerance in *; lra|]. now apply (unique_two_first x r b).
Qed.

Definition straight_apart (a b : point) : Prop :=
  (py a == py b /\ equality_tolerance <= Qabs (px a - px b)) \/ (px a == px b /\ equality_tolerance <= Qabs (py a - py b)).

Lemma pt_far_x x y : equality_tolerance <= Qabs (px y - px x) -> pt_eqb x y = false.
Proof. intros. apply pt_eqb_far. now left. Qed.
Lemma pt_far_y x y : equality_tolerance <= Qabs (py y - py x) -> pt_eqb x y = false.
Proof. intros. apply pt_eqb_far. now right. Qed.
Lemma neg_key (f : point -> Q) : (forall x y, equality_tolerance <= Qabs (f y - f x) -> pt_eqb x y = false) ->
  forall x y, equality_tolerance <= Qabs (- f y - - f x) -> pt_eqb x y = false.
Proof. intros K x y H. apply K. setoid_replace (- f y - - f x) with (- (f y - f x)) in H by ring. now rewrite Qabs_opp in H. Qed.

Lemma signum_sign x : match signum x with Gt => 0 < x | Lt => x < 0 | Eq => x == 0 end.
Proof. unfold signum. destruct (Qltb_spec 0 x); [assumption|]. destruct (Qltb_spec x 0); [assumption|]. lra. Qed.
Lemma abs_cases x : (0 <= x /\ Qabs x == x) \/ (x <= 0 /\ Qabs x == - x).
Proof. destruct (Qlt_le_dec x 0); [right|left]; (split; [lra|]); [apply Qabs_neg; lra|now apply Qabs_pos]. Qed.

(** The comparison of the opposite direction, as that of a key. *)
Lemma neg_less (f : point -> Q) : forall x y, Qltb (f y) (f x) = Qltb (- f x) (- f y).
Proof. intros x y. destruct (Qltb_spec (f y) (f x)), (Qltb_spec (- f x) (- f y)); try reflexivity; lra. Qed.

Lemma neg_two (f : point -> Q) srt l a b : sorts_by srt -> (forall x y, equality_tolerance <= Qabs (f y - f x) -> pt_eqb x y = false) ->
  equality_tolerance <= f a - f b -> In a l -> In b l -> (2 <= length (unique (srt point (fun x y => Qltb (f y) (f x)) l)))%nat.
Proof.
  intros So K F Ia Ib. assert (W : weak_order (fun x y => Qltb (f y) (f x)) l).
  { destruct (key_order (fun x => - f x) l) as (A & B & C). split; [|split].
    - intros x I. rewrite neg_less. now apply A.
    - intros x y z. rewrite !(neg_less f). apply B.
    - intros x y z. rewrite !(neg_less f). apply C. }
  destruct (So point (fun x y => Qltb (f y) (f x)) l W) as [Pm S]. apply (Permutation_in _ Pm) in Ia, Ib.
  destruct (srt point (fun x y => Qltb (f y) (f x)) l) as [|x r]; [destruct Ia|]. apply StronglySorted_inv in S. destruct S as [_ S]. rewrite Forall_forall in S.
  assert (La : f a <= f x) by (destruct Ia as [->|Ia]; [apply Qle_refl|]; specialize (S a Ia); now apply Qltb_ge in S).
  assert (X : pt_eqb x b = false).
  { apply K. rewrite Qabs_Qminus, Qabs_pos; unfold equality_tolerance in *; lra. }
  destruct Ib as [->|Ib]; [unfold equality_tolerance in *; lra|]. now apply (unique_two_first x r b).
Qed.

Lemma straight_two srt l s : sorts_by srt -> straight_apart (s0 s) (s1 s) -> (2 <= length (unique (sort_points srt (seg_vec s) (l ++ [s0 s; s1 s]))))%nat.
Proof.
  intros So St. assert (Ia : In (s0 s) (l ++ [s0 s; s1 s])) by (apply in_or_app; right; now left).
  assert (Ib : In (s1 s) (l ++ [s0 s; s1 s])) by (apply in_or_app; right; right; now left).
  unfold sort_points, before. pose proof (signum_sign (px (seg_vec s))) as X. pose proof (signum_sign (py (seg_vec s))) as Y.
  unfold straight_apart, equality_tolerance in St. pose proof (abs_cases (px (s0 s) - px (s1 s))) as Ax. pose proof (abs_cases (py (s0 s) - py (s1 s))) as Ay.
  unfold seg_vec in X, Y. cbn [pt_sub px py] in X, Y. revert X Y. unfold seg_vec. cbn [pt_sub px py].
  destruct (signum (px (s1 s) - px (s0 s))), (signum (py (s1 s) - py (s0 s))); intros X Y; try (exfalso; lra).
  - apply (neg_two py srt _ (s0 s) (s1 s) So pt_far_y); [unfold equality_tolerance; lra|assumption|assumption].
  - apply (key_two py srt _ (s0 s) (s1 s) So pt_far_y); [unfold equality_tolerance; lra|assumption|assumption].
  - apply (neg_two px srt _ (s0 s) (s1 s) So pt_far_x); [unfold equality_tolerance; lra|assumption|assumption].
  - apply (key_two px srt _ (s0 s) (s1 s) So pt_far_x); [unfold equality_tolerance; lra|assumption|assumption].
Qed.

(** * Edges that meet nothing *)

Lemma coord_eqb_same a b : a == b -> coord_eqb a b = true.
Proof. intros E. unfold coord_eqb. apply Qltb_lt. setoid_replace (a - b) with 0 by lra. reflexivity. Qed.

Definition null_seg (s : seg) : Prop := px (s0 s) == px (s1 s) /\ py (s0 s) == py (s1 s).

Lemma null_met ea eb : null_seg (e_seg ea) -> fst (met ea eb) = [].
Proof.
  intros [X Y]. unfold met. set (a := e_seg ea) in *. set (b := e_seg eb). clearbody a b.
  assert (Ax : seg_axis a = SPOINT).
  { unfold seg_axis, axis_of_vector, seg_vec. cbn [pt_sub px py]. rewrite !coord_eqb_same; [reflexivity|lra|lra]. }
  assert (Par : are_parallel a b = false).
  { unfold are_parallel. rewrite Ax. cbn [segaxis_eqb andb orb]. assert (Qeq_bool (px (seg_vec a)) 0 = true) as ->; [|reflexivity].
    apply Qeq_bool_iff. unfold seg_vec. cbn [pt_sub px]. lra. }
  assert (R34 : detect_rotation [s0 b; s1 b; s0 a] = detect_rotation [s0 b; s1 b; s1 a]).
  { rewrite !rotation_triangle. apply turn_wd. unfold cross. rewrite X, Y. reflexivity. }
  unfold overlap, combine_segs. rewrite Par. unfold relation_seg. rewrite R34.
  destruct (_ && _ && _ && _); [destruct (_ && _); reflexivity|]. destruct (negb (rotation_eqb (detect_rotation [s0 a; s1 a; s0 b]) _)); cbn [andb]; [|reflexivity].
  destruct (detect_rotation [s0 b; s1 b; s1 a]); reflexivity.
Qed.

Lemma null_points ea ebs : null_seg (e_seg ea) -> met_points ea ebs = [].
Proof. intros N. unfold met_points. induction ebs as [|e l IH]; cbn; [reflexivity|]. now rewrite (null_met ea e N), IH. Qed.

(** * Boxes *)

Definition box_side_of (p q : point) (s : seg) : Prop := In s (map (fun pq => mk_seg (fst pq) (snd pq)) (sides (box_points p q))).

Lemma box_side_straight p q s : box_side_of p q s -> (px (s0 s) == px (s1 s) \/ py (s0 s) == py (s1 s)) /\ In (s0 s) (box_points p q) /\ In (s1 s) (box_points p q).
Proof.
  unfold box_side_of. rewrite box_sides. cbv zeta. cbn [map fst snd].
  intros [<-|[<-|[<-|[<-|[]]]]]; cbn [s0 s1 px py]; (split; [first [left; reflexivity|right; reflexivity]|cbn; tauto]).
Qed.

Lemma near_vertex_on l c v n r : In v l -> pt_eqb v c = true -> relation_polygon n l c = Done r -> r = PP_ON.
Proof.
  intros I E. unfold relation_polygon. destruct (detect_bounding l) as [b| |]; cbn [bind]; try discriminate. destruct (detect_edges l) as [es| |]; cbn [bind]; try discriminate.
  generalize 0%nat. induction n as [|n IH]; intros k; [discriminate|]. rewrite ray_loop_S.
  assert (N : vertex_on_ray (mk_seg c (ray_end b c k)) c l <> Some false).
  { clear IH. induction l as [|w l IH]; [destruct I|]. cbn. destruct (pt_eqb w c) eqn:W; [discriminate|]. destruct (relation_point _ w); [|discriminate].
    destruct I as [->|I]; [congruence|now apply IH]. }
  destruct (vertex_on_ray _ c l) as [[|]|]; [apply IH|congruence|congruence].
Qed.

Lemma relation_unique n n' l c r r' : relation_polygon n l c = Done r -> relation_polygon n' l c = Done r' -> r = r'.
Proof.
  unfold relation_polygon. destruct (detect_bounding l) as [b| |]; cbn [bind]; try discriminate. destruct (detect_edges l) as [es| |]; cbn [bind]; try discriminate.
  intros A B. apply (ray_loop_more n (Nat.max n n')) in A; [|lia|discriminate]. apply (ray_loop_more n' (Nat.max n n')) in B; [|lia|discriminate]. congruence.
Qed.

Lemma side_bounds s : let b := seg_bounding s in
  (xmin b == px (s0 s) /\ xmax b == px (s1 s) /\ px (s0 s) <= px (s1 s) \/ xmin b == px (s1 s) /\ xmax b == px (s0 s) /\ px (s1 s) <= px (s0 s))
  /\ (ymin b == py (s0 s) /\ ymax b == py (s1 s) /\ py (s0 s) <= py (s1 s) \/ ymin b == py (s1 s) /\ ymax b == py (s0 s) /\ py (s1 s) <= py (s0 s)).
Proof.
  cbn. destruct (Qltb_spec (px (s0 s)) (px (s1 s))), (Qltb_spec (px (s1 s)) (px (s0 s))), (Qltb_spec (py (s0 s)) (py (s1 s))), (Qltb_spec (py (s1 s)) (py (s0 s)));
    try lra; (split; [first [left; lra|right; lra]|first [left; lra|right; lra]]).
Qed.

Lemma overlap_side_some a0 a1 b0 b1 u : overlap_side a0 a1 b0 b1 = Some u -> (b0 <= a0 /\ a0 <= b1) \/ (a0 <= b0 /\ b0 <= a1).
Proof.
  unfold overlap_side. destruct (Qle_bool b0 a0 && Qle_bool a0 b1) eqn:A.
  - intros _. left. apply andb_true_iff in A. now rewrite !Qle_bool_iff in A.
  - destruct (Qle_bool a0 b0 && Qle_bool b0 a1) eqn:B; [|discriminate]. intros _. right. apply andb_true_iff in B. now rewrite !Qle_bool_iff in B.
Qed.

(** An end of a short level edge that overlaps a level side of a box is on its border. *)
Lemma short_on p q a s c n r : box_side_of p q s -> py (s0 a) == py (s1 a) -> Qabs (px (s0 a) - px (s1 a)) < equality_tolerance ->
  ~ px (seg_vec s) == 0 -> overlap a s <> None -> c = s0 a \/ c = s1 a -> relation_polygon n (box_points p q) c = Done r -> r = PP_ON.
Proof.
  intros Bs Ya Xa Nv Ov Hc R. destruct (box_side_straight p q s Bs) as ([K|Ys] & I0 & I1).
  { exfalso. apply Nv. unfold seg_vec. cbn [pt_sub px]. lra. }
  unfold overlap, combine_segs in Ov. destruct (are_parallel a s); [|contradiction].
  destruct (overlap_side (xmin (seg_bounding a)) (xmax (seg_bounding a)) (xmin (seg_bounding s)) (xmax (seg_bounding s))) as [u|] eqn:Ox; [|contradiction].
  destruct (overlap_side (ymin (seg_bounding a)) (ymax (seg_bounding a)) (ymin (seg_bounding s)) (ymax (seg_bounding s))) as [w|] eqn:Oy; [|destruct u; contradiction].
  apply overlap_side_some in Ox, Oy. pose proof (side_bounds a) as Ba. pose proof (side_bounds s) as Bb. cbv zeta in Ba, Bb.
  destruct Ba as [Bax Bay], Bb as [Bbx Bby]. unfold equality_tolerance in *. pose proof (abs_cases (px (s0 a) - px (s1 a))) as Ab.
  set (xa := seg_bounding a) in *. set (xs := seg_bounding s) in *. clearbody xa xs.
  assert (Yc : py c == py (s0 s)) by (destruct Hc as [->| ->], Bay as [Bay|Bay], Bby as [Bby|Bby], Oy as [Oy|Oy]; lra).
  assert (Nv' : ~ px (s1 s) - px (s0 s) == 0) by exact Nv.
  destruct (Qlt_le_dec (px c) (xmin xs)) as [L|L]; [|destruct (Qlt_le_dec (xmax xs) (px c)) as [M|M]].
  - assert (exists v, In v (box_points p q) /\ px v == xmin xs /\ py v == py c) as (v & Iv & Vx & Vy).
    { destruct Bbx as [Bbx|Bbx]; [exists (s0 s)|exists (s1 s)]; (split; [assumption|split; lra]). }
    apply (near_vertex_on (box_points p q) c v n r Iv); [|assumption]. apply pt_eqb_close. unfold close. change (1 # 100000000) with equality_tolerance. unfold equality_tolerance.
    split; apply Qabs_Qlt_condition; [|lra]. destruct Hc as [->| ->], Bax as [Bax|Bax], Ox as [Ox|Ox], Ab as [Ab|Ab]; lra.
  - assert (exists v, In v (box_points p q) /\ px v == xmax xs /\ py v == py c) as (v & Iv & Vx & Vy).
    { destruct Bbx as [Bbx|Bbx]; [exists (s1 s)|exists (s0 s)]; (split; [assumption|split; lra]). }
    apply (near_vertex_on (box_points p q) c v n r Iv); [|assumption]. apply pt_eqb_close. unfold close. change (1 # 100000000) with equality_tolerance. unfold equality_tolerance.
    split; apply Qabs_Qlt_condition; [|lra]. destruct Hc as [->| ->], Bax as [Bax|Bax], Ox as [Ox|Ox], Ab as [Ab|Ab]; lra.
  - apply (relation_unique n 3 (box_points p q) c r PP_ON R). apply (box_border p q c s 0 Bs).
    exists ((px c - px (s0 s)) / (px (s1 s) - px (s0 s))). split; [|split].
    + destruct Bbx as [(B1 & B2 & B3)|(B1 & B2 & B3)].
      * assert (0 < px (s1 s) - px (s0 s)) as Pos by (apply Qnot_le_lt; intros K; apply Nv'; lra). split.
        -- apply Qle_shift_div_l; [assumption|lra].
        -- apply Qle_shift_div_r; [assumption|lra].
      * assert (0 < px (s0 s) - px (s1 s)) as Pos by (apply Qnot_le_lt; intros K; apply Nv'; lra).
        setoid_replace ((px c - px (s0 s)) / (px (s1 s) - px (s0 s))) with ((px (s0 s) - px c) / (px (s0 s) - px (s1 s))) by (field; split; lra). split.
        -- apply Qle_shift_div_l; [assumption|lra].
        -- apply Qle_shift_div_r; [assumption|lra].
    + field. exact Nv'.
    + rewrite Yc. setoid_replace (py (s1 s) - py (s0 s)) with 0 by lra. ring.
Qed.

Lemma box_axis p q s : box_side_of p q s -> seg_axis s <> SDIAG.
Proof.
  intros B. destruct (box_side_straight p q s B) as ([E|E] & _); unfold seg_axis, axis_of_vector, seg_vec; cbn [pt_sub px py].
  - rewrite (coord_eqb_same (px (s1 s) - px (s0 s)) 0) by lra. destruct (coord_eqb _ 0); discriminate.
  - rewrite (coord_eqb_same (py (s1 s) - py (s0 s)) 0) by lra. destruct (coord_eqb (px (s1 s) - px (s0 s)) 0); discriminate.
Qed.

Lemma short_point a : Qabs (px (s0 a) - px (s1 a)) < equality_tolerance -> Qabs (py (s0 a) - py (s1 a)) < equality_tolerance -> seg_axis a = SPOINT.
Proof.
  intros X Y. unfold seg_axis, axis_of_vector, seg_vec. cbn [pt_sub px py].
  assert (coord_eqb (px (s1 a) - px (s0 a)) 0 = true) as -> by (apply coord_eqb_zero; now rewrite Qabs_Qminus).
  assert (coord_eqb (py (s1 a) - py (s0 a)) 0 = true) as -> by (apply coord_eqb_zero; now rewrite Qabs_Qminus). reflexivity.
Qed.

Lemma box_two srt p q ea points ebs : sorts_by srt -> (px (s0 (e_seg ea)) == px (s1 (e_seg ea)) \/ py (s0 (e_seg ea)) == py (s1 (e_seg ea))) ->
  points = box_points p q -> (forall eb, In eb ebs -> box_side_of p q (e_seg eb)) -> two_points srt ea points ebs.
Proof.
  intros So St -> Bs n rel0 rel1 Ne R0 R1 Io. set (a := e_seg ea) in *.
  destruct (Qlt_le_dec (Qabs (px (s0 a) - px (s1 a))) equality_tolerance) as [X|X].
  2:{ apply straight_two; [assumption|]. destruct St as [St|St]; [|left; now split]. exfalso.
      setoid_replace (px (s0 a) - px (s1 a)) with 0 in X by lra. unfold equality_tolerance in X. cbn in X. lra. }
  destruct (Qlt_le_dec (Qabs (py (s0 a) - py (s1 a))) equality_tolerance) as [Y|Y].
  2:{ apply straight_two; [assumption|]. destruct St as [St|St]; [right; now split|]. exfalso.
      setoid_replace (py (s0 a) - py (s1 a)) with 0 in Y by lra. unfold equality_tolerance in Y. cbn in Y. lra. }
  exfalso. pose proof (short_point a X Y) as Ax.
  assert (exists eb, In eb ebs /\ overlap a (e_seg eb) <> None) as (eb & Ib & Ov).
  { assert (exists eb, In eb ebs /\ fst (met ea eb) <> []) as (eb & Ib & M).
    { clear - Ne. unfold met_points in Ne. induction ebs as [|e l IH]; [contradiction|]. cbn in Ne. destruct (fst (met ea e)) as [|x r] eqn:E.
      - destruct (IH Ne) as (eb & Ib & M). exists eb. split; [now right|assumption].
      - exists e. split; [now left|]. rewrite E. discriminate. }
    exists eb. split; [assumption|]. intros N. apply M. unfold met. fold a. destruct (relation_seg a (e_seg eb)); try reflexivity.
    - unfold intersection. rewrite Ax. pose proof (box_axis p q _ (Bs eb Ib)) as Nd. destruct (seg_axis (e_seg eb)); [reflexivity|reflexivity|contradiction|reflexivity].
    - now rewrite N. }
  assert (Nz : ~ px (seg_vec a) == 0 /\ ~ px (seg_vec (e_seg eb)) == 0).
  { unfold overlap, combine_segs in Ov. destruct (are_parallel a (e_seg eb)) eqn:P; [|contradiction]. unfold are_parallel in P. rewrite Ax in P. cbn [segaxis_eqb andb orb] in P.
    destruct (Qeq_bool (px (seg_vec a)) 0) eqn:A; [discriminate|]. destruct (Qeq_bool (px (seg_vec (e_seg eb))) 0) eqn:B; [discriminate|]. split; intros E; apply Qeq_bool_iff in E; congruence. }
  destruct Nz as [Na Nb]. assert (Ya : py (s0 a) == py (s1 a)).
  { destruct St as [St|St]; [|assumption]. exfalso. apply Na. unfold seg_vec. cbn [pt_sub px]. lra. }
  assert (rel0 = PP_ON) as -> by (apply (short_on p q a (e_seg eb) (s0 a) n rel0 (Bs eb Ib) Ya X Nb Ov); [now left|assumption]).
  assert (rel1 = PP_ON) as -> by (apply (short_on p q a (e_seg eb) (s1 a) n rel1 (Bs eb Ib) Ya X Nb Ov); [now right|assumption]).
  destruct Io; discriminate.
Qed.

(** * The location of points stops *)

Lemma ray_clear ray p l : (forall v, In v l -> relation_point ray v = PON -> pt_eqb v p = true) -> vertex_on_ray ray p l <> Some true.
Proof.
  induction l as [|v l IH]; intros H; cbn; [discriminate|]. destruct (pt_eqb v p) eqn:E; [discriminate|].
  destruct (relation_point ray v) eqn:R; [apply IH; intros w W; apply H; now right|]. rewrite (H v (or_introl eq_refl) R) in E. discriminate.
Qed.

Lemma ray_decides l p k : l <> [] -> (forall b, detect_bounding l = Done b -> vertex_on_ray (mk_seg p (ray_end b p k)) p l <> Some true) ->
  exists n r, relation_polygon n l p = Done r.
Proof.
  intros Ne H. unfold relation_polygon. destruct l as [|a l]; [contradiction|]. destruct (detect_bounding (a :: l)) as [b| |] eqn:B; [|discriminate|discriminate].
  destruct (detect_edges (a :: l)) as [e| |] eqn:F; [|discriminate|discriminate]. cbn [bind]. destruct (ray_loop_ends b (a :: l) e p k 0) as [r R]; [|eauto]. exact (H b eq_refl).
Qed.

Lemma level_free l p : (exists w, In w l /\ py w == py p) \/ forall w, In w l -> ~ py w == py p.
Proof.
  induction l as [|v l IH]; [right; intros w []|]. destruct (Qeq_dec (py v) (py p)) as [E|N]; [left; exists v; split; [now left|assumption]|].
  destruct IH as [(w & I & E)|H]; [left; exists w; split; [now right|assumption]|right]. intros w [<-|I]; [assumption|now apply H].
Qed.

Lemma levels_decide l p : l <> [] -> heights_apart l -> exists n r, relation_polygon n l p = Done r.
Proof.
  intros Ne La. destruct (level_free l p) as [(w & Iw & Ew)|Free].
  - destruct (relation_ends l p Ne) as (n & r & H); [|exists n, r; now apply H]. intros v Iv Vx Far. destruct (La v w Iv Iw) as [E|E].
    + rewrite (pt_eqb_same v p Vx) in Far; [discriminate|lra].
    + setoid_replace (py v - py p) with (py v - py w) by lra. assumption.
  - apply (ray_decides l p 0 Ne). intros b _. apply ray_clear. intros v Iv R. exfalso. cbn [ray_end] in R. apply ray_h_range in R. now apply (Free v Iv).
Qed.

Lemma box_decides p q c : exists n r, relation_polygon n (box_points p q) c = Done r.
Proof.
  destruct (level_free (box_points p q) c) as [(w & Iw & Ew)|Free].
  2:{ apply (ray_decides (box_points p q) c 0); [discriminate|]. intros b _. apply ray_clear. intros v Iv R. exfalso. cbn [ray_end] in R. apply ray_h_range in R. now apply (Free v Iv). }
  assert (V : forall v, In v (box_points p q) -> px v == px p \/ px v == px q).
  { intros v Hv. cbn in Hv. destruct Hv as [<-|[<-|[<-|[<-|[]]]]]; cbn [px]; first [left; reflexivity|right; reflexivity]. }
  assert (K : (~ px c == px p /\ ~ px c == px q) \/ (px c == px p \/ px c == px q)) by (destruct (Qeq_dec (px c) (px p)), (Qeq_dec (px c) (px q)); tauto).
  destruct K as [[N1 N2]|K].
  - apply (ray_decides (box_points p q) c 2); [discriminate|]. intros b _. apply ray_clear. intros v Iv R. exfalso. cbn [ray_end] in R. apply v_ray_vertex in R.
    destruct (V v Iv) as [E|E]; [apply N1|apply N2]; lra.
  - assert (L : (px c <= px p /\ px c <= px q) \/ (px p <= px c /\ px q <= px c)).
    { destruct (Qlt_le_dec (px p) (px q)), K; first [left; split; lra|right; split; lra]. }
    assert (B : forall b, detect_bounding (box_points p q) = Done b -> xmin b - 1 <= px c /\ px c <= xmax b + 1).
    { intros b B. pose proof (detect_bounding_tight _ _ B) as [I _]. assert (Bp := I (mk_pt (px p) (py p)) ltac:(cbn; tauto)). assert (Bq := I (mk_pt (px q) (py q)) ltac:(cbn; tauto)).
      destruct Bp as [Bp _], Bq as [Bq _]. cbn [px py] in Bp, Bq. destruct K; lra. }
    destruct L as [[L1 L2]|[L1 L2]].
    + apply (ray_decides (box_points p q) c 0); [discriminate|]. intros b Eb. apply ray_clear. intros v Iv R. cbn [ray_end] in R. apply ray_h_range in R. destruct R as [Ry [Rx _]].
      specialize (Rx (proj1 (B b Eb))). apply pt_eqb_same; [|assumption]. destruct (V v Iv) as [E|E], K; lra.
    + apply (ray_decides (box_points p q) c 1); [discriminate|]. intros b Eb. apply ray_clear. intros v Iv R. cbn [ray_end] in R. apply ray_h_range in R. destruct R as [Ry [_ Rx]].
      specialize (Rx (proj2 (B b Eb))). apply pt_eqb_same; [|assumption]. destruct (V v Iv) as [E|E], K; lra.
Qed.

(** * Boards *)

Lemma built_sides b k g ebs : built b -> nth_error (b_polygons b) k = Some g -> edges_at b (g_edges g) ebs ->
  map e_seg ebs = map (fun pq => mk_seg (fst pq) (snd pq)) (sides (g_points g)).
Proof.
  intros Bu G Es. destruct (so_proper b (built_sound b Bu) k g G) as (_ & _ & es & E & _ & S & _). assert (ebs = es) as ->; [|assumption].
  clear - E Es. unfold edges_at, edge_at in *. revert ebs Es. induction E as [|x y l l' X F IH]; intros ebs Es; inversion Es; subst; [reflexivity|].
  f_equal; [congruence|]. now apply IH.
Qed.

Lemma built_points b k g : built b -> nth_error (b_polygons b) k = Some g -> g_points g <> [].
Proof.
  intros Bu G N. destruct (so_proper b (built_sound b Bu) k g G) as (_ & _ & es & _ & _ & _ & P). rewrite N in P. discriminate.
Qed.

Lemma built_edge_side b i e : built b -> edge_at b i e ->
  exists k g, nth_error (b_polygons b) k = Some g /\ In (e_seg e) (map (fun pq => mk_seg (fst pq) (snd pq)) (sides (g_points g))).
Proof.
  intros Bu Ei. pose proof (built_sound b Bu) as [_ Pr [Ow _] _ _]. destruct (Ow i e Ei) as (k & g & G & I). exists k, g. split; [assumption|].
  destruct (Pr k g G) as (_ & _ & es & Es & _ & S & _). destruct (forall2_in _ _ _ Es i I) as (e' & J & E').
  assert (e' = e) as -> by (unfold edge_at in *; congruence). rewrite <- S. now apply in_map.
Qed.

Lemma fit_built (D : Prop) srt b : sorts_by srt -> permutes srt -> built b -> only_boxes b \/ edges_long b -> (D -> locatable b) -> fit D srt b.
Proof.
  intros So Pm Bu Ok Lo. constructor.
  - intros k g. now apply built_points.
  - intros d k g q G. destruct (Lo d k g G) as [(p & p' & ->)|La]; [apply box_decides|]. apply levels_decide; [now apply (built_points b k)|assumption].
  - intros i ea k g ebs Ei G Es. destruct Ok as [Bx|Lg].
    + destruct (Bx k g G) as (p & q & Pq). destruct (built_edge_side b i ea Bu Ei) as (k' & g' & G' & I). destruct (Bx k' g' G') as (p' & q' & Pq'). rewrite Pq' in I.
      apply (box_two srt p q); [assumption|apply (box_side_straight p' q' _ I)|assumption|]. intros eb Ib. unfold box_side_of. rewrite <- Pq, <- (built_sides b k g ebs Bu G Es). now apply in_map.
    + intros n rel0 rel1 Ne _ _ _.
      assert (Z : forall x y, Qabs (x - y) == 0 -> x == y) by (intros x y H; destruct (abs_cases (x - y)) as [K|K]; lra).
      destruct (Lg i ea Ei) as [(X & Y)|[(Y & X)|[(X & Y)|[F|F]]]].
      * exfalso. apply Ne. apply null_points. split; now apply Z.
      * apply straight_two; [assumption|]. left. split; [now apply Z|assumption].
      * apply straight_two; [assumption|]. right. split; [now apply Z|assumption].
      * apply far_two; [assumption|]. now left.
      * apply far_two; [assumption|]. now right.
Qed.
