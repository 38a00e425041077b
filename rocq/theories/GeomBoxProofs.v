(** Boxes: outward normals (C37), point location and its retry loop (C40). *)
From Coq Require Import List Arith Bool QArith Qabs Qminmax Qround Lqa Lia.
From Verif Require Import IntervalModel ManagerModel IntervalProofs ManagerMoreProofs GeomModel GeomSpec GeomProofs GeomSegProofs.
Import ListNotations.
Open Scope Q_scope.

Lemma Qmin_cases a b : (a <= b /\ Qmin a b == a) \/ (b <= a /\ Qmin a b == b).
Proof. destruct (Qlt_le_dec a b); [left|right]; (split; [lra|]); [apply Q.min_l|apply Q.min_r]; lra. Qed.
Lemma Qmax_cases a b : (b <= a /\ Qmax a b == a) \/ (a <= b /\ Qmax a b == b).
Proof. destruct (Qlt_le_dec a b); [right|left]; (split; [lra|]); [apply Q.max_r|apply Q.max_l]; lra. Qed.

Lemma abs_ge t d : t <= Qabs d -> t <= d \/ d <= - t.
Proof. intro H. destruct (Qlt_le_dec d 0); [right; rewrite Qabs_neg in H by lra|left; rewrite Qabs_pos in H by lra]; lra. Qed.

(** * The normals of a box *)

Lemma box_area p q : area2 (box_points p q) == - (2 * ((px q - px p) * (py q - py p))).
Proof. unfold area2. cbn. unfold det. cbn. ring. Qed.

Lemma box_sides p q : sides (box_points p q) =
  let a := mk_pt (px p) (py p) in let b := mk_pt (px p) (py q) in
  let c := mk_pt (px q) (py q) in let d := mk_pt (px q) (py p) in
  [(d, a); (a, b); (b, c); (c, d)].
Proof. reflexivity. Qed.

Lemma box_rotation p q : equality_tolerance <= Qabs ((px q - px p) * (py q - py p)) ->
  detect_rotation (box_points p q) <> COLINEAR.
Proof.
  intros H K. rewrite rotation_turn, (turn_wd _ _ (box_area p q)) in K. apply turn_colinear in K.
  apply abs_ge in H. lra.
Qed.

Lemma exact_h x0 x1 y : equality_tolerance <= Qabs (x1 - x0) -> exact (mk_seg (mk_pt x0 y) (mk_pt x1 y)).
Proof. intro H. split; cbn [s0 s1 px py]; intro K; lra. Qed.
Lemma exact_v x y0 y1 : equality_tolerance <= Qabs (y1 - y0) -> exact (mk_seg (mk_pt x y0) (mk_pt x y1)).
Proof. intro H. split; cbn [s0 s1 px py]; intro K; lra. Qed.

Lemma axis_h x0 x1 y : equality_tolerance <= Qabs (x1 - x0) -> seg_axis (mk_seg (mk_pt x0 y) (mk_pt x1 y)) = SH.
Proof. intro H. apply (straight_axis VH). split; [reflexivity|exact H]. Qed.
Lemma axis_v x y0 y1 : equality_tolerance <= Qabs (y1 - y0) -> seg_axis (mk_seg (mk_pt x y0) (mk_pt x y1)) = SV.
Proof. intro H. apply (straight_axis VV). split; [reflexivity|exact H]. Qed.

Lemma box_normal p q es e n c x :
  equality_tolerance <= Qabs (px q - px p) -> equality_tolerance <= Qabs (py q - py p) ->
  equality_tolerance <= Qabs ((px q - px p) * (py q - py p)) ->
  polygon_edges (box_points p q) = Done es -> In (e, n) es -> on_seg e c -> 0 < x ->
  ~ in_box (hull p q) (moved c n x)
  /\ (x <= Qabs (px q - px p) -> x <= Qabs (py q - py p) -> in_box (hull p q) (moved c n (- x))).
Proof.
  intros Hw Hh Ha Hes Hin Hc Hx.
  destruct (polygon_edges_in _ _ Hes) as [H1 H2]. specialize (H2 _ _ Hin).
  pose proof (box_rotation _ _ Ha) as Hr.
  assert (Hs : In e (map fst es)) by (apply in_map_iff; exists (e, n); split; [reflexivity|assumption]).
  rewrite H1, box_sides in Hs. cbv zeta in Hs. cbn [map fst snd] in Hs.
  assert (Hw' : equality_tolerance <= Qabs (px p - px q)) by (rewrite Qabs_Qminus; assumption).
  assert (Hh' : equality_tolerance <= Qabs (py p - py q)) by (rewrite Qabs_Qminus; assumption).
  assert (T : turn (- (2 * ((px q - px p) * (py q - py p)))) = detect_rotation (box_points p q)).
  { rewrite rotation_turn. symmetry. apply turn_wd, box_area. }
  assert (F : exact e /\ (seg_axis e = SH \/ seg_axis e = SV)).
  { destruct Hs as [<-|[<-|[<-|[<-|[]]]]].
    - split; [now apply exact_h|left; now apply axis_h].
    - split; [now apply exact_v|right; now apply axis_v].
    - split; [now apply exact_h|left; now apply axis_h].
    - split; [now apply exact_v|right; now apply axis_v]. }
  destruct F as [He Hax].
  pose proof (edge_normal_some _ _ _ H2 Hr Hax) as Hn.
  destruct (edge_normal_facts _ _ _ He H2 Hn) as [_ N]. clear H1 H2 Hin Hes Hn Hr He Hax es.
  assert (Tccw : detect_rotation (box_points p q) = CCW -> (px q - px p) * (py q - py p) < 0).
  { rewrite <- T. intro K. apply turn_ccw in K. unfold equality_tolerance in K. lra. }
  assert (Tcw : detect_rotation (box_points p q) = CW -> 0 < (px q - px p) * (py q - py p)).
  { rewrite <- T. intro K. apply turn_cw in K. unfold equality_tolerance in K. lra. }
  clear T Ha Hw' Hh'. destruct Hc as (t & Ht & Cx & Cy).
  destruct (abs_ge _ _ Hw) as [W|W], (abs_ge _ _ Hh) as [V|V]; unfold equality_tolerance in W, V.
  all: assert (W0 : Qabs (px q - px p) == px q - px p \/ Qabs (px q - px p) == - (px q - px p))
    by (first [left; apply Qabs_pos; lra | right; apply Qabs_neg; lra]).
  all: assert (V0 : Qabs (py q - py p) == py q - py p \/ Qabs (py q - py p) == - (py q - py p))
    by (first [left; apply Qabs_pos; lra | right; apply Qabs_neg; lra]).
  all: unfold in_box, hull; cbn [xmin xmax ymin ymax].
  all: destruct (Qmin_cases (px p) (px q)) as [[M1 M1']|[M1 M1']]; try (exfalso; lra).
  all: destruct (Qmax_cases (px p) (px q)) as [[M2 M2']|[M2 M2']]; try (exfalso; lra).
  all: destruct (Qmin_cases (py p) (py q)) as [[M3 M3']|[M3 M3']]; try (exfalso; lra).
  all: destruct (Qmax_cases (py p) (py q)) as [[M4 M4']|[M4 M4']]; try (exfalso; lra).
  all: rewrite M1', M2', M3', M4'; clear M1' M2' M3' M4'.
  all: assert (S : (0 < (px q - px p) * (py q - py p) /\ detect_rotation (box_points p q) <> CCW)
       \/ ((px q - px p) * (py q - py p) < 0 /\ detect_rotation (box_points p q) <> CW))
    by (first [left; split; [nra|intro K; specialize (Tccw K); nra] | right; split; [nra|intro K; specialize (Tcw K); nra]]).
  all: destruct S as [[S R]|[S R]]; try (exfalso; nra).
  all: destruct Hs as [<-|[<-|[<-|[<-|[]]]]]; cbn [s0 s1 px py seg_vec pt_sub] in *.
  all: destruct N as [(-> & E & [(? & N)|(? & N)])|[(-> & E & [(? & N)|(? & N)])|[(-> & E & [(? & N)|(? & N)])|(-> & E & [(? & N)|(? & N)])]]];
    try congruence; try (exfalso; lra).
  all: unfold moved; cbn [normal_vec px py].
  all: (split; [intros [? ?]; nra|intros X1 X2; destruct W0, V0; split; nra]).
Qed.

(** * Crossing of a horizontal ray with a side of the box *)

Lemma v_side_crossing X y0 y1 c E : let t := 2 * equality_tolerance in
  t <= Qabs (y1 - y0) * Qabs (px c - X) -> t <= Qabs (y1 - y0) * Qabs (E - X) ->
  ((px c < X /\ X < E) \/ (E < X /\ X < px c) -> 1 <= Qabs (E - px c)) ->
  t <= Qabs (y0 - py c) -> t <= Qabs (y1 - py c) ->
  relation_seg (mk_seg (mk_pt X y0) (mk_pt X y1)) (mk_seg c (mk_pt E (py c))) = CROSSING
  <-> ((px c < X /\ X < E) \/ (E < X /\ X < px c)) /\ ((y0 < py c /\ py c < y1) \/ (y1 < py c /\ py c < y0)).
Proof.
  cbv zeta. intros H1 H2 H3 H4 H5. unfold relation_seg. rewrite !rotation_triangle. cbn [s0 s1].
  rewrite <- !Qabs_Qmult in *.
  assert (E1 : turn (cross (mk_pt X y0) (mk_pt X y1) c) = turn (- ((y1 - y0) * (px c - X)))) by (apply turn_wd; unfold cross; cbn; ring).
  assert (E2 : turn (cross (mk_pt X y0) (mk_pt X y1) (mk_pt E (py c))) = turn (- ((y1 - y0) * (E - X)))) by (apply turn_wd; unfold cross; cbn; ring).
  assert (E3 : turn (cross c (mk_pt E (py c)) (mk_pt X y0)) = turn ((E - px c) * (y0 - py c))) by (apply turn_wd; unfold cross; cbn; ring).
  assert (E4 : turn (cross c (mk_pt E (py c)) (mk_pt X y1)) = turn ((E - px c) * (y1 - py c))) by (apply turn_wd; unfold cross; cbn; ring).
  rewrite E1, E2, E3, E4. clear E1 E2 E3 E4.
  rewrite !turn_opp.
  set (T1 := turn ((y1 - y0) * (px c - X))). set (T2 := turn ((y1 - y0) * (E - X))).
  set (T3 := turn ((E - px c) * (y0 - py c))). set (T4 := turn ((E - px c) * (y1 - py c))).
  assert (S1 : (T1 = CCW /\ 0 < (y1 - y0) * (px c - X)) \/ (T1 = CW /\ (y1 - y0) * (px c - X) < 0)).
  { destruct (abs_ge _ _ H1) as [K|K]; [left|right]; (split; [first [now apply turn_ccw|now apply turn_cw]|unfold equality_tolerance in K; lra]). }
  assert (S2 : (T2 = CCW /\ 0 < (y1 - y0) * (E - X)) \/ (T2 = CW /\ (y1 - y0) * (E - X) < 0)).
  { destruct (abs_ge _ _ H2) as [K|K]; [left|right]; (split; [first [now apply turn_ccw|now apply turn_cw]|unfold equality_tolerance in K; lra]). }
  assert (G : forall d y, 1 <= Qabs d -> 2 * equality_tolerance <= Qabs y ->
     (turn (d * y) = CCW /\ 0 < d * y) \/ (turn (d * y) = CW /\ d * y < 0)).
  { intros d y Hd Hy. assert (K : 2 * equality_tolerance <= Qabs (d * y)).
    { rewrite Qabs_Qmult. pose proof (Qabs_nonneg y). nra. }
    destruct (abs_ge _ _ K) as [L|L]; [left|right]; (split; [first [now apply turn_ccw|now apply turn_cw]|unfold equality_tolerance in L; lra]). }
  destruct S1 as [[-> S1]|[-> S1]], S2 as [[-> S2]|[-> S2]]; cbn [rotation_eqb opposite andb negb].
  - split; [destruct (rotation_eqb T3 T4); discriminate|]. intros [[[? ?]|[? ?]] _]; exfalso; nra.
  - assert (O : (px c < X /\ X < E) \/ (E < X /\ X < px c)).
    { destruct (Qlt_le_dec y0 y1); [right|left]; split; nra. }
    specialize (H3 O). destruct (G _ _ H3 H4) as [[E3 S3]|[E3 S3]], (G _ _ H3 H5) as [[E4 S4]|[E4 S4]];
      unfold T3, T4; rewrite E3, E4; cbn; (split; [first [discriminate | intros _]|first [reflexivity | intros [_ [[? ?]|[? ?]]]; exfalso; nra]]).
    + split; [exact O|]. destruct (Qlt_le_dec y0 y1); [left|right]; split; nra.
    + split; [exact O|]. destruct (Qlt_le_dec y0 y1); [left|right]; split; nra.
  - assert (O : (px c < X /\ X < E) \/ (E < X /\ X < px c)).
    { destruct (Qlt_le_dec y0 y1); [left|right]; split; nra. }
    specialize (H3 O). destruct (G _ _ H3 H4) as [[E3 S3]|[E3 S3]], (G _ _ H3 H5) as [[E4 S4]|[E4 S4]];
      unfold T3, T4; rewrite E3, E4; cbn; (split; [first [discriminate | intros _]|first [reflexivity | intros [_ [[? ?]|[? ?]]]; exfalso; nra]]).
    + split; [exact O|]. destruct (Qlt_le_dec y0 y1); [left|right]; split; nra.
    + split; [exact O|]. destruct (Qlt_le_dec y0 y1); [left|right]; split; nra.
  - split; [destruct (rotation_eqb T3 T4); discriminate|]. intros [[[? ?]|[? ?]] _]; exfalso; nra.
Qed.

Lemma h_side_no_crossing x0 x1 Y c E :
  relation_seg (mk_seg (mk_pt x0 Y) (mk_pt x1 Y)) (mk_seg c (mk_pt E (py c))) <> CROSSING.
Proof.
  unfold relation_seg. rewrite !rotation_triangle. cbn [s0 s1].
  assert (E1 : turn (cross (mk_pt x0 Y) (mk_pt x1 Y) c) = turn (cross (mk_pt x0 Y) (mk_pt x1 Y) (mk_pt E (py c))))
    by (apply turn_wd; unfold cross; cbn; ring).
  rewrite E1.
  assert (R : forall r, rotation_eqb r r = true) by (intros []; reflexivity).
  rewrite R. cbn [negb andb].
  repeat match goal with |- context [if ?c then _ else _] => destruct c end; discriminate.
Qed.

(** * Vertices and edges seen from a clear point *)

Lemma relation_point_box s p : relation_point s p = PON ->
  in_box (seg_bounding s) p.
Proof.
  unfold relation_point. intro H.
  destruct (rotation_eqb _ _); [|discriminate]. cbn [andb] in H.
  destruct (Qle_spec (px p) (qmax (px (s0 s)) (px (s1 s)))) as [A|]; [|discriminate].
  destruct (Qle_spec (qmin (px (s0 s)) (px (s1 s))) (px p)) as [B|]; [|discriminate].
  destruct (Qle_spec (py p) (qmax (py (s0 s)) (py (s1 s)))) as [C|]; [|discriminate].
  destruct (Qle_spec (qmin (py (s0 s)) (py (s1 s))) (py p)) as [D|]; [|discriminate].
  clear H. unfold qmin, qmax in *. unfold in_box. cbn.
  destruct (Qltb_spec (px (s0 s)) (px (s1 s))), (Qltb_spec (px (s1 s)) (px (s0 s))),
    (Qltb_spec (py (s0 s)) (py (s1 s))), (Qltb_spec (py (s1 s)) (py (s0 s))); lra.
Qed.

Lemma in_box_relation s p : in_box (seg_bounding s) p ->
  turn (cross (s0 s) (s1 s) p) = COLINEAR -> relation_point s p = PON.
Proof.
  intros [Hx Hy] T. unfold relation_point. rewrite rotation_triangle, T. cbn [rotation_eqb andb].
  destruct (seg_bounding_cases s) as [Cx Cy]. unfold qmin, qmax.
  destruct (Qltb_spec (px (s0 s)) (px (s1 s))), (Qltb_spec (px (s1 s)) (px (s0 s))),
    (Qltb_spec (py (s0 s)) (py (s1 s))), (Qltb_spec (py (s1 s)) (py (s0 s)));
  repeat match goal with |- context [Qle_bool ?a ?b] => destruct (Qle_spec a b) end; cbn; try reflexivity; exfalso;
  destruct Cx as [(? & ? & ?)|(? & ? & ?)], Cy as [(? & ? & ?)|(? & ? & ?)]; lra.
Qed.

Lemma on_seg_relation s p : on_seg s p -> relation_point s p = PON.
Proof.
  intro H. apply in_box_relation; [now apply seg_bounding_in|].
  destruct H as (t & Ht & Ex & Ey).
  assert (E : cross (s0 s) (s1 s) p == 0) by (unfold cross; rewrite Ex, Ey; ring).
  rewrite (turn_wd _ _ E). reflexivity.
Qed.

Lemma pt_eqb_far v p : equality_tolerance <= Qabs (px p - px v) \/ equality_tolerance <= Qabs (py p - py v) ->
  pt_eqb v p = false.
Proof.
  unfold pt_eqb, coord_eqb. intro H.
  destruct (Qltb_spec (Qabs (px v - px p)) equality_tolerance) as [A|A]; [|reflexivity].
  destruct (Qltb_spec (Qabs (py v - py p)) equality_tolerance) as [B|B]; [|reflexivity].
  rewrite Qabs_Qminus in A. rewrite Qabs_Qminus in B. lra.
Qed.

(** The count over the edges of a point that lies on one of them. *)
Lemma count_on ray p l : forall k e, In e l -> relation_point e p = PON -> count_crossings ray p l k = None.
Proof.
  induction l as [|a l IH]; intros k e H R; [destruct H|]. cbn.
  destruct H as [->|H]; [now rewrite R|].
  destruct (relation_point a p); [|reflexivity]. now apply (IH _ e).
Qed.

Lemma h_ray_vertex p x v : relation_point (mk_seg p (mk_pt x (py p))) v = PON -> py v == py p.
Proof.
  intro H. apply relation_point_box in H. destruct H as [_ H]. cbn in H.
  destruct (Qltb_spec (py p) (py p)); lra.
Qed.
Lemma v_ray_vertex p y v : relation_point (mk_seg p (mk_pt (px p) y)) v = PON -> px v == px p.
Proof.
  intro H. apply relation_point_box in H. destruct H as [H _]. cbn in H.
  destruct (Qltb_spec (px p) (px p)); lra.
Qed.

(** Scanning the vertices: never "no vertex" while one is on the point or the ray. *)
Lemma scan_clear ray p l :
  (forall v, In v l -> relation_point ray v = PON -> False) ->
  vertex_on_ray ray p l = None \/ vertex_on_ray ray p l = Some false.
Proof.
  induction l as [|v l IH]; intro H; cbn; [now right|].
  destruct (pt_eqb v p); [now left|]. destruct (relation_point ray v) eqn:R; [|exfalso; apply (H v); [now left|assumption]].
  apply IH. intros w Hw. apply H. now right.
Qed.

Lemma scan_clear_far ray p l :
  (forall v, In v l -> relation_point ray v = PON -> False) -> (forall v, In v l -> pt_eqb v p = false) ->
  vertex_on_ray ray p l = Some false.
Proof.
  induction l as [|v l IH]; intros H F; cbn; [reflexivity|].
  rewrite (F v) by now left. destruct (relation_point ray v) eqn:R; [|exfalso; apply (H v); [now left|assumption]].
  apply IH; intros w Hw; [apply H|apply F]; now right.
Qed.

Lemma ray_loop_S fuel b l e p n : ray_loop (Datatypes.S fuel) b l e p n =
  match vertex_on_ray (mk_seg p (ray_end b p n)) p l with
  | None => Done PP_ON
  | Some true => ray_loop fuel b l e p (Datatypes.S n)
  | Some false =>
      match count_crossings (mk_seg p (ray_end b p n)) p e 0 with
      | None => Done PP_ON
      | Some count => Done (if Nat.odd count then PP_IN else PP_OUT)
      end
  end.
Proof. reflexivity. Qed.

Lemma ray_loop_step fuel b l e p n r :
  ray_loop fuel b l e p n = r -> r <> Running -> ray_loop (Datatypes.S fuel) b l e p n = r.
Proof.
  revert n r. induction fuel as [|fuel IH]; intros n r H N; [cbn in H; congruence|].
  rewrite ray_loop_S in H. rewrite ray_loop_S. destruct (vertex_on_ray _ p l) as [[|]|]; try assumption. now apply IH.
Qed.

Lemma ray_loop_more fuel fuel' b l e p n r : (fuel <= fuel')%nat ->
  ray_loop fuel b l e p n = r -> r <> Running -> ray_loop fuel' b l e p n = r.
Proof. induction 1; intros H1 N; [assumption|]. apply ray_loop_step; auto. Qed.

(** A clear ray from a point of the border answers ON. *)
Lemma ray_on fuel b l e p n s :
  (forall v, In v l -> relation_point (mk_seg p (ray_end b p n)) v = PON -> pt_eqb v p = true) ->
  In s e -> relation_point s p = PON ->
  ray_loop (Datatypes.S fuel) b l e p n = Done PP_ON.
Proof.
  intros H Hs R.
  assert (G : vertex_on_ray (mk_seg p (ray_end b p n)) p l <> Some true).
  { clear Hs R. induction l as [|v l IH]; cbn; [discriminate|].
    destruct (pt_eqb v p) eqn:F; [discriminate|].
    destruct (relation_point (mk_seg p (ray_end b p n)) v) eqn:K.
    - apply IH. intros w Hw. apply H. now right.
    - rewrite H in F; [discriminate|now left|assumption]. }
  rewrite ray_loop_S. destruct (vertex_on_ray _ p l) as [[|]|]; [congruence| |reflexivity].
  now rewrite (count_on _ _ _ _ s Hs R).
Qed.

(** Whatever happened before, a point of an edge is reported ON as soon as a ray is clear. *)
Lemma ray_on_later fuel b l e p s n k :
  (forall v, In v l -> relation_point (mk_seg p (ray_end b p (n + k))) v = PON -> pt_eqb v p = true) ->
  In s e -> relation_point s p = PON ->
  ray_loop (Datatypes.S (k + fuel)) b l e p n = Done PP_ON.
Proof.
  revert n. induction k as [|k IH]; intros n H Hs R.
  - rewrite Nat.add_0_r in H. now apply ray_on with s.
  - change (Datatypes.S k + fuel)%nat with (Datatypes.S (k + fuel)).
    rewrite ray_loop_S.
    destruct (vertex_on_ray (mk_seg p (ray_end b p n)) p l) as [[|]|]; [| |reflexivity].
    + apply IH; try assumption. replace (Datatypes.S n + k)%nat with (n + Datatypes.S k)%nat by lia. assumption.
    + now rewrite (count_on _ _ _ _ s Hs R).
Qed.

Lemma box_bounding p q b : detect_bounding (box_points p q) = Done b ->
  xmin b == xmin (hull p q) /\ xmax b == xmax (hull p q) /\ ymin b == ymin (hull p q) /\ ymax b == ymax (hull p q).
Proof.
  intro H. apply detect_bounding_tight in H. destruct H as (I & (a1 & A1 & A1') & (a2 & A2 & A2') & (a3 & A3 & A3') & (a4 & A4 & A4')).
  assert (I1 := I (mk_pt (px p) (py p)) ltac:(cbn; tauto)). assert (I2 := I (mk_pt (px q) (py q)) ltac:(cbn; tauto)).
  destruct I1 as [I1 I1'], I2 as [I2 I2']. cbn [px py] in *. clear I.
  cbn [hull xmin xmax ymin ymax].
  destruct (Qmin_cases (px p) (px q)) as [[M1 M1']|[M1 M1']], (Qmax_cases (px p) (px q)) as [[M2 M2']|[M2 M2']],
    (Qmin_cases (py p) (py q)) as [[M3 M3']|[M3 M3']], (Qmax_cases (py p) (py q)) as [[M4 M4']|[M4 M4']];
  rewrite M1', M2', M3', M4'; clear M1' M2' M3' M4';
  (split; [clear A2 A3 A4 A2' A3' A4'|split; [clear A1 A3 A4 A1' A3' A4'|split; [clear A1 A2 A4 A1' A2' A4'|clear A1 A2 A3 A1' A2' A3']]]);
  match goal with H : In _ (box_points _ _) |- _ => cbn in H; destruct H as [<-|[<-|[<-|[<-|[]]]]]; cbn [px py] in *; lra end.
Qed.

(** * Location of a clear point *)

Lemma box_clear_scan p q c b : clear_of (hull p q) c ->
  vertex_on_ray (mk_seg c (ray_end b c 0)) c (box_points p q) = Some false.
Proof.
  intros (_ & _ & H).
  assert (X : forall v, In v (box_points p q) -> 2 * equality_tolerance <= Qabs (py c - py v)).
  { intros v Hv.
    assert (D0 := proj1 (H (py c - ymin (hull p q)) ltac:(cbn; tauto))).
    assert (D1 := proj1 (H (py c - ymax (hull p q)) ltac:(cbn; tauto))). cbn [hull ymin ymax] in D0, D1.
    assert (E : py v == py p \/ py v == py q) by (cbn in Hv; destruct Hv as [<-|[<-|[<-|[<-|[]]]]]; cbn; lra).
    destruct (Qmin_cases (py p) (py q)) as [[M M']|[M M']], (Qmax_cases (py p) (py q)) as [[N N']|[N N']];
      rewrite M' in D0; rewrite N' in D1; destruct E as [->| ->]; try assumption;
      (assert (Z : py p == py q) by lra); first [rewrite Z; assumption | rewrite <- Z; assumption]. }
  apply scan_clear_far.
  - intros v Hv R. specialize (X v Hv). cbn [ray_end] in R. apply h_ray_vertex in R.
    assert (Z : py c - py v == 0) by lra. rewrite Z in X. now vm_compute in X.
  - intros v Hv. apply pt_eqb_far. right. specialize (X v Hv). unfold equality_tolerance in *. lra.
Qed.

Definition count_if (b : bool) : nat := if b then 1%nat else 0%nat.

Lemma count_four ray c e1 e2 e3 e4 :
  relation_point e1 c = POUT -> relation_point e2 c = POUT -> relation_point e3 c = POUT -> relation_point e4 c = POUT ->
  relation_seg e1 ray <> CROSSING -> relation_seg e3 ray <> CROSSING ->
  forall b2 b4, (relation_seg e2 ray = CROSSING <-> b2 = true) -> (relation_seg e4 ray = CROSSING <-> b4 = true) ->
  count_crossings ray c [e1; e2; e3; e4] 0 = Some (count_if b2 + count_if b4)%nat.
Proof.
  intros R1 R2 R3 R4 N1 N3 b2 b4 C2 C4. cbn [count_crossings]. rewrite R1, R2, R3, R4.
  assert (G : forall e k, relation_seg e ray <> CROSSING -> (match relation_seg e ray with CROSSING => Datatypes.S k | _ => k end) = k).
  { intros e k N. destruct (relation_seg e ray); congruence. }
  rewrite (G e1 _ N1), (G e3 _ N3).
  destruct b2.
  - rewrite (proj2 C2 eq_refl). destruct b4; [now rewrite (proj2 C4 eq_refl)|].
    rewrite G; [reflexivity|]. intro K. apply C4 in K. discriminate.
  - rewrite (G e2) by (intro K; apply C2 in K; discriminate).
    destruct b4; [now rewrite (proj2 C4 eq_refl)|].
    rewrite G; [reflexivity|]. intro K. apply C4 in K. discriminate.
Qed.

Lemma v_side_out X y0 y1 c : ~ px c == X -> relation_point (mk_seg (mk_pt X y0) (mk_pt X y1)) c = POUT.
Proof.
  intro N. destruct (relation_point _ c) eqn:R; [reflexivity|]. exfalso. apply N.
  apply relation_point_box in R. destruct R as [R _]. cbn in R. destruct (Qltb_spec X X); lra.
Qed.
Lemma h_side_out x0 x1 Y c : ~ py c == Y -> relation_point (mk_seg (mk_pt x0 Y) (mk_pt x1 Y)) c = POUT.
Proof.
  intro N. destruct (relation_point _ c) eqn:R; [reflexivity|]. exfalso. apply N.
  apply relation_point_box in R. destruct R as [_ R]. cbn in R. destruct (Qltb_spec Y Y); lra.
Qed.

Lemma neq_far d : 2 * equality_tolerance <= Qabs d -> ~ d == 0.
Proof. intros H E. rewrite E in H. now vm_compute in H. Qed.

Lemma far_sum t a b : t <= Qabs a -> (a < 0 -> b <= a) -> (0 < a -> a <= b) -> ~ a == 0 -> t <= Qabs b.
Proof.
  intros H N P Z. destruct (Qlt_le_dec a 0) as [K|K].
  - specialize (N K). rewrite Qabs_neg in H by lra. rewrite Qabs_neg by lra. lra.
  - assert (0 < a) by (destruct (Qeq_dec a 0); [contradiction|lra]). specialize (P H0).
    rewrite Qabs_pos in H by lra. rewrite Qabs_pos by lra. lra.
Qed.

(** The value of the count, for sides at [xl < xr], from a clear point. *)
Lemma box_locate p q c fuel : clear_of (hull p q) c ->
  exists r, relation_polygon (Datatypes.S fuel) (box_points p q) c = Done r
    /\ (r = PP_IN <-> inside (hull p q) c) /\ (r = PP_OUT <-> ~ in_box (hull p q) c).
Proof.
  intro H. unfold relation_polygon.
  destruct (detect_bounding (box_points p q)) as [b| |] eqn:B; [|discriminate|discriminate].
  destruct (box_bounding _ _ _ B) as (B1 & B2 & B3 & B4).
  change (detect_edges (box_points p q)) with
    (Done (map (fun pq => mk_seg (fst pq) (snd pq)) (sides (box_points p q)))).
  rewrite box_sides. cbv zeta. cbn [map fst snd bind].
  rewrite ray_loop_S, (box_clear_scan _ _ _ _ H).
  set (E := xmin b - 1). change (ray_end b c 0) with (mk_pt E (py c)).
  destruct H as (Hw & Hh & H).
  destruct (H (px c - xmin (hull p q)) ltac:(cbn; tauto)) as (X1 & _ & X2).
  destruct (H (px c - xmax (hull p q)) ltac:(cbn; tauto)) as (X3 & _ & X4).
  destruct (H (py c - ymin (hull p q)) ltac:(cbn; tauto)) as (Y1 & _ & _).
  destruct (H (py c - ymax (hull p q)) ltac:(cbn; tauto)) as (Y2 & _ & _). clear H.
  set (xl := xmin (hull p q)) in *. set (xr := xmax (hull p q)) in *.
  set (yl := ymin (hull p q)) in *. set (yr := ymax (hull p q)) in *.
  assert (EE : E == xl - 1) by (unfold E; rewrite B1; reflexivity).
  assert (T : 0 < equality_tolerance) by reflexivity.
  (* one vertical side *)
  assert (V : forall X y0 y1, X == xl \/ X == xr -> (y0 == yl /\ y1 == yr) \/ (y0 == yr /\ y1 == yl) ->
    relation_seg (mk_seg (mk_pt X y0) (mk_pt X y1)) (mk_seg c (mk_pt E (py c))) = CROSSING
    <-> Qltb X (px c) && (Qltb yl (py c) && Qltb (py c) yr) = true).
  { intros X y0 y1 HX HY.
    assert (Ay : Qabs (y1 - y0) == yr - yl).
    { destruct HY as [[-> ->]|[-> ->]]; [apply Qabs_pos|rewrite Qabs_Qminus; apply Qabs_pos]; lra. }
    assert (Xc : 2 * equality_tolerance <= Qabs (px c - X) /\ 2 * equality_tolerance <= Qabs (y1 - y0) * Qabs (px c - X)).
    { rewrite Ay. destruct HX as [HX|HX]; rewrite HX; rewrite (Qmult_comm (yr - yl)); split; assumption. }
    destruct Xc as [Xc Xc'].
    assert (XE : 1 <= Qabs (E - X)).
    { rewrite Qabs_neg; destruct HX as [HX|HX]; rewrite HX, EE; lra. }
    assert (XE' : 2 * equality_tolerance <= Qabs (y1 - y0) * Qabs (E - X)) by (rewrite Ay; nra).
    rewrite (v_side_crossing X y0 y1 c E); try assumption.
    - rewrite !andb_true_iff, !Qltb_lt.
      assert (EX : E < X) by (destruct HX as [HX|HX]; rewrite HX, EE; lra).
      split.
      + intros [[[? ?]|[? ?]] K]; [lra|]. split; [assumption|]. destruct HY as [[HY1 HY2]|[HY1 HY2]]; rewrite HY1, HY2 in K; lra.
      + intros [K1 [K2 K3]]. split; [right; split; assumption|].
        destruct HY as [[HY1 HY2]|[HY1 HY2]]; rewrite HY1, HY2; [left|right]; split; assumption.
    - intros [[? ?]|[? ?]].
      + destruct HX as [HX|HX]; rewrite HX, EE in *; lra.
      + rewrite Qabs_neg by lra. destruct HX as [HX|HX]; rewrite EE in *; rewrite HX in *; lra.
    - destruct HY as [[-> _]|[-> _]]; rewrite Qabs_Qminus; assumption.
    - destruct HY as [[_ ->]|[_ ->]]; rewrite Qabs_Qminus; assumption. }
  assert (NX : forall X, X == xl \/ X == xr -> ~ px c == X).
  { intros X [->| ->] K; [apply (neq_far _ X1)|apply (neq_far _ X3)]; lra. }
  assert (NY : forall Y, Y == yl \/ Y == yr -> ~ py c == Y).
  { intros Y [->| ->] K; [apply (neq_far _ Y1)|apply (neq_far _ Y2)]; lra. }
  assert (Dx : (px p == xl /\ px q == xr) \/ (px p == xr /\ px q == xl)).
  { unfold xl, xr. cbn [hull xmin xmax]. destruct (Qmin_cases (px p) (px q)) as [[M M']|[M M']], (Qmax_cases (px p) (px q)) as [[N N']|[N N']];
      rewrite M', N'; first [left; split; lra|right; split; lra]. }
  assert (Dy : (py p == yl /\ py q == yr) \/ (py p == yr /\ py q == yl)).
  { unfold yl, yr. cbn [hull ymin ymax]. destruct (Qmin_cases (py p) (py q)) as [[M M']|[M M']], (Qmax_cases (py p) (py q)) as [[N N']|[N N']];
      rewrite M', N'; first [left; split; lra|right; split; lra]. }
  set (ins := Qltb yl (py c) && Qltb (py c) yr) in *.
  rewrite (count_four _ c _ _ _ _
    (h_side_out _ _ (py p) _ (NY (py p) ltac:(tauto))) (v_side_out (px p) _ _ _ (NX (px p) ltac:(tauto)))
    (h_side_out _ _ (py q) _ (NY (py q) ltac:(tauto))) (v_side_out (px q) _ _ _ (NX (px q) ltac:(tauto)))
    (h_side_no_crossing _ _ _ _ _) (h_side_no_crossing _ _ _ _ _)
    (Qltb (px p) (px c) && ins) (Qltb (px q) (px c) && ins)
    (V (px p) (py p) (py q) ltac:(tauto) ltac:(tauto)) (V (px q) (py q) (py p) ltac:(tauto) ltac:(tauto))).
  eexists. split; [reflexivity|].
  unfold inside, in_box. fold xl xr yl yr. unfold ins.
  assert (NX1 := NX xl ltac:(left; reflexivity)). assert (NX2 := NX xr ltac:(right; reflexivity)).
  assert (NY1 := NY yl ltac:(left; reflexivity)). assert (NY2 := NY yr ltac:(right; reflexivity)).
  clear V NX NY X1 X2 X3 X4 Y1 Y2 ins B B1 B2 B3 B4 E EE.
  destruct Dx as [[D1 D2]|[D1 D2]];
  destruct (Qltb_spec yl (py c)), (Qltb_spec (py c) yr), (Qltb_spec (px p) (px c)), (Qltb_spec (px q) (px c));
    cbn [andb count_if Nat.add Nat.odd Nat.even negb]; (split; split); intro K; try discriminate; try reflexivity;
    try (intros [[? ?] [? ?]]); try (split; split); lra.
Qed.
