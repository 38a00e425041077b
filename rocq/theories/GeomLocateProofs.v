(** Point location (C40): the border of a box, and the end of the retry loop for
    any polygon. *)
From Coq Require Import List Arith Bool QArith Qabs Qminmax Qround Lqa Lia.
From Verif Require Import IntervalModel ManagerModel IntervalProofs ManagerMoreProofs GeomModel GeomSpec GeomProofs GeomSegProofs GeomBoxProofs.
Import ListNotations.
Open Scope Q_scope.

Lemma pt_eqb_same v p : px v == px p -> py v == py p -> pt_eqb v p = true.
Proof.
  intros Hx Hy. unfold pt_eqb, coord_eqb.
  assert (Z : forall x y, x == y -> Qltb (Qabs (x - y)) equality_tolerance = true).
  { intros x y E. apply Qltb_lt. setoid_replace (x - y) with 0 by lra. reflexivity. }
  now rewrite !Z.
Qed.

Lemma ray_h_range c x v : relation_point (mk_seg c (mk_pt x (py c))) v = PON ->
  py v == py c /\ ((x <= px c -> px v <= px c) /\ (px c <= x -> px c <= px v)).
Proof.
  intro R. split; [now apply (h_ray_vertex c x)|].
  apply relation_point_box in R. destruct R as [R _]. destruct (seg_bounding_cases (mk_seg c (mk_pt x (py c)))) as [C _].
  cbn [s0 s1 px py] in C. destruct C as [(C & E1 & E2)|(C & E1 & E2)]; rewrite E1, E2 in R; split; intro; lra.
Qed.

Lemma box_border p q c s fuel : In s (map (fun pq => mk_seg (fst pq) (snd pq)) (sides (box_points p q))) ->
  on_seg s c -> relation_polygon (3 + fuel) (box_points p q) c = Done PP_ON.
Proof.
  intros Hs Hc. unfold relation_polygon.
  destruct (detect_bounding (box_points p q)) as [b| |] eqn:B; [|discriminate|discriminate].
  pose proof (detect_bounding_tight _ _ B) as [I _]. clear B.
  change (detect_edges (box_points p q)) with
    (Done (map (fun pq => mk_seg (fst pq) (snd pq)) (sides (box_points p q)))). cbn [bind].
  set (e := map _ _) in *.
  assert (V : forall v, In v (box_points p q) -> (px v == px p \/ px v == px q) /\ (py v == py p \/ py v == py q)).
  { intros v Hv. cbn in Hv. destruct Hv as [<-|[<-|[<-|[<-|[]]]]]; cbn [px py]; (split; [first [left; reflexivity|right; reflexivity]|first [left; reflexivity|right; reflexivity]]). }
  assert (Bp := I (mk_pt (px p) (py p)) ltac:(cbn; tauto)). assert (Bq := I (mk_pt (px q) (py q)) ltac:(cbn; tauto)).
  destruct Bp as [Bp Bp'], Bq as [Bq Bq']. cbn [px py] in Bp, Bp', Bq, Bq'.
  pose proof (on_seg_relation s c Hc) as R.
  assert (K : exists k, (k <= 2)%nat /\ forall v, In v (box_points p q) ->
     relation_point (mk_seg c (ray_end b c (0 + k))) v = PON -> pt_eqb v c = true).
  { assert (Corner : (px c == px p \/ px c == px q) -> exists k, (k <= 2)%nat /\ forall v, In v (box_points p q) ->
       relation_point (mk_seg c (ray_end b c (0 + k))) v = PON -> pt_eqb v c = true).
    { intro Hcx.
      assert (L : (px c <= px p /\ px c <= px q) \/ (px p <= px c /\ px q <= px c)).
      { destruct (Qlt_le_dec (px p) (px q)), Hcx; first [left; split; lra|right; split; lra]. }
      destruct L as [[L1 L2]|[L1 L2]].
      - exists 0%nat. split; [lia|]. intros v Hv Rv. cbn [ray_end Nat.add] in Rv. apply ray_h_range in Rv. destruct Rv as [Ry [Rx _]].
        apply pt_eqb_same; [|assumption]. destruct (V v Hv) as [[E|E] _]; destruct Hcx; specialize (Rx ltac:(lra)); lra.
      - exists 1%nat. split; [lia|]. intros v Hv Rv. cbn [ray_end Nat.add] in Rv. apply ray_h_range in Rv. destruct Rv as [Ry [_ Rx]].
        apply pt_eqb_same; [|assumption]. destruct (V v Hv) as [[E|E] _]; destruct Hcx; specialize (Rx ltac:(lra)); lra. }
    destruct Hc as (t & Ht & Cx & Cy).
    assert (W : ((px c == px p \/ px c == px q)) \/ (py c == py p \/ py c == py q)).
    { unfold e in Hs. rewrite box_sides in Hs. cbv zeta in Hs. cbn [map fst snd] in Hs.
      destruct Hs as [<-|[<-|[<-|[<-|[]]]]]; cbn [s0 s1 px py] in Cx, Cy.
      - right. left. rewrite Cy. ring.
      - left. left. rewrite Cx. ring.
      - right. right. rewrite Cy. ring.
      - left. right. rewrite Cx. ring. }
    destruct W as [W|W]; [now apply Corner|].
    destruct (Qeq_dec (px c) (px p)) as [E1|N1]; [apply Corner; now left|].
    destruct (Qeq_dec (px c) (px q)) as [E2|N2]; [apply Corner; now right|].
    exists 2%nat. split; [lia|]. intros v Hv Rv. cbn [ray_end Nat.add] in Rv. apply v_ray_vertex in Rv.
    exfalso. destruct (V v Hv) as [[E|E] _]; [apply N1|apply N2]; lra. }
  destruct K as (k & Hk & K).
  apply (ray_loop_more (Datatypes.S (k + 0))); [lia| |discriminate].
  now apply ray_on_later with s.
Qed.

(** * The retry loop stops *)

Lemma nat_above q : exists n, forall m, (n <= m)%nat -> q <= inject_Z (Z.of_nat m).
Proof.
  exists (Z.to_nat (Qceiling q)). intros m H.
  apply Qle_trans with (inject_Z (Qceiling q)); [apply Qle_ceiling|].
  rewrite <- Zle_Qle. lia.
Qed.

(** From some index on, a vertex off the vertical of the point is off the rays. *)
Lemma vertex_leaves b p v : px v <= xmax b ->
  (px v == px p -> 2 * equality_tolerance <= Qabs (py v - py p)) ->
  exists n, forall m, (n <= m)%nat -> relation_point (mk_seg p (ray_end b p (4 + m))) v = POUT.
Proof.
  intros Hv Hd.
  assert (F : forall m, 2 * equality_tolerance <= Qabs (cross p (ray_end b p (4 + m)) v) ->
     relation_point (mk_seg p (ray_end b p (4 + m))) v = POUT).
  { intros m H. unfold relation_point. rewrite rotation_triangle. cbn [s0 s1].
    destruct (turn (cross p (ray_end b p (4 + m)) v)) eqn:T; try reflexivity.
    exfalso. apply turn_colinear in T. apply abs_ge in H. lra. }
  set (D := xmax b + 1 - px p). set (dx := px v - px p). set (dy := py v - py p).
  assert (C : forall m, cross p (ray_end b p (4 + m)) v == D * dy - inject_Z (Z.of_nat (4 + m)) * dx).
  { intro m. unfold cross, D, dx, dy. cbn [ray_end Nat.add px py]. ring. }
  destruct (Qeq_dec dx 0) as [E|N].
  - exists 0%nat. intros m _. apply F. rewrite C, E.
    assert (V0 : px v == px p) by (unfold dx in E; lra).
    specialize (Hd V0). fold dy in Hd.
    assert (D1 : 1 <= D) by (unfold D; lra).
    setoid_replace (D * dy - inject_Z (Z.of_nat (4 + m)) * 0) with (D * dy) by ring.
    rewrite Qabs_Qmult, (Qabs_pos D) by lra. pose proof (Qabs_nonneg dy). nra.
  - assert (P : 0 < Qabs dx).
    { destruct (Qlt_le_dec 0 (Qabs dx)) as [K|K]; [assumption|]. exfalso. apply N.
      destruct (Qlt_le_dec dx 0) as [L|L]; [rewrite Qabs_neg in K by lra|rewrite Qabs_pos in K by lra]; lra. }
    destruct (nat_above ((2 * equality_tolerance + Qabs (D * dy)) / Qabs dx)) as [n Hn].
    exists n. intros m Hm. apply F. rewrite C.
    assert (M : (2 * equality_tolerance + Qabs (D * dy)) / Qabs dx <= inject_Z (Z.of_nat (4 + m))) by (apply Hn; lia).
    set (k := inject_Z (Z.of_nat (4 + m))) in *.
    assert (K : 2 * equality_tolerance + Qabs (D * dy) <= k * Qabs dx).
    { apply (Qmult_le_r _ _ (Qabs dx) P) in M. rewrite Qmult_comm, Qmult_div_r in M by lra. assumption. }
    assert (K0 : 0 <= k) by (unfold k; change 0 with (inject_Z 0); rewrite <- Zle_Qle; lia).
    assert (A : Qabs (k * dx) == k * Qabs dx) by (rewrite Qabs_Qmult, (Qabs_pos k) by assumption; reflexivity).
    assert (Tri : Qabs (k * dx) <= Qabs (D * dy - k * dx) + Qabs (D * dy)).
    { setoid_replace (k * dx) with (- (D * dy - k * dx) + D * dy) at 1 by ring.
      eapply Qle_trans; [apply Qabs_triangle|]. rewrite Qabs_opp. lra. }
    lra.
Qed.

Lemma vertices_leave b p l :
  (forall v, In v l -> px v <= xmax b) ->
  (forall v, In v l -> px v == px p -> pt_eqb v p = false -> 2 * equality_tolerance <= Qabs (py v - py p)) ->
  exists n, forall m, (n <= m)%nat -> vertex_on_ray (mk_seg p (ray_end b p (4 + m))) p l <> Some true.
Proof.
  induction l as [|v l IH]; intros Hb Hd.
  - exists 0%nat. intros. cbn. discriminate.
  - destruct IH as [n1 N1].
    { intros w Hw. apply Hb. now right. }
    { intros w Hw. apply Hd. now right. }
    destruct (pt_eqb v p) eqn:E.
    + exists 0%nat. intros m _. cbn [vertex_on_ray]. rewrite E. discriminate.
    + destruct (vertex_leaves b p v) as [n2 N2].
      { apply Hb. now left. }
      { intro H. apply Hd; [now left|assumption|assumption]. }
      exists (max n1 n2). intros m Hm. cbn [vertex_on_ray]. rewrite E.
      rewrite N2 by lia. apply N1. lia.
Qed.

Lemma ray_loop_ends b l e p : forall k n,
  vertex_on_ray (mk_seg p (ray_end b p (n + k))) p l <> Some true ->
  exists r, ray_loop (Datatypes.S k) b l e p n = Done r.
Proof.
  induction k as [|k IH]; intros n H.
  - rewrite Nat.add_0_r in H. rewrite ray_loop_S.
    destruct (vertex_on_ray _ p l) as [[|]|]; [congruence| |eexists; reflexivity].
    destruct (count_crossings _ p e 0); eexists; reflexivity.
  - rewrite ray_loop_S. destruct (vertex_on_ray (mk_seg p (ray_end b p n)) p l) as [[|]|]; [| |eexists; reflexivity].
    + apply IH. replace (Datatypes.S n + k)%nat with (n + Datatypes.S k)%nat by lia. assumption.
    + destruct (count_crossings _ p e 0); eexists; reflexivity.
Qed.

Lemma relation_ends l p : l <> [] ->
  (forall v, In v l -> px v == px p -> pt_eqb v p = false -> 2 * equality_tolerance <= Qabs (py v - py p)) ->
  exists fuel r, forall fuel', (fuel <= fuel')%nat -> relation_polygon fuel' l p = Done r.
Proof.
  intros Hl Hd. destruct l as [|a l]; [congruence|]. unfold relation_polygon.
  destruct (detect_bounding (a :: l)) as [b| |] eqn:B; [|discriminate|discriminate].
  destruct (detect_edges (a :: l)) as [e| |] eqn:F; [|discriminate|discriminate]. cbn [bind].
  destruct (vertices_leave b p (a :: l)) as [n N].
  { intros v Hv. apply detect_bounding_tight in B. destruct B as [B _]. destruct (B v Hv) as [H _]. lra. }
  { exact Hd. }
  destruct (ray_loop_ends b (a :: l) e p (4 + n) 0 (N n (le_n _))) as [r R].
  exists (Datatypes.S (4 + n)), r. intros fuel' H. now apply (ray_loop_more (Datatypes.S (4 + n))).
Qed.

(** * A point for which it does not *)

Definition stuck_polygon : list point :=
  [mk_pt 0 equality_tolerance; mk_pt (-1) 0; mk_pt 0 (-5); mk_pt (1 # 2) 0].
Definition stuck_box : box := mk_box (-1) (1 # 2) (-5) equality_tolerance.
Definition origin : point := mk_pt 0 0.

Lemma stuck_ray n : (4 <= n)%nat ->
  vertex_on_ray (mk_seg origin (ray_end stuck_box origin n)) origin stuck_polygon = Some true.
Proof.
  intro H. do 4 (destruct n as [|n]; [lia|]). cbn [vertex_on_ray stuck_polygon].
  assert (E : pt_eqb (mk_pt 0 equality_tolerance) origin = false) by reflexivity. rewrite E.
  set (k := inject_Z (Z.of_nat (Datatypes.S (Datatypes.S (Datatypes.S (Datatypes.S n)))))).
  assert (K : 4 <= k) by (unfold k; change 4 with (inject_Z 4); rewrite <- Zle_Qle; lia).
  assert (R : relation_point (mk_seg origin (ray_end stuck_box origin (Datatypes.S (Datatypes.S (Datatypes.S (Datatypes.S n))))))
                (mk_pt 0 equality_tolerance) = PON).
  { apply in_box_relation.
    - change (ray_end stuck_box origin (Datatypes.S (Datatypes.S (Datatypes.S (Datatypes.S n))))) with (mk_pt ((1 # 2) + 1) (0 + k)).
      destruct (seg_bounding_of 0 0 ((1 # 2) + 1) (0 + k)) as (E1 & E2 & E3 & E4); [lra|lra|].
      unfold in_box, origin in *. rewrite E1, E2, E3, E4. cbn [px py]. unfold equality_tolerance. lra.
    - apply turn_colinear. change (ray_end stuck_box origin (Datatypes.S (Datatypes.S (Datatypes.S (Datatypes.S n))))) with (mk_pt ((1 # 2) + 1) (0 + k)).
      unfold cross, origin, equality_tolerance. cbn [s0 s1 px py]. lra. }
  now rewrite R.
Qed.

Lemma stuck_forever fuel : relation_polygon fuel stuck_polygon origin = Running.
Proof.
  unfold relation_polygon.
  assert (B : detect_bounding stuck_polygon = Done stuck_box) by reflexivity. rewrite B. cbn [bind].
  assert (D : exists e, detect_edges stuck_polygon = Done e) by (eexists; reflexivity).
  destruct D as [e D]. rewrite D. cbn [bind].
  assert (G : forall fuel n, ray_loop fuel stuck_box stuck_polygon e origin n = Running); [|apply G].
  induction fuel0 as [|f IH]; intro n; [reflexivity|]. rewrite ray_loop_S.
  assert (S : vertex_on_ray (mk_seg origin (ray_end stuck_box origin n)) origin stuck_polygon = Some true).
  { do 4 (destruct n as [|n]; [vm_compute; reflexivity|]). apply stuck_ray. lia. }
  rewrite S. apply IH.
Qed.
