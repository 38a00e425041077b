(** A side of a rectilinear polygon on a grid that is dismissed is nowhere seen. *)
From Coq Require Import List Arith Bool Lia ZArith QArith Qabs Qminmax Lqa Sorting.Sorted Sorting.Permutation.
From Verif Require Import IntervalModel IntervalProofs ManagerModel ManagerSpec ManagerProofs GeomModel GeomSpec GeomProofs GeomSegProofs GeomBoxProofs GeomLocateProofs.
From Verif Require Import LocateSpec LocateProofs LocateRayProofs ShapeSpec.
From Verif Require Import BoardModel BoardSpec BoardProofs BoardColinearProofs BoardCoverProofs BoardDetectProofs BoardBuiltProofs BoardSafetyProofs BoardEndProofs EndSpec VisibleSpec GridProofs BoardVisibleProofs VisibleRunProofs LocateSpec.
Import ListNotations.
Open Scope Q_scope.

(** * On the border, but of a side that is not a point *)

Lemma chain_const (P : point -> bool) l : forall prev, (forall a b, In (a, b) (chain prev l) -> P a = P b) -> forall v, In v l -> P v = P prev.
Proof.
  induction l as [|x l IH]; intros prev H v [].
  - subst. symmetry. apply H. now left.
  - rewrite (IH x) with (v := v); [symmetry; apply H; now left|intros a b I; apply H; now right|assumption].
Qed.
Lemma chain_change (P : point -> bool) m : (forall a b, In (a, b) m -> P a = P b) \/ exists a b, In (a, b) m /\ P a <> P b.
Proof.
  induction m as [|[a b] m [IH|(c & d & I & N)]]; [left; intros a b []| |right; exists c, d; split; [now right|assumption]].
  destruct (bool_dec (P a) (P b)) as [E|E]; [left|right; exists a, b; split; [now left|assumption]].
  intros c d [K|K]; [injection K as <- <-; assumption|now apply IH].
Qed.
Definition same_ptb (p q : point) : bool := Qeq_bool (px p) (px q) && Qeq_bool (py p) (py q).
Lemma same_ptb_spec p q : same_ptb p q = true <-> same_pt p q.
Proof. unfold same_ptb, same_pt. rewrite andb_true_iff, !Qeq_bool_iff. reflexivity. Qed.

Lemma null_on s x : null_seg s -> on_seg s x -> same_pt (s0 s) x /\ same_pt (s1 s) x.
Proof. intros [X Y] (t & _ & Ex & Ey). unfold same_pt. rewrite Ex, Ey, X, Y. repeat split; ring. Qed.
Lemma on_same s x y : same_pt x y -> on_seg s x -> on_seg s y.
Proof. intros [X Y] (t & T & Ex & Ey). exists t. rewrite <- X, <- Y. now split. Qed.

(** The polygon is a point, or the point is on a side that is not. *)
Lemma border_long l x : on_border l x -> (forall v, In v l -> same_pt v x) \/ exists a b, In (a, b) (sides l) /\ on_seg (mk_seg a b) x /\ ~ null_seg (mk_seg a b).
Proof.
  intros (a & b & I & O). destruct (Qeq_dec (px a) (px b)) as [X|X]; [destruct (Qeq_dec (py a) (py b)) as [Y|Y]|]; [|right; exists a, b; split; [exact I|split; [exact O|intros [? ?]; contradiction]]..].
  assert (Nu : null_seg (mk_seg a b)) by now split. destruct (null_on _ _ Nu O) as [Sa Sb]. cbn [s0 s1] in Sa, Sb.
  destruct (chain_change (fun v => same_ptb v x) (sides l)) as [C|(c & d & Ic & N)].
  - left. intros v Iv. apply same_ptb_spec. destruct l as [|z l]; [destruct Iv|]. unfold sides in C, I.
    pose proof (fun w Iw => chain_const (fun v => same_ptb v x) (z :: l) _ C w Iw) as K. destruct (sides_in (z :: l) a b I) as [Ia _].
    rewrite (K v Iv), <- (K a Ia). now apply same_ptb_spec.
  - right. exists c, d. split; [exact Ic|]. assert (D : ~ null_seg (mk_seg c d)).
    { intros [Xc Yc]. cbn in Xc, Yc. apply N. unfold same_ptb. destruct (Qeq_bool (px c) (px x)) eqn:E1, (Qeq_bool (px d) (px x)) eqn:E2; cbn; try reflexivity.
      - destruct (Qeq_bool (py c) (py x)) eqn:E3, (Qeq_bool (py d) (py x)) eqn:E4; try reflexivity.
        + apply Qeq_bool_iff in E3. apply Qeq_bool_neq in E4. exfalso. apply E4. lra.
        + apply Qeq_bool_iff in E4. apply Qeq_bool_neq in E3. exfalso. apply E3. lra.
      - apply Qeq_bool_iff in E1. apply Qeq_bool_neq in E2. exfalso. apply E2. lra.
      - apply Qeq_bool_iff in E2. apply Qeq_bool_neq in E1. exfalso. apply E1. lra. }
    split; [|exact D]. destruct (same_ptb c x) eqn:Ec, (same_ptb d x) eqn:Ed; try congruence.
    + apply (on_same _ c); [now apply same_ptb_spec|apply (on_seg_s0 (mk_seg c d))].
    + apply (on_same _ d); [now apply same_ptb_spec|apply (on_seg_s1 (mk_seg c d))].
Qed.
Lemma point_enclosed l x y : (forall v, In v l -> same_pt v x) -> ~ enclosed l y.
Proof.
  intros H K. unfold enclosed in K. assert (E : filter (on_right y) (sides l) = []); [|rewrite E in K; discriminate].
  assert (F : forall s, In s (sides l) -> on_right y s = false).
  { intros [a b] I. destruct (sides_in _ _ _ I) as [Ia Ib]. apply flat_right. destruct (H a Ia), (H b Ib). lra. }
  revert F. generalize (sides l). intros m F. induction m as [|s m IH]; [reflexivity|]. cbn. rewrite (F s) by now left. apply IH. intros t T. apply F. now right.
Qed.

(** ** Deciding *)
Lemma straight_on_dec v s x : level v (s0 s) == level v (s1 s) -> on_seg s x \/ ~ on_seg s x.
Proof.
  intros L. rewrite (straight_box_gen s v L). apply in_box_dec.
Qed.
Lemma border_dec l x : rectilinear l -> on_border l x \/ ~ on_border l x.
Proof.
  intros R. assert (H : forall m, (forall a b, In (a, b) m -> px a == px b \/ py a == py b) -> (exists a b, In (a, b) m /\ on_seg (mk_seg a b) x) \/ ~ exists a b, In (a, b) m /\ on_seg (mk_seg a b) x); [|apply (H (sides l) R)].
  induction m as [|[a b] m IH]; intros W; [right; intros (a & b & [] & _)|]. destruct IH as [(c & d & I & O)|N]; [intros c d I; apply W; now right|left; exists c, d; split; [now right|assumption]|].
  assert (D : on_seg (mk_seg a b) x \/ ~ on_seg (mk_seg a b) x) by (destruct (W a b (or_introl eq_refl)); [apply (straight_on_dec VV)|apply (straight_on_dec VH)]; assumption).
  destruct D as [D|D]; [left; exists a, b; split; [now left|assumption]|]. right. intros (c & d & [E|I] & O); [injection E as <- <-; contradiction|]. apply N. now exists c, d.
Qed.

(** * The grid *)

Lemma grid_apart_pts N p q : (2 * (2 * N * (2 * N)) <= 100000000)%positive -> grid_point N p -> grid_point N q -> apart_pts p q.
Proof.
  intros F [Px Py] [Qx Qy].
  assert (G : forall x y, on_grid N x -> on_grid N y -> same_or_apart x y).
  { intros x y X Y. destruct (grid_sub N x y X Y) as [k K]. unfold same_or_apart. destruct (Z.eq_dec k 0) as [->|Z0]; [left; setoid_replace x with (x - y + y) by ring; rewrite K; unfold Qeq, Qplus; cbn; lia|].
    right. rewrite K. unfold spacing, Qabs, Qle. cbn. assert (Zpos N <= 3535)%Z by nia. lia. }
  split; now apply G.
Qed.
Lemma fine_half N : (2 * (2 * N * (2 * N)) <= 100000000)%positive -> (2 * (N * N) <= 100000000)%positive.
Proof. nia. Qed.
Lemma grid_double N x : on_grid N x -> on_grid (2 * N) x.
Proof. intros [k K]. exists (2 * k)%Z. rewrite K. unfold Qeq. cbn [Qnum Qden]. lia. Qed.
Lemma grid_point_double N p : grid_point N p -> grid_point (2 * N) p.
Proof. intros [X Y]. split; now apply grid_double. Qed.
Lemma grid_mid N p q : grid_point N p -> grid_point N q -> grid_point (2 * N) (pt_mid p q).
Proof.
  assert (G : forall x y, on_grid N x -> on_grid N y -> on_grid (2 * N) (coord_mid x y)).
  { intros x y [k K] [j J]. exists (k + j)%Z. unfold coord_mid. rewrite K, J. unfold Qeq, Qdiv, Qinv, Qplus, Qmult. cbn [Qnum Qden]. rewrite !Pos2Z.inj_mul. ring. }
  intros [Px Py] [Qx Qy]. split; now apply G.
Qed.
Lemma grid_overlap N a b r : (forall p, In p [s0 a; s1 a; s0 b; s1 b] -> grid_point N p) -> overlap a b = Some r -> grid_point N (s0 r) /\ grid_point N (s1 r).
Proof.
  intros G E. assert (A0 := G (s0 a) ltac:(cbn; tauto)). assert (A1 := G (s1 a) ltac:(cbn; tauto)). assert (B0 := G (s0 b) ltac:(cbn; tauto)). assert (B1 := G (s1 b) ltac:(cbn; tauto)).
  destruct A0 as [A0x A0y], A1 as [A1x A1y], B0 as [B0x B0y], B1 as [B1x B1y]. clear G.
  assert (S : forall a0 a1 b0 b1 x y, on_grid N a0 -> on_grid N a1 -> on_grid N b0 -> on_grid N b1 -> overlap_side a0 a1 b0 b1 = Some (x, y) -> on_grid N x /\ on_grid N y).
  { intros a0 a1 b0 b1 x y H0 H1 H2 H3 K. unfold overlap_side in K. pose proof (grid_whole N 0) as H4. change (inject_Z 0) with 0 in H4.
    repeat match type of K with context [if ?c then _ else _] => destruct c end; try discriminate; injection K as <- <-; split; assumption. }
  unfold overlap, combine_segs in E. destruct (are_parallel a b); [|discriminate].
  destruct (overlap_side (xmin (seg_bounding a)) (xmax (seg_bounding a)) (xmin (seg_bounding b)) (xmax (seg_bounding b))) as [[x0 x1]|] eqn:Ex; [|discriminate].
  destruct (overlap_side (ymin (seg_bounding a)) (ymax (seg_bounding a)) (ymin (seg_bounding b)) (ymax (seg_bounding b))) as [[y0 y1]|] eqn:Ey; [|discriminate].
  injection E as <-. apply S in Ex; [|unfold seg_bounding; cbn [xmin xmax]; destruct (Qltb _ _); assumption..]. apply S in Ey; [|unfold seg_bounding; cbn [ymin ymax]; destruct (Qltb _ _); assumption..].
  split; split; cbn [s0 s1 px py]; tauto.
Qed.

(** A segment along and one across that have a common point cross. *)
Lemma opposite_sides k x y : (0 < k \/ k < 0) -> (x <= 0 /\ 0 < y) \/ (x < 0 /\ 0 <= y) \/ (0 <= x /\ y < 0) \/ (0 < x /\ y <= 0) -> sign (k * x) <> sign (k * y).
Proof.
  intros K X. apply signs_differ. destruct K; destruct X as [[]|[[]|[[]|[]]]]; first [left; split; nra|right; left; split; nra|right; right; left; split; nra|right; right; right; split; nra].
Qed.
Lemma across_signs v N a b : (2 * (N * N) <= 100000000)%positive -> grid_point N (s0 a) -> grid_point N (s1 a) -> grid_point N (s0 b) -> grid_point N (s1 b) ->
  straight v a -> along v (s0 b) == along v (s1 b) -> ~ level v (s0 b) == level v (s1 b) ->
  level v (s0 b) <= level v (s0 a) <= level v (s1 b) \/ level v (s1 b) <= level v (s0 a) <= level v (s0 b) ->
  along v (s0 a) <= along v (s0 b) <= along v (s1 a) \/ along v (s1 a) <= along v (s0 b) <= along v (s0 a) -> relation_seg a b = CROSSING.
Proof.
  intros F G0 G1 G2 G3 [L A] Lb Nb Kl Ka. destruct a as [p q], b as [r s]. cbn [s0 s1] in *. apply (ray_crossing N); try assumption. apply abs_ge in A.
  assert (P : 0 < equality_tolerance) by reflexivity.
  assert (W' : level (reverse_view v) r == level (reverse_view v) s) by now rewrite !rev_level.
  assert (C1 := cross_level v p q r L). assert (C2 := cross_level v p q s L).
  assert (C3 := cross_level (reverse_view v) r s p W'). assert (C4 := cross_level (reverse_view v) r s q W'). rewrite !rev_level, !rev_along in C3, C4.
  rewrite (sign_wd _ _ C1), (sign_wd _ _ C2), (sign_wd _ _ C3), (sign_wd _ _ C4).
  assert (Wv : forall u x, 0 < x \/ x < 0 -> 0 < way u * x \/ way u * x < 0) by (intros u x X; destruct u; cbn [way]; lra).
  destruct (Q_dec (level v r) (level v s)) as [D|D]; [|contradiction].
  split; apply opposite_sides; [apply Wv; lra|destruct D; lra|apply Wv; destruct D; lra|lra].
Qed.

(** * An edge and a polygon *)

Section Shape.
Variables (v : ViewAxis) (ea : edge) (ebs : list edge) (l : list point) (N : positive) (fuel : nat) (srt : sort_by).
Let e := e_seg ea.
Hypothesis St : straight v e.
Hypothesis Sides : map e_seg ebs = map (fun pq => mk_seg (fst pq) (snd pq)) (sides l).
Hypothesis Rect : rectilinear l.
Hypothesis Fine : (2 * (2 * N * (2 * N)) <= 100000000)%positive.
Hypothesis Grid : forall x, In x (s0 e :: s1 e :: l) -> grid_point N x.
Hypothesis So : sorts_by srt.

Lemma is_side eb : In eb ebs -> exists a b, In (a, b) (sides l) /\ e_seg eb = mk_seg a b /\ In a l /\ In b l.
Proof.
  intros I. apply (in_map e_seg) in I. rewrite Sides in I. apply in_map_iff in I. destruct I as ([a b] & E & I). exists a, b. destruct (sides_in _ _ _ I). now repeat split.
Qed.
Lemma side_edge a b : In (a, b) (sides l) -> exists eb, In eb ebs /\ e_seg eb = mk_seg a b.
Proof.
  intros I. apply (in_map (fun pq => mk_seg (fst pq) (snd pq))) in I. rewrite <- Sides in I. apply in_map_iff in I. destruct I as (eb & E & I). now exists eb.
Qed.
Lemma side_points eb x : In eb ebs -> In x [s0 e; s1 e; s0 (e_seg eb); s1 (e_seg eb)] -> grid_point N x.
Proof. intros I X. destruct (is_side eb I) as (a & b & _ & E & A & B). rewrite E in X. apply Grid. cbn in X |- *. destruct X as [<-|[<-|[<-|[<-|[]]]]]; tauto. Qed.
Lemma side_apart' eb : In eb ebs -> apart_segs e (e_seg eb).
Proof. intros I x y X Y. apply (grid_apart_pts N); [exact Fine|now apply (side_points eb)..]. Qed.
Lemma side_ways' eb : In eb ebs -> along v (s0 (e_seg eb)) == along v (s1 (e_seg eb)) \/ level v (s0 (e_seg eb)) == level v (s1 (e_seg eb)).
Proof. intros I. destruct (is_side eb I) as (a & b & H & E & _). apply Rect in H. rewrite E. destruct v; cbn; tauto. Qed.
Lemma side_border eb x : In eb ebs -> on_seg (e_seg eb) x -> on_border l x.
Proof. intros I O. destruct (is_side eb I) as (a & b & H & E & _). rewrite E in O. now exists a, b. Qed.

Lemma by_grid x : on_grid N (level v x) -> on_grid N (along v x) -> grid_point N x.
Proof. intros A B. destruct v; split; assumption. Qed.
Lemma of_grid x : grid_point N x -> on_grid N (level v x) /\ on_grid N (along v x).
Proof. intros [A B]. destruct v; split; assumption. Qed.

(** What a side gives is on both, and on the grid. *)
Lemma met_facts eb : In eb ebs -> (forall x, In x (fst (met ea eb)) -> on_seg e x /\ on_seg (e_seg eb) x /\ grid_point N x)
  /\ forall r, snd (met ea eb) = Some r -> straight v r /\ same_line v e r /\ forall x, on_seg r x -> on_seg (e_seg eb) x.
Proof.
  intros I. pose proof (side_apart' eb I) as G. pose proof (side_ways' eb I) as W. unfold met. fold e.
  destruct (relation_seg e (e_seg eb)) eqn:R; try (split; [intros x []|intros r; discriminate]).
  - destruct W as [W|W].
    + destruct (across_crossing v e (e_seg eb) St W G R) as (x & E & H & H'). rewrite E. split; [|intros r; discriminate]. intros y [<-|[]]. split; [exact H|]. split; [exact H'|].
      apply (on_straight v e x (proj1 St)) in H. assert (W' : level (reverse_view v) (s0 (e_seg eb)) == level (reverse_view v) (s1 (e_seg eb))) by now rewrite !rev_level.
      apply (on_straight (reverse_view v) _ x W') in H'. rewrite !rev_level, !rev_along in H'. apply by_grid.
      * apply (grid_wd N (level v (s0 e))); [now symmetry|]. apply of_grid, Grid. now left.
      * apply (grid_wd N (along v (s0 (e_seg eb)))); [now symmetry|]. apply of_grid, (side_points eb _ I). cbn; tauto.
    + exfalso. apply crossing_turns in R. destruct R as [R _]. apply R. apply (same_level v); [apply St|assumption].
  - destruct (overlap e (e_seg eb)) as [r|] eqn:O; [|split; [intros x []|intros r; discriminate]].
    destruct (overlap_range v e (e_seg eb) r St G W R O) as (_ & _ & L & L' & H). destruct (on_ends r) as [E0 E1]. destruct (grid_overlap N e (e_seg eb) r (fun x X => side_points eb x I X) O) as [G0 G1]. split.
    + intros x [<-|[<-|[]]]; (split; [now apply H|split; [now apply H|assumption]]).
    + cbn [snd]. intros r' E. assert (r' = r /\ seg_axis r <> SPOINT) as [-> Ne] by (destruct (seg_axis r); (split; [congruence|discriminate]) || discriminate).
      split; [split; [assumption|]|split; [unfold same_line; now rewrite L'|intros x X; now apply H]].
      destruct (Qlt_le_dec (Qabs (along v (s1 r) - along v (s0 r))) equality_tolerance) as [K|K]; [|assumption]. exfalso. apply Ne.
      assert (Z : Qabs (level v (s1 r) - level v (s0 r)) < equality_tolerance) by (setoid_replace (level v (s1 r) - level v (s0 r)) with 0 by lra; reflexivity).
      unfold seg_axis, axis_of_vector, seg_vec, coord_eqb. cbn [pt_sub px py].
      assert (T : forall a b, Qabs (a - b) < equality_tolerance -> Qltb (Qabs (a - b - 0)) equality_tolerance = true).
      { intros a b H'. apply Qltb_lt. now setoid_replace (a - b - 0) with (a - b) by ring. }
      destruct v; cbn [level along] in K, Z; rewrite !T by assumption; reflexivity.
Qed.

(** A common point is one of those given, or in a common range whose ends are given. *)
Lemma met_all eb x : In eb ebs -> ~ null_seg (e_seg eb) -> on_seg e x -> on_seg (e_seg eb) x ->
  (exists y, In y (fst (met ea eb)) /\ same_pt x y)
  \/ exists r, fst (met ea eb) = [s0 r; s1 r] /\ level v (s0 r) == level v (s1 r) /\ on_seg r x /\ forall z, on_seg r z -> on_seg e z /\ on_seg (e_seg eb) z.
Proof.
  intros I Nn Oe Ob. pose proof (side_apart' eb I) as G. pose proof (fun x X => side_points eb x I X) as Gp.
  assert (A0 := G (s0 (e_seg eb)) (s1 (e_seg eb)) ltac:(cbn; tauto) ltac:(cbn; tauto)).
  assert (P : 0 < equality_tolerance) by reflexivity. pose proof St as [L A]. apply abs_ge in A.
  destruct (Qeq_dec (level v (s0 (e_seg eb))) (level v (s1 (e_seg eb)))) as [W|W].
  - right. assert (Na : ~ along v (s0 (e_seg eb)) == along v (s1 (e_seg eb))).
    { intros K. apply Nn. destruct v; split; cbn in *; assumption. }
    assert (Sb : straight v (e_seg eb)).
    { split; [exact W|]. destruct (apart_along v _ _ A0) as [K|K]; [contradiction|]. rewrite Qabs_Qminus. unfold spacing, equality_tolerance in *. lra. }
    assert (Sl : same_line v e (e_seg eb)).
    { apply (on_straight v) in Oe; [|exact L]. apply (on_straight v) in Ob; [|exact W]. unfold same_line. lra. }
    destruct (relation_line v e (e_seg eb) St Sb Sl) as [[R _]|[_ K]]; [|exfalso; apply (K x); now split].
    pose proof (overlap_straight v e (e_seg eb) St Sb Sl) as O. unfold met. fold e. rewrite R. destruct (overlap e (e_seg eb)) as [r|]; [|exfalso; apply (O x); now split].
    exists r. split; [reflexivity|]. split; [|split; [apply O; now split|intros z Z; now apply O]].
    destruct (on_ends r) as [E0 E1]. apply O in E0, E1. destruct E0 as [E0 _], E1 as [E1 _]. apply (on_straight v e _ L) in E0, E1. lra.
  - left. destruct (side_ways' eb I) as [Wa|Wa]; [|contradiction].
    assert (W' : level (reverse_view v) (s0 (e_seg eb)) == level (reverse_view v) (s1 (e_seg eb))) by now rewrite !rev_level.
    pose proof Oe as Oe'. pose proof Ob as Ob'. apply (on_straight v) in Oe'; [|exact L]. apply (on_straight (reverse_view v)) in Ob'; [|exact W']. rewrite !rev_level, !rev_along in Ob'.
    assert (R : relation_seg e (e_seg eb) = CROSSING) by (apply (across_signs v N); [exact (fine_half N Fine)|apply Gp; cbn; tauto..|exact St|exact Wa|exact W|lra|lra]).
    destruct (across_crossing v e (e_seg eb) St Wa G R) as (y & E & H & H'). exists y. unfold met. fold e. rewrite R, E. split; [now left|].
    apply (on_straight v) in H; [|exact L]. apply (on_straight (reverse_view v)) in H'; [|exact W']. rewrite !rev_level, !rev_along in H'.
    assert (level v x == level v y /\ along v x == along v y) as [X Y] by lra. destruct v; split; assumption.
Qed.

Lemma points_on x : In x (met_points ea ebs) -> on_seg e x /\ on_border l x /\ grid_point N x.
Proof. intros I. apply in_flat_map in I. destruct I as (eb & I & X). destruct (met_facts eb I) as [H _]. destruct (H x X) as (A & B & C). split; [exact A|split; [exact (side_border eb x I B)|exact C]]. Qed.

(** Points of the edge on the border: given, or in a common range whose ends are. *)
Lemma border_met x : on_border l x -> on_seg e x -> (exists w, enclosed l w) ->
  (exists y, In y (met_points ea ebs) /\ same_pt x y)
  \/ exists r, In (s0 r) (met_points ea ebs) /\ In (s1 r) (met_points ea ebs) /\ level v (s0 r) == level v (s1 r) /\ on_seg r x /\ forall z, on_seg r z -> on_border l z.
Proof.
  intros B O [w En]. destruct (border_long l x B) as [Pt|(a & b & I & Os & Nn)]; [exfalso; exact (point_enclosed l x w Pt En)|].
  destruct (side_edge a b I) as (eb & Ib & Es). rewrite <- Es in Os, Nn. destruct (met_all eb x Ib Nn O Os) as [(y & Y & S)|(r & F & L & X & Z)].
  - left. exists y. split; [|exact S]. apply in_flat_map. now exists eb.
  - right. exists r. split; [apply in_flat_map; exists eb; split; [exact Ib|rewrite F; now left]|]. split; [apply in_flat_map; exists eb; split; [exact Ib|rewrite F; right; now left]|].
    split; [exact L|]. split; [exact X|]. intros z Hz. apply (side_border eb z Ib). now apply Z.
Qed.

(** * The pieces *)

Let cuts := unique (sort_points srt (seg_vec e) (met_points ea ebs ++ [s0 e; s1 e])).

Lemma cuts_facts : StronglySorted (gap v e) cuts
  /\ (forall x, In x cuts -> on_seg e x /\ grid_point N x)
  /\ forall x, In x (met_points ea ebs) \/ x = s0 e \/ x = s1 e -> exists k, In k cuts /\ same_pt k x.
Proof.
  set (l0 := met_points ea ebs ++ [s0 e; s1 e]) in *. destruct (sort_along v e St srt l0 So) as [P S].
  assert (L0 : forall x, In x l0 <-> In x (met_points ea ebs) \/ x = s0 e \/ x = s1 e).
  { intros x. unfold l0. rewrite in_app_iff. cbn. intuition. }
  assert (G : forall x, In x l0 -> on_seg e x /\ grid_point N x).
  { intros x I. apply L0 in I. destruct I as [I|[->| ->]]; [destruct (points_on x I) as (? & _ & ?); now split|split; [apply on_ends|apply Grid; now left]|split; [apply on_ends|apply Grid; right; now left]]. }
  assert (O : forall x, In x (sort_points srt (seg_vec e) l0) -> on_seg e x).
  { intros x I. apply (Permutation_in x (Permutation_sym P)) in I. now apply G. }
  destruct (unique_gap v e St _ O S) as (U1 & U2 & U3). fold cuts in U1, U2, U3. split; [assumption|].
  assert (C : forall x, In x cuts -> on_seg e x /\ grid_point N x).
  { intros x I. apply G. apply U2 in I. exact (Permutation_in x (Permutation_sym P) I). }
  split; [exact C|]. intros x I. apply L0 in I. destruct (U3 x (Permutation_in x P I)) as (k & K & E). exists k. split; [exact K|].
  apply (grid_eqb N); [exact (fine_half N Fine)|now apply C|now apply G|exact E].
Qed.

Lemma key_same x y : same_pt x y -> key v e x == key v e y.
Proof. intros [X Y]. unfold key. destruct (Qltb _ _), v; cbn; rewrite ?X, ?Y; reflexivity. Qed.
Lemma same_key x y : on_seg e x -> on_seg e y -> key v e x == key v e y -> same_pt x y.
Proof.
  intros X Y K. apply (on_key v e St) in X, Y. assert (A : along v x == along v y) by (unfold key in K; destruct (Qltb _ _); lra).
  assert (Lv : level v x == level v y) by lra. destruct v; split; assumption.
Qed.
Lemma on_between a b x : on_seg e a -> on_seg e b -> key v e a <= key v e b -> (on_seg (mk_seg a b) x <-> on_seg e x /\ key v e a <= key v e x <= key v e b).
Proof.
  intros A B K. apply (on_key v e St) in A, B. rewrite (on_key v e St x). assert (L : level v (s0 (mk_seg a b)) == level v (s1 (mk_seg a b))) by (cbn; lra).
  rewrite (on_straight v _ x L). cbn [s0 s1]. unfold key in *. destruct (Qltb (along v (s0 e)) (along v (s1 e))); split; intros; lra.
Qed.

(** Between two cuts in a row, where a point is off the border, only the ends may be on it. *)
Lemma cut_border l1 x y l2 m z : cuts = l1 ++ x :: y :: l2 -> on_seg (mk_seg x y) m -> ~ on_border l m -> enclosed l m ->
  on_seg e z -> key v e x < key v e z -> key v e z < key v e y -> ~ on_border l z.
Proof.
  intros E M Nm En Oz Zx Zy B. destruct cuts_facts as (S & C & K). rewrite E in S, C, K.
  assert (Ix : In x (l1 ++ x :: y :: l2)) by (apply in_or_app; right; now left). assert (Iy : In y (l1 ++ x :: y :: l2)) by (apply in_or_app; right; right; now left).
  assert (S' : StronglySorted (gap v e) ((l1 ++ [x]) ++ y :: l2)) by (rewrite <- app_assoc; exact S).
  destruct (sorted_later _ _ _ _ S) as [Bf Af], (sorted_later _ _ _ _ S') as [_ Af']. assert (P : 0 < equality_tolerance) by reflexivity.
  assert (Cut : forall w, In w (l1 ++ x :: y :: l2) -> key v e w <= key v e x \/ key v e y <= key v e w).
  { intros w W. apply in_app_or in W. destruct W as [W|[<-|[<-|W]]]; [left; pose proof (Bf w W) as H; unfold gap in H; lra|left; lra|right; lra|right; pose proof (Af' w W) as H; unfold gap in H; lra]. }
  assert (Near : forall w, In w (met_points ea ebs) -> key v e w <= key v e x \/ key v e y <= key v e w).
  { intros w W. destruct (K w (or_introl W)) as (k & Ik & Sk). rewrite <- (key_same k w Sk). now apply Cut. }
  destruct (border_met z B Oz (ex_intro _ m En)) as [(w & W & Sw)|(r & R0 & R1 & L & Rz & Rb)].
  - pose proof (Near w W) as H. rewrite <- (key_same z w Sw) in H. lra.
  - apply Nm, Rb. destruct (points_on _ R0) as (O0 & _), (points_on _ R1) as (O1 & _). destruct (C x Ix) as [Ox _], (C y Iy) as [Oy _].
    apply (on_between x y m Ox Oy) in M; [|lra]. destruct M as [Om M].
    pose proof (Near _ R0) as H0. pose proof (Near _ R1) as H1. apply (on_key v e St) in Om, O0, O1.
    apply (on_straight v r z L) in Rz. apply (on_straight v r m L). split; [lra|]. destruct Rz as [_ Rz]. unfold key in *. destruct (Qltb (along v (s0 e)) (along v (s1 e))); lra.
Qed.

Definition inner (r : seg) : Prop := straight v r /\ same_line v e r /\ forall x, on_seg r x -> in_polygon l x.

Lemma joined_in m z : enclosed l m -> ~ on_border l m -> (forall x, on_seg (mk_seg m z) x -> ~ on_border l x) -> in_polygon l z.
Proof. intros En _ H. right. now apply (LocateProofs.joined l m z H). Qed.

Lemma cut_inner l1 x y l2 m : cuts = l1 ++ x :: y :: l2 -> on_seg (mk_seg x y) m -> ~ on_border l m -> enclosed l m -> inner (mk_seg x y).
Proof.
  intros E M Nm En. destruct cuts_facts as (S & C & K). rewrite E in S, C.
  destruct (C x ltac:(apply in_or_app; right; now left)) as [Ox _], (C y ltac:(apply in_or_app; right; right; now left)) as [Oy _].
  destruct (sorted_later _ _ _ _ S) as [_ Af]. assert (G : gap v e x y) by (apply Af; now left). assert (P : 0 < equality_tolerance) by reflexivity.
  destruct (gap_range v e St x y Ox Oy G) as [R1 R2]. split; [exact R1|split; [exact R2|]]. unfold gap in G. assert (Le : key v e x <= key v e y) by lra.
  intros z Z. destruct (border_dec l z Rect) as [B|Nz]; [now left|]. apply (joined_in m z En Nm). intros w W Bw.
  pose proof M as M'. apply (on_between x y m Ox Oy Le) in M'. pose proof Z as Z'. apply (on_between x y z Ox Oy Le) in Z'. destruct M' as [Om Km], Z' as [Oz Kz].
  assert (Ww : on_seg e w /\ (key v e m <= key v e w <= key v e z \/ key v e z <= key v e w <= key v e m)).
  { destruct (Qlt_le_dec (key v e z) (key v e m)) as [H|H].
    - assert (W' : on_seg (mk_seg z m) w) by (destruct W as (t & T & X & Y); exists (1 - t); cbn in *; rewrite X, Y; split; [lra|split; ring]). apply (on_between z m w Oz Om) in W'; [|lra]. tauto.
    - apply (on_between m z w Om Oz H) in W. tauto. }
  destruct Ww as [Ow Kw].
  assert (Not : forall u, on_seg e u -> ~ on_border l u -> key v e w == key v e u -> False).
  { intros u U Nu H. apply Nu. apply (border_wd l w u); [now apply same_key|exact Bw]. }
  assert (key v e x < key v e w /\ key v e w < key v e y) as [K1 K2].
  { pose proof (Not m Om Nm) as H1. pose proof (Not z Oz Nz) as H2. destruct (Qeq_dec (key v e w) (key v e m)) as [H|H]; [now exfalso|]. destruct (Qeq_dec (key v e w) (key v e z)) as [H'|H']; [now exfalso|].
    assert (D : forall a b : Q, ~ a == b -> a < b \/ b < a) by (intros a b Hn; destruct (Q_dec a b) as [[?|?]|?]; tauto). destruct (D _ _ H), (D _ _ H'); lra. }
  exact (cut_border l1 x y l2 m w E M Nm En Ow K1 K2 Bw).
Qed.

Lemma located_in p : grid_point (2 * N) p -> relation_polygon fuel l p = Done PP_IN -> ~ on_border l p /\ enclosed l p.
Proof. intros G R. exact (grid_locate (2 * N) l p fuel PP_IN Fine (fun w W => grid_point_double N w (Grid w (or_intror (or_intror W)))) G R). Qed.

Lemma first_cut x l2 : cuts = x :: l2 -> same_pt x (s0 e).
Proof.
  intros E. destruct cuts_facts as (S & C & K). destruct (K (s0 e)) as (k & Ik & Sk); [right; now left|]. rewrite E in S, C, Ik. destruct Ik as [<-|Ik]; [exact Sk|]. exfalso.
  apply StronglySorted_inv in S. destruct S as [_ F]. rewrite Forall_forall in F. pose proof (F k Ik) as G. destruct (C x (or_introl eq_refl)) as [O _]. apply (on_key v e St) in O.
  pose proof (key_same k (s0 e) Sk). assert (P : 0 < equality_tolerance) by reflexivity. unfold gap in G. lra.
Qed.
Lemma final_cut y l1 : cuts = l1 ++ [y] -> same_pt y (s1 e).
Proof.
  intros E. destruct cuts_facts as (S & C & K). destruct (K (s1 e)) as (k & Ik & Sk); [right; now right|]. rewrite E in S, C, Ik. apply in_app_or in Ik. destruct Ik as [Ik|[<-|[]]]; [|exact Sk]. exfalso.
  destruct (sorted_later _ _ _ _ S) as [Bf _]. pose proof (Bf k Ik) as G. destruct (C y ltac:(apply in_or_app; right; now left)) as [O _]. apply (on_key v e St) in O.
  pose proof (key_same k (s1 e) Sk). assert (P : 0 < equality_tolerance) by reflexivity. unfold gap in G. lra.
Qed.
Lemma mid_on a b : on_seg (mk_seg a b) (pt_mid a b).
Proof. exists (1 # 2). split; [lra|]. unfold pt_mid, coord_mid. cbn. split; field. Qed.

Lemma found_inner r : found fuel srt ea l ebs r -> inner r.
Proof.
  intros F. destruct F as [No R0 R1|rel0 rel1 cs r Ne R0 R1 C I P]; fold e in R0, R1.
  - fold e. destruct (located_in (s0 e)) as [Nb En]; [apply grid_point_double, Grid; now left|exact R0|].
    assert (Nob : forall w, on_seg e w -> ~ on_border l w).
    { intros w O B. destruct (border_met w B O (ex_intro _ _ En)) as [(y & Y & _)|(s & Y & _)]; rewrite No in Y; destruct Y. }
    split; [destruct St; split; assumption|]. split; [unfold same_line; reflexivity|]. intros z Z. apply (joined_in (s0 e) z En Nb). intros w W. apply Nob.
    assert (Oz : on_seg e z) by (destruct Z as (t & T & X); now exists t). destruct (on_ends e) as [O0 _].
    apply (on_between (s0 e) z w O0 Oz) in W; [tauto|]. apply (on_key v e St) in Oz. tauto.
  - unfold candidates in C. fold e in C. fold cuts in C.
    destruct (if inside_or_out rel0 then let! a := read cuts 0 in let! b := read cuts 1 in Done [with_rel (mk_seg a b) rel0] else Done []) as [first| |] eqn:F; cbn [bind] in C; try discriminate.
    destruct (if inside_or_out rel1 then match rev cuts with b :: a :: _ => Done [with_rel (mk_seg a b) rel1] | _ => Dangling end else Done []) as [final| |] eqn:Fi; cbn [bind] in C; try discriminate.
    injection C as <-. apply in_app_or in I. destruct I as [I|I]; [apply in_app_or in I; destruct I as [I|I]; [|apply in_app_or in I; destruct I as [I|I]]|].
    + apply in_flat_map in I. destruct I as (eb & _ & I). destruct (snd (met ea eb)) as [s|]; [|destruct I]. destruct I as [<-|[]]. cbn in P. discriminate.
    + destruct (inside_or_out rel0) eqn:H; [|injection F as <-; destruct I]. destruct cuts as [|x [|y l2]] eqn:E; cbn in F; try discriminate. injection F as <-. destruct I as [<-|[]]. cbn in P |- *.
      destruct rel0; try discriminate. destruct (located_in (s0 e)) as [Nb En]; [apply grid_point_double, Grid; now left|exact R0|].
      apply (cut_inner [] x y l2 (s0 e)); [exact E| |exact Nb|exact En]. apply (on_same _ x); [exact (first_cut x _ E)|apply (on_seg_s0 (mk_seg x y))].
    + destruct (inside_or_out rel1) eqn:H; [|injection Fi as <-; destruct I]. destruct (rev cuts) as [|y [|x l1]] eqn:Rl; try discriminate. injection Fi as <-. destruct I as [<-|[]]. cbn in P |- *.
      assert (E : cuts = rev l1 ++ [x; y]) by (rewrite <- (rev_involutive cuts), Rl; cbn; now rewrite <- app_assoc).
      destruct rel1; try discriminate. destruct (located_in (s1 e)) as [Nb En]; [apply grid_point_double, Grid; right; now left|exact R1|].
      apply (cut_inner (rev l1) x y [] (s1 e)); [exact E| |exact Nb|exact En]. apply (on_same _ y); [apply (final_cut y (rev l1 ++ [x])); rewrite <- app_assoc; exact E|apply (on_seg_s1 (mk_seg x y))].
    + destruct (pieces_in _ _ _ I) as (l1 & x & y & l2 & E & -> & _). cbn [with_mid fst]. destruct cuts_facts as (_ & C & _). rewrite E in C.
      destruct (C x ltac:(apply in_or_app; right; now left)) as [_ Gx], (C y ltac:(apply in_or_app; right; right; now left)) as [_ Gy].
      unfold piece_in, with_mid in P. unfold seg_mid in P. cbn [s0 s1] in P. destruct (relation_polygon fuel l (pt_mid x y)) as [rel| |] eqn:R; cbn [bind] in P; try discriminate.
      destruct rel; cbn in P; try discriminate. destruct (located_in (pt_mid x y)) as [Nb En]; [now apply grid_mid|exact R|].
      exact (cut_inner l1 x y l2 (pt_mid x y) E (mid_on x y) Nb En).
Qed.

Lemma range_inner eb r : In eb ebs -> snd (met ea eb) = Some r -> inner r.
Proof. intros I M. destruct (met_facts eb I) as [_ H]. destruct (H r M) as (A & B & C). split; [exact A|split; [exact B|]]. intros x X. left. exact (side_border eb x I (C x X)). Qed.
End Shape.
