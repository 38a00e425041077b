(** A side of a box that is dismissed is nowhere seen. *)
From Coq Require Import List Arith Bool Lia QArith Qabs Qminmax Lqa Sorting.Sorted Sorting.Permutation.
From Verif Require Import IntervalModel IntervalProofs ManagerModel ManagerSpec ManagerProofs GeomModel GeomSpec GeomProofs GeomSegProofs GeomBoxProofs GeomLocateProofs.
From Verif Require Import BoardModel BoardSpec BoardProofs BoardColinearProofs BoardCoverProofs BoardDetectProofs BoardBuiltProofs BoardSafetyProofs BoardEndProofs EndSpec VisibleSpec GridProofs.
Import ListNotations.
Open Scope Q_scope.

(** * The points of an edge in order *)

Section Ordered.
Variables (v : ViewAxis) (e : seg).
Hypothesis St : straight v e.

(** The way along the edge. *)
Definition key (x : point) : Q := if Qltb (along v (s0 e)) (along v (s1 e)) then along v x else - along v x.

Lemma key_ends : key (s0 e) + equality_tolerance <= key (s1 e).
Proof.
  unfold key. destruct St as [_ A]. apply abs_ge in A. unfold equality_tolerance in *. destruct (Qltb_spec (along v (s0 e)) (along v (s1 e))); lra.
Qed.
Lemma on_key x : on_seg e x <-> level v x == level v (s0 e) /\ key (s0 e) <= key x <= key (s1 e).
Proof.
  rewrite (on_straight v e x (proj1 St)). pose proof key_ends as K. unfold key, equality_tolerance in *. destruct (Qltb_spec (along v (s0 e)) (along v (s1 e))); lra.
Qed.
Lemma key_diff x y : Qabs (key x - key y) == Qabs (along v x - along v y).
Proof.
  unfold key. destruct (Qltb _ _); [reflexivity|]. setoid_replace (- along v x - - along v y) with (- (along v x - along v y)) by ring. apply Qabs_opp.
Qed.
Lemma key_near x y : pt_eqb x y = true -> Qabs (key x - key y) < equality_tolerance.
Proof. intros E. apply pt_eqb_close in E. rewrite key_diff. destruct E. now destruct v. Qed.
Lemma key_far x y : on_seg e x -> on_seg e y -> pt_eqb x y = false -> key x <= key y -> key x + equality_tolerance <= key y.
Proof.
  intros X Y E L. apply on_key in X, Y. destruct (Qlt_le_dec (key y) (key x + equality_tolerance)) as [H|H]; [|assumption]. exfalso.
  assert (K : Qabs (along v x - along v y) < equality_tolerance). { rewrite <- key_diff. apply Qabs_Qlt_condition. lra. }
  assert (Z : Qabs (level v x - level v y) < equality_tolerance). { setoid_replace (level v x - level v y) with 0 by lra. reflexivity. }
  assert (pt_eqb x y = true); [|congruence]. unfold pt_eqb, coord_eqb. apply andb_true_iff. split; apply Qltb_lt; now destruct v.
Qed.

Lemma sort_along srt l : sorts_by srt -> Permutation l (sort_points srt (seg_vec e) l) /\ StronglySorted (fun x y => key x <= key y) (sort_points srt (seg_vec e) l).
Proof.
  intros So. assert (F : forall f : point -> Q, (forall x y, key x <= key y <-> f x <= f y) ->
    Permutation l (srt point (fun x y => Qltb (f x) (f y)) l) /\ StronglySorted (fun x y => key x <= key y) (srt point (fun x y => Qltb (f x) (f y)) l)).
  { intros f H. destruct (So point (fun x y => Qltb (f x) (f y)) l (key_order f l)) as [P S]. split; [assumption|].
    eapply sorted_weaken; [|exact S]. intros x y _ _ K. apply Qltb_ge in K. now apply H. }
  assert (B : forall f : point -> Q, (forall x y, key x <= key y <-> f y <= f x) ->
    Permutation l (srt point (fun x y => Qltb (f y) (f x)) l) /\ StronglySorted (fun x y => key x <= key y) (srt point (fun x y => Qltb (f y) (f x)) l)).
  { intros f H. assert (W : weak_order (fun x y => Qltb (f y) (f x)) l).
    { destruct (key_order (fun x => - f x) l) as (A1 & A2 & A3). split; [|split].
      - intros x I. rewrite neg_less. now apply A1.
      - intros x y z. rewrite !(neg_less f). apply A2.
      - intros x y z. rewrite !(neg_less f). apply A3. }
    destruct (So point (fun x y => Qltb (f y) (f x)) l W) as [P S]. split; [assumption|].
    eapply sorted_weaken; [|exact S]. intros x y _ _ K. apply Qltb_ge in K. now apply H. }
  pose proof key_ends as Ke. pose proof St as [L A]. apply abs_ge in A. unfold sort_points, before.
  pose proof (signum_sign (px (seg_vec e))) as X. pose proof (signum_sign (py (seg_vec e))) as Y. unfold key, equality_tolerance in *.
  destruct v; cbn [level along seg_vec pt_sub px py] in *.
  - destruct (signum (py (s1 e) - py (s0 e))); try (exfalso; lra).
    destruct (signum (px (s1 e) - px (s0 e))); [exfalso; lra|apply B|apply F]; intros x y; destruct (Qltb_spec (px (s0 e)) (px (s1 e))); lra.
  - destruct (signum (px (s1 e) - px (s0 e))); try (exfalso; lra).
    destruct (signum (py (s1 e) - py (s0 e))); [exfalso; lra|apply B|apply F]; intros x y; destruct (Qltb_spec (py (s0 e)) (py (s1 e))); lra.
Qed.

Definition gap (x y : point) : Prop := key x + equality_tolerance <= key y.
Lemma unique_from_gap l : forall x, on_seg e x -> (forall y, In y l -> on_seg e y /\ key x <= key y) -> StronglySorted (fun x y => key x <= key y) l ->
  StronglySorted gap (unique_from x l) /\ (forall y, In y (unique_from x l) -> In y l /\ gap x y) /\ (forall y, In y l -> exists k, In k (x :: unique_from x l) /\ pt_eqb k y = true).
Proof.
  induction l as [|z l IH]; intros x X L S; cbn [unique_from]; [split; [constructor|split; intros y []]|].
  apply StronglySorted_inv in S. destruct S as [S Sz]. rewrite Forall_forall in Sz. destruct (pt_eqb x z) eqn:E.
  - destruct (IH x X) as (I1 & I2 & I3); [intros y I; apply L; now right|assumption|]. split; [assumption|]. split.
    + intros y I. destruct (I2 y I). split; [now right|assumption].
    + intros y [<-|I]; [exists x; split; [now left|assumption]|]. exact (I3 y I).
  - destruct (L z (or_introl eq_refl)) as [Z Kz]. destruct (IH z Z) as (I1 & I2 & I3); [intros y I; split; [apply L; now right|now apply Sz]|assumption|].
    assert (G : gap x z) by (now apply key_far). split; [|split].
    + constructor; [assumption|]. apply Forall_forall. intros y I. apply I2. assumption.
    + intros y [<-|I]; [split; [now left|assumption]|]. destruct (I2 y I) as [J K]. split; [now right|]. unfold gap, equality_tolerance in *. lra.
    + intros y [<-|I]; [exists z; split; [right; now left|apply pt_eqb_same; reflexivity]|]. destruct (I3 y I) as (k & Ik & Ek). exists k. split; [now right|assumption].
Qed.
Lemma unique_gap l : (forall y, In y l -> on_seg e y) -> StronglySorted (fun x y => key x <= key y) l ->
  StronglySorted gap (unique l) /\ (forall y, In y (unique l) -> In y l) /\ (forall y, In y l -> exists k, In k (unique l) /\ pt_eqb k y = true).
Proof.
  destruct l as [|x l]; intros O S; [split; [constructor|split; intros y []]|]. apply StronglySorted_inv in S. destruct S as [S Sx]. rewrite Forall_forall in Sx.
  destruct (unique_from_gap l x) as (U1 & U2 & U3); [apply O; now left|intros y I; split; [apply O; now right|now apply Sx]|assumption|]. cbn [unique]. split; [|split].
  - constructor; [assumption|]. apply Forall_forall. intros y I. now apply U2.
  - intros y [<-|I]; [now left|]. right. now apply U2.
  - intros y [<-|I]; [exists x; split; [now left|apply pt_eqb_same; reflexivity]|]. now apply U3.
Qed.

Lemma sorted_later {A} (R : A -> A -> Prop) l1 x l2 : StronglySorted R (l1 ++ x :: l2) -> (forall y, In y l1 -> R y x) /\ (forall y, In y l2 -> R x y).
Proof.
  induction l1 as [|a l1 IH]; cbn; intros S; apply StronglySorted_inv in S; destruct S as [S F]; rewrite Forall_forall in F.
  - split; [intros y []|exact F].
  - destruct (IH S) as [A1 A2]. split; [|assumption]. intros y [<-|I]; [apply F, in_or_app; right; now left|now apply A1].
Qed.

Lemma pieces_in known r : forall l, In r (pieces known l) -> exists l1 x y l2, l = l1 ++ x :: y :: l2 /\ r = with_mid (mk_seg x y)
  /\ forall k, In k known -> seg_eqb (fst (fst k)) (mk_seg x y) = false.
Proof.
  induction l as [|x l IH]; cbn [pieces]; [intros []|]. destruct l as [|y l]; [intros []|].
  destruct (existsb (fun k => seg_eqb (fst (fst k)) (mk_seg x y)) known) eqn:E.
  - intros I. destruct (IH I) as (l1 & a & b & l2 & H & K). exists (x :: l1), a, b, l2. split; [now rewrite H|assumption].
  - intros [<-|I].
    + exists [], x, y, l. split; [reflexivity|]. split; [reflexivity|]. intros k Hk. destruct (seg_eqb (fst (fst k)) (mk_seg x y)) eqn:Q; [|reflexivity].
      assert (existsb (fun k => seg_eqb (fst (fst k)) (mk_seg x y)) known = true); [|congruence]. apply existsb_exists. eauto.
    + destruct (IH I) as (l1 & a & b & l2 & H & K). exists (x :: l1), a, b, l2. split; [now rewrite H|assumption].
Qed.

(** Ranges whose ends are in order and on the edge go along it. *)
Lemma gap_range x y : on_seg e x -> on_seg e y -> gap x y -> straight v (mk_seg x y) /\ same_line v e (mk_seg x y).
Proof.
  intros X Y G. apply on_key in X, Y. unfold gap in G. split; [split; cbn [s0 s1]; [lra|]|unfold same_line; cbn [s0 s1]; lra].
  rewrite <- key_diff. unfold equality_tolerance in *. rewrite Qabs_pos; lra.
Qed.
End Ordered.

(** * An edge and a box *)

Lemma in_box_dec b p : in_box b p \/ ~ in_box b p.
Proof.
  unfold in_box. destruct (Qlt_le_dec (px p) (xmin b)), (Qlt_le_dec (xmax b) (px p)), (Qlt_le_dec (py p) (ymin b)), (Qlt_le_dec (ymax b) (py p)); try (right; lra); left; lra.
Qed.
Lemma side_hull p q s x : box_side_of p q s -> on_seg s x -> in_box (hull p q) x.
Proof.
  intros S O. destruct (in_box_dec (hull p q) x) as [I|N]; [assumption|]. pose proof (outside_side p q x s S N) as H. pose proof (on_seg_relation s x O). congruence.
Qed.

Lemma app_two {A} (l1 l2 : list A) a b c d : l1 ++ [a; b] = l2 ++ [c; d] -> a = c /\ b = d.
Proof.
  intros E. change (l1 ++ [a] ++ [b] = l2 ++ [c] ++ [d]) in E. rewrite !app_assoc in E. apply app_inj_tail in E. destruct E as [E ->]. apply app_inj_tail in E. now destruct E as [_ ->].
Qed.

Section Hidden.
Variables (v : ViewAxis) (ea : edge) (ebs : list edge) (p q : point) (fuel : nat) (srt : sort_by).
Let e := e_seg ea.
Hypothesis St : straight v e.
Hypothesis Sides : map e_seg ebs = map (fun pq => mk_seg (fst pq) (snd pq)) (sides (box_points p q)).
Hypothesis Ap : forall x y, In x (s0 e :: s1 e :: box_points p q) -> In y (s0 e :: s1 e :: box_points p q) -> apart_pts x y.
Hypothesis So : sorts_by srt.

Lemma side_of eb : In eb ebs -> box_side_of p q (e_seg eb).
Proof. intros I. unfold box_side_of. rewrite <- Sides. now apply in_map. Qed.
Lemma side_apart eb : In eb ebs -> apart_segs e (e_seg eb).
Proof.
  intros I. destruct (box_side_straight p q _ (side_of eb I)) as (_ & A & B). intros x y X Y. apply Ap.
  - destruct X as [<-|[<-|[<-|[<-|[]]]]]; [now left|right; now left|right; right; assumption|right; right; assumption].
  - destruct Y as [<-|[<-|[<-|[<-|[]]]]]; [now left|right; now left|right; right; assumption|right; right; assumption].
Qed.
Lemma side_ways eb : In eb ebs -> along v (s0 (e_seg eb)) == along v (s1 (e_seg eb)) \/ level v (s0 (e_seg eb)) == level v (s1 (e_seg eb)).
Proof. intros I. destruct (box_side_straight p q _ (side_of eb I)) as (H & _). destruct v; cbn; tauto. Qed.
Lemma on_ends s : on_seg s (s0 s) /\ on_seg s (s1 s).
Proof. split; [exists 0|exists 1]; repeat split; try lra. Qed.

Lemma met_sound eb : In eb ebs -> (forall x, In x (fst (met ea eb)) -> on_seg e x /\ on_seg (e_seg eb) x)
  /\ forall r, snd (met ea eb) = Some r -> straight v r /\ same_line v e r /\ on_seg (e_seg eb) (s0 r) /\ on_seg (e_seg eb) (s1 r).
Proof.
  intros I. pose proof (side_apart eb I) as G. pose proof (side_ways eb I) as W. unfold met. fold e.
  destruct (relation_seg e (e_seg eb)) eqn:R; try (split; [intros x []|intros r; discriminate]).
  - destruct W as [W|W].
    + destruct (across_crossing v e (e_seg eb) St W G R) as (x & E & H). rewrite E. split; [|intros r; discriminate]. intros y [<-|[]]. exact H.
    + exfalso. apply crossing_turns in R. destruct R as [R _]. apply R. apply (same_level v); [apply St|assumption].
  - destruct (overlap e (e_seg eb)) as [r|] eqn:O; [|split; [intros x []|intros r; discriminate]].
    destruct (overlap_range v e (e_seg eb) r St G W R O) as (_ & _ & L & L' & H). destruct (on_ends r) as [E0 E1]. split.
    + intros x [<-|[<-|[]]]; now apply H.
    + cbn [snd]. intros r' E. assert (r' = r /\ seg_axis r <> SPOINT) as [-> Ne] by (destruct (seg_axis r); (split; [congruence|discriminate]) || discriminate).
      split; [split; [assumption|]|split; [unfold same_line; now rewrite L'|split; now apply H]].
      destruct (Qlt_le_dec (Qabs (along v (s1 r) - along v (s0 r))) equality_tolerance) as [K|K]; [|assumption]. exfalso. apply Ne.
      assert (Z : Qabs (level v (s1 r) - level v (s0 r)) < equality_tolerance) by (setoid_replace (level v (s1 r) - level v (s0 r)) with 0 by lra; reflexivity).
      unfold seg_axis, axis_of_vector, seg_vec, coord_eqb. cbn [pt_sub px py].
      assert (T : forall a b, Qabs (a - b) < equality_tolerance -> Qltb (Qabs (a - b - 0)) equality_tolerance = true).
      { intros a b H'. apply Qltb_lt. now setoid_replace (a - b - 0) with (a - b) by ring. }
      destruct v; cbn [level along] in K, Z; rewrite !T by assumption; reflexivity.
Qed.

Lemma inter_on x : In x (met_points ea ebs) -> on_seg e x /\ exists eb, In eb ebs /\ on_seg (e_seg eb) x.
Proof. intros I. apply in_flat_map in I. destruct I as (eb & I & X). destruct (met_sound eb I) as [H _]. destruct (H x X). eauto. Qed.
Lemma inter_hull x : In x (met_points ea ebs) -> in_box (hull p q) x.
Proof. intros I. destruct (inter_on x I) as (_ & eb & J & O). exact (side_hull _ _ _ _ (side_of eb J) O). Qed.

Definition good (r : seg) : Prop := straight v r /\ same_line v e r /\ in_box (hull p q) (s0 r) /\ in_box (hull p q) (s1 r).
Lemma ranges_good r : In r (met_ranges ea ebs) -> good (fst (fst r)).
Proof.
  intros I. apply in_flat_map in I. destruct I as (eb & I & X). destruct (met_sound eb I) as [_ H]. destruct (snd (met ea eb)) as [r'|]; [|destruct X]. destruct X as [<-|[]].
  destruct (H r' eq_refl) as (A & B & C & D). cbn. split; [assumption|split; [assumption|split]]; [exact (side_hull _ _ _ _ (side_of eb I) C)|exact (side_hull _ _ _ _ (side_of eb I) D)].
Qed.

Lemma corners : In (mk_pt (px p) (py p)) (box_points p q) /\ In (mk_pt (px q) (py q)) (box_points p q).
Proof. cbn. tauto. Qed.
Lemma end_apart c : c = s0 e \/ c = s1 e -> apart_pts c p /\ apart_pts c q /\ apart_pts p q.
Proof.
  intros H. destruct corners as [P Q]. assert (C : In c (s0 e :: s1 e :: box_points p q)) by (destruct H as [->| ->]; [now left|right; now left]).
  split; [|split]; [exact (Ap c _ C (or_intror (or_intror P)))|exact (Ap c _ C (or_intror (or_intror Q)))|exact (Ap _ _ (or_intror (or_intror P)) (or_intror (or_intror Q)))].
Qed.
(** An end that is not told outside is in the box. *)
Lemma end_hull c r : c = s0 e \/ c = s1 e -> relation_polygon fuel (box_points p q) c = Done r -> r <> PP_OUT -> in_box (hull p q) c.
Proof.
  intros H R N. destruct (in_box_dec (hull p q) c) as [I|O]; [assumption|]. destruct (end_apart c H) as (A & B & C). exfalso. apply N.
  exact (relation_unique _ _ _ _ _ _ R (box_out p q c A B C O)).
Qed.
Lemma near_side c x : c = s0 e \/ c = s1 e -> In x (met_points ea ebs) -> close c x -> relation_polygon fuel (box_points p q) c <> Done PP_IN.
Proof.
  intros H I Cl R. destruct (inter_on x I) as (_ & eb & J & O). assert (S := side_of eb J). destruct (box_side_straight p q _ S) as (W & E0 & E1).
  assert (C : In c (s0 e :: s1 e :: box_points p q)) by (destruct H as [->| ->]; [now left|right; now left]).
  assert (Ob : on_seg (e_seg eb) c).
  { assert (Bx : exists w, level w (s0 (e_seg eb)) == level w (s1 (e_seg eb))) by (destruct W; [exists VV|exists VH]; assumption). destruct Bx as [w Bx].
    apply (straight_box_gen _ w Bx). apply (straight_box_gen _ w Bx) in O. apply (near_box _ c x); [|assumption|assumption].
    apply apart_bounding; [exact (Ap c _ C (or_intror (or_intror E0)))|exact (Ap c _ C (or_intror (or_intror E1)))]. }
  pose proof (relation_unique _ _ _ _ _ _ R (box_border p q c _ 0 S Ob)). discriminate.
Qed.
Lemma near_hull c x : c = s0 e \/ c = s1 e -> In x (met_points ea ebs) -> close c x -> in_box (hull p q) c.
Proof. intros H I Cl. destruct (end_apart c H) as (A & B & _). exact (near_box _ c x (apart_hull p q c A B) (inter_hull x I) Cl). Qed.

(** * The pieces found are in the box *)

Let l := unique (sort_points srt (seg_vec e) (met_points ea ebs ++ [s0 e; s1 e])).

Lemma cut_facts : StronglySorted (gap v e) l
  /\ (forall x, In x l -> on_seg e x /\ (In x (met_points ea ebs) \/ x = s0 e \/ x = s1 e))
  /\ forall x, In x (met_points ea ebs) \/ x = s0 e \/ x = s1 e -> exists k, In k l /\ pt_eqb k x = true.
Proof.
  set (l0 := met_points ea ebs ++ [s0 e; s1 e]) in *. destruct (sort_along v e St srt l0 So) as [P S].
  assert (L0 : forall x, In x l0 <-> In x (met_points ea ebs) \/ x = s0 e \/ x = s1 e).
  { intros x. unfold l0. rewrite in_app_iff. cbn. intuition. }
  assert (O : forall x, In x (sort_points srt (seg_vec e) l0) -> on_seg e x).
  { intros x I. apply (Permutation_in x (Permutation_sym P)) in I. apply L0 in I. destruct I as [I|[->| ->]]; [apply (inter_on x I)|apply on_ends|apply on_ends]. }
  destruct (unique_gap v e St _ O S) as (U1 & U2 & U3). fold l in U1, U2, U3. split; [assumption|]. split.
  - intros x I. apply U2 in I. split; [now apply O|]. apply L0. exact (Permutation_in x (Permutation_sym P) I).
  - intros x I. apply U3. apply (Permutation_in x P). now apply L0.
Qed.

(** Which cuts the two ends of a piece can be. *)
Lemma cut_kinds l1 x y l2 : l = l1 ++ x :: y :: l2 ->
  on_seg e x /\ on_seg e y /\ gap v e x y /\ (In x (met_points ea ebs) \/ x = s0 e) /\ (In y (met_points ea ebs) \/ y = s1 e)
  /\ (x = s0 e -> l1 = []) /\ (y = s1 e -> l2 = []).
Proof.
  intros E. destruct cut_facts as (S & K & _). rewrite E in S, K.
  assert (Ix : In x (l1 ++ x :: y :: l2)) by (apply in_or_app; right; now left). assert (Iy : In y (l1 ++ x :: y :: l2)) by (apply in_or_app; right; right; now left).
  destruct (K x Ix) as [Ox Kx], (K y Iy) as [Oy Ky]. destruct (sorted_later _ _ _ _ S) as [B A].
  assert (S' : StronglySorted (gap v e) ((l1 ++ [x]) ++ y :: l2)) by (rewrite <- app_assoc; exact S). destruct (sorted_later _ _ _ _ S') as [_ A'].
  assert (G : gap v e x y) by (apply A; now left).
  assert (Low : forall z, on_seg e z -> gap v e z (s0 e) -> False). { intros z Z H. apply (on_key v e St) in Z. unfold gap, equality_tolerance in H. lra. }
  assert (High : forall z, on_seg e z -> gap v e (s1 e) z -> False). { intros z Z H. apply (on_key v e St) in Z. unfold gap, equality_tolerance in H. lra. }
  split; [assumption|]. split; [assumption|]. split; [assumption|]. split; [|split; [|split]].
  - destruct Kx as [Kx|[Kx|Kx]]; [now left|now right|]. exfalso. apply (High y Oy). now rewrite <- Kx.
  - destruct Ky as [Ky|[Ky|Ky]]; [now left| |now right]. exfalso. apply (Low x Ox). now rewrite <- Ky.
  - intros H. destruct l1 as [|z l1]; [reflexivity|]. exfalso. apply (Low z); [apply K; now left|]. rewrite <- H. apply B. now left.
  - intros H. destruct l2 as [|z l2]; [reflexivity|]. exfalso. apply (High z); [apply K; apply in_or_app; right; right; right; now left|]. rewrite <- H. apply A'. now left.
Qed.

Lemma two_cuts x y : l = [x; y] -> met_points ea ebs <> [] ->
  (exists z, In z (met_points ea ebs) /\ close (s0 e) z) \/ (exists z, In z (met_points ea ebs) /\ close (s1 e) z).
Proof.
  intros E Ne. destruct cut_facts as (_ & K & C). destruct (cut_kinds [] x y [] E) as (_ & _ & _ & Kx & Ky & _). pose proof (key_ends v e St) as Ke.
  assert (Cl : forall a b, pt_eqb a b = true -> close b a). { intros a b H. apply pt_eqb_close in H. destruct H as [Ha Hb]. rewrite Qabs_Qminus in Ha, Hb. split; assumption. }
  destruct (met_points ea ebs) as [|z inter] eqn:M; [congruence|]. clear Ne.
  assert (Iz : In z (z :: inter)) by now left.
  assert (X : x = s0 e \/ exists w, In w (z :: inter) /\ (close (s0 e) w \/ close (s1 e) w)).
  { destruct Kx as [Kx|Kx]; [|now left]. right. destruct (C (s0 e)) as (k & Ik & Ek); [right; now left|]. rewrite E in Ik. pose proof (Cl _ _ Ek) as Ck.
    destruct Ik as [<-|[<-|[]]]; [exists x; split; [exact Kx|now left]|].
    destruct Ky as [Ky|Ky]; [exists y; split; [exact Ky|now left]|]. exfalso. apply (key_near v e St) in Ek. rewrite Ky in Ek. apply Qabs_Qlt_condition in Ek. clear - Ek Ke. lra. }
  assert (Y : y = s1 e \/ exists w, In w (z :: inter) /\ (close (s0 e) w \/ close (s1 e) w)).
  { destruct Ky as [Ky|Ky]; [|now left]. right. destruct (C (s1 e)) as (k & Ik & Ek); [right; now right|]. rewrite E in Ik. pose proof (Cl _ _ Ek) as Ck.
    destruct Ik as [<-|[<-|[]]]; [|exists y; split; [exact Ky|now right]].
    destruct Kx as [Kx|Kx]; [exists x; split; [exact Kx|now right]|]. exfalso. apply (key_near v e St) in Ek. rewrite Kx in Ek. apply Qabs_Qlt_condition in Ek. clear - Ek Ke. lra. }
  destruct X as [X|(w & I & [H|H])]; [|left; eauto|right; eauto]. destruct Y as [Y|(w & I & [H|H])]; [|left; eauto|right; eauto].
  destruct (C z) as (k & Ik & Ek); [now left|]. rewrite E in Ik. apply pt_eqb_close in Ek. destruct Ik as [<-|[<-|[]]]; [left|right]; exists z; (split; [assumption|]); congruence.
Qed.

Lemma piece_good x y l1 l2 : l = l1 ++ x :: y :: l2 -> in_box (hull p q) x -> in_box (hull p q) y -> good (mk_seg x y).
Proof. intros E X Y. destruct (cut_kinds l1 x y l2 E) as (Ox & Oy & G & _). destruct (gap_range v e St x y Ox Oy G). repeat split; assumption || apply X || apply Y || apply H. Qed.

Lemma first_good x y l2 : l = x :: y :: l2 -> met_points ea ebs <> [] -> relation_polygon fuel (box_points p q) (s0 e) = Done PP_IN -> good (mk_seg x y).
Proof.
  intros E Ne R. destruct (cut_kinds [] x y l2 E) as (_ & _ & _ & Kx & Ky & _ & L2). apply (piece_good x y [] l2 E).
  - destruct Kx as [Kx| ->]; [now apply inter_hull|]. apply (end_hull (s0 e) PP_IN); [now left|assumption|discriminate].
  - destruct Ky as [Ky|Ky]; [now apply inter_hull|]. rewrite (L2 Ky) in E. destruct (two_cuts x y E Ne) as [(z & I & H)|(z & I & H)].
    + exfalso. exact (near_side (s0 e) z (or_introl eq_refl) I H R).
    + rewrite Ky. exact (near_hull (s1 e) z (or_intror eq_refl) I H).
Qed.
Lemma final_good x y l1 : l = l1 ++ [x; y] -> met_points ea ebs <> [] -> relation_polygon fuel (box_points p q) (s1 e) = Done PP_IN -> good (mk_seg x y).
Proof.
  intros E Ne R. destruct (cut_kinds l1 x y [] E) as (_ & _ & _ & Kx & Ky & L1 & _). apply (piece_good x y l1 [] E).
  - destruct Kx as [Kx|Kx]; [now apply inter_hull|]. rewrite (L1 Kx) in E. destruct (two_cuts x y E Ne) as [(z & I & H)|(z & I & H)].
    + rewrite Kx. exact (near_hull (s0 e) z (or_introl eq_refl) I H).
    + exfalso. exact (near_side (s1 e) z (or_intror eq_refl) I H R).
  - destruct Ky as [Ky| ->]; [now apply inter_hull|]. apply (end_hull (s1 e) PP_IN); [now right|assumption|discriminate].
Qed.

Lemma found_good r : found fuel srt ea (box_points p q) ebs r -> good r.
Proof.
  intros F. destruct F as [_ R0 R1|rel0 rel1 cs r Ne R0 R1 C I P]; fold e in R0, R1.
  - fold e. pose proof St as [L A]. split; [split; assumption|]. split; [unfold same_line; reflexivity|]. cbn [s0 s1].
    split; [apply (end_hull (s0 e) PP_IN)|apply (end_hull (s1 e) PP_IN)]; auto; discriminate.
  - unfold candidates in C. fold e in C. fold l in C.
    destruct (if inside_or_out rel0 then let! a := read l 0 in let! b := read l 1 in Done [with_rel (mk_seg a b) rel0] else Done []) as [first| |] eqn:F; cbn [bind] in C; try discriminate.
    destruct (if inside_or_out rel1 then match rev l with b :: a :: _ => Done [with_rel (mk_seg a b) rel1] | _ => Dangling end else Done []) as [final| |] eqn:Fi; cbn [bind] in C; try discriminate.
    injection C as <-.
    assert (First : inside_or_out rel0 = true -> exists x y l2, l = x :: y :: l2 /\ first = [with_rel (mk_seg x y) rel0]).
    { intros H. rewrite H in F. destruct l as [|x [|y l2]]; cbn in F; try discriminate. injection F as <-. eauto. }
    assert (Final : inside_or_out rel1 = true -> exists x y l1, l = l1 ++ [x; y] /\ final = [with_rel (mk_seg x y) rel1]).
    { intros H. rewrite H in Fi. destruct (rev l) as [|y [|x l1]] eqn:Rl; try discriminate. injection Fi as <-. exists x, y, (rev l1). split; [|reflexivity].
      rewrite <- (rev_involutive l), Rl. cbn. now rewrite <- app_assoc. }
    apply in_app_or in I. destruct I as [I|I]; [apply in_app_or in I; destruct I as [I|I]; [now apply ranges_good|apply in_app_or in I; destruct I as [I|I]]|].
    + destruct (inside_or_out rel0) eqn:H; [|injection F as <-; destruct I]. destruct (First eq_refl) as (x & y & l2 & E & ->). destruct I as [<-|[]]. cbn in P |- *.
      destruct rel0; try discriminate. exact (first_good x y l2 E Ne R0).
    + destruct (inside_or_out rel1) eqn:H; [|injection Fi as <-; destruct I]. destruct (Final eq_refl) as (x & y & l1 & E & ->). destruct I as [<-|[]]. cbn in P |- *.
      destruct rel1; try discriminate. exact (final_good x y l1 E Ne R1).
    + destruct (pieces_in _ _ _ I) as (l1 & x & y & l2 & E & -> & K). cbn [with_mid fst]. destruct (cut_kinds l1 x y l2 E) as (_ & _ & _ & Kx & Ky & L1 & L2).
      apply (piece_good x y l1 l2 E).
      * destruct Kx as [Kx|Kx]; [now apply inter_hull|]. rewrite Kx. apply (end_hull (s0 e) rel0); [now left|assumption|]. intros ->.
        destruct (First eq_refl) as (x' & y' & l2' & E' & ->). rewrite (L1 Kx), E' in E. cbn in E. injection E as -> -> ->.
        assert (H : seg_eqb (mk_seg x y) (mk_seg x y) = false); [|rewrite seg_eqb_refl in H; discriminate].
        apply (K (with_rel (mk_seg x y) PP_OUT)). apply in_or_app. right. now left.
      * destruct Ky as [Ky|Ky]; [now apply inter_hull|]. rewrite Ky. apply (end_hull (s1 e) rel1); [now right|assumption|]. intros ->.
        destruct (Final eq_refl) as (x' & y' & l1' & E' & ->). rewrite (L2 Ky), E' in E. apply app_two in E.
        assert (H : seg_eqb (mk_seg x y) (mk_seg x y) = false); [|rewrite seg_eqb_refl in H; discriminate].
        apply (K (with_rel (mk_seg x y) PP_OUT)). apply in_or_app. right. apply in_or_app. right. left. destruct E as [-> ->]. reflexivity.
Qed.
End Hidden.
