(** Lemmas about boxes, bounding boxes, rotation and normals (C36-C38). *)
From Coq Require Import List Arith Bool QArith Qabs Qminmax Lqa Lia.
From Verif Require Import IntervalModel ManagerModel IntervalProofs ManagerMoreProofs GeomModel GeomSpec.
Import ListNotations.
Open Scope Q_scope.

Lemma Qle_spec a b : BoolSpec (a <= b) (b < a) (Qle_bool a b).
Proof.
  destruct (Qle_bool a b) eqn:E.
  - constructor. now apply Qle_bool_iff.
  - constructor. apply Qnot_le_lt. intro H. apply Qle_bool_iff in H. congruence.
Qed.

(** Splits every comparison of the goal. *)
Ltac qsplit :=
  repeat match goal with
  | |- context [Qltb ?a ?b] => destruct (Qltb_spec a b)
  | |- context [Qle_bool ?a ?b] => destruct (Qle_spec a b)
  end; cbn [andb orb negb] in *.

Lemma qmin_lub a b c : c <= qmin a b <-> c <= a /\ c <= b.
Proof. unfold qmin. destruct (Qltb_spec b a); split; intros; try split; lra. Qed.
Lemma qmax_lub a b c : qmax a b <= c <-> a <= c /\ b <= c.
Proof. unfold qmax. destruct (Qltb_spec a b); split; intros; try split; lra. Qed.
Lemma qmin_glb_lt a b c : c < qmin a b <-> c < a /\ c < b.
Proof. unfold qmin. destruct (Qltb_spec b a); split; intros; try split; lra. Qed.
Lemma qmax_lub_lt a b c : qmax a b < c <-> a < c /\ b < c.
Proof. unfold qmax. destruct (Qltb_spec a b); split; intros; try split; lra. Qed.

(** * Overlap tests *)

Lemma overlap_side_point a0 a1 b0 b1 :
  Qle_bool (qmax a0 b0) (qmin a1 b1) = true <-> exists x, a0 <= x <= a1 /\ b0 <= x <= b1.
Proof.
  rewrite Qle_bool_iff, qmin_lub, !qmax_lub. split.
  - intros [[H1 H2] [H3 H4]]. exists (qmax a0 b0). unfold qmax. destruct (Qltb_spec a0 b0); lra.
  - intros [x ?]. lra.
Qed.

Lemma overlap_side_inner a0 a1 b0 b1 :
  Qltb (qmax a0 b0) (qmin a1 b1) = true <-> exists x, a0 < x < a1 /\ b0 < x < b1.
Proof.
  rewrite Qltb_lt, qmin_glb_lt, !qmax_lub_lt. split.
  - intros [[H1 H2] [H3 H4]]. exists ((qmax a0 b0 + qmin a1 b1) / 2).
    assert (E : (qmax a0 b0 + qmin a1 b1) / 2 == (1 # 2) * (qmax a0 b0 + qmin a1 b1)) by (field).
    rewrite E. unfold qmax, qmin. destruct (Qltb_spec a0 b0), (Qltb_spec b1 a1); lra.
  - intros [x ?]. lra.
Qed.

Lemma overlap2_point a b : overlap2 a b = true <-> exists p, in_box a p /\ in_box b p.
Proof.
  unfold overlap2. rewrite andb_true_iff, !overlap_side_point. unfold in_box. split.
  - intros [[x Hx] [y Hy]]. exists (mk_pt x y). cbn. tauto.
  - intros [p [H1 H2]]. split; [exists (px p)|exists (py p)]; tauto.
Qed.

Lemma overlap2_strict_point a b : overlap2_strict a b = true <-> exists p, inside a p /\ inside b p.
Proof.
  unfold overlap2_strict. rewrite andb_true_iff, !overlap_side_inner. unfold inside. split.
  - intros [[x Hx] [y Hy]]. exists (mk_pt x y). cbn. tauto.
  - intros [p [H1 H2]]. split; [exists (px p)|exists (py p)]; tauto.
Qed.

(** * Bounding boxes *)

Lemma bounding_loop_grows l : forall b p,
  in_box b p -> in_box (bounding_loop b l) p.
Proof.
  induction l as [|q l IH]; intros b p H; cbn [bounding_loop]; [assumption|].
  apply IH. unfold in_box in *. cbn. qsplit; lra.
Qed.

Lemma bounding_loop_in l : forall b p, xmin b <= xmax b -> ymin b <= ymax b ->
  In p l -> in_box (bounding_loop b l) p.
Proof.
  induction l as [|q l IH]; intros b p Hx Hy H; cbn [bounding_loop]; [destruct H|].
  destruct H as [->|H].
  - apply bounding_loop_grows. unfold in_box. cbn. qsplit; lra.
  - apply IH; [| |assumption]; cbn; qsplit; lra.
Qed.

Lemma bounding_loop_reached l : forall b,
  let c := bounding_loop b l in
  (xmin c = xmin b \/ exists p, In p l /\ px p = xmin c)
  /\ (xmax c = xmax b \/ exists p, In p l /\ px p = xmax c)
  /\ (ymin c = ymin b \/ exists p, In p l /\ py p = ymin c)
  /\ (ymax c = ymax b \/ exists p, In p l /\ py p = ymax c).
Proof.
  induction l as [|q l IH]; intros b; cbn [bounding_loop].
  - cbn. tauto.
  - set (b' := mk_box _ _ _ _).
    destruct (IH b') as (H1 & H2 & H3 & H4). cbv zeta.
    split; [|split; [|split]].
    + destruct H1 as [E|(p & Hp & E)]; [|right; exists p; split; [now right|assumption]].
      rewrite E. cbn. destruct (Qltb (px q) (xmin b)); [right; exists q; split; [now left|reflexivity]|now left].
    + destruct H2 as [E|(p & Hp & E)]; [|right; exists p; split; [now right|assumption]].
      rewrite E. cbn. destruct (Qltb (xmax b) (px q)); [right; exists q; split; [now left|reflexivity]|now left].
    + destruct H3 as [E|(p & Hp & E)]; [|right; exists p; split; [now right|assumption]].
      rewrite E. cbn. destruct (Qltb (py q) (ymin b)); [right; exists q; split; [now left|reflexivity]|now left].
    + destruct H4 as [E|(p & Hp & E)]; [|right; exists p; split; [now right|assumption]].
      rewrite E. cbn. destruct (Qltb (ymax b) (py q)); [right; exists q; split; [now left|reflexivity]|now left].
Qed.

Lemma detect_bounding_tight l b : detect_bounding l = Done b -> tight b l.
Proof.
  destruct l as [|p l]; [discriminate|]. intro H. unfold detect_bounding in H.
  set (b0 := mk_box (px p) (px p) (py p) (py p)) in H.
  assert (Eb : b = bounding_loop b0 (p :: l)) by congruence. clear H. subst b.
  split.
  - intros q Hq. apply bounding_loop_in; [cbn; lra|cbn; lra|assumption].
  - destruct (bounding_loop_reached (p :: l) b0) as (H1 & H2 & H3 & H4).
    split; [|split; [|split]].
    + destruct H1 as [E|(q & Hq & E)]; [exists p|exists q]; (split; [first [now left|assumption]|]); rewrite E; reflexivity.
    + destruct H2 as [E|(q & Hq & E)]; [exists p|exists q]; (split; [first [now left|assumption]|]); rewrite E; reflexivity.
    + destruct H3 as [E|(q & Hq & E)]; [exists p|exists q]; (split; [first [now left|assumption]|]); rewrite E; reflexivity.
    + destruct H4 as [E|(q & Hq & E)]; [exists p|exists q]; (split; [first [now left|assumption]|]); rewrite E; reflexivity.
Qed.

Lemma seg_bounding_cases s : let b := seg_bounding s in
  ((px (s0 s) <= px (s1 s) /\ xmin b == px (s0 s) /\ xmax b == px (s1 s))
   \/ (px (s1 s) <= px (s0 s) /\ xmin b == px (s1 s) /\ xmax b == px (s0 s)))
  /\ ((py (s0 s) <= py (s1 s) /\ ymin b == py (s0 s) /\ ymax b == py (s1 s))
   \/ (py (s1 s) <= py (s0 s) /\ ymin b == py (s1 s) /\ ymax b == py (s0 s))).
Proof.
  cbn. destruct (Qltb_spec (px (s0 s)) (px (s1 s))), (Qltb_spec (px (s1 s)) (px (s0 s))),
    (Qltb_spec (py (s0 s)) (py (s1 s))), (Qltb_spec (py (s1 s)) (py (s0 s))); lra.
Qed.

Lemma on_seg_range x0 x1 t x : 0 <= t <= 1 -> x == x0 + t * (x1 - x0) -> x0 <= x1 -> x0 <= x <= x1.
Proof. intros Ht E H. rewrite E. split; nra. Qed.
Lemma on_seg_range' x0 x1 t x : 0 <= t <= 1 -> x == x0 + t * (x1 - x0) -> x1 <= x0 -> x1 <= x <= x0.
Proof. intros Ht E H. rewrite E. split; nra. Qed.

Lemma seg_bounding_in s p : on_seg s p -> in_box (seg_bounding s) p.
Proof.
  intros (t & Ht & Ex & Ey). destruct (seg_bounding_cases s) as [Hx Hy]. unfold in_box. split.
  - destruct Hx as [(H & -> & ->)|(H & -> & ->)].
    + now apply (on_seg_range _ _ t).
    + now apply (on_seg_range' _ _ t).
  - destruct Hy as [(H & -> & ->)|(H & -> & ->)].
    + now apply (on_seg_range _ _ t).
    + now apply (on_seg_range' _ _ t).
Qed.

Lemma on_seg_s0 s : on_seg s (s0 s).
Proof. exists 0. split; [lra|]. split; ring. Qed.
Lemma on_seg_s1 s : on_seg s (s1 s).
Proof. exists 1. split; [lra|]. split; ring. Qed.

Lemma seg_bounding_tight s : tight (seg_bounding s) [s0 s; s1 s].
Proof.
  split.
  - intros p [<-|[<-|[]]]; apply seg_bounding_in; [apply on_seg_s0|apply on_seg_s1].
  - destruct (seg_bounding_cases s) as [Hx Hy].
    destruct Hx as [(H & Ha & Hb)|(H & Ha & Hb)], Hy as [(K & Hc & Hd)|(K & Hc & Hd)];
      (split; [|split; [|split]]);
      first [exists (s0 s); split; [cbn; tauto|lra] | exists (s1 s); split; [cbn; tauto|lra]].
Qed.

(** A box is convex. *)
Lemma in_box_convex b p q r : in_box b p -> in_box b q -> on_seg (mk_seg p q) r -> in_box b r.
Proof.
  intros [Hp1 Hp2] [Hq1 Hq2] (t & Ht & Ex & Ey). cbn in Ex, Ey. unfold in_box. rewrite Ex, Ey.
  split; nra.
Qed.

Lemma edges_from_chain l : forall prev,
  edges_from prev l = map (fun pq => mk_seg (fst pq) (snd pq)) (chain prev l).
Proof. induction l as [|p l IH]; intros prev; cbn; [reflexivity|now rewrite IH]. Qed.

Lemma detect_edges_sides l e : detect_edges l = Done e ->
  e = map (fun pq => mk_seg (fst pq) (snd pq)) (sides l).
Proof.
  destruct l as [|p l]; [discriminate|]. unfold detect_edges, sides. intro H.
  rewrite <- edges_from_chain. congruence.
Qed.

Lemma chain_in l : forall prev a b, In (a, b) (chain prev l) -> In a (prev :: l) /\ In b l.
Proof.
  induction l as [|p l IH]; intros prev a b H; [destruct H|].
  cbn [chain] in H. destruct H as [E|H].
  - injection E as -> ->. split; now left.
  - destruct (IH _ _ _ H) as [Ha Hb]. split; now right.
Qed.

Lemma last_in (l : list point) d : l <> [] -> In (last l d) l.
Proof.
  induction l as [|p l IH]; intro H; [congruence|].
  destruct l as [|q l]; [now left|]. right. apply IH. congruence.
Qed.

Lemma sides_in l a b : In (a, b) (sides l) -> In a l /\ In b l.
Proof.
  destruct l as [|p l]; [intros []|]. cbn [sides]. intro H. apply chain_in in H.
  destruct H as [[<-|Ha] Hb]; split; try assumption. apply last_in. congruence.
Qed.

(** * Area *)

Definition det (p q : point) : Q := px p * py q - px q * py p.
Fixpoint psum (f : point -> point -> Q) (c : list (point * point)) : Q :=
  match c with [] => 0 | (a, b) :: r => f a b + psum f r end.
Definition area2 (l : list point) : Q := psum det (sides l).

Lemma psum_app f c c' : psum f (c ++ c') == psum f c + psum f c'.
Proof. induction c as [|[a b] c IH]; cbn; [ring|rewrite IH; ring]. Qed.

Lemma psum_ext f g c : (forall a b, In (a, b) c -> f a b == g a b) -> psum f c == psum g c.
Proof.
  induction c as [|[a b] c IH]; intro H; cbn; [reflexivity|].
  rewrite IH, (H a b); [reflexivity|now left|]. intros x y Hxy. apply H. now right.
Qed.

Lemma psum_nonneg f c : (forall a b, In (a, b) c -> 0 <= f a b) -> 0 <= psum f c.
Proof.
  induction c as [|[a b] c IH]; intro H; cbn; [lra|].
  assert (0 <= f a b) by (apply H; now left).
  assert (0 <= psum f c) by (apply IH; intros; apply H; now right). lra.
Qed.

Lemma psum_nonpos f c : (forall a b, In (a, b) c -> f a b <= 0) -> psum f c <= 0.
Proof.
  induction c as [|[a b] c IH]; intro H; cbn; [lra|].
  assert (f a b <= 0) by (apply H; now left).
  assert (psum f c <= 0) by (apply IH; intros; apply H; now right). lra.
Qed.

Lemma last_cons_indep (l : list point) : forall q a b, last (q :: l) a = last (q :: l) b.
Proof. induction l as [|x l IH]; intros; [reflexivity|]. apply (IH x). Qed.

Lemma chain_app l : forall prev m,
  chain prev (l ++ m) = chain prev l ++ chain (last l prev) m.
Proof.
  induction l as [|p l IH]; intros prev m; [reflexivity|].
  cbn [app chain]. rewrite IH. f_equal. f_equal. f_equal.
  destruct l as [|q l]; [reflexivity|].
  change (last (q :: l) p = last (q :: l) prev). apply last_cons_indep.
Qed.

Lemma last_snoc (l : list point) a d : last (l ++ [a]) d = a.
Proof. apply last_last. Qed.

(** [sums] walks the chain that starts at the first point and comes back. *)
Lemma sums_chain first l : forall p,
  fst (sums first (p :: l)) - snd (sums first (p :: l)) == psum det (chain p (l ++ [first])).
Proof.
  induction l as [|q l IH]; intro p.
  - cbn. unfold det. ring.
  - specialize (IH q). cbn [app chain psum]. rewrite <- IH.
    change (sums first (p :: q :: l)) with
      (let '(a, b) := sums first (q :: l) in (px p * py q + a, px q * py p + b)).
    destruct (sums first (q :: l)) as [a b]. cbn. unfold det. ring.
Qed.

Lemma area_start p l : psum det (chain p (l ++ [p])) == area2 (p :: l).
Proof.
  unfold area2. cbn [sides]. rewrite chain_app. rewrite psum_app.
  change (chain (last (p :: l) p) (p :: l)) with ((last (p :: l) p, p) :: chain p l).
  cbn [psum chain].
  assert (E : last l p = last (p :: l) p) by (destruct l as [|z l]; [reflexivity|first [reflexivity|apply (last_cons_indep l z)]]).
  rewrite E. ring.
Qed.

(** The decision taken from the (doubled) area. *)
Definition turn (a : Q) : Rotation :=
  if Qltb (Qabs a) (2 * equality_tolerance) then COLINEAR else if Qltb 0 a then CCW else CW.

Lemma Qabs_half a : Qabs ((1 # 2) * a) == (1 # 2) * Qabs a.
Proof. rewrite Qabs_Qmult. reflexivity. Qed.

Lemma rotation_turn l : detect_rotation l = turn (area2 l).
Proof.
  destruct l as [|p l]; [reflexivity|].
  unfold detect_rotation. pose proof (sums_chain p l p) as E. rewrite area_start in E.
  destruct (sums p (p :: l)) as [a b]. cbn [fst snd] in E.
  unfold turn, coord_eqb.
  assert (A : Qabs ((1 # 2) * (a - b) - 0) == (1 # 2) * Qabs (area2 (p :: l))).
  { rewrite <- E, <- Qabs_half. apply Qabs_wd. ring. }
  assert (E1 : Qltb (Qabs ((1 # 2) * (a - b) - 0)) equality_tolerance
               = Qltb (Qabs (area2 (p :: l))) (2 * equality_tolerance)).
  { destruct (Qltb_spec (Qabs ((1 # 2) * (a - b) - 0)) equality_tolerance),
      (Qltb_spec (Qabs (area2 (p :: l))) (2 * equality_tolerance)); try reflexivity; exfalso; lra. }
  rewrite E1.
  assert (E2 : Qltb 0 ((1 # 2) * (a - b)) = Qltb 0 (area2 (p :: l))).
  { destruct (Qltb_spec 0 ((1 # 2) * (a - b))), (Qltb_spec 0 (area2 (p :: l))); try reflexivity; exfalso; lra. }
  rewrite E2. reflexivity.
Qed.

Lemma turn_wd a b : a == b -> turn a = turn b.
Proof.
  intro E. unfold turn.
  assert (A : Qabs a == Qabs b) by now rewrite E.
  assert (E1 : Qltb (Qabs a) (2 * equality_tolerance) = Qltb (Qabs b) (2 * equality_tolerance)).
  { destruct (Qltb_spec (Qabs a) (2 * equality_tolerance)), (Qltb_spec (Qabs b) (2 * equality_tolerance));
      try reflexivity; exfalso; lra. }
  assert (E2 : Qltb 0 a = Qltb 0 b).
  { destruct (Qltb_spec 0 a), (Qltb_spec 0 b); try reflexivity; exfalso; lra. }
  now rewrite E1, E2.
Qed.

Lemma turn_opp a : turn (- a) = opposite (turn a).
Proof.
  unfold turn.
  assert (A : Qabs (- a) == Qabs a) by apply Qabs_opp.
  assert (E1 : Qltb (Qabs (- a)) (2 * equality_tolerance) = Qltb (Qabs a) (2 * equality_tolerance)).
  { destruct (Qltb_spec (Qabs (- a)) (2 * equality_tolerance)), (Qltb_spec (Qabs a) (2 * equality_tolerance));
      try reflexivity; exfalso; lra. }
  rewrite E1. destruct (Qltb_spec (Qabs a) (2 * equality_tolerance)) as [|K]; [reflexivity|].
  assert (~ a == 0).
  { intro Z. assert (Qabs a == 0) by (rewrite Z; reflexivity). unfold equality_tolerance in K. lra. }
  destruct (Qltb_spec 0 (- a)), (Qltb_spec 0 a); try reflexivity; exfalso; lra.
Qed.

(** * Invariance of the area *)

Lemma area_shift l m : area2 (l ++ m) == area2 (m ++ l).
Proof.
  destruct l as [|a l]; [now rewrite app_nil_r|].
  destruct m as [|b m]; [now rewrite app_nil_r|].
  cbn [app]. rewrite <- !area_start.
  replace ((l ++ b :: m) ++ [a]) with ((l ++ [b]) ++ (m ++ [a])) by (rewrite <- !app_assoc; reflexivity).
  replace ((m ++ a :: l) ++ [b]) with ((m ++ [a]) ++ (l ++ [b])) by (rewrite <- !app_assoc; reflexivity).
  rewrite (chain_app (l ++ [b])), (chain_app (m ++ [a])), !psum_app, !last_snoc. ring.
Qed.

Lemma path_rev l : forall a b,
  psum det (chain a (l ++ [b])) == - psum det (chain b (rev l ++ [a])).
Proof.
  induction l as [|p l IH]; intros a b.
  - cbn. unfold det. ring.
  - cbn [app chain psum]. rewrite (IH p b). cbn [rev].
    rewrite (chain_app (rev l ++ [p])), psum_app, last_snoc. cbn [chain psum]. unfold det. ring.
Qed.

Lemma area_rev l : area2 (rev l) == - area2 l.
Proof.
  destruct l as [|p l]; [reflexivity|].
  cbn [rev]. rewrite area_shift. cbn [app]. rewrite <- !area_start. rewrite path_rev, rev_involutive. ring.
Qed.

Definition shifted (v p : point) : point := pt_add p v.

Lemma path_translate v l : forall a,
  psum det (chain (shifted v a) (map (shifted v) l))
  == psum det (chain a l) + px v * (py (last l a) - py a) - py v * (px (last l a) - px a).
Proof.
  induction l as [|p l IH]; intro a.
  - cbn. ring.
  - cbn [map chain psum]. rewrite IH.
    assert (E : last (p :: l) a = last l p) by (destruct l as [|z l]; [reflexivity|first [reflexivity|apply (last_cons_indep l z)]]).
    rewrite E. unfold det, shifted, pt_add. cbn [px py]. ring.
Qed.

Lemma area_translate v l : area2 (map (shifted v) l) == area2 l.
Proof.
  destruct l as [|p l]; [reflexivity|].
  cbn [map]. rewrite <- !area_start.
  change ([shifted v p]) with (map (shifted v) [p]). rewrite <- map_app, path_translate, last_snoc. ring.
Qed.

(** Seen from any point, the area is the sum of the triangles on the sides. *)
Lemma path_fan o l : forall a,
  psum (cross o) (chain a l) == psum det (chain a l) + det o a - det o (last l a).
Proof.
  induction l as [|p l IH]; intro a.
  - cbn. ring.
  - cbn [chain psum]. rewrite IH.
    assert (E : last (p :: l) a = last l p) by (destruct l as [|z l]; [reflexivity|first [reflexivity|apply (last_cons_indep l z)]]).
    rewrite E. unfold det, cross. ring.
Qed.

Lemma area_fan o l : area2 l == psum (cross o) (sides l).
Proof.
  destruct l as [|p l]; [reflexivity|].
  unfold area2. cbn [sides]. rewrite path_fan.
  assert (E : last (p :: l) (last (p :: l) p) = last (p :: l) p) by apply last_cons_indep.
  rewrite E. ring.
Qed.

Lemma cross_cycle a b c : cross a b c == cross c a b.
Proof. unfold cross. ring. Qed.

Lemma convex_ccw_area l : convex_ccw l -> 0 <= area2 l.
Proof.
  intro H. destruct l as [|p l]; [cbn; lra|].
  rewrite (area_fan p). apply psum_nonneg. intros a b Hab. rewrite <- cross_cycle.
  apply H; [assumption|now left].
Qed.

Lemma convex_cw_area l : convex_cw l -> area2 l <= 0.
Proof.
  intro H. destruct l as [|p l]; [cbn; lra|].
  rewrite (area_fan p). apply psum_nonpos. intros a b Hab. rewrite <- cross_cycle.
  apply H; [assumption|now left].
Qed.

Lemma turn_ccw a : turn a = CCW <-> 2 * equality_tolerance <= a.
Proof.
  unfold turn, equality_tolerance. destruct (Qltb_spec (Qabs a) (2 * (1 # 100000000))) as [H|H].
  - split; [discriminate|]. intro K. apply Qabs_Qlt_condition in H. lra.
  - destruct (Qltb_spec 0 a).
    + split; [|reflexivity]. intros _. rewrite Qabs_pos in H by lra. assumption.
    + split; [discriminate|]. intro. lra.
Qed.

Lemma turn_cw a : turn a = CW <-> a <= - (2 * equality_tolerance).
Proof.
  unfold turn, equality_tolerance. destruct (Qltb_spec (Qabs a) (2 * (1 # 100000000))) as [H|H].
  - split; [discriminate|]. intro K. apply Qabs_Qlt_condition in H. lra.
  - destruct (Qltb_spec 0 a).
    + split; [discriminate|]. intro. lra.
    + split; [|reflexivity]. intros _. rewrite Qabs_neg in H by lra. lra.
Qed.

Lemma turn_colinear a : turn a = COLINEAR <-> - (2 * equality_tolerance) < a < 2 * equality_tolerance.
Proof.
  unfold turn. destruct (Qltb_spec (Qabs a) (2 * equality_tolerance)) as [H|H].
  - apply Qabs_Qlt_condition in H. tauto.
  - destruct (Qltb_spec 0 a); (split; [discriminate|]); intro K; apply Qabs_Qlt_condition in K; exfalso; lra.
Qed.

(** * Directions and normals *)

Lemma coord_eqb_zero x : coord_eqb x 0 = true <-> Qabs x < equality_tolerance.
Proof.
  unfold coord_eqb. rewrite Qltb_lt. assert (E : Qabs (x - 0) == Qabs x) by (apply Qabs_wd; ring).
  rewrite E. reflexivity.
Qed.

Lemma seg_axis_cases s :
  match seg_axis s with
  | SPOINT => Qabs (px (seg_vec s)) < equality_tolerance /\ Qabs (py (seg_vec s)) < equality_tolerance
  | SV => Qabs (px (seg_vec s)) < equality_tolerance /\ equality_tolerance <= Qabs (py (seg_vec s))
  | SH => equality_tolerance <= Qabs (px (seg_vec s)) /\ Qabs (py (seg_vec s)) < equality_tolerance
  | SDIAG => equality_tolerance <= Qabs (px (seg_vec s)) /\ equality_tolerance <= Qabs (py (seg_vec s))
  end.
Proof.
  unfold seg_axis, axis_of_vector.
  destruct (coord_eqb (px (seg_vec s)) 0) eqn:Ex, (coord_eqb (py (seg_vec s)) 0) eqn:Ey; cbn;
    repeat match goal with
    | H : coord_eqb _ 0 = true |- _ => apply coord_eqb_zero in H
    | H : coord_eqb ?x 0 = false |- _ =>
        assert (equality_tolerance <= Qabs x) by (apply Qnot_lt_le; intro K; apply coord_eqb_zero in K; congruence);
        clear H
    end; tauto.
Qed.

Lemma direction_defined s : edge_direction s <> None.
Proof.
  unfold edge_direction. pose proof (seg_axis_cases s) as H.
  destruct (seg_axis s); try congruence.
  - destruct (Qltb_spec 0 (px (seg_vec s))); [congruence|].
    destruct (Qltb_spec (px (seg_vec s)) 0); [congruence|].
    exfalso. destruct H as [H _]. assert (E : px (seg_vec s) == 0) by lra. rewrite E in H. now vm_compute in H.
  - destruct (Qltb_spec 0 (py (seg_vec s))); [congruence|].
    destruct (Qltb_spec (py (seg_vec s)) 0); [congruence|].
    exfalso. destruct H as [_ H]. assert (E : py (seg_vec s) == 0) by lra. rewrite E in H. now vm_compute in H.
Qed.

Lemma edge_normal_done r s : exists n, edge_normal r s = Done n.
Proof.
  unfold edge_normal. pose proof (direction_defined s) as H.
  destruct r, (edge_direction s); try congruence; eexists; reflexivity.
Qed.

Lemma with_normals_done r l : exists es, with_normals r l = Done es.
Proof.
  induction l as [|e l [es IH]]; cbn; [eexists; reflexivity|].
  destruct (edge_normal_done r e) as [n E]. rewrite E. cbn. rewrite IH. cbn. eexists. reflexivity.
Qed.

Lemma with_normals_in r l : forall es, with_normals r l = Done es ->
  map fst es = l /\ (forall e n, In (e, n) es -> edge_normal r e = Done n).
Proof.
  induction l as [|e l IH]; intros es H; cbn in H.
  - injection H as <-. split; [reflexivity|]. intros ? ? [].
  - destruct (edge_normal r e) as [n| |] eqn:E; cbn in H; try discriminate.
    destruct (with_normals r l) as [t| |] eqn:F; cbn in H; try discriminate.
    injection H as <-. destruct (IH t eq_refl) as [H1 H2]. split; [cbn; now rewrite H1|].
    intros e' n' [K|K]; [injection K as <- <-; assumption|now apply H2].
Qed.

Lemma polygon_edges_done l : l <> [] -> exists es, polygon_edges l = Done es.
Proof.
  destruct l as [|p l]; [congruence|]. intros _. unfold polygon_edges. cbn [detect_edges bind].
  apply with_normals_done.
Qed.

Lemma polygon_edges_in l es : polygon_edges l = Done es ->
  map fst es = map (fun pq => mk_seg (fst pq) (snd pq)) (sides l)
  /\ (forall e n, In (e, n) es -> edge_normal (detect_rotation l) e = Done n).
Proof.
  unfold polygon_edges. intro H. destruct (detect_edges l) as [e| |] eqn:E; cbn in H; try discriminate.
  apply with_normals_in in H. rewrite (detect_edges_sides _ _ E) in H. assumption.
Qed.

(** Which directions give which normals. *)
Lemma edge_normal_facts r e n : exact e -> edge_normal r e = Done n ->
  n <> Nnone ->
  let v := seg_vec e in
  (r = CCW \/ r = CW) /\
  ((n = Nymin /\ py v == 0 /\ ((r = CCW /\ 0 < px v) \/ (r = CW /\ px v < 0)))
   \/ (n = Nymax /\ py v == 0 /\ ((r = CCW /\ px v < 0) \/ (r = CW /\ 0 < px v)))
   \/ (n = Nxmin /\ px v == 0 /\ ((r = CCW /\ py v < 0) \/ (r = CW /\ 0 < py v)))
   \/ (n = Nxmax /\ px v == 0 /\ ((r = CCW /\ 0 < py v) \/ (r = CW /\ py v < 0)))).
Proof.
  intros [Hx Hy] H Hn. cbv zeta.
  assert (V : px (seg_vec e) == px (s1 e) - px (s0 e) /\ py (seg_vec e) == py (s1 e) - py (s0 e))
    by (split; reflexivity).
  unfold edge_normal, edge_direction in H. pose proof (seg_axis_cases e) as A.
  assert (X : seg_axis e = SV -> px (seg_vec e) == 0).
  { intro E. rewrite E in A. destruct A as [A _]. apply Hx in A. lra. }
  assert (Y : seg_axis e = SH -> py (seg_vec e) == 0).
  { intro E. rewrite E in A. destruct A as [_ A]. apply Hy in A. lra. }
  destruct r; [| |injection H as <-; congruence];
    (split; [tauto|]); destruct (seg_axis e); try (injection H as <-; congruence).
  - specialize (Y eq_refl). destruct (Qltb_spec 0 (px (seg_vec e))); [injection H as <-; tauto|].
    destruct (Qltb_spec (px (seg_vec e)) 0); [injection H as <-; tauto|discriminate].
  - specialize (X eq_refl). destruct (Qltb_spec 0 (py (seg_vec e))); [injection H as <-; tauto|].
    destruct (Qltb_spec (py (seg_vec e)) 0); [injection H as <-; tauto|discriminate].
  - specialize (Y eq_refl). destruct (Qltb_spec 0 (px (seg_vec e))); [injection H as <-; tauto|].
    destruct (Qltb_spec (px (seg_vec e)) 0); [injection H as <-; tauto|discriminate].
  - specialize (X eq_refl). destruct (Qltb_spec 0 (py (seg_vec e))); [injection H as <-; tauto|].
    destruct (Qltb_spec (py (seg_vec e)) 0); [injection H as <-; tauto|discriminate].
Qed.

Lemma edge_normal_some r e n : edge_normal r e = Done n -> r <> COLINEAR ->
  (seg_axis e = SH \/ seg_axis e = SV) -> n <> Nnone.
Proof.
  unfold edge_normal, edge_direction. intros H Hr A.
  destruct r; [| |congruence]; destruct A as [A|A]; rewrite A in H.
  all: repeat match type of H with context [Qltb ?a ?b] => destruct (Qltb a b) end;
    first [discriminate | injection H as <-; congruence].
Qed.

(** No point of a convex polygon is beyond an edge with a normal. *)
Lemma convex_normal l es e n c :
  convex_ccw l \/ convex_cw l -> polygon_edges l = Done es -> In (e, n) es -> exact e -> n <> Nnone -> In c l ->
  px (normal_vec n) * (px c - px (s0 e)) + py (normal_vec n) * (py c - py (s0 e)) <= 0
  /\ px (normal_vec n) * px (seg_vec e) + py (normal_vec n) * py (seg_vec e) == 0.
Proof.
  intros Hc Hes Hin He Hn Hl.
  destruct (polygon_edges_in _ _ Hes) as [H1 H2].
  pose proof (edge_normal_facts _ _ _ He (H2 _ _ Hin) Hn) as [Hr F].
  assert (Hs : In (s0 e, s1 e) (sides l)).
  { assert (K : In e (map fst es)) by (apply in_map_iff; exists (e, n); split; [reflexivity|assumption]).
    rewrite H1 in K. apply in_map_iff in K. destruct K as ([a b] & <- & K). exact K. }
  rewrite rotation_turn in *.
  assert (O : (turn (area2 l) = CCW /\ 0 <= cross (s0 e) (s1 e) c)
              \/ (turn (area2 l) = CW /\ cross (s0 e) (s1 e) c <= 0)).
  { destruct Hc as [Hc|Hc].
    - left. pose proof (convex_ccw_area _ Hc). split; [|now apply Hc].
      destruct Hr as [Hr|Hr]; [assumption|]. apply turn_cw in Hr. unfold equality_tolerance in Hr. lra.
    - right. pose proof (convex_cw_area _ Hc). split; [|now apply Hc].
      destruct Hr as [Hr|Hr]; [|assumption]. apply turn_ccw in Hr. unfold equality_tolerance in Hr. lra. }
  assert (V : cross (s0 e) (s1 e) c
              == px (seg_vec e) * (py c - py (s0 e)) - py (seg_vec e) * (px c - px (s0 e))) by (unfold cross, seg_vec; cbn; ring).
  rewrite V in O. clear V.
  destruct F as [(-> & E & F)|[(-> & E & F)|[(-> & E & F)|(-> & E & F)]]]; cbn [normal_vec px py];
    rewrite E in O |- *; (split; [|ring]);
    destruct O as [(O1 & O2)|(O1 & O2)], F as [(F1 & F2)|(F1 & F2)]; try congruence; nra.
Qed.
