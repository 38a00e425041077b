(** The location of a point in a polygon of any shape: the even-odd rule does not depend
    on the ray, and on a grid the rays of the code follow it. *)
From Coq Require Import List Arith Bool ZArith QArith Qabs Qminmax Lqa Lia.
From Verif Require Import IntervalModel ManagerModel IntervalProofs ManagerMoreProofs GeomModel GeomSpec GeomProofs GeomSegProofs GeomBoxProofs GeomLocateProofs LocateSpec.
Import ListNotations.
Open Scope Q_scope.

(** * The rule for any direction *)

Definition right : point := mk_pt 1 0.
Definition up : point := mk_pt 0 1.
Definition left_ : point := mk_pt (-1) 0.
Definition down : point := mk_pt 0 (-1).

Lemma right_rule p s : on_right p s = passes right p s.
Proof.
  destruct s as [a b]. unfold on_right, passes, side_of, right. cbn [px py].
  assert (C : cross b a p == - cross a b p) by (unfold cross; ring).
  set (c := cross a b p) in *. set (c' := cross b a p) in *. clearbody c c'.
  destruct (Qltb_spec 0 (1 * (py a - py p) - 0 * (px a - px p))), (Qltb_spec 0 (1 * (py b - py p) - 0 * (px b - px p)));
  destruct (Qle_spec (py a) (py p)), (Qle_spec (py b) (py p)), (Qltb_spec (py p) (py a)), (Qltb_spec (py p) (py b)); cbn; try lra;
  rewrite ?orb_false_r; destruct (Qltb_spec 0 c), (Qltb_spec c 0), (Qltb_spec 0 c'); cbn; try reflexivity; lra.
Qed.
Lemma right_parity l p : parity right l p = Nat.odd (length (filter (on_right p) (sides l))).
Proof. unfold parity. do 2 f_equal. apply filter_ext. intros s. symmetry. apply right_rule. Qed.

(** ** Parity over a closed chain *)

Lemma odd_filter {A} (f : A -> bool) x l : Nat.odd (length (filter f (x :: l))) = xorb (f x) (Nat.odd (length (filter f l))).
Proof.
  cbn [filter]. destruct (f x); cbn [length]; [|now rewrite xorb_false_l]. rewrite Nat.odd_succ, <- Nat.negb_odd. now destruct (Nat.odd _).
Qed.
Lemma chain_parity (f g : point * point -> bool) (I : point -> bool) l : forall prev,
  (forall a b, In (a, b) (chain prev l) -> xorb (f (a, b)) (g (a, b)) = xorb (I a) (I b)) ->
  xorb (Nat.odd (length (filter f (chain prev l)))) (Nat.odd (length (filter g (chain prev l)))) = xorb (I prev) (I (last l prev)).
Proof.
  induction l as [|v l IH]; intros prev H; [cbn; now destruct (I prev)|]. cbn [chain]. rewrite !odd_filter.
  assert (L : last (v :: l) prev = last l v). { clear. revert v prev. induction l as [|w l IH]; intros v prev; [reflexivity|]. change (last (v :: w :: l) prev) with (last (w :: l) prev). rewrite !(IH w). reflexivity. }
  rewrite L. specialize (IH v). cbn [chain] in H. assert (H0 := H prev v (or_introl eq_refl)).
  assert (IH' : xorb (Nat.odd (length (filter f (chain v l)))) (Nat.odd (length (filter g (chain v l)))) = xorb (I v) (I (last l v))) by (apply IH; intros a b K; apply H; now right).
  destruct (f (prev, v)), (g (prev, v)), (Nat.odd (length (filter f (chain v l)))), (Nat.odd (length (filter g (chain v l)))), (I prev), (I v), (I (last l v)); cbn in *; congruence.
Qed.
Lemma sides_parity (f g : point * point -> bool) (I : point -> bool) l :
  (forall a b, In (a, b) (sides l) -> xorb (f (a, b)) (g (a, b)) = xorb (I a) (I b)) ->
  Nat.odd (length (filter f (sides l))) = Nat.odd (length (filter g (sides l))).
Proof.
  destruct l as [|v l]; [reflexivity|]. intros H. unfold sides in *. pose proof (chain_parity f g I (v :: l) (last (v :: l) v) H) as P.
  assert (E : last (v :: l) (last (v :: l) v) = last (v :: l) v) by (generalize (last (v :: l) v) at 1; intros z; apply last_cons_indep).
  rewrite E, xorb_nilpotent in P. now apply xorb_eq.
Qed.

(** ** From a direction to another one *)

Lemma cross_sides u w p a b : (px u * py w - py u * px w) * cross a b p == side_of u p a * side_of w p b - side_of u p b * side_of w p a.
Proof. unfold cross, side_of. ring. Qed.

(** On the segment: weights of the two ends. *)
Lemma weighted a b p x y : 0 <= x -> 0 <= y -> 0 < x + y -> (x + y) * px p == x * px a + y * px b -> (x + y) * py p == x * py a + y * py b -> on_seg (mk_seg a b) p.
Proof.
  intros X Y S Ex Ey. assert (N : ~ x + y == 0) by lra. exists (y / (x + y)). split; [split|split]; cbn [s0 s1].
  - apply Qle_shift_div_l; lra.
  - apply Qle_shift_div_r; lra.
  - setoid_replace (px p) with ((x + y) * px p / (x + y)) by (field; exact N). rewrite Ex. field. exact N.
  - setoid_replace (py p) with ((x + y) * py p / (x + y)) by (field; exact N). rewrite Ey. field. exact N.
Qed.

Lemma signs x y : (0 < x -> 0 < y -> 0 < x * y) /\ (0 < x -> y <= 0 -> x * y <= 0) /\ (x <= 0 -> 0 < y -> x * y <= 0) /\ (x <= 0 -> y <= 0 -> 0 <= x * y).
Proof. repeat split; intros; nra. Qed.
Lemma straddle_on u p a b : ~ on_seg (mk_seg a b) p -> cross a b p == 0 ->
  (0 < side_of u p a /\ side_of u p b <= 0) \/ (side_of u p a <= 0 /\ 0 < side_of u p b) -> False.
Proof.
  intros N C K. apply N. unfold side_of, cross in *.
  assert (exists x y, 0 <= x /\ 0 <= y /\ 0 < x + y /\ x * (px a - px p) + y * (px b - px p) == 0 /\ x * (py a - py p) + y * (py b - py p) == 0) as (x & y & X & Y & S & Ex & Ey).
  { set (ua := px u * (py a - py p) - py u * (px a - px p)) in *. set (ub := px u * (py b - py p) - py u * (px b - px p)) in *.
    assert (C' : (px a - px p) * (py b - py p) == (py a - py p) * (px b - px p)) by lra.
    destruct K as [K|K].
    - exists (- ub), ua. split; [lra|]. split; [lra|]. split; [lra|]. unfold ua, ub. split.
      + transitivity (px u * ((py a - py p) * (px b - px p) - (px a - px p) * (py b - py p))); [ring|]. rewrite C'. ring.
      + transitivity (py u * ((py a - py p) * (px b - px p) - (px a - px p) * (py b - py p))); [ring|]. rewrite C'. ring.
    - exists ub, (- ua). split; [lra|]. split; [lra|]. split; [lra|]. unfold ua, ub. split.
      + transitivity (px u * ((px a - px p) * (py b - py p) - (py a - py p) * (px b - px p))); [ring|]. rewrite C'. ring.
      + transitivity (py u * ((px a - px p) * (py b - py p) - (py a - py p) * (px b - px p))); [ring|]. rewrite C'. ring. }
  apply (weighted a b p x y); lra.
Qed.

Lemma cone u w p a b : 0 < px u * py w - py u * px w -> ~ on_seg (mk_seg a b) p ->
  xorb (passes u p (a, b)) (passes w p (a, b)) =
  xorb (Qltb 0 (side_of u p a) && negb (Qltb 0 (side_of w p a))) (Qltb 0 (side_of u p b) && negb (Qltb 0 (side_of w p b))).
Proof.
  intros D N. pose proof (cross_sides u w p a b) as E. unfold passes.
  pose proof (straddle_on u p a b N) as Nu. pose proof (straddle_on w p a b N) as Nw.
  set (D' := px u * py w - py u * px w) in *. set (c := cross a b p) in *. set (ua := side_of u p a) in *. set (ub := side_of u p b) in *. set (wa := side_of w p a) in *. set (wb := side_of w p b) in *.
  clearbody D' c ua ub wa wb. clear N.
  destruct (Qltb_spec 0 ua), (Qltb_spec 0 ub), (Qltb_spec 0 wa), (Qltb_spec 0 wb); cbn [negb andb xorb]; rewrite ?xorb_false_r, ?xorb_false_l; try reflexivity;
    destruct (Qltb_spec c 0), (Qltb_spec 0 c); cbn; try reflexivity; exfalso; try lra; try (apply Nu; lra); try (apply Nw; lra);
    pose proof (signs ua wb) as (A1 & A2 & A3 & A4); pose proof (signs ub wa) as (B1 & B2 & B3 & B4); pose proof (signs D' c) as (C1 & _ & _ & _); assert (C2 : c < 0 -> D' * c < 0) by (intros; nra);
    assert (C3 : c == 0 -> D' * c == 0) by (intros ->; ring);
    set (m1 := ua * wb) in *; set (m2 := ub * wa) in *; set (m3 := D' * c) in *; clearbody m1 m2 m3;
    repeat match goal with K : ?x < ?y -> _, H : ?x < ?y |- _ => specialize (K H) | K : ?x <= ?y -> _, H : ?x <= ?y |- _ => specialize (K H) end; try lra;
    assert (Z : c == 0) by lra; specialize (C3 Z); lra.
Qed.

Lemma turned u w l p : 0 < px u * py w - py u * px w -> ~ on_border l p -> parity u l p = parity w l p.
Proof.
  intros D N. apply (sides_parity _ _ (fun v => Qltb 0 (side_of u p v) && negb (Qltb 0 (side_of w p v)))). intros a b I. apply cone; [exact D|].
  intros K. apply N. now exists a, b.
Qed.
Lemma parity_scale k u w l p : 0 < k -> px w == k * px u -> py w == k * py u -> parity u l p = parity w l p.
Proof.
  intros K X Y. unfold parity. do 2 f_equal. apply filter_ext. intros [a b]. unfold passes.
  assert (S : forall v, Qltb 0 (side_of u p v) = Qltb 0 (side_of w p v)).
  { intros v. assert (E : side_of w p v == k * side_of u p v) by (unfold side_of; rewrite X, Y; ring).
    set (x := side_of u p v) in *. set (y := side_of w p v) in *. clearbody x y. destruct (Qltb_spec 0 x), (Qltb_spec 0 y); try reflexivity; nra. }
  now rewrite !S.
Qed.

(** All directions give the same. *)
Lemma all_parities w l p : ~ (px w == 0 /\ py w == 0) -> ~ on_border l p -> parity w l p = parity right l p.
Proof.
  intros Z N. destruct (Q_dec (py w) 0) as [[H|H]|H].
  - apply turned; [cbn; lra|exact N].
  - symmetry. apply turned; [cbn; lra|exact N].
  - destruct (Q_dec (px w) 0) as [[K|K]|K].
    + rewrite <- (turned up w) by (try exact N; cbn; lra). symmetry. apply turned; [cbn; lra|exact N].
    + symmetry. apply (parity_scale (px w)); [exact K|cbn; ring|cbn; rewrite H; ring].
    + exfalso. apply Z. now split.
Qed.

(** ** What the rule says *)

(** A segment that does not meet the side. *)
Lemma unmet a b p q : (forall x, on_seg (mk_seg p q) x -> ~ on_seg (mk_seg a b) x) ->
  passes (pt_sub q p) p (a, b) = passes (pt_sub q p) q (a, b).
Proof.
  intros H. set (w := pt_sub q p).
  assert (Ea : side_of w q a == side_of w p a) by (unfold side_of, w, pt_sub; cbn [px py]; ring).
  assert (Eb : side_of w q b == side_of w p b) by (unfold side_of, w, pt_sub; cbn [px py]; ring).
  assert (C : cross a b q == cross a b p - (side_of w p b - side_of w p a)) by (unfold cross, side_of, w, pt_sub; cbn [px py]; ring).
  assert (Ix : side_of w p b * px a - side_of w p a * px b == (side_of w p b - side_of w p a - cross a b p) * px p + cross a b p * px q) by (unfold cross, side_of, w, pt_sub; cbn [px py]; ring).
  assert (Iy : side_of w p b * py a - side_of w p a * py b == (side_of w p b - side_of w p a - cross a b p) * py p + cross a b p * py q) by (unfold cross, side_of, w, pt_sub; cbn [px py]; ring).
  unfold passes.
  set (fa := side_of w p a) in *. set (fb := side_of w p b) in *. set (fa' := side_of w q a) in *. set (fb' := side_of w q b) in *. set (c := cross a b p) in *. set (c' := cross a b q) in *.
  clearbody fa fb fa' fb' c c'.
  assert (M1 : fa <= 0 -> 0 < fb -> 0 < c -> c' <= 0 -> False).
  { intros A B P P'. set (z := mk_pt ((fb * px a - fa * px b) / (fb - fa)) ((fb * py a - fa * py b) / (fb - fa))).
    assert (Zx : (fb - fa) * px z == fb * px a - fa * px b) by (unfold z; cbn; field; lra).
    assert (Zy : (fb - fa) * py z == fb * py a - fa * py b) by (unfold z; cbn; field; lra). clearbody z.
    apply (H z); [apply (weighted _ _ _ (fb - fa - c) c); lra|apply (weighted _ _ _ fb (- fa)); lra]. }
  assert (M2 : fb <= 0 -> 0 < fa -> c < 0 -> 0 <= c' -> False).
  { intros A B P P'. set (z := mk_pt ((fb * px a - fa * px b) / (fb - fa)) ((fb * py a - fa * py b) / (fb - fa))).
    assert (Zx : (fb - fa) * px z == fb * px a - fa * px b) by (unfold z; cbn; field; lra).
    assert (Zy : (fb - fa) * py z == fb * py a - fa * py b) by (unfold z; cbn; field; lra). clearbody z.
    apply (H z); [apply (weighted _ _ _ (c + (fa - fb)) (- c)); lra|apply (weighted _ _ _ (- fb) fa); lra]. }
  destruct (Qltb_spec 0 fa), (Qltb_spec 0 fb), (Qltb_spec 0 fa'), (Qltb_spec 0 fb'); cbn [negb andb]; try reflexivity; try lra;
    destruct (Qltb_spec c 0), (Qltb_spec 0 c), (Qltb_spec c' 0), (Qltb_spec 0 c'); cbn; try reflexivity; exfalso; try lra; first [apply M1; lra|apply M2; lra].
Qed.

Lemma passes_comp w p q s : px p == px q -> py p == py q -> passes w p s = passes w q s.
Proof.
  intros X Y. destruct s as [a b]. unfold passes.
  assert (Ql : forall x y x' y', x == x' -> y == y' -> Qltb x y = Qltb x' y'). { intros. destruct (Qltb_spec x y), (Qltb_spec x' y'); try reflexivity; lra. }
  rewrite (Ql 0 (side_of w p a) 0 (side_of w q a)), (Ql 0 (side_of w p b) 0 (side_of w q b)), (Ql (cross a b p) 0 (cross a b q) 0), (Ql 0 (cross a b p) 0 (cross a b q));
    [reflexivity|reflexivity| | |reflexivity|reflexivity| |reflexivity|]; unfold cross, side_of; rewrite X, Y; reflexivity.
Qed.

(** Two points joined by a segment off the border. *)
Lemma joined l p q : (forall x, on_seg (mk_seg p q) x -> ~ on_border l x) -> (enclosed l p <-> enclosed l q).
Proof.
  intros H. assert (Np : ~ on_border l p) by (apply H, (on_seg_s0 (mk_seg p q))). assert (Nq : ~ on_border l q) by (apply H, (on_seg_s1 (mk_seg p q))).
  unfold enclosed. rewrite <- !right_parity. set (w := pt_sub q p).
  assert (E : parity right l p = parity right l q); [|now rewrite E].
  destruct (Qeq_dec (px w) 0) as [Zx|Zx]; [destruct (Qeq_dec (py w) 0) as [Zy|Zy]|].
  { unfold parity. do 2 f_equal. apply filter_ext. intros s. unfold w, pt_sub in Zx, Zy. cbn in Zx, Zy. apply passes_comp; lra. }
  all: rewrite <- (all_parities w l p), <- (all_parities w l q) by (try assumption; intros [? ?]; contradiction);
    unfold parity; do 2 f_equal; apply filter_ext_in; intros [a b] I; apply unmet; intros x O K; apply (H x O); now exists a, b.
Qed.

(** Nothing is enclosed beyond the vertices. *)
Lemma reach_cross w p a b : cross a b p * (px w * px w + py w * py w) == side_of w p b * (reach w a - reach w p) - side_of w p a * (reach w b - reach w p).
Proof. unfold cross, side_of, reach. ring. Qed.
Lemma square_pos w : ~ (px w == 0 /\ py w == 0) -> 0 < px w * px w + py w * py w.
Proof.
  intros Z. destruct (Q_dec (px w) 0) as [[H|H]|H]; [nra|nra|]. destruct (Q_dec (py w) 0) as [[K|K]|K]; [nra|nra|]. exfalso. apply Z. now split.
Qed.
Lemma beyond_none w l p : ~ (px w == 0 /\ py w == 0) -> (forall v, In v l -> reach w v < reach w p) -> parity w l p = false.
Proof.
  intros Z H. unfold parity. assert (E : filter (passes w p) (sides l) = []); [|now rewrite E].
  assert (F : forall s, In s (sides l) -> passes w p s = false).
  { intros [a b] I. destruct (sides_in _ _ _ I) as [Ia Ib]. pose proof (H a Ia) as Ha. pose proof (H b Ib) as Hb. pose proof (reach_cross w p a b) as R. pose proof (square_pos w Z) as S.
    unfold passes. set (c := cross a b p) in *. set (fa := side_of w p a) in *. set (fb := side_of w p b) in *. set (k := px w * px w + py w * py w) in *.
    set (ra := reach w a - reach w p) in *. set (rb := reach w b - reach w p) in *. assert (ra < 0) by (unfold ra; lra). assert (rb < 0) by (unfold rb; lra). clearbody c fa fb k ra rb. clear Ha Hb.
    destruct (Qltb_spec 0 fa), (Qltb_spec 0 fb); cbn; try reflexivity; destruct (Qltb_spec c 0), (Qltb_spec 0 c); try reflexivity; exfalso; nra. }
  revert F. generalize (sides l). intros m F. induction m as [|s m IH]; [reflexivity|]. cbn. rewrite (F s) by now left. apply IH. intros t T. apply F. now right.
Qed.
Lemma border_reach w l p h : (forall v, In v l -> reach w v <= h) -> on_border l p -> reach w p <= h.
Proof.
  intros H (a & b & I & (t & T & X & Y)). cbn in X, Y. destruct (sides_in _ _ _ I) as [Ia Ib]. pose proof (H a Ia). pose proof (H b Ib).
  assert (E : reach w p == (1 - t) * reach w a + t * reach w b) by (unfold reach; rewrite X, Y; ring). rewrite E. nra.
Qed.
Lemma beyond_out w l p : ~ (px w == 0 /\ py w == 0) -> (forall v, In v l -> reach w v < reach w p) -> ~ on_border l p -> ~ enclosed l p.
Proof.
  intros Z H N K. unfold enclosed in K. rewrite <- right_parity, <- (all_parities w l p Z N), (beyond_none w l p Z H) in K. discriminate.
Qed.

(** ** A side that is met in between *)

Lemma opposite_signs x y : 0 < x * - y -> (0 < x /\ y < 0) \/ (x < 0 /\ 0 < y).
Proof.
  intros H. destruct (Q_dec x 0) as [[K|K]|K].
  - right. split; [exact K|]. destruct (Qlt_le_dec 0 y); [assumption|exfalso; nra].
  - left. split; [exact K|]. destruct (Qlt_le_dec y 0); [assumption|exfalso; nra].
  - exfalso. rewrite K in H. lra.
Qed.
Lemma met a b p q : 0 < cross a b p * - cross a b q -> 0 < cross p q a * - cross p q b ->
  passes (pt_sub q p) p (a, b) = negb (passes (pt_sub q p) q (a, b)).
Proof.
  intros C S. set (w := pt_sub q p).
  assert (Ea : side_of w q a == side_of w p a) by (unfold side_of, w, pt_sub; cbn [px py]; ring).
  assert (Eb : side_of w q b == side_of w p b) by (unfold side_of, w, pt_sub; cbn [px py]; ring).
  assert (Fa : cross p q a == side_of w p a) by (unfold cross, side_of, w, pt_sub; cbn [px py]; ring).
  assert (Fb : cross p q b == side_of w p b) by (unfold cross, side_of, w, pt_sub; cbn [px py]; ring).
  rewrite Fa, Fb in S. unfold passes.
  set (fa := side_of w p a) in *. set (fb := side_of w p b) in *. set (fa' := side_of w q a) in *. set (fb' := side_of w q b) in *. set (c := cross a b p) in *. set (c' := cross a b q) in *.
  clearbody fa fb fa' fb' c c'. clear Fa Fb.
  pose proof (opposite_signs _ _ S) as S'.
  pose proof (opposite_signs _ _ C) as C'.
  clear C S.
  destruct (Qltb_spec 0 fa), (Qltb_spec 0 fb), (Qltb_spec 0 fa'), (Qltb_spec 0 fb'); try lra; cbn [negb andb];
    destruct (Qltb_spec c 0), (Qltb_spec 0 c), (Qltb_spec c' 0), (Qltb_spec 0 c'); try lra; reflexivity.
Qed.

Lemma odd_app {A} (f : A -> bool) m n : Nat.odd (length (filter f (m ++ n))) = xorb (Nat.odd (length (filter f m))) (Nat.odd (length (filter f n))).
Proof.
  induction m as [|x m IH]; [cbn; now destruct (Nat.odd _)|]. change ((x :: m) ++ n) with (x :: (m ++ n)). rewrite !odd_filter, IH.
  destruct (f x), (Nat.odd (length (filter f m))), (Nat.odd (length (filter f n))); reflexivity.
Qed.

(** A segment that goes through a single side: one of its ends is in, the other is out. *)
Lemma flipped l p q a b m n : sides l = m ++ (a, b) :: n -> ~ on_border l p -> ~ on_border l q ->
  0 < cross a b p * - cross a b q -> 0 < cross p q a * - cross p q b ->
  (forall s x, In s (m ++ n) -> on_seg (mk_seg p q) x -> ~ on_seg (mk_seg (fst s) (snd s)) x) ->
  (enclosed l p <-> ~ enclosed l q).
Proof.
  intros E Np Nq C S U. unfold enclosed. rewrite <- !right_parity. set (w := pt_sub q p).
  assert (W : ~ (px w == 0 /\ py w == 0)).
  { intros [X Y]. unfold w, pt_sub in X, Y. cbn in X, Y. unfold cross in S.
    assert (Ex : px q - px p == 0) by lra. assert (Ey : py q - py p == 0) by lra. rewrite Ex, Ey in S. lra. }
  rewrite <- (all_parities w l p), <- (all_parities w l q) by assumption. unfold parity. rewrite E, !odd_app, !odd_filter. pose proof (met a b p q C S) as M. fold w in M. rewrite M.
  assert (Em : forall s, In s (m ++ n) -> passes w p s = passes w q s).
  { intros [x y] I. apply unmet. intros z Z1 Z2. exact (U (x, y) z I Z1 Z2). }
  rewrite (filter_ext_in (passes w p) (passes w q) m), (filter_ext_in (passes w p) (passes w q) n) by (intros s I; apply Em, in_or_app; tauto).
  destruct (Nat.odd (length (filter (passes w q) m))), (passes w q (a, b)), (Nat.odd (length (filter (passes w q) n))); cbn; split; congruence.
Qed.

(** ** The box *)

(** A point on the line of a segment and in its box is on it. *)
Lemma flat_on a b p : cross a b p == 0 -> in_box (seg_bounding (mk_seg a b)) p -> on_seg (mk_seg a b) p.
Proof.
  intros C [Bx By]. destruct (seg_bounding_cases (mk_seg a b)) as [Cx Cy]. cbn [s0 s1] in Cx, Cy.
  assert (Kx : (px a <= px p /\ px p <= px b) \/ (px b <= px p /\ px p <= px a)).
  { destruct Cx as [(? & E1 & E2)|(? & E1 & E2)]; rewrite E1, E2 in Bx; lra. }
  assert (Ky : (py a <= py p /\ py p <= py b) \/ (py b <= py p /\ py p <= py a)).
  { destruct Cy as [(? & E1 & E2)|(? & E1 & E2)]; rewrite E1, E2 in By; lra. }
  clear Bx By Cx Cy. unfold cross in C.
  destruct (Qeq_dec (px a) (px b)) as [Ex|Nx].
  - destruct (Qeq_dec (py a) (py b)) as [Ey|Ny].
    + exists 0. cbn [s0 s1]. repeat split; lra.
    + destruct Ky as [K|K]; [apply (weighted a b p (py b - py p) (py p - py a))|apply (weighted a b p (py p - py b) (py a - py p))]; try lra; nra.
  - destruct Kx as [K|K]; [apply (weighted a b p (px b - px p) (px p - px a))|apply (weighted a b p (px p - px b) (px a - px p))]; try lra; nra.
Qed.

Lemma flat_right a b p : py a == py b -> on_right p (a, b) = false.
Proof.
  intros E. unfold on_right. destruct (Qle_spec (py a) (py p)), (Qltb_spec (py p) (py b)), (Qle_spec (py b) (py p)), (Qltb_spec (py p) (py a)); cbn; try reflexivity; lra.
Qed.
Lemma steep_right a b p : px a == px b -> (on_right p (a, b) = true <-> px p < px a /\ ((py a <= py p /\ py p < py b) \/ (py b <= py p /\ py p < py a))).
Proof.
  intros E. assert (C1 : cross a b p == (py b - py a) * (px a - px p)) by (unfold cross; rewrite <- E; ring).
  assert (C2 : cross b a p == (py a - py b) * (px a - px p)) by (unfold cross; rewrite E; ring).
  unfold on_right. set (c := cross a b p) in *. set (c' := cross b a p) in *. clearbody c c'.
  assert (P1 : py a < py b -> (0 < c <-> px p < px a)) by (intros; rewrite C1; split; intro; nra).
  assert (P2 : py b < py a -> (0 < c' <-> px p < px a)) by (intros; rewrite C2; split; intro; nra). clear C1 C2.
  destruct (Qle_spec (py a) (py p)), (Qltb_spec (py p) (py b)), (Qle_spec (py b) (py p)), (Qltb_spec (py p) (py a)); cbn [andb orb]; try (exfalso; lra); try (split; [discriminate|intros; lra]).
  - assert (py a < py b) as K by lra. specialize (P1 K). clear P2. rewrite orb_false_r. destruct (Qltb_spec 0 c); split; intro; try reflexivity; try discriminate; [split; [now apply P1|lra]|exfalso; assert (0 < c) by (now apply P1); lra].
  - assert (py b < py a) as K by lra. specialize (P2 K). clear P1. destruct (Qltb_spec 0 c'); split; intro; try reflexivity; try discriminate; [split; [now apply P2|lra]|exfalso; assert (0 < c') by (now apply P2); lra].
Qed.
Lemma box_enclosed p q c : ~ on_border (box_points p q) c -> (enclosed (box_points p q) c <-> inside (hull p q) c).
Proof.
  intros N.
  assert (B : forall a b, In (a, b) (sides (box_points p q)) -> cross a b c == 0 -> in_box (seg_bounding (mk_seg a b)) c -> False).
  { intros a b I C K. apply N. exists a, b. split; [exact I|]. now apply flat_on. }
  rewrite box_sides in B. cbv zeta in B.
  assert (Nx : forall X, X == px p \/ X == px q -> px c == X -> (py p <= py c <= py q \/ py q <= py c <= py p) -> False).
  { intros X [E|E] Xc Y; [apply (B (mk_pt (px p) (py p)) (mk_pt (px p) (py q)))|apply (B (mk_pt (px q) (py q)) (mk_pt (px q) (py p)))]; try (cbn; tauto); try (unfold cross; cbn [px py]; rewrite Xc, E; ring);
      match goal with |- in_box (seg_bounding (mk_seg ?u ?v)) _ => destruct (seg_bounding_cases (mk_seg u v)) as [Cx Cy]; cbn [s0 s1 px py] in Cx, Cy; destruct Cx as [(? & E1 & E2)|(? & E1 & E2)]; destruct Cy as [(? & E3 & E4)|(? & E3 & E4)]; unfold in_box; rewrite E1, E2, E3, E4; lra end. }
  assert (Ny : forall Y, Y == py p \/ Y == py q -> py c == Y -> (px p <= px c <= px q \/ px q <= px c <= px p) -> False).
  { intros X [E|E] Xc Y; [apply (B (mk_pt (px q) (py p)) (mk_pt (px p) (py p)))|apply (B (mk_pt (px p) (py q)) (mk_pt (px q) (py q)))]; try (cbn; tauto); try (unfold cross; cbn [px py]; rewrite Xc, E; ring);
      match goal with |- in_box (seg_bounding (mk_seg ?u ?v)) _ => destruct (seg_bounding_cases (mk_seg u v)) as [Cx Cy]; cbn [s0 s1 px py] in Cx, Cy; destruct Cx as [(? & E1 & E2)|(? & E1 & E2)]; destruct Cy as [(? & E3 & E4)|(? & E3 & E4)]; unfold in_box; rewrite E1, E2, E3, E4; lra end. }
  pose proof (fun H => Nx (px p) (or_introl (Qeq_refl _)) H) as X0. pose proof (fun H => Nx (px q) (or_intror (Qeq_refl _)) H) as X1.
  pose proof (fun H => Ny (py p) (or_introl (Qeq_refl _)) H) as Y0. pose proof (fun H => Ny (py q) (or_intror (Qeq_refl _)) H) as Y1. clear Nx Ny B N.
  unfold enclosed. rewrite box_sides. cbv zeta. rewrite !odd_filter. rewrite !(flat_right (mk_pt _ (py p)) (mk_pt _ (py p))), !(flat_right (mk_pt _ (py q)) (mk_pt _ (py q))) by reflexivity.
  pose proof (steep_right (mk_pt (px p) (py p)) (mk_pt (px p) (py q)) c (Qeq_refl _)) as S0. pose proof (steep_right (mk_pt (px q) (py q)) (mk_pt (px q) (py p)) c (Qeq_refl _)) as S1.
  cbn [px py] in S0, S1. cbn [filter length]. change (Nat.odd 0) with false. rewrite !xorb_false_l, xorb_false_r.
  set (o0 := on_right c (mk_pt (px p) (py p), mk_pt (px p) (py q))) in *. set (o1 := on_right c (mk_pt (px q) (py q), mk_pt (px q) (py p))) in *. clearbody o0 o1.
  unfold inside, hull. cbn [xmin xmax ymin ymax].
  set (x0 := px p) in *. set (x1 := px q) in *. set (y0 := py p) in *. set (y1 := py q) in *. set (x := px c) in *. set (y := py c) in *. clearbody x0 x1 y0 y1 x y.
  assert (H : (o0 = true /\ o1 = false) \/ (o0 = false /\ o1 = true) <-> Qmin x0 x1 < x < Qmax x0 x1 /\ Qmin y0 y1 < y < Qmax y0 y1); [|destruct o0, o1; cbn [xorb]; rewrite <- H; intuition congruence].
  assert (Fo : forall (o : bool) P, (o = true <-> P) -> (o = false <-> ~ P)) by (intros [] P K; intuition congruence).
  rewrite (Fo _ _ S0), (Fo _ _ S1), S0, S1. clear S0 S1 Fo o0 o1.
  assert (Rx : Qmin x0 x1 < x < Qmax x0 x1 <-> (x0 < x /\ x < x1) \/ (x1 < x /\ x < x0)) by (destruct (Qmin_cases x0 x1) as [[M1 E1]|[M1 E1]], (Qmax_cases x0 x1) as [[M2 E2]|[M2 E2]]; rewrite E1, E2; split; intro; lra).
  assert (Ry : Qmin y0 y1 < y < Qmax y0 y1 <-> (y0 < y /\ y < y1) \/ (y1 < y /\ y < y0)) by (destruct (Qmin_cases y0 y1) as [[M1 E1]|[M1 E1]], (Qmax_cases y0 y1) as [[M2 E2]|[M2 E2]]; rewrite E1, E2; split; intro; lra).
  rewrite Rx, Ry. clear Rx Ry.
  split.
  - intros K. assert (Ky : (y0 <= y /\ y < y1) \/ (y1 <= y /\ y < y0)) by tauto.
    assert (Kx : (x < x0 /\ x1 <= x) \/ (x0 <= x /\ x < x1)).
    { destruct K as [[[K1 _] K2]|[K2 [K1 _]]]; [left|right]; split; try exact K1.
      - destruct (Qlt_le_dec x x1) as [L|L]; [|exact L]. exfalso. apply K2. split; [exact L|tauto].
      - destruct (Qlt_le_dec x x0) as [L|L]; [|exact L]. exfalso. apply K2. split; [exact L|tauto]. }
    clear K. destruct (Qeq_dec x x0) as [E|E]; [exfalso; apply X0; [exact E|lra]|]. destruct (Qeq_dec x x1) as [E'|E']; [exfalso; apply X1; [exact E'|lra]|].
    assert (Kx' : (x0 < x /\ x < x1) \/ (x1 < x /\ x < x0)).
    { destruct Kx as [[A B]|[A B]]; [right|left]; split; try assumption; apply Qle_lteq in B || apply Qle_lteq in A; [destruct B as [B|B]|destruct A as [A|A]]; try assumption; exfalso; [apply E'|apply E]; lra. }
    split; [exact Kx'|]. destruct (Qeq_dec y y0) as [F|F]; [exfalso; apply Y0; [exact F|lra]|]. destruct (Qeq_dec y y1) as [F'|F']; [exfalso; apply Y1; [exact F'|lra]|].
    destruct Ky as [[A B]|[A B]]; [left|right]; split; try assumption; apply Qle_lteq in A; destruct A as [A|A]; try assumption; exfalso; [apply F|apply F']; lra.
  - intros [Kx Ky]. destruct Kx as [K|K]; [right|left]; split; try (intros [? _]; lra); (split; [apply K|]; lra).
Qed.
