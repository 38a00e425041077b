(** On a grid the rays of [relation_polygon] follow the even-odd rule. *)
From Coq Require Import List Arith Bool ZArith QArith Qabs Qminmax Lqa Lia.
From Verif Require Import IntervalModel ManagerModel IntervalProofs ManagerMoreProofs GeomModel GeomSpec GeomProofs GeomSegProofs GeomBoxProofs GeomLocateProofs LocateSpec LocateProofs.
Import ListNotations.
Open Scope Q_scope.

(** * The grid *)

Lemma grid_wd N x y : x == y -> on_grid N x -> on_grid N y.
Proof. intros E [k K]. exists k. now rewrite <- E. Qed.
Lemma grid_sub N x y : on_grid N x -> on_grid N y -> on_grid N (x - y).
Proof. intros [k K] [j J]. exists (k - j)%Z. rewrite K, J. unfold Qeq, Qminus, Qplus, Qopp. cbn. rewrite Pos2Z.inj_mul. ring. Qed.
Lemma grid_add N x y : on_grid N x -> on_grid N y -> on_grid N (x + y).
Proof. intros [k K] [j J]. exists (k + j)%Z. rewrite K, J. unfold Qeq, Qplus. cbn. rewrite Pos2Z.inj_mul. ring. Qed.
Lemma grid_mul N M x y : on_grid N x -> on_grid M y -> on_grid (N * M) (x * y).
Proof. intros [k K] [j J]. exists (k * j)%Z. rewrite K, J. unfold Qeq, Qmult. reflexivity. Qed.
Lemma grid_whole N z : on_grid N (inject_Z z).
Proof. exists (z * Zpos N)%Z. unfold Qeq, inject_Z. cbn. ring. Qed.
Lemma grid_cross N a b c : grid_point N a -> grid_point N b -> grid_point N c -> on_grid (N * N) (cross a b c).
Proof. intros [] [] []. unfold cross. apply grid_sub; apply grid_mul; now apply grid_sub. Qed.

Lemma grid_apart N x : on_grid N x -> (2 * N <= 100000000)%positive -> x == 0 \/ 2 * equality_tolerance <= x \/ x <= - (2 * equality_tolerance).
Proof.
  intros [k K] F. assert (F' : (2 * Zpos N <= 100000000)%Z) by lia.
  destruct (Z.lt_trichotomy k 0) as [H|[H|H]].
  - right. right. rewrite K. unfold equality_tolerance, Qle. cbn. nia.
  - left. rewrite K, H. reflexivity.
  - right. left. rewrite K. unfold equality_tolerance, Qle. cbn. nia.
Qed.

(** Three points of the grid: the turn is exactly the sign. *)
Definition sign (x : Q) : Rotation := if Qltb 0 x then CCW else if Qltb x 0 then CW else COLINEAR.
Lemma turn_sign x : x == 0 \/ 2 * equality_tolerance <= x \/ x <= - (2 * equality_tolerance) -> turn x = sign x.
Proof.
  assert (P : 0 < equality_tolerance) by reflexivity. unfold sign. intros [H|[H|H]]; destruct (Qltb_spec 0 x), (Qltb_spec x 0); try lra.
  - apply turn_colinear. lra.
  - now apply turn_ccw.
  - now apply turn_cw.
Qed.
Lemma grid_turn N a b c : (2 * (N * N) <= 100000000)%positive -> grid_point N a -> grid_point N b -> grid_point N c -> turn (cross a b c) = sign (cross a b c).
Proof. intros F A B C. apply turn_sign. apply (grid_apart (N * N)); [now apply grid_cross|exact F]. Qed.

Lemma fine_single N : (2 * (N * N) <= 100000000)%positive -> (2 * N <= 100000000)%positive.
Proof. nia. Qed.

Lemma grid_eqb N a b : (2 * (N * N) <= 100000000)%positive -> grid_point N a -> grid_point N b -> (pt_eqb a b = true <-> same_pt a b).
Proof.
  intros F [Ax Ay] [Bx By]. split; [|intros [X Y]; now apply pt_eqb_same].
  unfold pt_eqb, coord_eqb. intros H. apply andb_prop in H. destruct H as [X Y]. apply Qltb_lt in X, Y.
  assert (G : forall x y, on_grid N x -> on_grid N y -> Qabs (x - y) < equality_tolerance -> x == y).
  { intros x y Hx Hy H. apply Qabs_Qlt_condition in H. assert (P : 0 < equality_tolerance) by reflexivity.
    destruct (grid_apart N (x - y) (grid_sub _ _ _ Hx Hy) (fine_single N F)) as [E|[E|E]]; lra. }
  split; now apply G.
Qed.

Lemma sign_zero x : sign x = COLINEAR <-> x == 0.
Proof. unfold sign. destruct (Qltb_spec 0 x), (Qltb_spec x 0); split; intro; try discriminate; try lra; reflexivity. Qed.

Lemma grid_on N a b p : (2 * (N * N) <= 100000000)%positive -> grid_point N a -> grid_point N b -> grid_point N p ->
  (relation_point (mk_seg a b) p = PON <-> on_seg (mk_seg a b) p).
Proof.
  intros F A B P. split; [|apply on_seg_relation]. intros R. pose proof (relation_point_box _ _ R) as K. apply flat_on; [|exact K].
  unfold relation_point in R. rewrite rotation_triangle in R. cbn [s0 s1] in R. rewrite (grid_turn N) in R by assumption.
  apply sign_zero. destruct (sign (cross a b p)); cbn in R; try discriminate. reflexivity.
Qed.

(** * A side and a ray *)

(** What the code counts, with signs. *)
Lemma ray_crossing N a b p r : (2 * (N * N) <= 100000000)%positive -> grid_point N a -> grid_point N b -> grid_point N p -> grid_point N r ->
  (relation_seg (mk_seg a b) (mk_seg p r) = CROSSING <->
   sign (cross a b p) <> sign (cross a b r) /\ sign (cross p r a) <> sign (cross p r b)).
Proof.
  intros F A B P R. unfold relation_seg. rewrite !rotation_triangle. cbn [s0 s1]. rewrite !(grid_turn N) by assumption.
  destruct (sign (cross a b p)), (sign (cross a b r)), (sign (cross p r a)), (sign (cross p r b)); cbn;
    try (split; [discriminate|intros [? ?]; congruence]); try (split; [intros _; split; discriminate|reflexivity]).
  destruct (_ && _); split; try discriminate; intros [? ?]; congruence.
Qed.

Lemma signs_differ x y : sign x <> sign y <-> (0 < x /\ y <= 0) \/ (x <= 0 /\ 0 < y) \/ (x < 0 /\ 0 <= y) \/ (0 <= x /\ y < 0).
Proof.
  unfold sign. destruct (Qltb_spec 0 x), (Qltb_spec 0 y), (Qltb_spec x 0), (Qltb_spec y 0); split; intros K; try congruence; try lra.
Qed.

(** In a direction [u] in which the end of the ray is beyond the two ends of the side. *)
Lemma ray_reach u a b p r z : let w := pt_sub r p in
  side_of w p b * (reach u a - z) - side_of w p a * (reach u b - z) ==
  (side_of w p b - side_of w p a) * (reach u p - z) + cross a b p * (reach u r - reach u p).
Proof. cbv zeta. unfold side_of, reach, cross, pt_sub. cbn [px py]. ring. Qed.
Lemma ray_cross a b p r : cross a b r == cross a b p - (side_of (pt_sub r p) p b - side_of (pt_sub r p) p a).
Proof. unfold side_of, cross, pt_sub. cbn [px py]. ring. Qed.
Lemma ray_side p r v : cross p r v == side_of (pt_sub r p) p v.
Proof. unfold side_of, cross, pt_sub. cbn [px py]. ring. Qed.

Lemma sign_wd x y : x == y -> sign x = sign y.
Proof. intros E. unfold sign. destruct (Qltb_spec 0 x), (Qltb_spec 0 y), (Qltb_spec x 0), (Qltb_spec y 0); try reflexivity; lra. Qed.

(** A vertex on the line of the ray and not on the ray is behind its start. *)
Lemma behind u p r v : reach u p < reach u r -> reach u v < reach u r -> side_of (pt_sub r p) p v == 0 -> ~ on_seg (mk_seg p r) v -> reach u v < reach u p.
Proof.
  intros P R S O. destruct (Qlt_le_dec (reach u v) (reach u p)) as [K|K]; [exact K|]. exfalso. apply O.
  apply (weighted p r v (reach u r - reach u v) (reach u v - reach u p)); try lra; unfold side_of, reach, pt_sub in *; cbn [px py] in *.
  - assert (E : (px u * (px r - px p) + py u * (py r - py p)) * px v == (px u * (px r - px p) + py u * (py r - py p)) * px p + (px u * (px v - px p) + py u * (py v - py p)) * (px r - px p) - py u * ((px r - px p) * (py v - py p) - (py r - py p) * (px v - px p))) by ring.
    rewrite S in E. lra.
  - assert (E : (px u * (px r - px p) + py u * (py r - py p)) * py v == (px u * (px r - px p) + py u * (py r - py p)) * py p + (px u * (px v - px p) + py u * (py v - py p)) * (py r - py p) + px u * ((px r - px p) * (py v - py p) - (py r - py p) * (px v - px p))) by ring.
    rewrite S in E. lra.
Qed.

(** The ray comes from the side where the vertices are: what is counted is what passes. *)
Lemma ray_inward u a b p r : reach u p < reach u r -> reach u a < reach u r -> reach u b < reach u r ->
  ~ on_seg (mk_seg a b) p -> ~ on_seg (mk_seg p r) a -> ~ on_seg (mk_seg p r) b ->
  (sign (cross a b p) <> sign (cross a b r) /\ sign (cross p r a) <> sign (cross p r b) <-> passes (pt_sub r p) p (a, b) = true).
Proof.
  intros H Ha Hb O Oa Ob. rewrite (sign_wd _ _ (ray_side p r a)), (sign_wd _ _ (ray_side p r b)), (sign_wd _ _ (ray_cross a b p r)).
  pose proof (behind u p r a H Ha) as Ba. pose proof (behind u p r b H Hb) as Bb.
  pose proof (ray_reach u a b p r (reach u p)) as I0. pose proof (ray_reach u a b p r (reach u r)) as I1. cbv zeta in I0, I1.
  pose proof (straddle_on (pt_sub r p) p a b O) as St. unfold passes. rewrite !signs_differ.
  set (w := pt_sub r p) in *. set (fa := side_of w p a) in *. set (fb := side_of w p b) in *. set (c := cross a b p) in *.
  assert (Ba' : fa == 0 -> reach u a < reach u p) by (intros; now apply Ba). assert (Bb' : fb == 0 -> reach u b < reach u p) by (intros; now apply Bb). clear Ba Bb.
  set (hp := reach u p) in *. set (hr := reach u r) in *. set (ha := reach u a) in *. set (hb := reach u b) in *.
  clearbody fa fb c hp hr ha hb. clear Oa Ob O.
  assert (E1 : (hr - hp) * (c - (fb - fa)) == fb * (ha - hr) - fa * (hb - hr)) by lra. clear I1.
  assert (E0 : (hr - hp) * c == fb * (ha - hp) - fa * (hb - hp)) by lra. clear I0.
  set (c' := c - (fb - fa)) in *. assert (Ec : c' == c - (fb - fa)) by reflexivity. clearbody c'.
  assert (Pos : forall x, 0 < (hr - hp) * x -> 0 < x) by (intros; nra). assert (Neg : forall x, (hr - hp) * x < 0 -> x < 0) by (intros; nra). assert (Zer : forall x, (hr - hp) * x == 0 -> x == 0).
  { intros x X. destruct (Q_dec x 0) as [[D|D]|D]; [exfalso; nra|exfalso; nra|exact D]. }
  assert (F1 : fa < 0 -> 0 < fb -> c' < 0) by (intros; apply Neg; rewrite E1; nra).
  assert (F2 : fb < 0 -> 0 < fa -> 0 < c') by (intros; apply Pos; rewrite E1; nra).
  assert (F3 : fa == 0 -> 0 < fb -> c < 0) by (intros Z ?; specialize (Ba' Z); apply Neg; rewrite E0, Z; nra).
  assert (F4 : fa == 0 -> fb < 0 -> 0 < c) by (intros Z ?; specialize (Ba' Z); apply Pos; rewrite E0, Z; nra).
  assert (F5 : fb == 0 -> 0 < fa -> 0 < c) by (intros Z ?; specialize (Bb' Z); apply Pos; rewrite E0, Z; nra).
  assert (F6 : fb == 0 -> fa < 0 -> c < 0) by (intros Z ?; specialize (Bb' Z); apply Neg; rewrite E0, Z; nra).
  assert (F7 : fb == 0 -> fa == 0 -> c == 0) by (intros Z Y; apply Zer; rewrite E0, Z, Y; ring).
  clear E0 E1 Pos Neg Zer Ba' Bb'.
  destruct (Q_dec fa 0) as [[A|A]|A]; destruct (Q_dec fb 0) as [[B|B]|B];
    repeat match goal with K : ?x < ?y -> _, H : ?x < ?y |- _ => specialize (K H) | K : ?x == ?y -> _, H : ?x == ?y |- _ => specialize (K H) end;
    destruct (Qltb_spec 0 fa), (Qltb_spec 0 fb); try lra; cbn [negb andb]; destruct (Qltb_spec c 0), (Qltb_spec 0 c); try lra; cbn.
  all: try (exfalso; apply St; lra).
  all: try (split; [intros [? ?]; exfalso; lra|discriminate]).
  all: split; [reflexivity|intros _; split; lra].
Qed.

(** The start of the ray is beyond its end: nothing is counted. *)
Lemma ray_outward u a b p r : reach u r <= reach u p -> reach u a < reach u r -> reach u b < reach u r ->
  sign (cross a b p) <> sign (cross a b r) /\ sign (cross p r a) <> sign (cross p r b) -> False.
Proof.
  intros H Ha Hb. rewrite (sign_wd _ _ (ray_side p r a)), (sign_wd _ _ (ray_side p r b)), (sign_wd _ _ (ray_cross a b p r)).
  pose proof (ray_reach u a b p r (reach u p)) as I0. pose proof (ray_reach u a b p r (reach u r)) as I1. cbv zeta in I0, I1.
  rewrite !signs_differ.
  set (w := pt_sub r p) in *. set (fa := side_of w p a) in *. set (fb := side_of w p b) in *. set (c := cross a b p) in *.
  set (hp := reach u p) in *. set (hr := reach u r) in *. set (ha := reach u a) in *. set (hb := reach u b) in *.
  clearbody fa fb c hp hr ha hb.
  assert (E1 : (hp - hr) * (c - (fb - fa)) == fa * (hb - hr) - fb * (ha - hr)) by lra. clear I1.
  assert (E0 : (hp - hr) * c == fa * (hb - hp) - fb * (ha - hp)) by lra. clear I0.
  set (c' := c - (fb - fa)) in *. clearbody c'.
  assert (Pos : forall x, 0 < (hp - hr) * x -> 0 < x) by (intros; nra). assert (Neg : forall x, (hp - hr) * x < 0 -> x < 0) by (intros; nra).
  assert (F1 : fa <= 0 -> 0 < fb -> 0 < c /\ 0 < c') by (intros; split; apply Pos; rewrite ?E0, ?E1; nra).
  assert (F2 : fa < 0 -> 0 <= fb -> 0 < c /\ 0 < c') by (intros; split; apply Pos; rewrite ?E0, ?E1; nra).
  assert (F3 : 0 < fa -> fb <= 0 -> c < 0 /\ c' < 0) by (intros; split; apply Neg; rewrite ?E0, ?E1; nra).
  assert (F4 : 0 <= fa -> fb < 0 -> c < 0 /\ c' < 0) by (intros; split; apply Neg; rewrite ?E0, ?E1; nra).
  intros [C F]. destruct F as [[A B]|[[A B]|[[A B]|[A B]]]]; [specialize (F3 A B)|specialize (F1 A B)|specialize (F2 A B)|specialize (F4 A B)]; lra.
Qed.

(** * The whole function *)

Lemma chain_second v l : In v l -> forall prev, exists a, In (a, v) (chain prev l).
Proof.
  induction l as [|x l IH]; [easy|]. intros [->|I] prev; cbn [chain]; [exists prev; now left|].
  destruct (IH I x) as [a A]. exists a. now right.
Qed.
Lemma vertex_border l v : In v l -> on_border l v.
Proof.
  intros I. destruct l as [|x l]; [easy|]. destruct (chain_second v (x :: l) I (last (x :: l) x)) as [a A].
  exists a, v. split; [exact A|]. apply (on_seg_s1 (mk_seg a v)).
Qed.
Lemma border_wd l p q : same_pt p q -> on_border l p -> on_border l q.
Proof. intros [X Y] (a & b & I & (t & T & Ex & Ey)). exists a, b. split; [exact I|]. exists t. rewrite <- X, <- Y. now split. Qed.

Lemma scan_hits ray p l : match vertex_on_ray ray p l with
  | None => exists v, In v l /\ pt_eqb v p = true
  | Some false => forall v, In v l -> relation_point ray v = POUT
  | Some true => True end.
Proof.
  induction l as [|v l IH]; cbn [vertex_on_ray]; [easy|]. destruct (pt_eqb v p) eqn:E; [exists v; split; [now left|exact E]|].
  destruct (relation_point ray v) eqn:R; [|exact I]. destruct (vertex_on_ray ray p l) as [[|]|]; [exact I| |].
  - intros x [<-|K]; [exact R|now apply IH].
  - destruct IH as (x & K & F). exists x. split; [now right|exact F].
Qed.
Lemma count_all ray p (l : list (point * point)) : forall k, match count_crossings ray p (map (fun pq => mk_seg (fst pq) (snd pq)) l) k with
  | None => exists a b, In (a, b) l /\ relation_point (mk_seg a b) p = PON
  | Some n => (forall a b, In (a, b) l -> relation_point (mk_seg a b) p = POUT) /\
      n = (length (filter (fun pq => match relation_seg (mk_seg (fst pq) (snd pq)) ray with CROSSING => true | _ => false end) l) + k)%nat end.
Proof.
  induction l as [|[a b] l IH]; intros k; [cbn; now split|]. cbn [map count_crossings fst snd]. destruct (relation_point (mk_seg a b) p) eqn:R; [|exists a, b; split; [now left|exact R]].
  set (k' := match relation_seg (mk_seg a b) ray with CROSSING => S k | _ => k end). specialize (IH k').
  destruct (count_crossings ray p _ k') as [n|].
  - destruct IH as [IH ->]. split; [intros x y [K|K]; [injection K as <- <-; exact R|now apply IH]|]. cbn [filter fst snd].
    unfold k'. destruct (relation_seg (mk_seg a b) ray); cbn [length]; lia.
  - destruct IH as (x & y & K & F). exists x, y. split; [now right|exact F].
Qed.

(** The direction in which the end of a ray is beyond the vertices. *)
Definition ray_dir (n : nat) : point := match n with 0%nat => left_ | 1%nat => right | 2%nat => down | 3%nat => up | _ => right end.
Lemma ray_beyond b p n v : in_box b v -> reach (ray_dir n) v < reach (ray_dir n) (ray_end b p n).
Proof.
  intros [X Y]. destruct n as [|[|[|[|n]]]]; unfold reach, ray_end, ray_dir, left_, right, down, up; cbn [px py]; try lra.
Qed.
Lemma ray_dir_nonzero n : ~ (px (ray_dir n) == 0 /\ py (ray_dir n) == 0).
Proof. destruct n as [|[|[|[|n]]]]; cbn; intros [A B]; try discriminate A; discriminate B. Qed.

Lemma box_grid N l b : tight b l -> (forall v, In v l -> grid_point N v) ->
  on_grid N (xmin b) /\ on_grid N (xmax b) /\ on_grid N (ymin b) /\ on_grid N (ymax b).
Proof.
  intros (_ & (v1 & I1 & E1) & (v2 & I2 & E2) & (v3 & I3 & E3) & (v4 & I4 & E4)) G.
  repeat split; [apply (grid_wd _ _ _ E1), (G v1 I1)|apply (grid_wd _ _ _ E2), (G v2 I2)|apply (grid_wd _ _ _ E3), (G v3 I3)|apply (grid_wd _ _ _ E4), (G v4 I4)].
Qed.
Lemma ray_end_grid N b p n : on_grid N (xmin b) /\ on_grid N (xmax b) /\ on_grid N (ymin b) /\ on_grid N (ymax b) -> grid_point N p -> grid_point N (ray_end b p n).
Proof.
  intros (A & B & C & D) [X Y]. assert (O : on_grid N 1) by apply (grid_whole N 1).
  destruct n as [|[|[|[|n]]]]; split; cbn [ray_end px py]; try assumption; try (apply grid_sub; assumption); try (apply grid_add; assumption).
  apply grid_add; [exact Y|apply grid_whole].
Qed.

Lemma ray_answer N l b p n : (2 * (N * N) <= 100000000)%positive -> tight b l -> (forall v, In v l -> grid_point N v) -> grid_point N p ->
  forall e, e = map (fun pq => mk_seg (fst pq) (snd pq)) (sides l) ->
  vertex_on_ray (mk_seg p (ray_end b p n)) p l = Some false ->
  match count_crossings (mk_seg p (ray_end b p n)) p e 0 with
  | None => on_border l p
  | Some k => ~ on_border l p /\ (Nat.odd k = true <-> enclosed l p)
  end.
Proof.
  intros F T G Gp e -> V. pose proof (scan_hits (mk_seg p (ray_end b p n)) p l) as Sc. rewrite V in Sc. clear V.
  pose proof (ray_end_grid N b p n (box_grid N l b T G) Gp) as Gr. pose proof (fun v I => ray_beyond b p n v (proj1 T v I)) as Be.
  set (r := ray_end b p n) in *. set (u := ray_dir n) in *. pose proof (ray_dir_nonzero n) as Nz. fold u in Nz. clearbody r u.
  pose proof (count_all (mk_seg p r) p (sides l) 0) as Co. destruct (count_crossings _ p _ 0) as [k|].
  - destruct Co as [Off ->]. rewrite Nat.add_0_r.
    assert (Nb : ~ on_border l p).
    { intros (a & c & I & O). apply on_seg_relation in O. rewrite (Off a c I) in O. discriminate. }
    split; [exact Nb|]. unfold enclosed. rewrite <- right_parity.
    destruct (Qlt_le_dec (reach u p) (reach u r)) as [H|H].
    + assert (W : ~ (px (pt_sub r p) == 0 /\ py (pt_sub r p) == 0)).
      { unfold pt_sub. cbn [px py]. intros [X Y]. unfold reach in H. assert (px r == px p) as E1 by lra. assert (py r == py p) as E2 by lra. rewrite E1, E2 in H. lra. }
      rewrite <- (all_parities _ l p W Nb). unfold parity.
      assert (E : forall s, In s (sides l) -> match relation_seg (mk_seg (fst s) (snd s)) (mk_seg p r) with CROSSING => true | _ => false end = passes (pt_sub r p) p s).
      { intros [a c] I. destruct (sides_in _ _ _ I) as [Ia Ic]. cbn [fst snd].
        pose proof (ray_crossing N a c p r F (G a Ia) (G c Ic) Gp Gr) as R1.
        assert (Oa : ~ on_seg (mk_seg p r) a) by (intros O; apply on_seg_relation in O; rewrite (Sc a Ia) in O; discriminate).
        assert (Oc : ~ on_seg (mk_seg p r) c) by (intros O; apply on_seg_relation in O; rewrite (Sc c Ic) in O; discriminate).
        assert (Op : ~ on_seg (mk_seg a c) p) by (intros O; apply Nb; now exists a, c).
        pose proof (ray_inward u a c p r H (Be a Ia) (Be c Ic) Op Oa Oc) as R2.
        destruct (passes (pt_sub r p) p (a, c)) eqn:Pa.
        - now rewrite (proj2 R1 (proj2 R2 eq_refl)).
        - destruct (relation_seg (mk_seg a c) (mk_seg p r)); try reflexivity. symmetry. apply R2, R1. reflexivity. }
      rewrite (filter_ext_in _ _ _ E). reflexivity.
    + assert (E : forall s, In s (sides l) -> match relation_seg (mk_seg (fst s) (snd s)) (mk_seg p r) with CROSSING => true | _ => false end = false).
      { intros [a c] I. destruct (sides_in _ _ _ I) as [Ia Ic]. cbn [fst snd].
        pose proof (ray_crossing N a c p r F (G a Ia) (G c Ic) Gp Gr) as R1.
        destruct (relation_seg (mk_seg a c) (mk_seg p r)); try reflexivity. exfalso. apply (ray_outward u a c p r H (Be a Ia) (Be c Ic)). now apply R1. }
      rewrite (filter_ext_in _ (fun _ => false) _ E). rewrite <- (all_parities u l p Nz Nb), (beyond_none u l p Nz).
      * assert (Z : filter (fun _ : point * point => false) (sides l) = []) by (clear; induction (sides l) as [|x m IH]; [reflexivity|exact IH]). rewrite Z. reflexivity.
      * intros v I. pose proof (Be v I). lra.
  - destruct Co as (a & c & I & R). exists a, c. split; [exact I|]. destruct (sides_in _ _ _ I) as [Ia Ic]. apply (grid_on N); auto.
Qed.

Lemma grid_locate N l p fuel r : (2 * (N * N) <= 100000000)%positive -> (forall v, In v l -> grid_point N v) -> grid_point N p ->
  relation_polygon fuel l p = Done r ->
  match r with PP_ON => on_border l p | PP_IN => ~ on_border l p /\ enclosed l p | PP_OUT => ~ on_border l p /\ ~ enclosed l p end.
Proof.
  intros F G Gp. unfold relation_polygon. destruct (detect_bounding l) as [b| |] eqn:B; try discriminate. destruct (detect_edges l) as [e| |] eqn:D; try discriminate. cbn [bind].
  pose proof (detect_bounding_tight _ _ B) as T. pose proof (detect_edges_sides _ _ D) as Es. clear B D.
  generalize 0%nat as n. induction fuel as [|fuel IH]; intros n H; [discriminate|]. rewrite ray_loop_S in H.
  pose proof (scan_hits (mk_seg p (ray_end b p n)) p l) as Sc.
  destruct (vertex_on_ray (mk_seg p (ray_end b p n)) p l) as [[|]|] eqn:V; [now apply (IH _ H)| |].
  - pose proof (ray_answer N l b p n F T G Gp e Es V) as A.
    destruct (count_crossings (mk_seg p (ray_end b p n)) p e 0) as [k|]; injection H as <-; [|exact A]. destruct A as [A1 A2].
    destruct (Nat.odd k); (split; [exact A1|]); [now apply A2|]. intros K. apply A2 in K. discriminate.
  - injection H as <-. destruct Sc as (v & I & Ev). apply (border_wd _ v); [|now apply vertex_border]. apply (grid_eqb N v p F (G v I) Gp); exact Ev.
Qed.
