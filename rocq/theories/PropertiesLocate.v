(** C66: where a point is with respect to a polygon of any shape. *)
From Coq Require Import List Arith Bool ZArith QArith Qabs Qminmax Lqa Lia.
From Verif Require Import IntervalModel ManagerModel IntervalProofs GeomModel GeomSpec GeomProofs GeomSegProofs GeomBoxProofs GeomLocateProofs LocateSpec LocateProofs LocateRayProofs.
Import ListNotations.
Open Scope Q_scope.

(** * What the rule is *)

(** Off the border, the rule does not depend on the direction in which one goes. *)
Theorem C66_directions : forall l p w, ~ (px w == 0 /\ py w == 0) -> ~ on_border l p -> (parity w l p = true <-> enclosed l p).
Proof. intros l p w Z N. unfold enclosed. rewrite <- right_parity, (all_parities w l p Z N). reflexivity. Qed.

(** Two points joined by a segment that does not meet the border are both enclosed, or
    none is. *)
Theorem C66_joined : forall l p q, (forall x, on_seg (mk_seg p q) x -> ~ on_border l x) -> (enclosed l p <-> enclosed l q).
Proof. exact joined. Qed.

(** Going through a single side, and not at one of its ends, one goes in or out. *)
Theorem C66_flipped : forall l p q a b m n, sides l = m ++ (a, b) :: n -> ~ on_border l p -> ~ on_border l q ->
  0 < cross a b p * - cross a b q -> 0 < cross p q a * - cross p q b ->
  (forall s x, In s (m ++ n) -> on_seg (mk_seg p q) x -> ~ on_seg (mk_seg (fst s) (snd s)) x) ->
  (enclosed l p <-> ~ enclosed l q).
Proof. exact flipped. Qed.

(** Nothing is enclosed that is farther than all of the points in some direction. *)
Theorem C66_beyond : forall l p w, ~ (px w == 0 /\ py w == 0) -> (forall v, In v l -> reach w v < reach w p) -> ~ in_polygon l p.
Proof.
  intros l p w Z H. assert (N : ~ on_border l p); [|intros [B|B]; [contradiction|revert B; now apply (beyond_out w)]].
  intros (a & b & I & (t & T & X & Y)). cbn [s0 s1] in X, Y. destruct (GeomProofs.sides_in _ _ _ I) as [Ia Ib]. pose proof (H a Ia). pose proof (H b Ib).
  assert (E : reach w p == (1 - t) * reach w a + t * reach w b) by (unfold reach; rewrite X, Y; ring).
  destruct (Qlt_le_dec t 1); nra.
Qed.

(** In a box it is to be strictly between its sides. *)
Theorem C66_box : forall p q c, ~ on_border (box_points p q) c -> (enclosed (box_points p q) c <-> inside (hull p q) c).
Proof. exact box_enclosed. Qed.

(** * What the code answers *)

(** The coordinates being whole numbers of 1/N, N at most 7071, the function ends and
    answers ON on the border, else IN if the point is enclosed and OUT if not; the polygon
    is of any shape: concave, with points in the middle of sides or met twice, or that
    crosses itself. *)
Theorem C66_located : forall N l p, (2 * (N * N) <= 100000000)%positive -> l <> [] -> (forall v, In v l -> grid_point N v) -> grid_point N p ->
  exists r, (exists fuel, forall fuel', (fuel <= fuel')%nat -> relation_polygon fuel' l p = Done r)
  /\ (r = PP_ON <-> on_border l p)
  /\ (r = PP_IN <-> ~ on_border l p /\ enclosed l p)
  /\ (r = PP_OUT <-> ~ in_polygon l p).
Proof.
  intros N l p F L G P. destruct (relation_ends l p L) as (fuel & r & E).
  { intros v I X K. destruct (grid_apart N (py v - py p)) as [D|D]; [apply grid_sub; [apply (G v I)|apply P]|now apply fine_single| |].
    - exfalso. rewrite (pt_eqb_same v p) in K; [discriminate|exact X|lra].
    - destruct D as [D|D]; [rewrite Qabs_pos|rewrite Qabs_neg]; unfold equality_tolerance in *; lra. }
  exists r. split; [now exists fuel|]. pose proof (grid_locate N l p fuel r F G P (E fuel (le_n _))) as A. unfold in_polygon.
  destruct r; repeat split; try discriminate; try tauto.
Qed.

(** Whenever it answers, this is the answer. *)
Theorem C66_answer : forall N l p fuel r, (2 * (N * N) <= 100000000)%positive -> (forall v, In v l -> grid_point N v) -> grid_point N p ->
  relation_polygon fuel l p = Done r ->
  match r with PP_ON => on_border l p | PP_IN => ~ on_border l p /\ enclosed l p | PP_OUT => ~ in_polygon l p end.
Proof. intros N l p fuel r F G P E. pose proof (grid_locate N l p fuel r F G P E) as A. unfold in_polygon. destruct r; tauto. Qed.

(** A point of a segment between whose ends nothing of the border is: its location is that
    of the ends. *)
Theorem C66_same : forall N l p q fuel fuel' r r', (2 * (N * N) <= 100000000)%positive -> (forall v, In v l -> grid_point N v) -> grid_point N p -> grid_point N q ->
  (forall x, on_seg (mk_seg p q) x -> ~ on_border l x) -> relation_polygon fuel l p = Done r -> relation_polygon fuel' l q = Done r' -> r = r'.
Proof.
  intros N l p q fuel fuel' r r' F G P Q J E E'. pose proof (grid_locate N l p fuel r F G P E) as A. pose proof (grid_locate N l q fuel' r' F G Q E') as A'.
  pose proof (joined l p q J) as B. pose proof (J p (on_seg_s0 (mk_seg p q))) as Np. pose proof (J q (on_seg_s1 (mk_seg p q))) as Nq.
  destruct r, r'; try reflexivity; tauto.
Qed.

(** * A point in the notch, in an arm and on the border of a U, in halves *)
Definition u_shape : list point :=
  [mk_pt 0 0; mk_pt 0 3; mk_pt 1 3; mk_pt 1 (3 # 2); mk_pt 2 (3 # 2); mk_pt 2 3; mk_pt 3 3; mk_pt 3 0].
Example C66_example :
  (forall v, In v u_shape -> grid_point 2 v) /\ (2 * (2 * 2) <= 100000000)%positive /\
  relation_polygon 9 u_shape (mk_pt (3 # 2) 2) = Done PP_OUT /\ ~ in_polygon u_shape (mk_pt (3 # 2) 2) /\
  relation_polygon 9 u_shape (mk_pt (5 # 2) (3 # 2)) = Done PP_IN /\ enclosed u_shape (mk_pt (5 # 2) (3 # 2)) /\
  relation_polygon 9 u_shape (mk_pt (3 # 2) (3 # 2)) = Done PP_ON /\ on_border u_shape (mk_pt (3 # 2) (3 # 2)).
Proof.
  assert (G : forall v, In v u_shape -> grid_point 2 v).
  { intros v I. cbn in I. repeat (destruct I as [<-|I]; [split; cbn [px py]; first [exists 0%Z; reflexivity|exists 6%Z; reflexivity|exists 2%Z; reflexivity|exists 3%Z; reflexivity|exists 4%Z; reflexivity]|]). destruct I. }
  split; [exact G|]. split; [discriminate|].
  assert (E : relation_polygon 9 u_shape (mk_pt (3 # 2) 2) = Done PP_OUT) by (vm_compute; reflexivity).
  split; [exact E|]. split.
  { apply (C66_answer 2 u_shape (mk_pt (3 # 2) 2) 9 PP_OUT); [discriminate|exact G| |exact E]. split; [exists 3%Z; reflexivity|exists 4%Z; reflexivity]. }
  split; [vm_compute; reflexivity|]. split; [vm_compute; reflexivity|]. split; [vm_compute; reflexivity|].
  exists (mk_pt 1 (3 # 2)), (mk_pt 2 (3 # 2)). split; [cbn; tauto|]. exists (1 # 2). cbn. repeat split; unfold Qle; cbn; try lia; reflexivity.
Qed.

(** From the notch to an arm through a single side, and from an arm to the other one
    without meeting the border. *)
Example C66_rule_example : (enclosed u_shape (mk_pt (1 # 2) 2) <-> ~ enclosed u_shape (mk_pt (3 # 2) 2))
  /\ (enclosed u_shape (mk_pt (1 # 2) 1) <-> enclosed u_shape (mk_pt (5 # 2) 1))
  /\ enclosed u_shape (mk_pt (5 # 2) 1) /\ parity (mk_pt (-2) 7) u_shape (mk_pt (5 # 2) 1) = true.
Proof.
  assert (U : forall p, on_border u_shape p -> ~ (0 < px p < 1 /\ 0 < py p < 3) /\ ~ (1 < px p < 2 /\ (3 # 2) < py p < 3) /\ ~ (0 < px p < 3 /\ 0 < py p < (3 # 2))).
  { intros p (a & b & I & (t & T & X & Y)). cbn [s0 s1] in X, Y. cbn in I. repeat (destruct I as [I|I]; [injection I as <- <-; cbn [px py] in X, Y; lra|]). destruct I. }
  split; [|split; [|split]].
  - apply (C66_flipped u_shape (mk_pt (1 # 2) 2) (mk_pt (3 # 2) 2) (mk_pt 1 3) (mk_pt 1 (3 # 2)) [(mk_pt 3 0, mk_pt 0 0); (mk_pt 0 0, mk_pt 0 3); (mk_pt 0 3, mk_pt 1 3)]
      [(mk_pt 1 (3 # 2), mk_pt 2 (3 # 2)); (mk_pt 2 (3 # 2), mk_pt 2 3); (mk_pt 2 3, mk_pt 3 3); (mk_pt 3 3, mk_pt 3 0)]); [reflexivity| | |reflexivity|reflexivity|].
    + intros B. apply U in B. cbn [px py] in B. lra.
    + intros B. apply U in B. cbn [px py] in B. lra.
    + intros s x I (t & T & X & Y) (t' & T' & X' & Y'). cbn [s0 s1 px py] in X, Y. cbn in I. repeat (destruct I as [<-|I]; [cbn [fst snd s0 s1 px py] in X', Y'; lra|]). destruct I.
  - apply C66_joined. intros x (t & T & X & Y) B. cbn [s0 s1 px py] in X, Y. apply U in B. lra.
  - vm_compute. reflexivity.
  - vm_compute. reflexivity.
Qed.

(** * Off a grid it is wrong *)

(** A box with one more point on its left side.  The height of that point and that of the
    point to be located differ by less than the tolerance: the level ray goes by the
    vertex, and both of the sides that end there are counted.  A point that is well inside
    is out, and a point that is well outside is in. *)
Definition five_points : list point := [mk_pt 0 (-1); mk_pt 0 0; mk_pt 0 1; mk_pt 1 1; mk_pt 1 (-1)].
Theorem C66_near_refuted : exists l p q, (forall v, In v l -> grid_point 1 v)
  /\ (forall fuel, (1 <= fuel)%nat -> relation_polygon fuel l p = Done PP_OUT) /\ enclosed l p /\ (forall v, on_border l v -> 1 # 2 <= Qabs (px v - px p) \/ 1 # 2 <= Qabs (py v - py p))
  /\ (forall fuel, (1 <= fuel)%nat -> relation_polygon fuel l q = Done PP_IN) /\ (forall v, in_polygon l v -> 1 <= px q - px v).
Proof.
  exists five_points, (mk_pt (1 # 2) (1 # 1000000000)), (mk_pt 2 (1 # 1000000000)).
  assert (Bo : forall v, on_border five_points v -> ((px v == 0 \/ px v == 1) \/ (py v == 1 \/ py v == -1)) /\ px v <= 1).
  { intros v (a & b & I & (t & T & X & Y)). cbn [s0 s1] in X, Y. cbn in I. repeat (destruct I as [I|I]; [injection I as <- <-; cbn [px py] in X, Y; lra|]). destruct I. }
  split; [|split; [|split; [|split; [|split]]]].
  - intros v I. cbn in I. repeat (destruct I as [<-|I]; [split; cbn [px py]; first [exists 0%Z; reflexivity|exists 1%Z; reflexivity|exists (-1)%Z; reflexivity]|]). destruct I.
  - intros fuel H. destruct fuel as [|fuel]; [lia|]. reflexivity.
  - vm_compute. reflexivity.
  - intros v B. destruct (Bo v B) as [[[E|E]|[E|E]] _]; cbn [px py]; rewrite E; [left|left|right|right]; discriminate.
  - intros fuel H. destruct fuel as [|fuel]; [lia|]. reflexivity.
  - intros v [B|B]; [destruct (Bo v B); cbn [px py]; lra|]. cbn [px py]. destruct (Qlt_le_dec 1 (px v)) as [K|K]; [|lra]. exfalso.
    apply (C66_beyond five_points v right); [intros [Z _]; discriminate Z| |now right].
    intros w I. unfold reach, right. cbn [px py]. cbn in I. repeat (destruct I as [<-|I]; [cbn [px py]; lra|]). destruct I.
Qed.

Print Assumptions C66_directions.
Print Assumptions C66_joined.
Print Assumptions C66_flipped.
Print Assumptions C66_beyond.
Print Assumptions C66_box.
Print Assumptions C66_located.
Print Assumptions C66_answer.
Print Assumptions C66_same.
Print Assumptions C66_near_refuted.
