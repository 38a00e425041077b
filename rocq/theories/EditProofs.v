(** Steps on the board with a history: what a step that makes no timepoint does, which
    annotations are there, what stays after an edition. *)
From Coq Require Import List Arith Bool Lia QArith Qabs Sorting.Sorted Sorting.Permutation.
From Verif Require Import IntervalModel ManagerModel ManagerSpec ManagerProofs ManagerMoreProofs GeomModel GeomSpec GeomProofs.
From Verif Require Import BoardModel BoardSpec BoardProofs BoardColinearProofs BoardSolveProofs BoardCoverProofs BoardDetectProofs.
From Verif Require Import BoardBuiltProofs BoardAdjustProofs BoardIndividualProofs BoardRunProofs.
From Verif Require AppModel.
Import AppModel(Step(..), Step_eqb, next, that_and_after).
From Verif Require Import EditModel EditSpec.
Import ListNotations.

(** * A step that makes no timepoint changes nothing *)

(** Either nothing changes or [m] grows. *)
Definition either {B : Type} (m : B -> nat) (b b' : B) : Prop := b' = b \/ (m b < m b')%nat.
Lemma either_refl {B} (m : B -> nat) b : either m b b.
Proof. now left. Qed.
Lemma either_trans {B} (m : B -> nat) a b c : either m a b -> either m b c -> either m a c.
Proof. intros [->|A] [->|C]; [now left|now right|now right|right; lia]. Qed.
Lemma for_each_either {A B} (m : B -> nat) (f : B -> A -> run B) l : (forall x b b', f b x = Done b' -> either m b b') ->
  forall b b', for_each f l b = Done b' -> either m b b'.
Proof. intros H. apply for_each_rel; [apply either_refl|apply either_trans|]. intros x b b' _. apply H. Qed.

Arguments size_on_axes : simpl never.
Lemma size_grows {A} (f : A -> nat) (s : space A) ax x : (f (on_axis s ax) < f x)%nat -> (size_on_axes f s < size_on_axes f (set_axis s ax x))%nat.
Proof. unfold size_on_axes. destruct ax; cbn; lia. Qed.
Lemma size_grows_plane {A} (f : A -> nat) (s : space A) p x : (f (on_plane s p) < f x)%nat -> (size_on_axes f s < size_on_axes f (set_plane s p x))%nat.
Proof. unfold size_on_axes. destruct p; cbn; lia. Qed.

Lemma flat_length_write {A B} (f : A -> list B) l : forall n x c l', nth_error l n = Some c -> write l n x = Done l' ->
  (length (flat_map f l') + length (f c) = length (flat_map f l) + length (f x))%nat.
Proof.
  induction l as [|y l IH]; intros n x c l' E W; [destruct n; discriminate|]. destruct n as [|n]; cbn in *.
  - injection E as ->. injection W as <-. cbn. rewrite !app_length. lia.
  - destruct (write l n x) as [r| |] eqn:W'; try discriminate. cbn in W. injection W as <-. cbn. rewrite !app_length. pose proof (IH n x c r E W'). lia.
Qed.

Lemma find_in_polygon_at a l : forall n k c, find_in_polygon a l n = Some (k, c) -> (n <= k)%nat /\ nth_error l (k - n) = Some c.
Proof.
  induction l as [|x l IH]; intros n k c E; cbn in E; [discriminate|]. destruct (ei_edge x =? a)%nat.
  - injection E as <- <-. split; [lia|]. now rewrite Nat.sub_diag.
  - destruct (IH (S n) k c E) as [L N]. split; [lia|]. destruct (k - n)%nat as [|m] eqn:K; [lia|]. cbn. replace m with (k - S n)%nat by lia. assumption.
Qed.
Lemma find_colinear_at a b' l : forall n k c, find_colinear a b' l n = Some (k, c) -> (n <= k)%nat /\ nth_error l (k - n) = Some c.
Proof.
  induction l as [|x l IH]; intros n k c E; cbn in E; [discriminate|]. destruct (memb a (ce_edges x) || memb b' (ce_edges x)).
  - injection E as <- <-. split; [lia|]. now rewrite Nat.sub_diag.
  - destruct (IH (S n) k c E) as [L N]. split; [lia|]. destruct (k - n)%nat as [|m] eqn:K; [lia|]. cbn. replace m with (k - S n)%nat by lia. assumption.
Qed.

Lemma update_edge_eip b i f b' : update_edge b i f = Done b' -> b_eip b' = b_eip b.
Proof. unfold update_edge. intros E. break E. reflexivity. Qed.
Lemma update_polygon_eip b i f b' : update_polygon b i f = Done b' -> b_eip b' = b_eip b.
Proof. unfold update_polygon. intros E. break E. reflexivity. Qed.
Lemma update_edge_ce b i f b' : update_edge b i f = Done b' -> b_ce b' = b_ce b.
Proof. unfold update_edge. intros E. break E. reflexivity. Qed.

Lemma add_eip_either b a g r o b' : add_edge_in_polygon b a g r o = Done b' -> either overlap_count b b'.
Proof.
  unfold add_edge_in_polygon. intros E. destruct (read (b_edges b) a) as [ea| |]; try discriminate. cbn [bind] in E.
  destruct (read (b_polygons b) g) as [pg| |]; try discriminate. cbn [bind] in E.
  match type of E with bind ?m _ = _ => destruct m as [wrong| |]; try discriminate end. cbn [bind] in E.
  destruct wrong; [injection E as <-; now left|].
  destruct (find_in_polygon a (on_plane (b_eip b) (e_plane ea)) 0) as [[n c]|] eqn:F.
  - destruct (existsb _ (ei_overlaps c)); [injection E as <-; now left|]. right.
    apply find_in_polygon_at in F. destruct F as [_ F]. rewrite Nat.sub_0_r in F.
    destruct (write _ n _) as [all| |] eqn:W; try discriminate. cbn [bind] in E.
    pose proof (flat_length_write ei_overlaps _ _ _ _ _ F W) as L. cbn [ei_append ei_overlaps] in L. rewrite app_length in L. cbn in L.
    assert (G : (overlap_count b < overlap_count (set_eip b (set_plane (b_eip b) (e_plane ea) all)))%nat) by (apply size_grows_plane; lia).
    destruct (existsb _ (ei_overlaps c)); [injection E as <-; exact G|]. apply update_polygon_eip in E. unfold overlap_count in *. now rewrite E.
  - right. destruct (update_edge _ a _) as [b1| |] eqn:U; try discriminate. cbn [bind] in E. apply update_polygon_eip in E. apply update_edge_eip in U.
    unfold overlap_count. rewrite E, U. cbn. apply size_grows_plane. rewrite flat_map_app, app_length. cbn. lia.
Qed.
Lemma add_ce_either b i j b' : add_colinear_edges b i j = Done b' -> either colinear_count b b'.
Proof.
  unfold add_colinear_edges. intros E. destruct (read (b_edges b) i) as [ei| |]; try discriminate. cbn [bind] in E.
  destruct (read (b_edges b) j) as [ej| |]; try discriminate. cbn [bind] in E.
  destruct (plane_eqb _ _ && segaxis_eqb _ _); [|injection E as <-; now left].
  destruct (axis_of_seg _ _) as [ax|]; [|injection E as <-; now left].
  destruct (find_colinear i j (on_axis (b_ce b) ax) 0) as [[n c]|] eqn:F.
  - apply find_colinear_at in F. destruct F as [_ F]. rewrite Nat.sub_0_r in F.
    destruct (memb i (ce_edges c)); [destruct (memb j (ce_edges c)); [injection E as <-; now left|]|]; right;
      (destruct (write _ n _) as [all| |] eqn:W; try discriminate; cbn [bind] in E;
       pose proof (flat_length_write ce_edges _ _ _ _ _ F W) as L; cbn [ce_append ce_edges] in L; rewrite app_length in L; cbn in L;
       apply update_edge_ce in E; unfold colinear_count; rewrite E; cbn; apply size_grows; lia).
  - right. destruct (update_edge _ i _) as [b1| |] eqn:U; try discriminate. cbn [bind] in E. apply update_edge_ce in E, U.
    unfold colinear_count. rewrite E, U. cbn. apply size_grows. rewrite flat_map_app, app_length. cbn. lia.
Qed.

Lemma detect_eip_either fuel srt p b b' : detect_edges_in_polygons fuel srt b p = Done b' -> either overlap_count b b'.
Proof.
  apply for_each_either. clear. intros i b b'. apply for_each_either. clear. intros j b b' E. unfold polygon_in_polygon in E.
  destruct (read (b_polygons b) i) as [pa| |]; try discriminate. cbn [bind] in E. destruct (read (b_polygons b) j) as [pb| |]; try discriminate. cbn [bind] in E.
  destruct (j =? i)%nat; [injection E as <-; now left|]. destruct (g_priority pb <? g_priority pa)%nat; [injection E as <-; now left|].
  destruct (negb _); [injection E as <-; now left|]. revert E. apply for_each_either. clear. intros k b b' E. unfold edge_in_polygon in E.
  destruct (read (b_polygons b) j) as [pb| |]; try discriminate. cbn [bind] in E. destruct (read (b_edges b) k) as [ea| |]; try discriminate. cbn [bind] in E.
  destruct (for_each (meet_edge k j) _ _) as [[[b1 inter] ranges]| |] eqn:M; try discriminate. cbn [bind] in E.
  assert (M1 : either overlap_count b b1).
  { change (either overlap_count (fst (fst (b, @nil point, @nil between))) (fst (fst (b1, inter, ranges)))). revert M.
    apply (for_each_rel (fun x y => either overlap_count (fst (fst x)) (fst (fst y)))); [intros; apply either_refl|intros ? ? ?; apply either_trans|].
    clear. intros x [[b i] r] [[b' i'] r'] _ E. cbn in E. destruct (read (b_edges b) k) as [ea| |]; try discriminate. cbn [bind] in E.
    destruct (read (b_edges b) x) as [eb| |]; try discriminate. cbn [bind] in E. cbn.
    destruct (relation_seg _ _); try (injection E as <- <- <-; now left).
    - destruct (intersection _ _); injection E as <- <- <-; now left.
    - destruct (overlap _ _) as [s|]; [|injection E as <- <- <-; now left].
      destruct (seg_axis s); try (injection E as <- <- <-; now left);
      (destruct (add_edge_in_polygon b k j s (Some x)) as [b2| |] eqn:A; try discriminate; injection E as <- <- <-; eapply add_eip_either, A). }
  eapply either_trans; [exact M1|]. clear M1 M.
  destruct (relation_polygon fuel (g_points pb) (s0 (e_seg ea))) as [r0| |]; try discriminate. cbn [bind] in E.
  destruct (relation_polygon fuel (g_points pb) (s1 (e_seg ea))) as [r1| |]; try discriminate. cbn [bind] in E.
  destruct inter as [|q inter].
  - destruct (_ && _); [eapply add_eip_either, E|injection E as <-; now left].
  - repeat match type of E with bind ?m _ = _ => destruct m; try discriminate; cbn [bind] in E end.
    revert E. apply for_each_either. clear. intros [[range rel] mid] b b' E. unfold register_range in E.
    repeat match type of E with bind ?m _ = _ => destruct m; try discriminate; cbn [bind] in E end.
    destruct (_ || _); [eapply add_eip_either, E|injection E as <-; now left].
Qed.

Lemma detect_ce_either p b b' : detect_colinear_edges b p = Done b' -> either colinear_count b b'.
Proof.
  unfold detect_colinear_edges. generalize (edges_of b p). intros l. revert b. induction l as [|i l IH]; intros b E; cbn in E; [injection E as <-; now left|].
  destruct (read (b_edges b) i) as [e| |]; try discriminate. cbn [bind] in E.
  match type of E with bind ?m _ = _ => destruct m as [b1| |] eqn:M; try discriminate end. cbn [bind] in E.
  eapply either_trans; [|eapply IH, E]. destruct (segaxis_eqb _ SDIAG); [injection M as <-; now left|]. revert M. apply for_each_either. clear.
  intros j b b' E. unfold detect_colinear_pair in E. destruct (read (b_edges b) i) as [ei| |]; try discriminate. cbn [bind] in E.
  destruct (read (b_edges b) j) as [ej| |]; try discriminate. cbn [bind] in E.
  destruct (segaxis_eqb _ _); [|injection E as <-; now left]. destruct (axis_of_seg _ _); [|injection E as <-; now left].
  destruct (_ && _); [eapply add_ce_either, E|]. destruct (_ && _); [eapply add_ce_either, E|injection E as <-; now left].
Qed.

Lemma detect_zones_either g d srt p b b' : detect_diagonal_zones g d srt b p = Done b' -> either zone_count b b'.
Proof.
  intros E. unfold detect_diagonal_zones in E.
  destruct (for_each (detect_zones_view g d srt p) [VH; VV] _) as [[b1 l]| |] eqn:F; try discriminate. cbn [bind] in E. injection E as <-.
  apply (for_each_rel (fun x y => either zone_count (fst x) (fst y))) in F; [exact F|intros; apply either_refl|intros ? ? ?; apply either_trans|].
  clear. intros v [b l] [b' l'] _ E. unfold detect_zones_view in E.
  destruct (for_each (add_diagonal_zone _ _ _ _) _ b) as [b2| |] eqn:F; try discriminate. cbn [bind] in E. injection E as <- <-. cbn.
  revert F. apply for_each_either. clear. intros x b b' E. unfold add_diagonal_zone in E.
  destruct (collect _ x) as [[|[n a] r]| |]; try discriminate; cbn [bind] in E; [injection E as <-; now left|].
  destruct (forallb _ _); [|injection E as <-; now left]. destruct (view_of_axis _ _) as [w|]; [|injection E as <-; now left].
  injection E as <-. right. unfold zone_count. cbn. apply size_grows. rewrite app_length. cbn. lia.
Qed.

Lemma solve_ce_either g ax b b' : auto_solve_all_colinear_edges g b ax = Done b' -> either policy_count b b'.
Proof.
  apply for_each_either. clear. intros n b b' E. unfold solve_colinear in E.
  destruct (read _ n) as [c| |]; try discriminate. cbn [bind] in E. destruct (collect _ _) as [[|e es]| |]; try discriminate. cbn [bind] in E.
  destruct (seg_coord _ _) as [x|]; [|injection E as <-; now left].
  destruct (colinear_policy (e :: es)) as [[policy normal]|] eqn:P; [|injection E as <-; now left]. right.
  assert (I : inconsistent policy normal = false).
  { unfold colinear_policy in P. destruct (count_normals _ _ _) as [[nmin nmax] one]. destruct one; [injection P as <- <-; reflexivity|].
    destruct nmin, nmax; try discriminate; injection P as <- <-; reflexivity. }
  unfold add_meshline_policy in E. rewrite I in E. destruct (write _ n _) as [all| |]; try discriminate. cbn [bind] in E. injection E as <-.
  unfold policy_count. cbn. apply (size_grows (fun x => length (ax_policies x))). cbn. rewrite app_length. cbn. lia.
Qed.

Lemma close_either fuel g srt : forall ax ax', detect_and_solve_too_close fuel g srt ax = Done ax' -> either (fun x => length (ax_conflicts x)) ax ax'.
Proof.
  induction fuel as [|fuel IH]; intros ax ax' E; cbn in E; [discriminate|].
  destruct (detect_closest srt ax (g_proximity_limit g)) as [[a b]|]; [|injection E as <-; now left].
  destruct (add_too_close ax a b) as [[[ax1 c]|]| |] eqn:A; try discriminate; cbn [bind] in E; [|eapply IH, E].
  destruct (solve_too_close g ax1 c) as [ax2| |] eqn:B; try discriminate. cbn [bind] in E. right.
  assert (L1 : length (ax_conflicts ax1) = S (length (ax_conflicts ax))).
  { unfold add_too_close in A. destruct (_ || _); [discriminate|]. break A. cbn. rewrite app_length. cbn. lia. }
  assert (L2 : length (ax_conflicts ax2) = length (ax_conflicts ax1)).
  { unfold solve_too_close in B. destruct (read (ax_conflicts ax1) c) as [t| |]; try discriminate. cbn [bind] in B.
    destruct (read _ (tc_a t)) as [pa| |]; try discriminate. cbn [bind] in B. destruct (read _ (tc_b t)) as [pb| |]; try discriminate. cbn [bind] in B.
    destruct (merged pa pb) as [[[po no] x]|]; [|injection B as <-; reflexivity].
    unfold add_meshline_policy in B. destruct (inconsistent po no); destruct (write _ c _) as [l| |] eqn:W; try discriminate; cbn [bind] in B; injection B as <-;
      apply write_inv in W; cbn; cbn in W; lia. }
  destruct (IH ax2 ax' E) as [->|L3]; cbn in *; lia.
Qed.

Lemma on_each_axis_either (m : axis -> nat) f b b' : (forall ax x y, f ax x = Done y -> either m x y) -> on_each_axis f b = Done b' ->
  either (fun c => size_on_axes m (b_axes c)) b b'.
Proof.
  intros H E. apply on_each_axis_done in E. destruct E as [E F]. destruct b as [? ? ? ? ? ? ? [x y z]]. destruct b' as [? ? ? ? ? ? ? [x' y' z']].
  pose proof (H _ _ _ (F AX)) as X. pose proof (H _ _ _ (F AY)) as Y. pose proof (H _ _ _ (F AZ)) as Z. cbn in *.
  unfold either, size_on_axes in *. cbn. injection E as -> -> -> -> -> -> ->.
  destruct X as [->|X]; destruct Y as [->|Y]; destruct Z as [->|Z]; try (right; lia). now left.
Qed.

(** Materials: being reversed does not matter to the test. *)
Definition plain (b : board) : board := set_edges b (map not_reversed (b_edges b)).
Definition reversed (b : board) : Prop := existsb e_to_reverse (b_edges b) = true.

Lemma map_write {A B} (f : A -> B) l : forall i x, write (map f l) i (f x) = let! r := write l i x in Done (map f r).
Proof.
  induction l as [|y l IH]; intros [|i] x; cbn; try reflexivity. rewrite IH. destruct (write l i x); reflexivity.
Qed.
Lemma map_read {A B} (f : A -> B) l i : read (map f l) i = let! x := read l i in Done (f x).
Proof. unfold read. rewrite nth_error_map. destruct (nth_error l i); reflexivity. Qed.

Definition step_pair (x y : board * board) : Prop := plain (snd y) = plain (fst y) /\ (y = x \/ reversed (snd y)) /\ (reversed (snd x) -> reversed (snd y)).

Lemma plain_fields b c : plain c = plain b -> b_polygons c = b_polygons b /\ b_background c = b_background b /\ map not_reversed (b_edges c) = map not_reversed (b_edges b).
Proof. intros E. unfold plain, set_edges in E. injection E; intros; repeat split; congruence. Qed.

Lemma existsb_write {A} (f : A -> bool) l : forall i x l', write l i x = Done l' -> f x = true -> existsb f l' = true.
Proof.
  induction l as [|y l IH]; intros [|i] x l' E T; cbn in E; try discriminate; [injection E as <-; cbn; now rewrite T|].
  destruct (write l i x) as [r| |] eqn:W; try discriminate. injection E as <-. cbn. rewrite (IH i x r W T). apply orb_true_r.
Qed.
Lemma existsb_write_keep {A} (f : A -> bool) l : forall i x l', write l i x = Done l' -> f x = true -> existsb f l = true -> existsb f l' = true.
Proof. intros i x l' W T _. eapply existsb_write; eassumption. Qed.

Lemma write_map_eq {A B} (f : A -> B) l : forall l2 i x y r, map f l2 = map f l -> f y = f x -> write l i x = Done r ->
  exists r2, write l2 i y = Done r2 /\ map f r2 = map f r.
Proof.
  intros l2 i x y r M Fx W. pose proof (map_write f l i x) as W1. pose proof (map_write f l2 i y) as W2. rewrite M, Fx, W1, W in W2. cbn in W2.
  destruct (write l2 i y) as [r2| |]; cbn in W2; try discriminate. exists r2. split; [reflexivity|]. congruence.
Qed.

Lemma adjust_edge_pair srt p g i b c b' : plain c = plain b -> adjust_edge srt p g b i = Done b' ->
  exists c', adjust_edge srt p g c i = Done c' /\ step_pair (b, c) (b', c').
Proof.
  intros P E. pose proof (plain_fields _ _ P) as (Pp & Pb & Pe). unfold adjust_edge in *.
  pose proof (map_read not_reversed (b_edges b) i) as R1. pose proof (map_read not_reversed (b_edges c) i) as R2. rewrite Pe, R1 in R2.
  destruct (read (b_edges b) i) as [e| |] eqn:Eb; try discriminate. cbn [bind] in *.
  destruct (read (b_edges c) i) as [ec| |] eqn:Ec; try discriminate. cbn [bind] in *. injection R2 as R2a R2b R2c R2d R2e R2f R2g.
  assert (O : outer_material srt c p g ec = outer_material srt b p g e) by (unfold outer_material, find_ambient; now rewrite Pp, Pb, R2b, R2c).
  rewrite O. destruct (outer_material srt b p g e) as [[o k]| |]; try discriminate. cbn [bind fst] in *.
  assert (St : forall x, Done b = Done x -> exists c', @Done board c = Done c' /\ step_pair (b, c) (x, c')).
  { intros x X. injection X as <-. exists c. split; [reflexivity|]. repeat split; [assumption|now left|tauto]. }
  destruct o as [o|]; [|now apply St]. destruct (g_material (snd g)) as [m|]; [|discriminate]. destruct (mat_gtb o m); [|now apply St].
  unfold update_edge in *. rewrite Eb in E. rewrite Ec. cbn [bind] in *. destruct (write (b_edges b) i (set_to_reverse e)) as [l| |] eqn:W; try discriminate. injection E as <-.
  destruct (write_map_eq not_reversed (b_edges b) (b_edges c) i (set_to_reverse e) (set_to_reverse ec) l Pe) as (l2 & W2 & M2); [unfold not_reversed, set_to_reverse; cbn; congruence|assumption|].
  rewrite W2. cbn [bind]. eexists. split; [reflexivity|].
  assert (Rv : reversed (set_edges c l2)) by (unfold reversed; cbn; eapply existsb_write; [exact W2|reflexivity]).
  unfold step_pair. cbn [fst snd]. repeat split; [|now right|intros _; exact Rv].
  unfold plain, set_edges in *. cbn in *. rewrite M2. destruct b, c. cbn in *. congruence.
Qed.

Lemma for_each_pair {A} (f : board -> A -> run board) l : (forall x b c b', plain c = plain b -> f b x = Done b' -> exists c', f c x = Done c' /\ step_pair (b, c) (b', c')) ->
  forall b c b', plain c = plain b -> for_each f l b = Done b' -> exists c', for_each f l c = Done c' /\ step_pair (b, c) (b', c').
Proof.
  intros H. induction l as [|x l IH]; intros b c b' P E; cbn in *.
  - injection E as <-. exists c. split; [reflexivity|]. repeat split; [assumption|now left|tauto].
  - destruct (f b x) as [b1| |] eqn:F; try discriminate. cbn [bind] in E. destruct (H x b c b1 P F) as (c1 & -> & P1 & D1 & R1). cbn [bind fst snd] in *.
    destruct (IH b1 c1 b' P1 E) as (c2 & E2 & P2 & D2 & R2). exists c2. split; [assumption|]. cbn [fst snd] in *. split; [assumption|]. split; [|tauto].
    destruct D2 as [D2|D2]; [|now right]. injection D2 as -> ->. destruct D1 as [D1|D1]; [now left|now right].
Qed.

Lemma adjust_pair srt b c b' : plain c = plain b -> for_each (adjust_edges_to_materials srt) all_planes b = Done b' ->
  exists c', for_each (adjust_edges_to_materials srt) all_planes c = Done c' /\ step_pair (b, c) (b', c').
Proof.
  revert b c b'. intros b c b'. apply for_each_pair. clear. intros p b c b' P E. unfold adjust_edges_to_materials in *. pose proof (plain_fields _ _ P) as (Pp & _).
  assert (polygons_of c p = polygons_of b p) as -> by (unfold polygons_of; now rewrite Pp). revert P E. apply for_each_pair. clear. intros j b c b' P E.
  pose proof (plain_fields _ _ P) as (Pp & _). rewrite Pp. destruct (read (b_polygons b) j) as [g| |]; try discriminate. cbn [bind] in *. revert P E. apply for_each_pair.
  clear. intros i b c b' P E. eapply adjust_edge_pair; eassumption.
Qed.

Lemma plain_plain b : plain (plain b) = plain b.
Proof. unfold plain, set_edges. cbn. rewrite map_map. reflexivity. Qed.

Lemma for_each_skip {A B} (f : B -> A -> run B) l b b' : (forall x, In x l -> f b x = Done b) -> for_each f l b = Done b' -> b' = b.
Proof.
  intros H. induction l as [|x l IH]; cbn; intros E; [now injection E|]. rewrite H in E by now left. cbn in E. apply IH; [|assumption]. intros y I. apply H. now right.
Qed.

Lemma read_some {A} (l : list A) i x : read l i = Done x -> In x l.
Proof. intros R. apply read_done in R. eapply nth_error_In, R. Qed.

(** * What a step writes *)

Inductive field := FPolygons | FEdges | FAngles | FCe | FEip | FZones | FAxes.
Definition written (s : Step) (f : field) : bool :=
  match s, f with
  | ADJUST_EDGE_TO_MATERIAL, FEdges => true
  | (DETECT_DIAG_ANGLES | SOLVE_DIAG_ZONES_ANGLES), FAngles => true
  | DETECT_DIAG_ZONES, FZones => true
  | DETECT_CONFLICT_EIP, (FPolygons | FEdges | FEip) => true
  | DETECT_CONFLICT_CE, (FEdges | FCe) => true
  | SOLVE_ALL_EIP, (FEdges | FEip) => true
  | SOLVE_ALL_CE, (FCe | FAxes) => true
  | DETECT_INDIVIDUAL_EDGES, (FEdges | FAngles | FAxes) => true
  | (ADD_FIXED_MLP | DETECT_AND_SOLVE_TCMLP | DETECT_INTERVALS | SOLVE_DIAG_ZONES_INTERVALS | MESH), FAxes => true
  | _, _ => false
  end.
Definition same_field (f : field) (b b' : board) : Prop :=
  match f with
  | FPolygons => b_polygons b' = b_polygons b
  | FEdges => b_edges b' = b_edges b
  | FAngles => b_angles b' = b_angles b
  | FCe => b_ce b' = b_ce b
  | FEip => b_eip b' = b_eip b
  | FZones => b_zones b' = b_zones b
  | FAxes => b_axes b' = b_axes b
  end.
Definition only (s : Step) (b b' : board) : Prop := b_background b' = b_background b /\ forall f, written s f = false -> same_field f b b'.
Lemma only_refl s b : only s b b.
Proof. split; [reflexivity|]. intros []; reflexivity. Qed.
Lemma only_trans s a b c : only s a b -> only s b c -> only s a c.
Proof. intros [A1 A2] [B1 B2]. split; [congruence|]. intros f F. specialize (A2 f F). specialize (B2 f F). destruct f; cbn in *; congruence. Qed.
Lemma for_each_only {A} s (f : board -> A -> run board) l : (forall x b b', f b x = Done b' -> only s b b') ->
  forall b b', for_each f l b = Done b' -> only s b b'.
Proof. intros H. apply for_each_rel; [apply only_refl|apply only_trans|]. intros x b b' _. apply H. Qed.
Ltac only_by E := break E; (split; [reflexivity|intros []; cbn; intros F; try discriminate F; reflexivity]).

Lemma update_edge_only s b i f b' : written s FEdges = true -> update_edge b i f = Done b' -> only s b b'.
Proof. intros W E. unfold update_edge in E. break E. split; [reflexivity|]. intros []; cbn; intros F; try reflexivity. congruence. Qed.
Lemma update_polygon_only s b i f b' : written s FPolygons = true -> update_polygon b i f = Done b' -> only s b b'.
Proof. intros W E. unfold update_polygon in E. break E. split; [reflexivity|]. intros []; cbn; intros F; try reflexivity. congruence. Qed.
Lemma update_angle_only s b i f b' : written s FAngles = true -> update_angle b i f = Done b' -> only s b b'.
Proof. intros W E. unfold update_angle in E. break E. split; [reflexivity|]. intros []; cbn; intros F; try reflexivity. congruence. Qed.

Lemma add_eip_only b a g r o b' : add_edge_in_polygon b a g r o = Done b' -> only DETECT_CONFLICT_EIP b b'.
Proof.
  unfold add_edge_in_polygon. intros E. destruct (read (b_edges b) a) as [ea| |]; try discriminate. cbn [bind] in E.
  destruct (read (b_polygons b) g) as [pg| |]; try discriminate. cbn [bind] in E.
  match type of E with bind ?m _ = _ => destruct m as [wrong| |]; try discriminate end. cbn [bind] in E.
  destruct wrong; [injection E as <-; apply only_refl|].
  destruct (find_in_polygon a (on_plane (b_eip b) (e_plane ea)) 0) as [[n c]|] eqn:F.
  - destruct (existsb _ (ei_overlaps c)); [injection E as <-; apply only_refl|].
    destruct (write _ n _) as [all| |] eqn:W; try discriminate. cbn [bind] in E.
    assert (G : only DETECT_CONFLICT_EIP b (set_eip b (set_plane (b_eip b) (e_plane ea) all))) by (split; [reflexivity|intros []; cbn; intros K; try discriminate K; reflexivity]).
    destruct (existsb _ (ei_overlaps c)); [injection E as <-; exact G|]. eapply only_trans; [exact G|]. eapply update_polygon_only; [reflexivity|exact E].
  - destruct (update_edge _ a _) as [b1| |] eqn:U; try discriminate. cbn [bind] in E. eapply only_trans; [|eapply update_polygon_only; [reflexivity|exact E]].
    eapply only_trans; [|eapply update_edge_only; [reflexivity|exact U]]. split; [reflexivity|intros []; cbn; intros K; try discriminate K; reflexivity].
Qed.
Lemma add_ce_only b i j b' : add_colinear_edges b i j = Done b' -> only DETECT_CONFLICT_CE b b'.
Proof.
  assert (G : forall x, only DETECT_CONFLICT_CE b (set_ce b x)) by (intros x; split; [reflexivity|intros []; cbn; intros K; try discriminate K; reflexivity]).
  unfold add_colinear_edges. intros E. destruct (read (b_edges b) i) as [ei| |]; try discriminate. cbn [bind] in E.
  destruct (read (b_edges b) j) as [ej| |]; try discriminate. cbn [bind] in E.
  destruct (plane_eqb _ _ && segaxis_eqb _ _); [|injection E as <-; apply only_refl].
  destruct (axis_of_seg _ _) as [ax|]; [|injection E as <-; apply only_refl].
  destruct (find_colinear i j (on_axis (b_ce b) ax) 0) as [[n c]|] eqn:F.
  - destruct (memb i (ce_edges c)); [destruct (memb j (ce_edges c)); [injection E as <-; apply only_refl|]|];
      (destruct (write _ n _) as [all| |] eqn:W; try discriminate; cbn [bind] in E; eapply only_trans; [apply G|]; eapply update_edge_only; [reflexivity|exact E]).
  - destruct (update_edge _ i _) as [b1| |] eqn:U; try discriminate. cbn [bind] in E. eapply only_trans; [apply G|].
    eapply only_trans; eapply update_edge_only; try reflexivity; eassumption.
Qed.

Lemma detect_eip_only fuel srt p b b' : detect_edges_in_polygons fuel srt b p = Done b' -> only DETECT_CONFLICT_EIP b b'.
Proof.
  apply for_each_only. clear. intros i b b'. apply for_each_only. clear. intros j b b' E. unfold polygon_in_polygon in E.
  destruct (read (b_polygons b) i) as [pa| |]; try discriminate. cbn [bind] in E. destruct (read (b_polygons b) j) as [pb| |]; try discriminate. cbn [bind] in E.
  destruct (j =? i)%nat; [injection E as <-; apply only_refl|]. destruct (g_priority pb <? g_priority pa)%nat; [injection E as <-; apply only_refl|].
  destruct (negb _); [injection E as <-; apply only_refl|]. revert E. apply for_each_only. clear. intros k b b' E. unfold edge_in_polygon in E.
  destruct (read (b_polygons b) j) as [pb| |]; try discriminate. cbn [bind] in E. destruct (read (b_edges b) k) as [ea| |]; try discriminate. cbn [bind] in E.
  destruct (for_each (meet_edge k j) _ _) as [[[b1 inter] ranges]| |] eqn:M; try discriminate. cbn [bind] in E.
  assert (M1 : only DETECT_CONFLICT_EIP b b1).
  { change (only DETECT_CONFLICT_EIP (fst (fst (b, @nil point, @nil between))) (fst (fst (b1, inter, ranges)))). revert M.
    apply (for_each_rel (fun x y => only DETECT_CONFLICT_EIP (fst (fst x)) (fst (fst y)))); [intros; apply only_refl|intros ? ? ?; apply only_trans|].
    clear. intros x [[b i] r] [[b' i'] r'] _ E. cbn in E. destruct (read (b_edges b) k) as [ea| |]; try discriminate. cbn [bind] in E.
    destruct (read (b_edges b) x) as [eb| |]; try discriminate. cbn [bind] in E. cbn [fst].
    destruct (relation_seg _ _); try (injection E as <- <- <-; apply only_refl).
    - destruct (intersection _ _); injection E as <- <- <-; apply only_refl.
    - destruct (overlap _ _) as [s|]; [|injection E as <- <- <-; apply only_refl].
      destruct (seg_axis s); try (injection E as <- <- <-; apply only_refl);
      (destruct (add_edge_in_polygon b k j s (Some x)) as [b2| |] eqn:A; try discriminate; injection E as <- <- <-; eapply add_eip_only, A). }
  eapply only_trans; [exact M1|]. clear M1 M.
  destruct (relation_polygon fuel (g_points pb) (s0 (e_seg ea))) as [r0| |]; try discriminate. cbn [bind] in E.
  destruct (relation_polygon fuel (g_points pb) (s1 (e_seg ea))) as [r1| |]; try discriminate. cbn [bind] in E.
  destruct inter as [|q inter].
  - destruct (_ && _); [eapply add_eip_only, E|injection E as <-; apply only_refl].
  - repeat match type of E with bind ?m _ = _ => destruct m; try discriminate; cbn [bind] in E end.
    revert E. apply for_each_only. clear. intros [[range rel] mid] b b' E. unfold register_range in E.
    repeat match type of E with bind ?m _ = _ => destruct m; try discriminate; cbn [bind] in E end.
    destruct (_ || _); [eapply add_eip_only, E|injection E as <-; apply only_refl].
Qed.
Lemma detect_ce_only p b b' : detect_colinear_edges b p = Done b' -> only DETECT_CONFLICT_CE b b'.
Proof.
  unfold detect_colinear_edges. generalize (edges_of b p). intros l. revert b. induction l as [|i l IH]; intros b E; cbn in E; [injection E as <-; apply only_refl|].
  destruct (read (b_edges b) i) as [e| |]; try discriminate. cbn [bind] in E.
  match type of E with bind ?m _ = _ => destruct m as [b1| |] eqn:M; try discriminate end. cbn [bind] in E.
  eapply only_trans; [|eapply IH, E]. destruct (segaxis_eqb _ SDIAG); [injection M as <-; apply only_refl|]. revert M. apply for_each_only. clear.
  intros j b b' E. unfold detect_colinear_pair in E. destruct (read (b_edges b) i) as [ei| |]; try discriminate. cbn [bind] in E.
  destruct (read (b_edges b) j) as [ej| |]; try discriminate. cbn [bind] in E.
  destruct (segaxis_eqb _ _); [|injection E as <-; apply only_refl]. destruct (axis_of_seg _ _); [|injection E as <-; apply only_refl].
  destruct (_ && _); [eapply add_ce_only, E|]. destruct (_ && _); [eapply add_ce_only, E|injection E as <-; apply only_refl].
Qed.
Lemma detect_zones_only g d srt p b b' : detect_diagonal_zones g d srt b p = Done b' -> only DETECT_DIAG_ZONES b b'.
Proof.
  intros E. unfold detect_diagonal_zones in E.
  destruct (for_each (detect_zones_view g d srt p) [VH; VV] _) as [[b1 l]| |] eqn:F; try discriminate. cbn [bind] in E. injection E as <-.
  apply (for_each_rel (fun x y => only DETECT_DIAG_ZONES (fst x) (fst y))) in F; [exact F|intros; apply only_refl|intros ? ? ?; apply only_trans|].
  clear. intros v [b l] [b' l'] _ E. unfold detect_zones_view in E.
  destruct (for_each (add_diagonal_zone _ _ _ _) _ b) as [b2| |] eqn:F; try discriminate. cbn [bind] in E. injection E as <- <-. cbn [fst].
  revert F. apply for_each_only. clear. intros x b b' E. unfold add_diagonal_zone in E. only_by E.
Qed.

Lemma do_step_only tl x s b b' : do_step tl x s b = Done b' -> only s b b'.
Proof.
  intros E. destruct s; cbn [do_step] in E;
    try (apply on_each_axis_done in E; destruct E as [-> _]; split; [reflexivity|intros []; cbn; intros F; try discriminate F; reflexivity]).
  - revert E. apply for_each_only. intros p c c'. apply for_each_only. clear. intros j c c' E. destruct (read _ j) as [g| |]; try discriminate. cbn [bind] in E.
    revert E. apply for_each_only. clear. intros i c c' E. unfold adjust_edge in E. destruct (read _ i) as [e| |]; try discriminate. cbn [bind] in E.
    destruct (outer_material _ _ _ _ _) as [[o k]| |]; try discriminate. cbn [bind fst] in E. destruct o; [|injection E as <-; apply only_refl].
    destruct (g_material _); [|discriminate]. destruct (mat_gtb _ _); [|injection E as <-; apply only_refl]. eapply update_edge_only; [reflexivity|exact E].
  - revert E. apply for_each_only. intros p c c' E. unfold detect_diagonal_angles in E. only_by E.
  - revert E. apply for_each_only. intros p c c'. apply detect_zones_only.
  - revert E. apply for_each_only. intros ax c c'. apply for_each_only. clear. intros z c c' E. unfold solve_zone_angles in E.
    destruct (dz_angles z) as [|i r]; [discriminate|].
    assert (H : forall f k c c', solve_angle ax f c k = Done c' -> only SOLVE_DIAG_ZONES_ANGLES c c').
    { clear. intros f k c c' E. unfold solve_angle in E. destruct (read _ k) as [a| |]; try discriminate. cbn [bind] in E.
      destruct (view_of_axis _ _); [eapply update_angle_only; [reflexivity|exact E]|injection E as <-; apply only_refl]. }
    destruct (for_each (solve_angle ax (fun _ => true)) _ c) as [c1| |] eqn:F; try discriminate. cbn [bind] in E.
    apply (only_trans _ _ c1); [revert F|revert E]; apply for_each_only; intros k; apply H.
  - revert E. apply for_each_only. intros p c c'. apply detect_eip_only.
  - revert E. apply for_each_only. intros p c c'. apply detect_ce_only.
  - revert E. apply for_each_only. intros p c c'. apply for_each_only. clear. intros n c c' E. unfold solve_in_polygon in E.
    destruct (read _ n) as [k| |]; try discriminate. cbn [bind] in E. destruct (read _ (ei_edge k)) as [e| |]; try discriminate. cbn [bind] in E.
    destruct (sort_overlaps _ _ _) as [|o r]; [discriminate|]. destruct (merge_overlaps _ _ _ _) as [m| |]; try discriminate. cbn [bind] in E.
    destruct (write _ n _) as [all| |]; try discriminate. cbn [bind] in E. eapply only_trans; [|eapply update_edge_only; [reflexivity|exact E]].
    split; [reflexivity|intros []; cbn; intros F; try discriminate F; reflexivity].
  - revert E. apply for_each_only. intros ax c c'. apply for_each_only. clear. intros n c c' E. unfold solve_colinear in E.
    destruct (read _ n) as [k| |]; try discriminate. cbn [bind] in E. destruct (collect _ _) as [[|e es]| |]; try discriminate. cbn [bind] in E.
    destruct (seg_coord _ _); [|injection E as <-; apply only_refl]. destruct (colinear_policy _) as [[po no]|]; [|injection E as <-; apply only_refl].
    destruct (add_meshline_policy _ _ _ _ _ _) as [y a]. destruct (write _ n _) as [all| |]; try discriminate. cbn [bind] in E. injection E as <-.
    split; [reflexivity|intros []; cbn; intros F; try discriminate F; reflexivity].
  - revert E. apply for_each_only. intros p c c' E. unfold detect_individual_edges in E.
    destruct (for_each (individual_edge _ p) _ c) as [c1| |] eqn:F; try discriminate. cbn [bind] in E. apply (only_trans _ _ c1); [revert F|revert E]; apply for_each_only; clear.
    + intros i c c' E. unfold individual_edge in E. destruct (read _ i) as [e| |]; try discriminate. cbn [bind] in E.
      destruct (seg_coord _ _); [|injection E as <-; apply only_refl]. destruct (axis_of_seg _ _); [|injection E as <-; apply only_refl].
      destruct (_ && _); [|injection E as <-; apply only_refl]. destruct (add_meshline_policy _ _ _ _ _ _) as [y k].
      eapply only_trans; [|eapply update_edge_only; [reflexivity|exact E]]. split; [reflexivity|intros []; cbn; intros F; try discriminate F; reflexivity].
    + intros i c c'. apply for_each_only. clear. intros v c c' E. unfold individual_angle_axis in E. destruct (read _ i) as [e| |]; try discriminate. cbn [bind] in E.
      destruct (add_meshline_policy _ _ _ _ _ _) as [y k]. eapply only_trans; [|eapply update_angle_only; [reflexivity|exact E]].
      split; [reflexivity|intros []; cbn; intros F; try discriminate F; reflexivity].
  - injection E as <-. apply only_refl.
Qed.

Section WithTools.
Context (tl : tools).

Theorem idle_same x s b b' : do_step tl x s b = Done b' -> creates tl s b b' = false -> b' = b.
Proof.
  intros E C. destruct s; cbn [do_step creates] in E, C; try discriminate.
  - destruct (adjust_pair _ b (plain b) b' (plain_plain b) E) as (c & A & P & D & _). unfold plain in A. rewrite A in C. unfold reversed in D. cbn [snd] in D.
    destruct D as [D|D]; [now injection D|congruence].
  - apply Nat.ltb_ge in C. apply (for_each_either zone_count) in E; [destruct E; [assumption|lia]|]. intros p y y'. apply detect_zones_either.
  - apply Nat.ltb_ge in C. unfold zone_count, size_on_axes in C. revert E. apply for_each_skip. intros ax _. unfold solve_diagonal_angles.
    destruct ax; cbn; match goal with |- for_each _ ?l _ = _ => destruct l; [reflexivity|cbn in C; lia] end.
  - apply Nat.ltb_ge in C. apply (for_each_either overlap_count) in E; [destruct E; [assumption|lia]|]. intros p y y'. apply detect_eip_either.
  - apply Nat.ltb_ge in C. apply (for_each_either colinear_count) in E; [destruct E; [assumption|lia]|]. intros p y y'. apply detect_ce_either.
  - apply Nat.ltb_ge in C. unfold conflict_count, size_on_axes in C. revert E. apply for_each_skip. intros p _. unfold auto_solve_all_edge_in_polygon.
    assert (length (on_plane (b_eip b) p) = 0)%nat as -> by (destruct p; cbn; lia). reflexivity.
  - apply Nat.ltb_ge in C. apply (for_each_either policy_count) in E; [destruct E; [assumption|lia]|]. intros p y y'. apply solve_ce_either.
  - apply orb_false_iff in C. destruct C as [C1 C2]. apply negb_false_iff, Nat.eqb_eq, length_zero_iff_nil in C2. revert E. apply for_each_skip. intros p _.
    unfold detect_individual_edges.
    assert (for_each (individual_edge (st_params x) p) (edges_of b p) b = Done b) as ->.
    { assert (K : forall i, In i (edges_of b p) -> individual_edge (st_params x) p b i = Done b).
      { intros i I. unfold edges_of in I. unfold positions in I. apply in_map_iff in I. destruct I as ((k & e) & <- & I). apply filter_In in I. destruct I as [I Pl]. cbn [fst snd] in *.
        apply view_in in I. unfold individual_edge, read. rewrite I. cbn [bind].
        assert (N : individual e = false).
        { destruct (individual e) eqn:N; [|reflexivity]. rewrite <- C1. symmetry. apply existsb_exists. exists e. split; [eapply nth_error_In, I|assumption]. }
        unfold individual in N. assert (e_plane e = p) as Ep by (destruct (e_plane e), p; cbn in Pl; congruence). rewrite Ep in N.
        destruct (seg_coord _ _); [|reflexivity]. destruct (axis_of_seg _ _); [|reflexivity]. now rewrite N. }
      revert K. induction (edges_of b p) as [|i l IH]; intros K; cbn; [reflexivity|]. rewrite K by now left. cbn. apply IH. intros j J. apply K. now right. }
    cbn [bind]. unfold angles_of. rewrite C2. reflexivity.
  - apply Nat.ltb_ge in C. apply (on_each_axis_either (fun y => length (ax_conflicts y))) in E; [destruct E as [|E]; [assumption|unfold close_count in C; lia]|].
    intros ax y z. apply close_either.
  - apply Nat.ltb_ge in C. unfold zone_count, size_on_axes in C. apply on_each_axis_done in E. destruct E as [E F]. rewrite E. clear E.
    assert (K : forall ax, on_axis (b_axes b') ax = on_axis (b_axes b) ax).
    { intros ax. specialize (F ax). assert (on_axis (b_zones b) ax = []) as Z by (destruct ax; cbn; match goal with |- ?l = [] => destruct l; [reflexivity|cbn in C; lia] end).
      rewrite Z in F. cbn in F. injection F as <-. unfold apply_zones. cbn. destruct (on_axis (b_axes b) ax). reflexivity. }
    pose proof (K AX). pose proof (K AY). pose proof (K AZ). cbn in *. destruct b as [? ? ? ? ? ? ? [? ? ?]]. unfold set_axes. cbn in *. destruct (b_axes b'). cbn in *. congruence.
Qed.

(** * Lines are never removed by a step *)

Definition more_lines (b b' : board) : Prop := forall ax, incl (lines_on b ax) (lines_on b' ax).
Lemma more_refl b : more_lines b b.
Proof. intros ax. apply incl_refl. Qed.
Lemma more_trans a b c : more_lines a b -> more_lines b c -> more_lines a c.
Proof. intros A B ax. eapply incl_tran; [apply A|apply B]. Qed.
Definition same_lines (b b' : board) : Prop := forall ax, lines_on b' ax = lines_on b ax.
Lemma same_refl b : same_lines b b.
Proof. now intros ax. Qed.
Lemma same_trans a b c : same_lines a b -> same_lines b c -> same_lines a c.
Proof. intros A B ax. now rewrite B. Qed.
Lemma same_axes b b' : b_axes b' = b_axes b -> same_lines b b'.
Proof. intros E ax. unfold lines_on. now rewrite E. Qed.
Lemma same_set b ax y : ax_lines y = ax_lines (on_axis (b_axes b) ax) -> same_lines b (set_axes b (set_axis (b_axes b) ax y)).
Proof. intros E a. unfold lines_on. cbn. destruct ax, a; cbn in *; rewrite ?E; reflexivity. Qed.
Lemma for_each_same {A} (f : board -> A -> run board) l : (forall x b b', f b x = Done b' -> same_lines b b') -> forall b b', for_each f l b = Done b' -> same_lines b b'.
Proof. intros H. apply for_each_rel; [apply same_refl|apply same_trans|]. intros x b b' _. apply H. Qed.
Lemma same_more b b' : same_lines b b' -> more_lines b b'.
Proof. intros H ax. rewrite H. apply incl_refl. Qed.

Lemma add_policy_lines g ax po no x e : ax_lines (fst (add_meshline_policy g ax po no x e)) = ax_lines ax.
Proof. unfold add_meshline_policy. destruct (inconsistent po no); reflexivity. Qed.
Lemma solve_d_lines fuel ax i ax' : auto_solve_d_at fuel ax i = Done ax' -> ax_lines ax' = ax_lines ax.
Proof. unfold auto_solve_d_at. intros E. break E; reflexivity. Qed.
Lemma solve_s_lines fuel ax i ax' : auto_solve_smoothness_at fuel ax i = Done ax' -> ax_lines ax' = ax_lines ax.
Proof. unfold auto_solve_smoothness_at. intros E. break E; reflexivity. Qed.
Lemma first_pass_lines fuel l : forall ax ax', first_pass fuel ax l = Done ax' -> ax_lines ax' = ax_lines ax.
Proof.
  induction l as [|i l IH]; cbn; intros ax ax' E; [now injection E as <-|]. destruct (auto_solve_d_at fuel ax i) as [y| |] eqn:F; try discriminate. cbn in E.
  rewrite (IH y ax' E). eapply solve_d_lines, F.
Qed.
Lemma second_pass_lines fuel l : forall ax ax' r, second_pass fuel ax l = Done (ax', r) -> ax_lines ax' = ax_lines ax.
Proof.
  induction l as [|i l IH]; cbn; intros ax ax' r E; [now injection E as <-|].
  destruct (auto_solve_d_at fuel ax i) as [y| |] eqn:F; try discriminate. cbn [bind] in E.
  destruct (auto_solve_smoothness_at fuel y i) as [z| |] eqn:G; try discriminate. cbn [bind] in E.
  destruct (mesh_segment z i) as [w| |]; try discriminate. cbn [bind] in E.
  destruct (second_pass fuel z l) as [[u v]| |] eqn:H; try discriminate. cbn [bind] in E. injection E as <- _.
  rewrite (IH z u v H), (solve_s_lines _ _ _ _ G). eapply solve_d_lines, F.
Qed.
Lemma mesh_axis_more fuel srt ax ax' : sorts srt -> mesh_axis fuel srt ax = Done ax' -> incl (ax_lines ax) (ax_lines ax').
Proof.
  intros So E. unfold mesh_axis in E. destruct (first_pass fuel ax _) as [y| |] eqn:F; try discriminate. cbn [bind] in E.
  destruct (second_pass fuel y _) as [[z r]| |] eqn:G; try discriminate. cbn [bind] in E. injection E as <-. cbn.
  intros q I. eapply Permutation_in; [apply So|]. apply in_or_app. left. now rewrite (second_pass_lines _ _ _ _ _ G), (first_pass_lines _ _ _ _ F).
Qed.
Lemma too_close_lines fuel g srt : forall ax ax', detect_and_solve_too_close fuel g srt ax = Done ax' -> ax_lines ax' = ax_lines ax.
Proof.
  induction fuel as [|fuel IH]; intros ax ax' E; cbn in E; [discriminate|].
  destruct (detect_closest srt ax (g_proximity_limit g)) as [[a b]|]; [|injection E as <-; reflexivity].
  destruct (add_too_close ax a b) as [[[ax1 c]|]| |] eqn:A; try discriminate; cbn [bind] in E; [|eapply IH, E].
  destruct (solve_too_close g ax1 c) as [ax2| |] eqn:B; try discriminate. cbn [bind] in E. rewrite (IH _ _ E).
  assert (L1 : ax_lines ax1 = ax_lines ax) by (unfold add_too_close in A; destruct (_ || _); [discriminate|]; break A; reflexivity).
  rewrite <- L1. unfold solve_too_close in B. destruct (read (ax_conflicts ax1) c) as [t| |]; try discriminate. cbn [bind] in B.
  destruct (read _ (tc_a t)) as [pa| |]; try discriminate. cbn [bind] in B. destruct (read _ (tc_b t)) as [pb| |]; try discriminate. cbn [bind] in B.
  destruct (merged pa pb) as [[[po no] x]|]; [|injection B as <-; reflexivity].
  unfold add_meshline_policy in B. destruct (inconsistent po no); destruct (write _ c _) as [l| |] eqn:W; try discriminate; cbn [bind] in B; injection B as <-; reflexivity.
Qed.
Lemma intervals_lines g l : forall ax ax', detect_intervals_loop g ax l = Done ax' -> ax_lines ax' = ax_lines ax.
Proof.
  induction l as [|b l IH]; intros ax ax' E; [injection E as <-; reflexivity|]. destruct l as [|a l]; [injection E as <-; reflexivity|]. cbn [detect_intervals_loop] in E.
  destruct (new_segment g ax b a) as [y| |] eqn:F; try discriminate. cbn [bind] in E. rewrite (IH _ _ E). unfold new_segment in F.
  destruct (read _ b) as [pb| |]; try discriminate. cbn [bind] in F. destruct (read _ a) as [pa| |]; try discriminate. cbn [bind] in F.
  destruct (make_interval g pb pa) as [[qb qa] iv]. break F. reflexivity.
Qed.

Lemma do_step_lines x s b b' : s <> MESH -> do_step tl x s b = Done b' -> same_lines b b'.
Proof.
  intros So E. destruct (written s FAxes) eqn:W; [|apply same_axes; apply do_step_only in E; exact (proj2 E FAxes W)].
  destruct s; try discriminate W; cbn [do_step] in E.
  - apply on_each_axis_done in E. destruct E as [_ E]. intros ax. specialize (E ax). injection E as E. unfold lines_on. rewrite <- E. clear E. unfold add_fixed_policies.
    generalize (on_axis (b_axes b) ax). induction (on_axis (tl_fixed tl) ax) as [|q l IH]; intros y; cbn; [reflexivity|]. rewrite IH.
    unfold add_fixed_policy. destruct (existsb _ _); [reflexivity|]. now rewrite add_policy_lines.
  - revert E. apply for_each_same. intros ax c c'. apply for_each_same. clear. intros n c c' E. unfold solve_colinear in E.
    destruct (read _ n) as [k| |]; try discriminate. cbn [bind] in E. destruct (collect _ _) as [[|e es]| |]; try discriminate. cbn [bind] in E.
    destruct (seg_coord _ _); [|injection E as <-; apply same_refl]. destruct (colinear_policy _) as [[po no]|]; [|injection E as <-; apply same_refl].
    pose proof (add_policy_lines (st_params x) (on_axis (b_axes c) ax) po no q true) as P. destruct (add_meshline_policy _ _ _ _ _ _) as [y a].
    destruct (write _ n _) as [all| |]; try discriminate. cbn [bind] in E. injection E as <-. eapply same_trans; [apply same_set, P|]. now apply same_axes.
  - revert E. apply for_each_same. intros p c c' E. unfold detect_individual_edges in E.
    destruct (for_each (individual_edge _ p) _ c) as [c1| |] eqn:F; try discriminate. cbn [bind] in E. apply (same_trans _ c1); [revert F|revert E]; apply for_each_same; clear.
    + intros i c c' E. unfold individual_edge in E. destruct (read _ i) as [e| |]; try discriminate. cbn [bind] in E.
      destruct (seg_coord _ _); [|injection E as <-; apply same_refl]. destruct (axis_of_seg _ _) as [ax|]; [|injection E as <-; apply same_refl].
      destruct (_ && _); [|injection E as <-; apply same_refl].
      match type of E with context [add_meshline_policy ?g ?y ?a1 ?a2 ?a3 ?a4] => pose proof (add_policy_lines g y a1 a2 a3 a4) as P end.
      destruct (add_meshline_policy _ _ _ _ _ _) as [y k].
      eapply same_trans; [apply same_set, P|]. apply same_axes. exact (proj2 (update_edge_only DETECT_CONFLICT_CE _ _ _ _ eq_refl E) FAxes eq_refl).
    + intros i c c'. apply for_each_same. clear. intros v c c' E. unfold individual_angle_axis in E. destruct (read _ i) as [e| |]; try discriminate. cbn [bind] in E.
      match type of E with context [add_meshline_policy ?g ?y ?a1 ?a2 ?a3 ?a4] => pose proof (add_policy_lines g y a1 a2 a3 a4) as P end.
      destruct (add_meshline_policy _ _ _ _ _ _) as [y k]. eapply same_trans; [apply same_set, P|]. apply same_axes.
      exact (proj2 (update_angle_only DETECT_DIAG_ANGLES _ _ _ _ eq_refl E) FAxes eq_refl).
  - apply on_each_axis_done in E. destruct E as [_ E]. intros ax. unfold lines_on. exact (too_close_lines _ _ _ _ _ (E ax)).
  - apply on_each_axis_done in E. destruct E as [_ E]. intros ax. unfold lines_on. exact (intervals_lines _ _ _ _ (E ax)).
  - apply on_each_axis_done in E. destruct E as [_ E]. intros ax. unfold lines_on. specialize (E ax).
    destruct (collect _ _) as [zs| |]; try discriminate. cbn in E. injection E as <-. reflexivity.
  - contradiction.
Qed.

Lemma do_step_more x s b b' : sorts (tl_sorter tl) -> do_step tl x s b = Done b' -> more_lines b b'.
Proof.
  intros So E. destruct (AppModel.Step_eq_dec s MESH) as [->|N].
  - apply on_each_axis_done in E. destruct E as [_ E]. intros ax. unfold lines_on. exact (mesh_axis_more _ _ _ _ So (E ax)).
  - intros ax. rewrite (do_step_lines x s b b' N E). apply incl_refl.
Qed.

(** * Runs and annotations *)

Definition play (x : settings) (l : list Step) (b : board) : run board := for_each (fun b s => do_step tl x s b) l b.

Definition mark (s : Step) (ss : session) : Step := match ss_here ss with Some t => t | None => s end.

Lemma run_step_done s ss ss' : run_step tl s ss = Done ss' ->
  do_step tl (ss_settings ss) s (ss_board ss) = Done (ss_board ss') /\ ss_settings ss' = ss_settings ss
  /\ ((creates tl s (ss_board ss) (ss_board ss') = false /\ ss_board ss' = ss_board ss /\ ss_here ss' = Some (mark s ss) /\ ss_past ss' = ss_past ss)
      \/ (creates tl s (ss_board ss) (ss_board ss') = true /\ ss_here ss' = None /\ ss_past ss' = (mark s ss, (ss_board ss, ss_settings ss)) :: ss_past ss)).
Proof.
  intros E. unfold run_step in E. cbn [annotate ss_settings ss_board ss_here ss_past] in E.
  destruct (do_step tl (ss_settings ss) s (ss_board ss)) as [b| |] eqn:D; try discriminate. cbn [bind] in E. injection E as <-.
  destruct (creates tl s (ss_board ss) b) eqn:C; cbn [ss_board ss_settings ss_here ss_past].
  - split; [reflexivity|]. split; [reflexivity|]. right. split; [assumption|]. split; [reflexivity|]. unfold leave, mark. cbn. destruct (ss_here ss); reflexivity.
  - split; [reflexivity|]. split; [reflexivity|]. left. split; [assumption|]. split; [eapply idle_same; eassumption|]. split; [|reflexivity]. unfold mark. destruct (ss_here ss); reflexivity.
Qed.
Lemma run_step_runs s ss b : do_step tl (ss_settings ss) s (ss_board ss) = Done b -> exists ss', run_step tl s ss = Done ss' /\ ss_board ss' = b.
Proof. intros D. unfold run_step. cbn. rewrite D. cbn. eexists. split; [reflexivity|]. destruct (creates _ _ _ _); reflexivity. Qed.

Lemma run_list_app l l' : forall ss, run_list tl (l ++ l') ss = let! ss := run_list tl l ss in run_list tl l' ss.
Proof. induction l as [|s l IH]; intros ss; cbn; [reflexivity|]. destruct (run_step tl s ss); cbn; [apply IH|reflexivity|reflexivity]. Qed.

Lemma run_list_board l : forall ss ss', run_list tl l ss = Done ss' -> play (ss_settings ss) l (ss_board ss) = Done (ss_board ss') /\ ss_settings ss' = ss_settings ss.
Proof.
  induction l as [|s l IH]; intros ss ss' E; cbn in E; [injection E as <-; now split|].
  destruct (run_step tl s ss) as [s1| |] eqn:R; try discriminate. cbn [bind] in E. apply run_step_done in R. destruct R as (D & X & _).
  destruct (IH _ _ E) as [P Y]. rewrite X in P, Y. split; [|assumption]. unfold play. cbn. rewrite D. cbn. exact P.
Qed.
Lemma run_list_plays l : forall ss, (let! ss' := run_list tl l ss in Done (ss_board ss')) = play (ss_settings ss) l (ss_board ss).
Proof.
  induction l as [|s l IH]; intros ss; cbn; [reflexivity|]. unfold run_step. cbn. destruct (do_step tl (ss_settings ss) s (ss_board ss)) as [b| |]; cbn; try reflexivity.
  destruct (creates tl s (ss_board ss) b); rewrite IH; reflexivity.
Qed.

Definition labels (ss : session) : list Step := map fst (ss_past ss).

Lemma run_list_labels l : forall ss ss', run_list tl l ss = Done ss' ->
  (forall t, In t (labels ss') -> In t (labels ss) \/ ss_here ss = Some t \/ In t l) /\ (forall t, ss_here ss' = Some t -> ss_here ss = Some t \/ In t l).
Proof.
  induction l as [|s l IH]; intros ss ss' E; cbn in E; [injection E as <-; split; auto|].
  destruct (run_step tl s ss) as [s1| |] eqn:R; try discriminate. cbn [bind] in E. apply run_step_done in R. destruct R as (_ & _ & R).
  destruct (IH _ _ E) as [L H]. assert (M : mark s ss = s /\ ss_here ss = None \/ ss_here ss = Some (mark s ss)) by (unfold mark; destruct (ss_here ss); auto).
  destruct R as [(_ & _ & Hh & Pp)|(_ & Hh & Pp)]; unfold labels in *; rewrite Hh, Pp in *; cbn [map fst] in *; (split; [intros t I; destruct (L t I) as [K|[K|K]]|intros t I; destruct (H t I) as [K|K]]).
  all: try (right; right; now right). all: try (now left). all: try discriminate K. all: try (right; now right).
  - injection K as <-. destruct M as [[-> _]| ->]; cbn; auto.
  - injection K as <-. destruct M as [[-> _]| ->]; cbn; auto.
  - cbn in K. destruct K as [<-|K]; [|now left]. destruct M as [[-> _]| ->]; cbn; auto.
Qed.

(** * Lines that stay *)

Definition reaches (L : Axis3 -> list Q) (b : board) : Prop := forall ax, incl (L ax) (lines_on b ax).
Definition keeps (P : Step -> Prop) (L : Axis3 -> list Q) (ss : session) : Prop :=
  reaches L (ss_board ss) /\ Forall (fun e => P (fst e) -> reaches L (fst (snd e))) (ss_past ss).

Lemma reaches_more L b b' : reaches L b -> more_lines b b' -> reaches L b'.
Proof. intros R M ax. eapply incl_tran; [apply R|apply M]. Qed.

Lemma run_step_keeps (P : Step -> Prop) L s ss ss' : sorts (tl_sorter tl) -> run_step tl s ss = Done ss' -> keeps P L ss -> keeps P L ss'.
Proof.
  intros So E [K1 K2]. apply run_step_done in E. destruct E as (D & _ & H). assert (R : reaches L (ss_board ss')) by (eapply reaches_more; [exact K1|eapply do_step_more; eassumption]).
  split; [assumption|]. destruct H as [(_ & _ & _ & ->)|(_ & _ & ->)]; [assumption|]. constructor; [|assumption]. intros _. exact K1.
Qed.
Lemma run_list_keeps (P : Step -> Prop) L l : sorts (tl_sorter tl) -> forall ss ss', run_list tl l ss = Done ss' -> keeps P L ss -> keeps P L ss'.
Proof.
  intros So. induction l as [|s l IH]; intros ss ss' E K; cbn in E; [injection E as <-; assumption|].
  destruct (run_step tl s ss) as [s1| |] eqn:R; try discriminate. cbn [bind] in E. eapply IH; [exact E|]. eapply run_step_keeps; eassumption.
Qed.

Lemma revert_lines b now ax : lines_on (revert tl b now) ax = lines_on b ax.
Proof. destruct ax; reflexivity. Qed.

Lemma find_before_in s past b x r : find_before s past = Some (b, x, r) -> In (s, (b, x)) past /\ incl r past.
Proof.
  induction past as [|[t y] past IH]; cbn; [discriminate|]. destruct (Step_eqb t s) eqn:T.
  - intros E. injection E as -> ->. unfold Step_eqb in T. destruct (AppModel.Step_eq_dec t s) as [->|]; [|discriminate]. split; [now left|]. intros z I. now right.
  - intros E. destruct (IH E) as [A B]. split; [now right|]. intros z I. right. now apply B.
Qed.
Lemma go_before_keeps (P : Step -> Prop) L s ss : P s -> keeps P L ss -> keeps P L (go_before tl s ss).
Proof.
  intros La [K1 K2]. unfold go_before. destruct (find_before s (ss_past ss)) as [[[b x] r]|] eqn:F; [|now split].
  destruct (find_before_in _ _ _ _ _ F) as [I Ic]. rewrite Forall_forall in K2. split; cbn.
  - intros ax. rewrite revert_lines. exact (K2 _ I La ax).
  - apply Forall_forall. intros e Ie. apply K2, Ic, Ie.
Qed.
Lemma next_state_keeps (P : Step -> Prop) L b x ss : keeps P L ss -> more_lines (ss_board ss) b -> keeps P L (next_state b x ss).
Proof.
  intros [K1 K2] M. split; cbn; [eapply reaches_more; eassumption|]. unfold leave. destruct (ss_here ss); [constructor; [intros _; exact K1|assumption]|assumption].
Qed.
Lemma edit_from_keeps (P : Step -> Prop) L s f ss ss' : sorts (tl_sorter tl) -> P s -> (forall c c', f c = Done c' -> keeps P L c -> keeps P L c') -> edit_from tl s f ss = Done ss' ->
  keeps P L ss -> keeps P L ss'.
Proof.
  intros So La H E K. unfold edit_from in E. destruct (f (go_before tl s ss)) as [s1| |] eqn:F; try discriminate. cbn [bind] in E.
  eapply run_list_keeps; [assumption|exact E|]. eapply H; [exact F|]. now apply go_before_keeps.
Qed.
Lemma edit_board_keeps (P : Step -> Prop) L f c c' : (forall b b', f b = Done b' -> more_lines b b') -> edit_board f c = Done c' -> keeps P L c -> keeps P L c'.
Proof.
  intros H E K. unfold edit_board in E. destruct (f (ss_board c)) as [b| |] eqn:F; try discriminate. injection E as <-. apply next_state_keeps; auto.
Qed.

Lemma local_keeps (P : Step -> Prop) L x ss ss' : sorts (tl_sorter tl) -> P DETECT_CONFLICT_EIP -> P MESH -> (local x = true \/ P DETECT_INTERVALS /\ is_policy x = true) -> edit tl x ss = Done ss' -> keeps P L ss -> keeps P L ss'.
Proof.
  intros So P1 P2 Lo E. destruct x; try (exfalso; cbn in Lo; intuition discriminate); cbn [edit] in E.
  - unfold edit_edge in E. destruct (read _ i) as [e| |]; try discriminate. cbn [bind] in E. eapply edit_from_keeps; [assumption|exact P1| |exact E]. intros c c'. apply edit_board_keeps.
    intros b b' W. unfold write_edge in W. break W. now apply same_more, same_axes.
  - unfold edit_angle in E. destruct (read _ i) as [e| |]; try discriminate. cbn [bind] in E. eapply edit_from_keeps; [assumption|exact P1| |exact E]. intros c c'. apply edit_board_keeps.
    intros b b' W. unfold write_angle in W. break W. now apply same_more, same_axes.
  - unfold edit_policy in E. destruct (inconsistent policy normal); [injection E as <-; auto|]. destruct Lo as [Lo|[P3 _]]; [discriminate Lo|].
    eapply edit_from_keeps; [assumption|exact P3| |exact E]. intros c c'. apply edit_board_keeps.
    intros b b' W. unfold on_one_axis in W. destruct (ManagerModel.edit_policy _ _ _ _ _ _) as [y| |] eqn:F; try discriminate. injection W as <-. apply same_more, same_set.
    unfold ManagerModel.edit_policy in F. break F; reflexivity.
  - unfold edit_interval in E. eapply edit_from_keeps; [assumption|exact P2| |exact E]. intros c c'. apply edit_board_keeps.
    intros b b' W. unfold on_one_axis in W. destruct (ManagerModel.edit_interval _ _ _ _ _ _ _) as [y| |] eqn:F; try discriminate. injection W as <-. apply same_more, same_set.
    unfold ManagerModel.edit_interval in F. break F. reflexivity.
Qed.

Lemma locals_keep (P : Step -> Prop) L l : sorts (tl_sorter tl) -> P DETECT_CONFLICT_EIP -> P MESH -> (forall x, In x l -> local x = true \/ P DETECT_INTERVALS /\ is_policy x = true) -> forall ss ss', edits tl l ss = Done ss' -> keeps P L ss -> keeps P L ss'.
Proof.
  intros So P1 P2. induction l as [|x l IH]; cbn [edits]; intros Lo ss ss' E K; [injection E as <-; assumption|].
  destruct (edit tl x ss) as [s1| |] eqn:F; try discriminate. cbn [bind] in E. eapply IH; [intros y I; apply Lo; now right|exact E|]. eapply local_keeps; try eassumption. apply Lo. now left.
Qed.

(** ** The first run, without zones *)

Definition late (s : Step) : Prop := s = DETECT_CONFLICT_EIP \/ s = MESH.

Lemma without_zones_count b : without_zones b <-> zone_count b = 0%nat.
Proof.
  unfold without_zones, zone_count, size_on_axes. split; [intros H; pose proof (H AX); pose proof (H AY); pose proof (H AZ); cbn in *; now rewrite H0, H1, H2|].
  intros H ax. destruct ax; cbn; match goal with |- ?l = [] => destruct l; [reflexivity|cbn in H; lia] end.
Qed.

Lemma play_zones x l : ~ In DETECT_DIAG_ZONES l -> forall b b', play x l b = Done b' -> b_zones b' = b_zones b.
Proof.
  intros N b b'. unfold play. revert b b'. apply (for_each_rel (fun b b' => b_zones b' = b_zones b)); [reflexivity|congruence|].
  intros s b b' I E. apply do_step_only in E. apply (proj2 E FZones). destruct s; try reflexivity. contradiction.
Qed.

Definition early : list Step := [ADJUST_EDGE_TO_MATERIAL; DETECT_DIAG_ANGLES; DETECT_DIAG_ZONES].
Definition middle : list Step := [DETECT_CONFLICT_EIP; DETECT_CONFLICT_CE; ADD_FIXED_MLP; SOLVE_ALL_EIP; SOLVE_ALL_CE; DETECT_INDIVIDUAL_EDGES;
  DETECT_AND_SOLVE_TCMLP; DETECT_INTERVALS; DETECT_INTERVALS_PER_DIAG_ZONES].

Lemma run_list_split l l' ss ss' : run_list tl (l ++ l') ss = Done ss' -> exists s1, run_list tl l ss = Done s1 /\ run_list tl l' s1 = Done ss'.
Proof. rewrite run_list_app. destruct (run_list tl l ss) as [s1| |]; try discriminate. cbn. intros E. now exists s1. Qed.
Lemma run_list_one s ss ss' : run_list tl [s] ss = Done ss' -> run_step tl s ss = Done ss'.
Proof. cbn. destruct (run_step tl s ss); cbn; congruence. Qed.

Lemma opened_split b x ss : opened tl b x ss -> exists s3 s4 s13 s14, run_list tl early (loaded b x) = Done s3 /\ run_step tl SOLVE_DIAG_ZONES_ANGLES s3 = Done s4
  /\ run_list tl middle s4 = Done s13 /\ run_step tl SOLVE_DIAG_ZONES_INTERVALS s13 = Done s14 /\ run_step tl MESH s14 = Done ss.
Proof.
  intros O. unfold opened, run_all_steps in O. change (that_and_after ADJUST_EDGE_TO_MATERIAL) with (early ++ [SOLVE_DIAG_ZONES_ANGLES] ++ middle ++ [SOLVE_DIAG_ZONES_INTERVALS] ++ [MESH]) in O.
  apply run_list_split in O. destruct O as (s3 & E3 & O). apply run_list_split in O. destruct O as (s4 & E4 & O). apply run_list_split in O. destruct O as (s13 & E13 & O).
  apply run_list_split in O. destruct O as (s14 & E14 & O). apply run_list_one in E4, E14, O. exists s3, s4, s13, s14. auto.
Qed.

Lemma step_zones s ss ss' : s <> DETECT_DIAG_ZONES -> run_step tl s ss = Done ss' -> b_zones (ss_board ss') = b_zones (ss_board ss).
Proof. intros N E. apply run_step_done in E. destruct E as (D & _). apply do_step_only in D. apply (proj2 D FZones). destruct s; try reflexivity. contradiction. Qed.

Lemma opened_labels b x ss : opened tl b x ss -> without_zones (ss_board ss) -> ~ In DETECT_CONFLICT_EIP (labels ss) /\ ~ In MESH (labels ss) /\ ss_here ss = None.
Proof.
  intros O W. destruct (opened_split _ _ _ O) as (s3 & s4 & s13 & s14 & E3 & E4 & E13 & E14 & E15).
  assert (Z15 : b_zones (ss_board ss) = b_zones (ss_board s14)) by (eapply step_zones; [|exact E15]; discriminate).
  assert (Z14 : b_zones (ss_board s14) = b_zones (ss_board s13)) by (eapply step_zones; [|exact E14]; discriminate).
  assert (Z13 : b_zones (ss_board s13) = b_zones (ss_board s4)).
  { destruct (run_list_board _ _ _ E13) as [P _]. eapply play_zones; [|exact P]. cbn. intuition discriminate. }
  assert (Z4 : b_zones (ss_board s4) = b_zones (ss_board s3)) by (eapply step_zones; [|exact E4]; discriminate).
  apply without_zones_count in W. unfold zone_count in W. rewrite Z15 in W.
  destruct (run_list_labels _ _ _ E3) as [L3 H3]. cbn in L3, H3.
  apply run_step_done in E4. destruct E4 as (_ & _ & R4). cbn [creates] in R4. unfold zone_count in R4. rewrite <- Z4, <- Z13, <- Z14, W in R4. cbn [Nat.ltb Nat.leb] in R4.
  destruct R4 as [(_ & _ & H4 & P4)|(C & _)]; [|discriminate].
  destruct (run_list_labels _ _ _ E13) as [L13 H13]. unfold labels in L13. rewrite P4, H4 in L13. rewrite H4 in H13.
  (* the annotation of step EIP is lost *)
  assert (N13 : ~ In DETECT_CONFLICT_EIP (labels s13) /\ ss_here s13 <> Some DETECT_CONFLICT_EIP /\ ~ In MESH (labels s13) /\ ss_here s13 <> Some MESH).
  { change middle with ([DETECT_CONFLICT_EIP] ++ tail middle) in E13. apply run_list_split in E13. destruct E13 as (s5 & E5 & E13). apply run_list_one in E5. apply run_step_done in E5.
    assert (M5 : mark DETECT_CONFLICT_EIP s4 = mark SOLVE_DIAG_ZONES_ANGLES s3) by (unfold mark at 1; now rewrite H4).
    assert (T : mark SOLVE_DIAG_ZONES_ANGLES s3 <> DETECT_CONFLICT_EIP /\ mark SOLVE_DIAG_ZONES_ANGLES s3 <> MESH).
    { unfold mark. destruct (ss_here s3) as [t|]; [|split; discriminate]. destruct (H3 t eq_refl) as [K|[<-|[<-|[<-|[]]]]]; try discriminate K; split; discriminate. }
    assert (L3' : forall t, late t -> ~ In t (labels s3)).
    { intros t La I. destruct (L3 t I) as [[]|[K|[<-|[<-|[<-|[]]]]]]; [discriminate K|..]; destruct La; discriminate. }
    assert (L5 : forall t, late t -> ~ In t (labels s5) /\ ss_here s5 <> Some t).
    { intros t La. destruct E5 as (_ & _ & [(_ & _ & H5 & P5)|(_ & H5 & P5)]); unfold labels; rewrite H5, P5, M5, P4.
      - split; [now apply L3'|]. intros K. injection K as K. destruct La; subst t; intuition.
      - split; [|discriminate]. intros [K|K]; [cbn in K; destruct La; subst t; intuition|]. now apply (L3' t). }
    destruct (run_list_labels _ _ _ E13) as [L H].
    assert (G : forall t, late t -> ~ In t (tail middle)) by (intros t La I; cbn in I; destruct La; subst t; intuition discriminate).
    assert (R1 : forall t, late t -> ~ In t (labels s13)).
    { intros t La I. destruct (L5 t La) as [A B]. destruct (L t I) as [K|[K|K]]; [now apply A|now apply B|now apply (G t)]. }
    assert (R2 : forall t, late t -> ss_here s13 <> Some t).
    { intros t La I. destruct (L5 t La) as [A B]. destruct (H t I) as [K|K]; [now apply B|now apply (G t)]. }
    split; [apply R1; now left|]. split; [apply R2; now left|]. split; [apply R1; now right|apply R2; now right]. }
  destruct N13 as (N1 & N2 & N3 & N4).
  apply run_step_done in E14. destruct E14 as (_ & _ & R14). cbn [creates] in R14. unfold zone_count in R14. rewrite <- Z14, W in R14. cbn [Nat.ltb Nat.leb] in R14.
  destruct R14 as [(_ & _ & H14 & P14)|(C & _)]; [|discriminate].
  apply run_step_done in E15. destruct E15 as (_ & _ & [(C & _)|(_ & H15 & P15)]); [discriminate C|]. unfold labels in *. rewrite P15, P14. cbn [map fst].
  assert (M15 : mark MESH s14 = mark SOLVE_DIAG_ZONES_INTERVALS s13) by (unfold mark at 1; now rewrite H14). rewrite M15.
  assert (T : mark SOLVE_DIAG_ZONES_INTERVALS s13 <> DETECT_CONFLICT_EIP /\ mark SOLVE_DIAG_ZONES_INTERVALS s13 <> MESH).
  { unfold mark. destruct (ss_here s13) as [t|]; [|split; discriminate]. split; congruence. }
  split; [|split; [|assumption]]; intros [K|K]; [now apply (proj1 T)|now apply N1|now apply (proj2 T)|now apply N3].
Qed.

(** * One step back, then forward *)

Lemma back_split b x ss : opened tl b x ss -> exists s12 s13 s14, run_step tl DETECT_INTERVALS_PER_DIAG_ZONES s12 = Done s13
  /\ run_step tl SOLVE_DIAG_ZONES_INTERVALS s13 = Done s14 /\ run_step tl MESH s14 = Done ss
  /\ ss_past s13 = (DETECT_INTERVALS_PER_DIAG_ZONES, (ss_board s12, ss_settings s12)) :: ss_past s12 /\ ss_here s13 = None /\ ss_board s13 = ss_board s12
  /\ same_lines b (ss_board s14) /\ ss_settings s14 = x.
Proof.
  intros O. destruct (opened_split _ _ _ O) as (s3 & s4 & s13 & s14 & E3 & E4 & E13 & E14 & E15).
  assert (L : forall l x b b', ~ In MESH l -> play x l b = Done b' -> same_lines b b').
  { clear. intros l x b b' N. unfold play. revert b b'. apply for_each_rel; [apply same_refl|apply same_trans|]. intros s b b' I. apply do_step_lines. intros ->. contradiction. }
  destruct (run_list_board _ _ _ E3) as [P3 X3]. destruct (run_list_board _ _ _ E13) as [P13 X13]. apply L in P3, P13; [|cbn; intuition discriminate|cbn; intuition discriminate].
  pose proof (run_step_done _ _ _ E4) as (D4 & X4 & _). pose proof (run_step_done _ _ _ E14) as (D14 & X14 & _). apply do_step_lines in D4, D14; try discriminate.
  change middle with ((removelast (removelast middle) ++ [DETECT_INTERVALS]) ++ [DETECT_INTERVALS_PER_DIAG_ZONES]) in E13.
  apply run_list_split in E13. destruct E13 as (s12 & E12 & E13). apply run_list_split in E12. destruct E12 as (s11 & E11 & E12). apply run_list_one in E12, E13.
  pose proof (run_step_done _ _ _ E12) as (_ & _ & [(C & _)|(_ & H12 & _)]); [discriminate C|].
  pose proof (run_step_done _ _ _ E13) as (D13 & _ & [(C & _)|(_ & H13 & P)]); [discriminate C|]. unfold mark in P. rewrite H12 in P. injection D13 as D13.
  exists s12, s13, s14. do 5 (split; [assumption|]). split; [now symmetry|]. split; [|cbn in *; congruence].
  eapply same_trans; [exact P3|]. eapply same_trans; [exact D4|]. eapply same_trans; [exact P13|]. exact D14.
Qed.

Lemma zones_nil_step x b : without_zones b -> do_step tl x SOLVE_DIAG_ZONES_INTERVALS b = Done b.
Proof.
  intros W. assert (exists b', do_step tl x SOLVE_DIAG_ZONES_INTERVALS b = Done b') as (b' & E).
  { cbn [do_step]. apply on_each_axis_ends. intros ax. rewrite (W ax). cbn. eauto. }
  rewrite E. f_equal. eapply idle_same; [exact E|]. cbn [creates]. apply without_zones_count in W. now rewrite W.
Qed.

Lemma revert_zones b now : without_zones b -> without_zones (revert tl b now).
Proof. intros W ax. pose proof (W ax) as E. destruct ax; cbn in *; rewrite E; reflexivity. Qed.

Theorem next_stuck b x ss : opened tl b x ss -> without_zones (ss_board ss) -> forall n, exists ss', next_steps tl n (previous_step tl ss) = Done ss'
  /\ ss_board ss' = ss_board (previous_step tl ss) /\ forall ax, lines_on (ss_board ss') ax = lines_on b ax.
Proof.
  intros O W. destruct (back_split _ _ _ O) as (s12 & s13 & s14 & E13 & E14 & E15 & P13 & H13 & B13 & L & X).
  assert (Z15 : b_zones (ss_board ss) = b_zones (ss_board s14)) by (eapply step_zones; [|exact E15]; discriminate).
  assert (Z14 : b_zones (ss_board s14) = b_zones (ss_board s13)) by (eapply step_zones; [|exact E14]; discriminate).
  pose proof (run_step_done _ _ _ E14) as (_ & _ & [(_ & _ & H14 & P14)|(C & _)]);
    [|cbn [creates] in C; unfold zone_count in C; rewrite <- Z14, <- Z15 in C; apply without_zones_count in W; unfold zone_count in W; rewrite W in C; discriminate C].
  pose proof (run_step_done _ _ _ E15) as (_ & _ & [(C & _)|(_ & _ & P15)]); [discriminate C|].
  assert (M : previous_step tl ss = mk_session (revert tl (ss_board s14) (ss_board ss)) (ss_settings s14) (Some (mark MESH s14)) (ss_past s14))
    by (unfold previous_step; now rewrite P15).
  assert (W14 : without_zones (revert tl (ss_board s14) (ss_board ss))) by (apply revert_zones; intros ax; rewrite <- Z15; apply W).
  assert (N : next_step tl (previous_step tl ss) = Done (previous_step tl ss)).
  { rewrite M. unfold next_step. cbn [ss_past]. rewrite P14, P13. cbn [next]. unfold run_step. cbn [annotate ss_settings ss_board ss_here ss_past].
    rewrite (zones_nil_step _ _ W14). cbn [bind creates]. apply without_zones_count in W14. rewrite W14. cbn [Nat.ltb Nat.leb]. reflexivity. }
  intros n. exists (previous_step tl ss). split; [|split; [reflexivity|]].
  - induction n as [|n IH]; cbn; [reflexivity|]. rewrite N. exact IH.
  - intros ax. rewrite M. cbn [ss_board]. rewrite revert_lines. apply L.
Qed.

Theorem lines_stay b x ss l ss' : sorts (tl_sorter tl) -> opened tl b x ss -> without_zones (ss_board ss) ->
  forallb local l = true -> edits tl l ss = Done ss' -> forall ax, incl (lines_on (ss_board ss) ax) (lines_on (ss_board ss') ax).
Proof.
  intros So O W Lo E. destruct (opened_labels _ _ _ O W) as (N1 & N2 & _).
  destruct (locals_keep late (lines_on (ss_board ss)) l So (or_introl eq_refl) (or_intror eq_refl)) with (ss := ss) (ss' := ss') as [K _]; [|exact E| |exact K].
  { intros y I. left. now apply (proj1 (forallb_forall local l) Lo). } split; [intros ax; apply incl_refl|].
  apply Forall_forall. intros [s y] I La. exfalso. apply (in_map fst) in I. cbn [fst] in La, I. destruct La; subst s; contradiction.
Qed.
End WithTools.
