(** Whatever the steps and dialogs: every conflict on the board has what is drawn of it. *)
From Coq Require Import List Arith Bool QArith Lia Permutation.
From Verif Require Import IntervalModel ManagerModel ManagerSpec ManagerProofs ManagerMoreProofs ManagerSafetyProofs GeomModel BoardModel BoardSpec BoardColinearProofs BoardBuiltProofs BoardRunProofs.
From Verif Require AppModel.
From Verif Require Import EditModel SceneModel SceneSpec SceneProofs SceneValidProofs SceneSessionProofs.
Import AppModel(Step(..), Step_eqb, next, that_and_after).
Import ListNotations.
Local Open Scope nat_scope.

(** ** An axis: consistent policies, and too close ones all solved *)

Definition settled (ax : axis) : Prop := forall c, In c (ax_conflicts ax) -> tc_solution c <> None.
Definition solid (ax : axis) : Prop := all_consistent ax /\ settled ax.

Lemma conflicts_add g ax policy normal coord enabled : ax_conflicts (fst (add_meshline_policy g ax policy normal coord enabled)) = ax_conflicts ax.
Proof. unfold add_meshline_policy. now destruct (inconsistent policy normal). Qed.
Lemma solid_add g ax policy normal coord enabled : solid ax -> solid (fst (add_meshline_policy g ax policy normal coord enabled)).
Proof. intros [A B]. split; [now apply add_policy_consistent|]. unfold settled. now rewrite conflicts_add. Qed.
Lemma solid_fixed g coords : forall ax, solid ax -> solid (add_fixed_policies g ax coords).
Proof.
  unfold add_fixed_policies. induction coords as [|x r IH]; intros ax A; [exact A|]. cbn [fold_left]. unfold add_fixed_policy at 2. destruct (existsb _ _); [now apply IH|]. now apply IH, solid_add.
Qed.
Lemma solid_close g srt ax ax' : solving g srt ax ax' -> solid ax -> solid ax'.
Proof.
  intros H [C F]. split; [exact (solving_consistent _ _ _ _ H C)|]. revert C F. induction H; intros C F; [assumption|].
  apply IHsolving; [eapply turn_consistent; try eassumption; [apply H0|apply H1]|]. rewrite all_consistent_at in C.
  destruct (merged_consistent pa pb (C _ _ (proj1 H0)) (C _ _ (proj1 H1))) as (pol & nrm & co & M & I).
  pose proof (tu_new _ _ _ _ _ _ _ H3) as New. rewrite M, I in New. destruct New as (_ & _ & Cs). intros c J. rewrite Cs in J. apply in_app_or in J. destruct J as [J|[<-|[]]]; [now apply F|discriminate].
Qed.
Lemma solid_intervals g srt ax ax' : sorts srt -> detect_intervals g srt ax = Done ax' -> solid ax -> solid ax'.
Proof. intros S H [A B]. split; [exact (detect_consistent _ _ _ _ S H A)|]. unfold settled. unfold detect_intervals in H. now rewrite (conflicts_intervals_loop _ _ _ _ H). Qed.
Lemma solid_zones zs ax : solid ax -> solid (apply_zones zs ax).
Proof. intros A. exact A. Qed.
Lemma solid_mesh n srt ax ax' : mesh_axis n srt ax = Done ax' -> solid ax -> solid ax'.
Proof.
  intros H [A B]. unfold mesh_axis in H. apply bind_done in H. destruct H as (ax1 & H1 & H). apply bind_done in H. destruct H as ([ax2 l] & H2 & H). injection H as <-. split.
  - change (all_consistent ax2). exact (second_pass_consistent _ _ _ _ _ H2 (first_pass_consistent _ _ _ _ H1 A)).
  - unfold settled. cbn. now rewrite (conflicts_second _ _ _ _ _ H2), (conflicts_first _ _ _ _ H1).
Qed.
Lemma solid_edit ax i policy normal enabled d ax' : ManagerModel.edit_policy ax i policy normal enabled d = Done ax' -> solid ax -> solid ax'.
Proof.
  intros H [A B]. unfold ManagerModel.edit_policy in H. destruct (inconsistent policy normal) eqn:I; [injection H as <-; now split|].
  apply bind_done in H. destruct H as (p & _ & H). apply bind_done in H. destruct H as (l & W & H). injection H as <-. split; [|exact B]. eapply write_forall; [exact W|exact A|]. now apply consistent_dec.
Qed.
Lemma solid_edit_interval ax i dmax lb sb la sa ax' : ManagerModel.edit_interval ax i dmax lb sb la sa = Done ax' -> solid ax -> solid ax'.
Proof.
  intros H A. unfold ManagerModel.edit_interval in H. apply bind_done in H. destruct H as (s & _ & H). cbn zeta in H. apply bind_done in H. destruct H as (l & _ & H). injection H as <-. exact A.
Qed.
Lemma solid_revert before now k : solid before -> solid now -> solid (revert_axis before now k).
Proof.
  intros [A B] [A' _]. split; [|exact B]. unfold all_consistent, revert_axis in *. cbn. rewrite Forall_forall in *. intros p I. apply in_app_or in I. destruct I as [I|I].
  - apply kept_in in I. destruct I as [I|I]; [|now apply A']. apply A. rewrite <- (firstn_skipn k (ax_policies before)). apply in_or_app. now left.
  - apply A. rewrite <- (firstn_skipn k (ax_policies before)). apply in_or_app. now right.
Qed.

(** ** The board *)

Definition place (e : edge) : Plane * seg := (e_plane e, e_seg e).
(** The edges of a conflict of an axis have their line on that axis. *)
Definition ce_full (ps : list (Plane * seg)) (ax : Axis3) (c : colinear) : Prop :=
  ce_edges c <> [] /\ forall i, In i (ce_edges c) -> exists p s, nth_error ps i = Some (p, s) /\ axis_of_seg p (seg_axis s) = Some ax.
(** The angles of a zone of an axis are in planes of the axis. *)
Definition zone_full (qs : list Plane) (ax : Axis3) (z : diag_zone) : Prop :=
  dz_angles z <> [] /\ forall i, In i (dz_angles z) -> exists q, nth_error qs i = Some q /\ view_of_axis q ax <> None.
Definition planes (b : board) : list Plane := map a_plane (b_angles b).

(** Boards whose edges are at [ps], whose first angles are in the planes [pl]. *)
Record full (ps : list (Plane * seg)) (gs : list (list point)) (pl : list Plane) (b : board) : Prop := {
  fu_edges : map place (b_edges b) = ps;
  fu_points : map g_points (b_polygons b) = gs;
  fu_ce : forall ax c, In c (on_axis (b_ce b) ax) -> ce_full ps ax c;
  fu_zones : forall ax z, In z (on_axis (b_zones b) ax) -> zone_full (planes b) ax z;
  fu_axes : forall ax, solid (on_axis (b_axes b) ax);
  fu_more : exists r, planes b = pl ++ r;
}.

Lemma map_write {A B} (f : A -> B) (l : list A) i x y l' : nth_error l i = Some x -> write l i y = Done l' -> f y = f x -> map f l' = map f l.
Proof.
  revert i l'. induction l as [|h t IH]; intros i l' R W E; [destruct i; discriminate|]. destruct i; cbn in R, W; [injection R as ->; injection W as <-; cbn; now rewrite E|].
  destruct (write t i y) as [l1| |] eqn:W1; try discriminate. injection W as <-. cbn. now rewrite (IH i l1 R W1 E).
Qed.
Lemma zone_full_more qs r ax z : zone_full qs ax z -> zone_full (qs ++ r) ax z.
Proof. intros [N H]. split; [exact N|]. intros i I. destruct (H i I) as (q & Q & V). exists q. split; [|exact V]. rewrite nth_error_app1; [exact Q|]. now apply nth_lt in Q. Qed.

Section Full.
Context (ps : list (Plane * seg)) (gs : list (list point)) (pl : list Plane).
Notation V := (full ps gs pl).

Lemma full_edge b i f b' : update_edge b i f = Done b' -> (forall e, place (f e) = place e) -> V b -> V b'.
Proof.
  intros H S [A B C D E F]. unfold update_edge in H. apply bind_done in H. destruct H as (e & R & H). apply read_some in R. apply bind_done in H. destruct H as (l & W & H). injection H as <-.
  constructor; cbn; auto. rewrite <- A. exact (map_write _ _ _ _ _ _ R W (S e)).
Qed.
Lemma full_edge' b i f b' : (forall e, place (f e) = place e) -> update_edge b i f = Done b' -> V b -> V b'.
Proof. intros S H. exact (full_edge _ _ _ _ H S). Qed.
Lemma full_polygon b i f b' : update_polygon b i f = Done b' -> (forall g, g_points (f g) = g_points g) -> V b -> V b'.
Proof.
  intros H S [A B C D E F]. unfold update_polygon in H. apply bind_done in H. destruct H as (g & R & H). apply read_some in R. apply bind_done in H. destruct H as (l & W & H). injection H as <-.
  constructor; cbn; auto. rewrite <- B. exact (map_write _ _ _ _ _ _ R W (S g)).
Qed.
Lemma full_ce b ax l : V b -> (forall c, In c l -> ce_full ps ax c) -> V (set_ce b (set_axis (b_ce b) ax l)).
Proof.
  intros [A B C D E F] O. constructor; cbn; auto. intros a c I. destruct (axis_dec a ax) as [->|N]; [rewrite on_set_axis in I; auto|rewrite on_set_other in I by exact N; now apply (C a)].
Qed.
Lemma full_eip b s : V b -> V (set_eip b s).
Proof. intros [A B C D E F]. constructor; cbn; auto. Qed.
Lemma full_zones b ax l : V b -> (forall z, In z l -> zone_full (planes b) ax z) -> V (set_zones b (set_axis (b_zones b) ax l)).
Proof.
  intros [A B C D E F] O. constructor; cbn; auto. intros a c I. destruct (axis_dec a ax) as [->|N]; [rewrite on_set_axis in I; now apply O|rewrite on_set_other in I by exact N; now apply (D a)].
Qed.
Lemma full_angles b l r : V b -> map a_plane l = planes b ++ r -> V (set_angles b l).
Proof.
  intros [A B C D E (t & F)] M. constructor; cbn; auto.
  - intros ax z I. change (planes (set_angles b l)) with (map a_plane l). rewrite M. now apply zone_full_more, D.
  - exists (t ++ r). change (planes (set_angles b l)) with (map a_plane l). now rewrite M, F, app_assoc.
Qed.
Lemma full_angle b i f b' : update_angle b i f = Done b' -> (forall a, a_plane (f a) = a_plane a) -> V b -> V b'.
Proof.
  intros H S X. unfold update_angle in H. apply bind_done in H. destruct H as (a & R & H). apply read_some in R. apply bind_done in H. destruct H as (l & W & H). injection H as <-.
  apply (full_angles _ _ [] X). rewrite app_nil_r. exact (map_write _ _ _ _ _ _ R W (S a)).
Qed.
Lemma full_axis b ax y : V b -> solid y -> V (set_axes b (set_axis (b_axes b) ax y)).
Proof.
  intros [A B C D E F] O. constructor; cbn; auto. intros a. destruct (axis_dec a ax) as [->|N]; [now rewrite on_set_axis|rewrite on_set_other by exact N; auto].
Qed.
Lemma each_full {A} (f : board -> A -> run board) l : (forall x b b', f b x = Done b' -> V b -> V b') -> forall b b', for_each f l b = Done b' -> V b -> V b'.
Proof. intros H. apply (for_each_rel (fun b b' => V b -> V b')); [auto|auto|]. intros x b b' _. apply H. Qed.

Lemma edge_place b i e : V b -> nth_error (b_edges b) i = Some e -> nth_error ps i = Some (place e).
Proof. intros X R. rewrite <- (fu_edges _ _ _ _ X). now apply map_nth_error. Qed.

Lemma full_adjust srt p b b' : adjust_edges_to_materials srt b p = Done b' -> V b -> V b'.
Proof.
  unfold adjust_edges_to_materials. apply each_full. clear b b'. intros j b b' H. apply bind_done in H. destruct H as (g & _ & H). revert H. apply each_full. clear b b'.
  intros i b b' H X. unfold adjust_edge in H. apply bind_done in H. destruct H as (e & _ & H). apply bind_done in H. destruct H as (o & _ & H).
  destruct (fst o); [|now injection H as <-]. cbn [snd] in H. destruct (g_material g); [|discriminate]. destruct (mat_gtb _ _); [|now injection H as <-]. revert H X. now apply full_edge'.
Qed.

Lemma full_push c e : place (push_conflict c e) = place e.
Proof. reflexivity. Qed.
Lemma full_add_ce b i j b' : add_colinear_edges b i j = Done b' -> V b -> V b'.
Proof.
  unfold add_colinear_edges. intros H X. apply bind_done in H. destruct H as (ei & Ri & H). apply read_some in Ri. apply bind_done in H. destruct H as (ej & Rj & H). apply read_some in Rj.
  destruct (_ && _) eqn:Same; [|now injection H as <-]. apply andb_true_iff in Same. destruct Same as [Sp Sa].
  destruct (axis_of_seg _ _) as [ax|] eqn:Eax; [|now injection H as <-].
  assert (Pi : exists p s, nth_error ps i = Some (p, s) /\ axis_of_seg p (seg_axis s) = Some ax) by (exists (e_plane ei), (e_seg ei); split; [exact (edge_place _ _ _ X Ri)|exact Eax]).
  assert (Pj : exists p s, nth_error ps j = Some (p, s) /\ axis_of_seg p (seg_axis s) = Some ax).
  { exists (e_plane ej), (e_seg ej). split; [exact (edge_place _ _ _ X Rj)|]. replace (e_plane ej) with (e_plane ei) by (destruct (e_plane ei), (e_plane ej); cbn in Sp; congruence).
    replace (seg_axis (e_seg ej)) with (seg_axis (e_seg ei)) by (destruct (seg_axis (e_seg ei)), (seg_axis (e_seg ej)); cbn in Sa; congruence). exact Eax. }
  destruct (find_colinear i j (on_axis (b_ce b) ax) 0) as [[m c]|] eqn:Fc.
  - apply find_colinear_in in Fc. pose proof (fu_ce _ _ _ _ X ax c Fc) as Oc.
    assert (Ap : forall x l, (exists p s, nth_error ps x = Some (p, s) /\ axis_of_seg p (seg_axis s) = Some ax) -> write (on_axis (b_ce b) ax) m (ce_append c x) = Done l -> V (set_ce b (set_axis (b_ce b) ax l))).
    { intros x l Px W. destruct (write_in _ _ _ _ W) as (_ & _ & I). apply full_ce; [exact X|]. intros d D. destruct (I d D) as [->|D']; [|now apply (fu_ce _ _ _ _ X ax)]. destruct Oc as [O1 O2].
      split; cbn; [destruct (ce_edges c); discriminate|]. intros y Y. apply in_app_or in Y. destruct Y as [Y|[<-|[]]]; [now apply O2|exact Px]. }
    destruct (memb i (ce_edges c)); [destruct (memb j (ce_edges c)); [now injection H as <-|]|]; apply bind_done in H; destruct H as (l & W & H); apply Ap in W; try assumption; revert H W; now apply full_edge'.
  - apply bind_done in H. destruct H as (b1 & H1 & H).
    assert (X0 : V (set_ce b (set_axis (b_ce b) ax (on_axis (b_ce b) ax ++ [mk_colinear [i; j] None false])))).
    { apply full_ce; [exact X|]. intros c I. apply in_app_or in I. destruct I as [I|[<-|[]]]; [now apply (fu_ce _ _ _ _ X ax)|]. split; [discriminate|]. intros y [<-|[<-|[]]]; assumption. }
    assert (X1 : V b1) by (revert H1 X0; now apply full_edge'). revert H X1. now apply full_edge'.
Qed.
Lemma full_colinear p b b' : detect_colinear_edges b p = Done b' -> V b -> V b'.
Proof.
  unfold detect_colinear_edges. generalize (edges_of b p) as l. intros l. revert b. induction l as [|i r IH]; intros b H X; cbn [detect_colinear_loop] in H; [now injection H as <-|].
  apply bind_done in H. destruct H as (e & _ & H). apply bind_done in H. destruct H as (b1 & H1 & H). apply (IH b1 H). destruct (segaxis_eqb _ SDIAG); [now injection H1 as <-|].
  revert H1 X. apply each_full. clear. intros j b b' H X. unfold detect_colinear_pair in H. apply bind_done in H. destruct H as (ei & _ & H). apply bind_done in H. destruct H as (ej & _ & H).
  destruct (segaxis_eqb _ _); [|now injection H as <-]. destruct (axis_of_seg _ _); [|now injection H as <-].
  destruct (_ && _); [now apply (full_add_ce _ _ _ _ H)|]. destruct (_ && _); [now apply (full_add_ce _ _ _ _ H)|now injection H as <-].
Qed.

Lemma full_add_eip b a g range other b' : add_edge_in_polygon b a g range other = Done b' -> V b -> V b'.
Proof.
  unfold add_edge_in_polygon. intros H X. apply bind_done in H. destruct H as (ea & Ra & H). apply bind_done in H. destruct H as (poly & Rg & H).
  apply bind_done in H. destruct H as (wrong & _ & H). destruct wrong; [now injection H as <-|]. cbn zeta in H.
  destruct (find_in_polygon a (on_plane (b_eip b) (e_plane ea)) 0) as [[m c]|].
  - destruct (existsb _ _); [now injection H as <-|]. apply bind_done in H. destruct H as (l & W & H). destruct (existsb _ _); [injection H as <-; now apply full_eip|]. revert H. intros H.
    apply (full_polygon _ _ _ _ H); [reflexivity|now apply full_eip].
  - apply bind_done in H. destruct H as (b1 & H1 & H). apply (full_polygon _ _ _ _ H); [reflexivity|]. apply (full_edge _ _ _ _ H1); [reflexivity|now apply full_eip].
Qed.
Lemma full_meet i g l : forall b x y b' x' y', for_each (meet_edge i g) l (b, x, y) = Done (b', x', y') -> V b -> V b'.
Proof.
  induction l as [|j r IH]; intros b x y b' x' y' H X; cbn [for_each] in H; [now injection H as <- _ _|]. apply bind_done in H. destruct H as ([[b1 x1] y1] & H1 & H).
  apply (IH _ _ _ _ _ _ H). unfold meet_edge in H1. apply bind_done in H1. destruct H1 as (ea & _ & H1). apply bind_done in H1. destruct H1 as (eb & _ & H1).
  destruct (relation_seg _ _); try (injection H1 as <- _ _; exact X).
  - destruct (intersection _ _); injection H1 as <- _ _; exact X.
  - destruct (overlap _ _) as [s|]; [|injection H1 as <- _ _; exact X].
    destruct (seg_axis s); try (injection H1 as <- _ _; exact X); apply bind_done in H1; destruct H1 as (b2 & A & H1); injection H1 as <- _ _; exact (full_add_eip _ _ _ _ _ _ A X).
Qed.
Lemma full_detect_eip fuel srt p b b' : detect_edges_in_polygons fuel srt b p = Done b' -> V b -> V b'.
Proof.
  unfold detect_edges_in_polygons. apply each_full. clear b b'. intros i b b'. apply each_full. clear b b'. intros j b b' H. unfold polygon_in_polygon in H.
  apply bind_done in H. destruct H as (pa & _ & H). apply bind_done in H. destruct H as (pb & _ & H). destruct (j =? i); [now injection H as <-|].
  destruct (_ <? _); [now injection H as <-|]. destruct (negb _); [now injection H as <-|]. revert H. apply each_full. clear. intros i b b' H X. unfold edge_in_polygon in H.
  apply bind_done in H. destruct H as (poly & _ & H). apply bind_done in H. destruct H as (ea & _ & H). apply bind_done in H. destruct H as ([[b1 inter] ranges] & M & H).
  apply full_meet in M; [|exact X]. apply bind_done in H. destruct H as (r0 & _ & H). apply bind_done in H. destruct H as (r1 & _ & H). destruct inter as [|q0 inter].
  - destruct (_ && _); [exact (full_add_eip _ _ _ _ _ _ H M)|now injection H as <-].
  - cbn zeta in H. apply bind_done in H. destruct H as (fi & _ & H). apply bind_done in H. destruct H as (la & _ & H). revert H M. apply each_full. clear.
    intros [[s r] m] b b' H X. unfold register_range in H. apply bind_done in H. destruct H as (poly & _ & H). apply bind_done in H. destruct H as (at_ & _ & H).
    destruct (_ || _); [exact (full_add_eip _ _ _ _ _ _ H X)|now injection H as <-].
Qed.
Lemma full_solve_eip srt p b b' : auto_solve_all_edge_in_polygon srt b p = Done b' -> V b -> V b'.
Proof.
  unfold auto_solve_all_edge_in_polygon. apply each_full. clear b b'. intros m b b' H X. unfold solve_in_polygon in H.
  apply bind_done in H. destruct H as (c & _ & H). apply bind_done in H. destruct H as (e & _ & H). cbn zeta in H.
  destruct (sort_overlaps srt (seg_vec (e_seg e)) (ei_overlaps c)) as [|o r]; [discriminate|]. apply bind_done in H. destruct H as (mg & _ & H). apply bind_done in H. destruct H as (l & _ & H).
  apply (full_edge _ _ _ _ H); [reflexivity|now apply full_eip].
Qed.
Lemma full_solve_ce g ax b b' : auto_solve_all_colinear_edges g b ax = Done b' -> V b -> V b'.
Proof.
  unfold auto_solve_all_colinear_edges. apply each_full. clear b b'. intros m b b' H X. unfold solve_colinear in H.
  apply bind_done in H. destruct H as (c & Rc & H). apply read_some in Rc. apply bind_done in H. destruct H as (l & _ & H). destruct l as [|e l]; [discriminate|].
  destruct (seg_coord _ _) as [x|]; [|now injection H as <-]. destruct (colinear_policy _) as [[po no]|]; [|now injection H as <-].
  destruct (add_meshline_policy g (on_axis (b_axes b) ax) po no x true) as [y ad] eqn:Ad. apply bind_done in H. destruct H as (l' & W & H). injection H as <-.
  assert (Sy : solid y) by (replace y with (fst (add_meshline_policy g (on_axis (b_axes b) ax) po no x true)) by (now rewrite Ad); apply solid_add, (fu_axes _ _ _ _ X)).
  pose proof (full_axis b ax y X Sy) as X1. destruct (write_in _ _ _ _ W) as (_ & _ & I).
  apply (full_ce (set_axes b (set_axis (b_axes b) ax y)) ax l' X1). intros d D. destruct (I d D) as [->|D']; [|now apply (fu_ce _ _ _ _ X ax)].
  exact (fu_ce _ _ _ _ X ax c (nth_error_In _ _ Rc)).
Qed.
Lemma full_individual g p b b' : detect_individual_edges g b p = Done b' -> V b -> V b'.
Proof.
  unfold detect_individual_edges. intros H X. apply bind_done in H. destruct H as (b1 & H1 & H). revert H. assert (X1 : V b1).
  { revert H1 X. apply each_full. clear. intros i b b' H X. unfold individual_edge in H. apply bind_done in H. destruct H as (e & _ & H).
    destruct (seg_coord _ _) as [x|]; [|now injection H as <-]. destruct (axis_of_seg _ _) as [ax|]; [|now injection H as <-]. destruct (_ && _); [|now injection H as <-].
    match type of H with (let '_ := add_meshline_policy g ?y ?po ?no ?x ?m in _) = _ =>
      assert (Sy : solid (fst (add_meshline_policy g y po no x m))) by apply solid_add, (fu_axes _ _ _ _ X); destruct (add_meshline_policy g y po no x m) as [y1 ad] end.
    apply (full_edge _ _ _ _ H); [reflexivity|]. exact (full_axis b ax y1 X Sy). }
  clear - X1. intros H. revert H X1. apply each_full. clear. intros i b b'. unfold individual_angle. apply each_full. clear. intros v b b' H X. unfold individual_angle_axis in H.
  apply bind_done in H. destruct H as (a & _ & H). cbn zeta in H.
  match type of H with (let '_ := add_meshline_policy g ?y ?po ?no ?x ?m in _) = _ =>
    assert (Sy : solid (fst (add_meshline_policy g y po no x m))) by apply solid_add, (fu_axes _ _ _ _ X); destruct (add_meshline_policy g y po no x m) as [y1 ad] end.
  apply (full_angle _ _ _ _ H); [reflexivity|]. exact (full_axis b (axes_table p v) y1 X Sy).
Qed.
Lemma full_angles_step ang p b b' : detect_diagonal_angles ang b p = Done b' -> V b -> V b'.
Proof.
  unfold detect_diagonal_angles. intros H X. cbn zeta in H. apply bind_done in H. destruct H as (co & _ & H). apply bind_done in H. destruct H as (cr & _ & H). injection H as <-.
  apply (full_angles _ _ (map a_plane (concat co ++ cr)) X). now rewrite map_app.
Qed.

Lemma full_add_zone g d srt ax b l b' : permutes srt -> add_diagonal_zone g d srt ax b l = Done b' -> V b -> V b'.
Proof.
  intros Pm H X. unfold add_diagonal_zone in H. apply bind_done in H. destruct H as (an & C & H). destruct an as [|[i0 first] an]; [now injection H as <-|].
  destruct (forallb _ _) eqn:Same; [|now injection H as <-]. destruct (view_of_axis _ _) as [v|] eqn:Ev; [|now injection H as <-]. cbn zeta in H. injection H as <-.
  apply full_zones; [exact X|]. intros z I. apply in_app_or in I. destruct I as [I|[<-|[]]]; [now apply (fu_zones _ _ _ _ X ax)|].
  match goal with |- zone_full _ _ (mk_diag_zone _ _ _ (map fst (srt _ ?f _))) => set (less := f) in *; set (all := (i0, first) :: an) in * end.
  split; cbn [dz_angles].
  - intros E. assert (E' : srt _ less all = []) by (destruct (srt _ less all); [reflexivity|discriminate]). pose proof (Pm _ less all) as P. rewrite E' in P. apply Permutation_sym, Permutation_nil in P. discriminate.
  - intros i J. apply in_map_iff in J. destruct J as ([i1 a1] & <- & J). apply (Permutation_in _ (Permutation_sym (Pm _ _ _))) in J. destruct (in_collect _ _ _ _ C J) as (i & _ & E).
    apply bind_done in E. destruct E as (a & R & E). injection E as -> ->. cbn. apply read_some in R. exists (a_plane a1). split; [now apply map_nth_error|].
    rewrite forallb_forall in Same. specialize (Same _ J). cbn [snd] in Same. replace (a_plane a1) with (a_plane first) by (destruct (a_plane first), (a_plane a1); cbn in Same; congruence). now rewrite Ev.
Qed.
Lemma full_zones_step g d srt p b b' : permutes srt -> detect_diagonal_zones g d srt b p = Done b' -> V b -> V b'.
Proof.
  intros Pm H X. unfold detect_diagonal_zones in H. cbn zeta in H. apply bind_done in H. destruct H as ([b1 l1] & H & E). injection E as <-.
  cbn [for_each] in H. apply bind_done in H. destruct H as ([b2 l2] & H1 & H). apply bind_done in H. destruct H as ([b3 l3] & H2 & H). injection H as <- _.
  assert (K : forall v b0 l0 b' l', detect_zones_view g d srt p (b0, l0) v = Done (b', l') -> V b0 -> V b').
  { clear - Pm. intros v b0 l0 b' l' H. unfold detect_zones_view in H. cbn zeta in H. apply bind_done in H. destruct H as (b1 & H & E). injection E as <- _. revert H.
    apply each_full. intros l b c H X. exact (full_add_zone _ _ _ _ _ _ _ Pm H X). }
  apply (K _ _ _ _ _ H2). now apply (K _ _ _ _ _ H1).
Qed.
Lemma full_solve_angles d ax b b' : solve_diagonal_angles d b ax = Done b' -> V b -> V b'.
Proof.
  unfold solve_diagonal_angles. apply each_full. clear b b'. intros z b b' H X. unfold solve_zone_angles in H. destruct (dz_angles z) as [|f r]; [discriminate|].
  apply bind_done in H. destruct H as (b1 & H1 & H).
  assert (K : forall h i b b', solve_angle ax h b i = Done b' -> V b -> V b').
  { clear. intros h i b b' H X. unfold solve_angle in H. apply bind_done in H. destruct H as (a & _ & H). destruct (view_of_axis _ _) as [v|]; [|now injection H as <-].
    apply (full_angle _ _ _ _ H); [|exact X]. intros a0. now destruct v. }
  assert (X1 : V b1) by (revert H1 X; apply each_full; intros i c c'; apply K). revert H X1. apply each_full. intros i c c'. apply K.
Qed.
Lemma full_each_axis f b b' : on_each_axis f b = Done b' -> V b -> (forall ax y, solid (on_axis (b_axes b) ax) -> f ax (on_axis (b_axes b) ax) = Done y -> solid y) -> V b'.
Proof.
  intros H X S. apply on_each_axis_done in H. destruct H as [E H]. rewrite E. destruct X as [A B C D F G]. constructor; cbn; auto. intros ax. apply (S ax); auto.
Qed.

Context (tl : tools) (Pm : permutes (tl_sort_by tl)) (So : sorts (tl_sorter tl)).

Lemma full_step x s b b' : do_step tl x s b = Done b' -> V b -> V b'.
Proof.
  destruct s; cbn [do_step]; intros H X; cbn zeta in H.
  - revert H X. apply each_full. intros p c c'. apply full_adjust.
  - revert H X. apply each_full. intros p c c'. apply full_angles_step.
  - revert H X. apply each_full. intros p c c'. now apply full_zones_step.
  - revert H X. apply each_full. intros p c c'. apply full_solve_angles.
  - revert H X. apply each_full. intros p c c'. apply full_detect_eip.
  - revert H X. apply each_full. intros p c c'. apply full_colinear.
  - apply (full_each_axis _ _ _ H X). intros ax y Sy E. injection E as <-. now apply solid_fixed.
  - revert H X. apply each_full. intros p c c'. now apply full_solve_eip.
  - revert H X. apply each_full. intros p c c'. apply full_solve_ce.
  - revert H X. apply each_full. intros p c c'. apply full_individual.
  - apply (full_each_axis _ _ _ H X). intros ax y Sy E. exact (solid_close _ _ _ _ (solve_done _ _ So _ _ _ E) Sy).
  - apply (full_each_axis _ _ _ H X). intros ax y Sy E. exact (solid_intervals _ _ _ _ So E Sy).
  - now injection H as <-.
  - apply (full_each_axis _ _ _ H X). intros ax y Sy E. apply bind_done in E. destruct E as (zs & _ & E). injection E as <-. now apply solid_zones.
  - apply (full_each_axis _ _ _ H X). intros ax y Sy E. exact (solid_mesh _ _ _ _ E Sy).
Qed.
End Full.

(** ** Sessions *)
Lemma full_own ps gs pl b : full ps gs pl b -> full ps gs (planes b) b.
Proof. intros [A B C D E F]. constructor; auto. exists []. now rewrite app_nil_r. Qed.
Lemma full_less ps gs pl pl' r b : full ps gs pl b -> pl = pl' ++ r -> full ps gs pl' b.
Proof. intros [A B C D E (t & F)] ->. constructor; auto. exists (r ++ t). now rewrite F, app_assoc. Qed.
Lemma full_any ps gs pl b : full ps gs pl b -> full ps gs [] b.
Proof. intros X. now apply (full_less ps gs pl [] pl). Qed.

Section Session.
Context (ps : list (Plane * seg)) (gs : list (list point)) (tl : tools) (Pm : permutes (tl_sort_by tl)) (So : sorts (tl_sorter tl)).

Lemma full_revert pl before now : full ps gs [] before -> (exists r, planes now = planes before ++ r) -> full ps gs pl now -> full ps gs pl (revert tl before now).
Proof.
  intros [A B C D E _] (r & L) [_ _ _ D' E' F']. unfold revert. constructor; cbn; auto.
  - intros ax z I. assert (I' : In z (kept (on_axis (b_zones before) ax) (on_axis (b_zones now) ax))) by (destruct ax; exact I).
    change (zone_full (planes now) ax z). apply kept_in in I'. destruct I' as [I'|I']; [|now apply D']. rewrite L. now apply zone_full_more, D.
  - intros ax. pose proof (solid_revert (on_axis (b_axes before) ax) (on_axis (b_axes now) ax) (fixed_count (on_axis (tl_fixed tl) ax)) (E ax) (E' ax)) as X. destruct ax; exact X.
Qed.

Definition fit (ss : session) : Prop :=
  full ps gs [] (ss_board ss) /\ forall s b x, In (s, (b, x)) (ss_past ss) -> full ps gs [] b /\ exists r, planes (ss_board ss) = planes b ++ r.

Lemma fit_grow (b b' c : board) : full ps gs (planes b) b' -> (exists r, planes b = planes c ++ r) -> exists r, planes b' = planes c ++ r.
Proof. intros X (r & R). destruct (fu_more _ _ _ _ X) as (t & T). exists (r ++ t). now rewrite T, R, app_assoc. Qed.
Lemma fit_leave ss b x : fit ss -> full ps gs (planes (ss_board ss)) b -> fit (mk_session b x None (leave ss)).
Proof.
  intros [X Pa] Y. split; [exact (full_any _ _ _ _ Y)|]. cbn [ss_board ss_past]. intros s c y I. unfold leave in I.
  assert (K : In (s, (c, y)) (ss_past ss) -> full ps gs [] c /\ exists r, planes b = planes c ++ r) by (intros J; destruct (Pa s c y J); split; [assumption|exact (fit_grow _ _ _ Y H0)]).
  destruct (ss_here ss); [|auto]. destruct I as [I|I]; [|auto]. injection I as _ <- _. split; [exact X|exact (fu_more _ _ _ _ Y)].
Qed.
Lemma fit_stay ss b x h : fit ss -> full ps gs (planes (ss_board ss)) b -> fit (mk_session b x h (ss_past ss)).
Proof.
  intros [X Pa] Y. split; [exact (full_any _ _ _ _ Y)|]. cbn [ss_board ss_past]. intros s c y I. destruct (Pa s c y I). split; [assumption|exact (fit_grow _ _ _ Y H0)].
Qed.
Lemma fit_step s ss ss' : run_step tl s ss = Done ss' -> fit ss -> fit ss'.
Proof.
  unfold run_step. intros H X. assert (X1 : fit (annotate s ss)) by exact X. cbn zeta in H. apply bind_done in H. destruct H as (b & H & E). injection E as <-.
  assert (Y : full ps gs (planes (ss_board (annotate s ss))) b) by exact (full_step _ _ _ tl Pm So _ _ _ _ H (full_own _ _ _ _ (proj1 X1))).
  match goal with |- fit (if ?t then _ else _) => destruct t end; [now apply (fit_leave (annotate s ss))|now apply (fit_stay (annotate s ss))].
Qed.
Lemma fit_run l : forall ss ss', run_list tl l ss = Done ss' -> fit ss -> fit ss'.
Proof.
  induction l as [|s r IH]; intros ss ss' H X; cbn [run_list] in H; [now injection H as <-|]. apply bind_done in H. destruct H as (s1 & H1 & H). apply (IH s1 ss' H). exact (fit_step _ _ _ H1 X).
Qed.
Lemma fit_back b x s past ss : fit ss -> (exists t, In (t, (b, x)) (ss_past ss)) -> incl past (ss_past ss) -> fit (mk_session (revert tl b (ss_board ss)) x (Some s) past).
Proof.
  intros [X Pa] (t & I) J. destruct (Pa t b x I) as [Y L]. split; [exact (full_revert [] _ _ Y L X)|]. cbn [ss_board ss_past]. intros s' c y K. exact (Pa s' c y (J _ K)).
Qed.
Lemma fit_before s ss : fit ss -> fit (go_before tl s ss).
Proof.
  intros X. unfold go_before. destruct (find_before s (ss_past ss)) as [[[b x] past]|] eqn:E; [|exact X]. apply find_before_in in E. destruct E as [E J]. now apply fit_back.
Qed.
Lemma fit_previous ss : fit ss -> fit (previous_step tl ss).
Proof.
  intros X. unfold previous_step. destruct (ss_past ss) as [|[s [b x]] past] eqn:E; [exact X|]. apply fit_back; [exact X|exists s; rewrite E; now left|]. intros z Z. rewrite E. now right.
Qed.
Lemma fit_next ss ss' : next_step tl ss = Done ss' -> fit ss -> fit ss'.
Proof. unfold next_step. destruct (ss_past ss) as [|[t x] past]; [apply fit_step|]. destruct (next t); [apply fit_step|]. intros H. now injection H as <-. Qed.
Lemma fit_edit_board f ss ss' : edit_board f ss = Done ss' -> fit ss -> (forall pl b', full ps gs pl (ss_board ss) -> f (ss_board ss) = Done b' -> full ps gs pl b') -> fit ss'.
Proof.
  intros H X F. unfold edit_board in H. apply bind_done in H. destruct H as (b & H & E). injection E as <-. unfold next_state. apply fit_leave; [exact X|]. apply F; [exact (full_own _ _ _ _ (proj1 X))|exact H].
Qed.
Lemma fit_from s e ss ss' : edit_from tl s e ss = Done ss' -> fit ss -> (forall x y, e x = Done y -> fit x -> x = go_before tl s ss -> fit y) -> fit ss'.
Proof.
  intros H X F. unfold edit_from in H. apply bind_done in H. destruct H as (s1 & H1 & H). apply (fit_run _ _ _ H). apply (F _ _ H1); [now apply fit_before|reflexivity].
Qed.
Lemma fit_axis ax f ss ss' : (forall y y', solid y -> f y = Done y' -> solid y') -> edit_board (on_one_axis ax f) ss = Done ss' -> fit ss -> fit ss'.
Proof.
  intros F H X. apply (fit_edit_board _ _ _ H X). intros pl b' Y E. unfold on_one_axis in E. apply bind_done in E. destruct E as (y & E & E'). injection E' as <-.
  apply full_axis; [exact Y|]. exact (F _ _ (fu_axes _ _ _ _ Y ax) E).
Qed.
Lemma fit_dialog d ss ss' : edit tl d ss = Done ss' -> fit ss -> fit ss'.
Proof.
  destruct d as [i to_mesh to_reverse|i h v|ax i po no en dd|ax i dmax lb sb la sa| |ax i lmin dmax minimal|x]; intros H X; cbn [edit] in H.
  - unfold edit_edge in H. apply bind_done in H. destruct H as (e & R & H). apply read_some in R. cbn zeta in H. apply (fit_from _ _ _ _ H X). intros y y' E Y _.
    apply (fit_edit_board _ _ _ E Y). intros pl b' Z W. unfold write_edge in W. apply bind_done in W. destruct W as (l & W & W'). injection W' as <-.
    pose proof (edge_place _ _ _ _ _ _ (proj1 X) R) as Pe. destruct (write_in _ _ _ _ W) as (_ & L & _). destruct (nth_error (b_edges (ss_board y)) i) as [e'|] eqn:R'; [|apply nth_error_None in R'; lia].
    pose proof (edge_place _ _ _ _ _ _ Z R') as Pe'. assert (Q : place e = place e') by congruence. destruct Z as [A B C D F G]. constructor; cbn; auto. rewrite <- A. exact (map_write _ _ _ _ _ _ R' W Q).
  - unfold edit_angle in H. apply bind_done in H. destruct H as (a & R & H). apply read_some in R. cbn zeta in H. apply (fit_from _ _ _ _ H X). intros y y' E Y Ey.
    apply (fit_edit_board _ _ _ E Y). intros pl b' Z W. unfold write_angle in W. apply bind_done in W. destruct W as (l & W & W'). injection W' as <-.
    apply (full_angles _ _ _ _ _ [] Z). rewrite app_nil_r. rewrite Ey, before_angles in W. rewrite Ey. unfold planes. rewrite before_angles. exact (map_write a_plane _ _ _ _ _ R W eq_refl).
  - unfold edit_policy in H. destruct (inconsistent po no); [now injection H as <-|]. apply (fit_from _ _ _ _ H X). intros y y' E Y _. revert E Y. apply fit_axis. intros z z' Z E. exact (solid_edit _ _ _ _ _ _ _ E Z).
  - unfold edit_interval in H. apply (fit_from _ _ _ _ H X). intros y y' E Y _. revert E Y. apply fit_axis. intros z z' Z E. exact (solid_edit_interval _ _ _ _ _ _ _ _ E Z).
  - unfold edit_too_close in H. apply (fit_from _ _ _ _ H X). intros y y' E Y _. apply (fit_edit_board _ _ _ E Y). intros pl b' Z W. now injection W as <-.
  - unfold edit_zone in H. apply bind_done in H. destruct H as (z & R & H). apply read_some in R. cbn zeta in H. apply (fit_from _ _ _ _ H X). intros y y' E Y Ey.
    apply (fit_edit_board _ _ _ E Y). intros pl b' Z W. apply bind_done in W. destruct W as (l & W & W'). injection W' as <-. destruct (write_in _ _ _ _ W) as (_ & _ & I).
    apply full_zones; [exact Z|]. intros z' J. destruct (I z' J) as [->|J']; [|now apply (fu_zones _ _ _ _ Z ax)].
    rewrite Ey. unfold planes. rewrite before_angles. exact (fu_zones _ _ _ _ (proj1 X) ax z (nth_error_In _ _ R)).
  - unfold edit_global in H. apply (fit_from _ _ _ _ H X). intros y y' E Y _. injection E as <-. unfold next_state. apply fit_leave; [exact Y|]. exact (full_own _ _ _ _ (proj1 Y)).
Qed.
Lemma fit_all l : forall ss ss', perform_all tl l ss = Done ss' -> fit ss -> fit ss'.
Proof.
  induction l as [|x r IH]; intros ss ss' H X; cbn [perform_all] in H; [now injection H as <-|].
  apply bind_done in H. destruct H as (s1 & H1 & H). apply (IH s1 ss' H). destruct x; cbn [perform] in H1.
  - exact (fit_run _ _ _ H1 X).
  - injection H1 as <-. now apply fit_previous.
  - now apply (fit_next ss).
  - now apply (fit_dialog x ss).
Qed.
End Session.

Lemma built_full b : built b -> full (map place (b_edges b)) (map g_points (b_polygons b)) [] b.
Proof.
  intros B. destruct (built_sound b B) as [_ _ _ _ (Ea & Ec & _ & Ez & Ex)]. constructor; auto.
  - intros ax c I. rewrite Ec in I. destruct ax; destruct I.
  - intros ax z I. rewrite Ez in I. destruct ax; destruct I.
  - intros ax. rewrite Ex. destruct ax; split; try constructor; intros c [].
  - now exists (planes b).
Qed.
Lemma built_points b : built b -> Forall (fun l => l <> []) (map g_points (b_polygons b)).
Proof.
  induction 1 as [bg|p m priority z points b b' _ IH E]; [constructor|]. unfold add_polygon in E. destruct points as [|q points]; [discriminate|].
  apply bind_done in E. destruct E as (bd & _ & E). apply bind_done in E. destruct E as (es & _ & E). cbn zeta in E. injection E as <-. cbn [b_polygons set_edges set_polygons].
  rewrite map_app. apply Forall_app. split; [exact IH|]. repeat constructor. discriminate.
Qed.
Lemma reached_full tl b x l ss : reached tl b x l ss -> full (map place (b_edges b)) (map g_points (b_polygons b)) [] (ss_board ss).
Proof.
  intros (B & Pm & So & H). assert (X : fit (map place (b_edges b)) (map g_points (b_polygons b)) ss); [|exact (proj1 X)].
  apply (fit_all _ _ _ Pm So _ _ _ H). split; [now apply built_full|]. intros s c y [].
Qed.
