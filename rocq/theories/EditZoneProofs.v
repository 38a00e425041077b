(** The dialog of a zone: its number of lines and its minimal angle are read by no step. *)
From Coq Require Import List Arith Bool Lia QArith.
From Verif Require Import IntervalModel ManagerModel ManagerSpec GeomModel GeomSpec BoardModel BoardSpec BoardProofs BoardDetectProofs BoardBuiltProofs BoardRunProofs ManagerProofs.
From Verif Require AppModel.
Import AppModel(Step(..), Step_eqb, next, that_and_after).
From Verif Require Import EditModel EditSpec EditProofs EditGlobalProofs EditBackProofs.
Import ListNotations.

(** * Steps that do not look at zones *)

Definition unzoned (f : board -> run board) : Prop := forall b l, f (set_zones b l) = let! c := f b in Done (set_zones c l).

Lemma for_each_unzoned {A} (f : board -> A -> run board) L : (forall x, unzoned (fun b => f b x)) -> unzoned (for_each f L).
Proof.
  intros H. induction L as [|x L IH]; intros b l; cbn; [reflexivity|]. rewrite (H x b l). destruct (f b x); cbn; try reflexivity. apply IH.
Qed.
Lemma unzoned_bind (f h : board -> run board) : unzoned f -> unzoned h -> unzoned (fun b => let! c := f b in h c).
Proof. intros F H b l. rewrite (F b l). destruct (f b); cbn; try reflexivity. apply H. Qed.
Lemma unzoned_done : unzoned (fun b => Done b).
Proof. now intros b l. Qed.

Lemma update_edge_unzoned i f : unzoned (fun b => update_edge b i f).
Proof. intros b l. unfold update_edge. cbn. seen. Qed.
Lemma update_polygon_unzoned i f : unzoned (fun b => update_polygon b i f).
Proof. intros b l. unfold update_polygon. cbn. seen. Qed.

Lemma on_each_axis_unzoned f : unzoned (on_each_axis f).
Proof.
  intros b l. unfold on_each_axis, all_axes. cbn. destruct (f AX _); cbn; try reflexivity. destruct (f AY _); cbn; try reflexivity. destruct (f AZ _); reflexivity.
Qed.

Lemma add_eip_unzoned a g r o : unzoned (fun b => add_edge_in_polygon b a g r o).
Proof.
  intros b l. unfold add_edge_in_polygon. cbn [set_zones b_edges b_polygons b_eip].
  destruct (read (b_edges b) a) as [ea| |]; cbn [bind]; try reflexivity. destruct (read (b_polygons b) g) as [pg| |]; cbn [bind]; try reflexivity.
  match goal with |- bind ?m _ = bind (bind ?m _) _ => destruct m as [wrong| |]; cbn [bind]; try reflexivity end. destruct wrong; [reflexivity|].
  destruct (find_in_polygon a (on_plane (b_eip b) (e_plane ea)) 0) as [[n c]|].
  - destruct (existsb _ (ei_overlaps c)); [reflexivity|]. destruct (write _ n _) as [all| |]; cbn [bind]; try reflexivity.
    destruct (existsb _ (ei_overlaps c)); [reflexivity|]. apply (update_polygon_unzoned g _ (set_eip b (set_plane (b_eip b) (e_plane ea) all)) l).
  - match goal with |- bind (update_edge (set_eip (set_zones b l) ?s) a ?f) ?k = _ => change (set_eip (set_zones b l) s) with (set_zones (set_eip b s) l) end.
    rewrite update_edge_unzoned. destruct (update_edge _ a _); cbn [bind]; try reflexivity. apply update_polygon_unzoned.
Qed.
Lemma add_ce_unzoned i j : unzoned (fun b => add_colinear_edges b i j).
Proof.
  intros b l. unfold add_colinear_edges. cbn [set_zones b_edges b_ce].
  destruct (read (b_edges b) i) as [ei| |]; cbn [bind]; try reflexivity. destruct (read (b_edges b) j) as [ej| |]; cbn [bind]; try reflexivity.
  destruct (plane_eqb _ _ && segaxis_eqb _ _); [|reflexivity]. destruct (axis_of_seg _ _) as [ax|]; [|reflexivity].
  destruct (find_colinear i j (on_axis (b_ce b) ax) 0) as [[n c]|].
  - destruct (memb i (ce_edges c)); [destruct (memb j (ce_edges c)); [reflexivity|]|]; (destruct (write _ n _) as [all| |]; cbn [bind]; try reflexivity;
      apply (update_edge_unzoned _ _ (set_ce b (set_axis (b_ce b) ax all)) l)).
  - match goal with |- bind (update_edge (set_ce (set_zones b l) ?s) i ?f) ?k = _ => change (set_ce (set_zones b l) s) with (set_zones (set_ce b s) l) end.
    rewrite update_edge_unzoned. destruct (update_edge _ i _); cbn [bind]; try reflexivity. apply update_edge_unzoned.
Qed.

Lemma meet_unzoned i g L b l : forall inter ranges, for_each (meet_edge i g) L (set_zones b l, inter, ranges)
  = let! (c, inter, ranges) := for_each (meet_edge i g) L (b, inter, ranges) in Done (set_zones c l, inter, ranges).
Proof.
  revert b. induction L as [|j L IH]; intros b inter ranges; cbn [for_each]; [reflexivity|]. unfold meet_edge at 1 3. cbn [set_zones b_edges].
  destruct (read (b_edges b) i) as [ea| |]; cbn [bind]; try reflexivity. destruct (read (b_edges b) j) as [eb| |]; cbn [bind]; try reflexivity.
  destruct (relation_seg _ _); try apply IH.
  - destruct (intersection _ _); apply IH.
  - destruct (overlap _ _) as [r|]; [|apply IH]. destruct (seg_axis r); try apply IH;
      (change (mk_board (b_polygons b) (b_edges b) (b_angles b) (b_background b) (b_ce b) (b_eip b) l (b_axes b)) with (set_zones b l); rewrite add_eip_unzoned;
       destruct (add_edge_in_polygon b i g r (Some j)); cbn [bind]; try reflexivity; apply IH).
Qed.

Lemma detect_eip_unzoned fuel srt : unzoned (for_each (detect_edges_in_polygons fuel srt) all_planes).
Proof.
  apply for_each_unzoned. intros p b l. unfold detect_edges_in_polygons. change (polygons_of (set_zones b l) p) with (polygons_of b p).
  generalize (polygons_of b p). intros L. revert b l. apply for_each_unzoned. intros i b l. change (polygons_of (set_zones b l) p) with (polygons_of b p).
  generalize (polygons_of b p). clear L. intros L. revert b l. apply for_each_unzoned. intros j b l. unfold polygon_in_polygon. cbn [set_zones b_polygons].
  destruct (read (b_polygons b) i) as [pa| |]; cbn [bind]; try reflexivity. destruct (read (b_polygons b) j) as [pb| |]; cbn [bind]; try reflexivity.
  destruct (j =? i)%nat; [reflexivity|]. destruct (_ <? _)%nat; [reflexivity|]. destruct (negb _); [reflexivity|].
  change (mk_board (b_polygons b) (b_edges b) (b_angles b) (b_background b) (b_ce b) (b_eip b) l (b_axes b)) with (set_zones b l). revert b l. apply for_each_unzoned.
  intros k b l. unfold edge_in_polygon. cbn [set_zones b_polygons b_edges].
  destruct (read (b_polygons b) j) as [pb'| |]; cbn [bind]; try reflexivity. destruct (read (b_edges b) k) as [ea| |]; cbn [bind]; try reflexivity.
  change (mk_board (b_polygons b) (b_edges b) (b_angles b) (b_background b) (b_ce b) (b_eip b) l (b_axes b)) with (set_zones b l). rewrite meet_unzoned.
  destruct (for_each (meet_edge k j) _ _) as [[[c inter] ranges]| |]; cbn [bind]; try reflexivity.
  destruct (relation_polygon fuel (g_points pb') (s0 (e_seg ea))) as [r0| |]; cbn [bind]; try reflexivity.
  destruct (relation_polygon fuel (g_points pb') (s1 (e_seg ea))) as [r1| |]; cbn [bind]; try reflexivity.
  destruct inter as [|q inter]; [destruct (_ && _); [apply add_eip_unzoned|reflexivity]|].
  match goal with |- bind ?m _ = _ => destruct m as [first| |]; cbn [bind]; try reflexivity end.
  match goal with |- bind ?m _ = _ => destruct m as [final| |]; cbn [bind]; try reflexivity end.
  revert c l. apply for_each_unzoned. intros [[range rel] mid] c l. unfold register_range. cbn [set_zones b_polygons].
  destruct (read (b_polygons c) j) as [pb2| |]; cbn [bind]; try reflexivity.
  match goal with |- bind ?m _ = _ => destruct m as [at_mid| |]; cbn [bind]; try reflexivity end. destruct (_ || _); [apply add_eip_unzoned|reflexivity].
Qed.
Lemma detect_ce_unzoned : unzoned (for_each detect_colinear_edges all_planes).
Proof.
  apply for_each_unzoned. intros p b l. unfold detect_colinear_edges. change (edges_of (set_zones b l) p) with (edges_of b p).
  generalize (edges_of b p). intros L. revert b l. induction L as [|i L IH]; intros b l; cbn [detect_colinear_loop]; [reflexivity|]. cbn [set_zones b_edges].
  destruct (read (b_edges b) i) as [e| |]; cbn [bind]; try reflexivity.
  change (mk_board (b_polygons b) (b_edges b) (b_angles b) (b_background b) (b_ce b) (b_eip b) l (b_axes b)) with (set_zones b l).
  destruct (segaxis_eqb _ SDIAG); cbn [bind]; [apply IH|].
  assert (Bl : unzoned (for_each (detect_colinear_pair p i) L)).
  { apply for_each_unzoned. clear. intros j b l. unfold detect_colinear_pair. cbn [set_zones b_edges].
    destruct (read (b_edges b) i) as [ei| |]; cbn [bind]; try reflexivity. destruct (read (b_edges b) j) as [ej| |]; cbn [bind]; try reflexivity.
    destruct (segaxis_eqb _ _); [|reflexivity]. destruct (axis_of_seg _ _); [|reflexivity].
    destruct (_ && _); [apply add_ce_unzoned|]. destruct (_ && _); [apply add_ce_unzoned|reflexivity]. }
  rewrite (Bl b l). destruct (for_each _ L b); cbn [bind]; try reflexivity. apply IH.
Qed.
Lemma solve_eip_unzoned srt : unzoned (for_each (auto_solve_all_edge_in_polygon srt) all_planes).
Proof.
  apply for_each_unzoned. intros p b l. unfold auto_solve_all_edge_in_polygon. cbn [set_zones b_eip].
  change (mk_board (b_polygons b) (b_edges b) (b_angles b) (b_background b) (b_ce b) (b_eip b) l (b_axes b)) with (set_zones b l).
  generalize (seq 0 (length (on_plane (b_eip b) p))). intros L. revert b l. apply for_each_unzoned. intros n b l. unfold solve_in_polygon. cbn [set_zones b_eip b_edges].
  destruct (read _ n) as [c| |]; cbn [bind]; try reflexivity. destruct (read _ (ei_edge c)) as [e| |]; cbn [bind]; try reflexivity.
  destruct (sort_overlaps _ _ _) as [|o r]; [reflexivity|]. destruct (merge_overlaps _ _ _ _) as [m| |]; cbn [bind]; try reflexivity.
  destruct (write _ n _) as [all| |]; cbn [bind]; try reflexivity. apply (update_edge_unzoned (ei_edge c) _ (set_eip b (set_plane (b_eip b) p all)) l).
Qed.
Lemma solve_ce_unzoned g : unzoned (for_each (auto_solve_all_colinear_edges g) all_axes).
Proof.
  apply for_each_unzoned. intros ax b l. unfold auto_solve_all_colinear_edges. cbn [set_zones b_ce].
  change (mk_board (b_polygons b) (b_edges b) (b_angles b) (b_background b) (b_ce b) (b_eip b) l (b_axes b)) with (set_zones b l).
  generalize (seq 0 (length (on_axis (b_ce b) ax))). intros L. revert b l. apply for_each_unzoned. intros n b l. unfold solve_colinear. cbn [set_zones b_ce b_edges b_axes].
  destruct (read _ n) as [c| |]; cbn [bind]; try reflexivity. destruct (collect _ _) as [[|e es]| |]; cbn [bind]; try reflexivity.
  destruct (seg_coord _ _); [|reflexivity]. destruct (colinear_policy _) as [[po no]|]; [|reflexivity].
  destruct (add_meshline_policy _ _ _ _ _ _) as [y a]. destruct (write _ n _); reflexivity.
Qed.
Lemma individual_edge_unzoned g p i : unzoned (fun b => individual_edge g p b i).
Proof.
  intros b l. unfold individual_edge. cbn [set_zones b_edges b_axes]. destruct (read (b_edges b) i) as [e| |]; cbn [bind]; try reflexivity.
  destruct (seg_coord _ _); [|reflexivity]. destruct (axis_of_seg _ _) as [ax|]; [|reflexivity]. destruct (_ && _); [|reflexivity].
  destruct (add_meshline_policy _ _ _ _ _ _) as [y addr]. apply (update_edge_unzoned i (set_policy addr) (set_axes b (set_axis (b_axes b) ax y)) l).
Qed.


Lemma update_angle_unzoned i f : unzoned (fun b => update_angle b i f).
Proof. intros b l. unfold update_angle. cbn. seen. Qed.
Lemma individual_unzoned g : unzoned (for_each (detect_individual_edges g) all_planes).
Proof.
  apply for_each_unzoned. intros p b l. unfold detect_individual_edges. change (edges_of (set_zones b l) p) with (edges_of b p).
  rewrite (for_each_unzoned (individual_edge g p) (edges_of b p) (individual_edge_unzoned g p) b l). destruct (for_each (individual_edge g p) (edges_of b p) b) as [c| |]; cbn [bind]; try reflexivity.
  change (angles_of (set_zones c l) p) with (angles_of c p). apply for_each_unzoned. intros i. apply for_each_unzoned. clear. intros v b l.
  unfold individual_angle_axis. cbn [set_zones b_angles b_axes]. destruct (read (b_angles b) i) as [a| |]; cbn [bind]; try reflexivity.
  destruct (add_meshline_policy _ _ _ _ _ _) as [y addr]. apply (update_angle_unzoned i (set_angle_policy addr) (set_axes b (set_axis (b_axes b) (axes_table p v) y)) l).
Qed.
Lemma do_step_unzoned tl x s : In s middle \/ s = MESH -> unzoned (do_step tl x s).
Proof.
  intros I. assert (s <> ADJUST_EDGE_TO_MATERIAL /\ s <> DETECT_DIAG_ANGLES /\ s <> DETECT_DIAG_ZONES /\ s <> SOLVE_DIAG_ZONES_ANGLES /\ s <> SOLVE_DIAG_ZONES_INTERVALS) as (N1 & N2 & N3 & N4 & N5).
  { destruct I as [I| ->]; [|repeat split; discriminate]. cbn in I. repeat (destruct I as [<-|I]; [repeat split; discriminate|]). destruct I. }
  destruct s; try contradiction; cbn [do_step].
  - apply detect_eip_unzoned.
  - apply detect_ce_unzoned.
  - apply on_each_axis_unzoned.
  - apply solve_eip_unzoned.
  - apply solve_ce_unzoned.
  - apply individual_unzoned.
  - apply on_each_axis_unzoned.
  - apply on_each_axis_unzoned.
  - apply unzoned_done.
  - apply on_each_axis_unzoned.
Qed.
Lemma play_unzoned tl x l : incl l middle -> unzoned (play tl x l).
Proof.
  intros I. unfold play. induction l as [|s l IH]; intros b Z; cbn; [reflexivity|]. rewrite (do_step_unzoned tl x s (or_introl (I s (or_introl eq_refl))) b Z).
  destruct (do_step tl x s b); cbn; try reflexivity. apply IH. intros t It. apply I. now right.
Qed.

(** * Steps that look at zones *)

(** Zones of the same angles. *)
Definition same_members (Z Z' : space (list diag_zone)) : Prop := forall ax, map dz_angles (on_axis Z' ax) = map dz_angles (on_axis Z ax).

Lemma solve_angle_unzoned ax f i : unzoned (fun b => solve_angle ax f b i).
Proof.
  intros b Z. unfold solve_angle. cbn [set_zones b_angles]. destruct (read (b_angles b) i) as [a| |]; cbn [bind]; try reflexivity. destruct (view_of_axis _ _) as [v|]; [|reflexivity].
  apply (update_angle_unzoned i _ b Z).
Qed.
Lemma solve_zone_unzoned d ax z : unzoned (fun b => solve_zone_angles d ax b z).
Proof.
  intros b Z. unfold solve_zone_angles. destruct (dz_angles z) as [|first r]; [reflexivity|].
  rewrite (for_each_unzoned (solve_angle ax (fun _ => true)) [first; last (first :: r) first] (fun i => solve_angle_unzoned ax _ i) b Z).
  destruct (for_each (solve_angle ax _) [first; _] b) as [c| |]; cbn [bind]; try reflexivity. apply for_each_unzoned. intros i. apply solve_angle_unzoned.
Qed.
Lemma solve_zone_members d ax b z z' : dz_angles z' = dz_angles z -> solve_zone_angles d ax b z' = solve_zone_angles d ax b z.
Proof. unfold solve_zone_angles. now intros ->. Qed.
Lemma solve_zones_members d ax l : forall l' b, map dz_angles l' = map dz_angles l -> for_each (solve_zone_angles d ax) l' b = for_each (solve_zone_angles d ax) l b.
Proof.
  induction l as [|z l IH]; intros [|z' l'] b E; try discriminate; [reflexivity|]. cbn in E. injection E as Ez El. cbn. rewrite (solve_zone_members d ax b z z' Ez).
  destruct (solve_zone_angles d ax b z); cbn; try reflexivity. now apply IH.
Qed.
Lemma solve_angle_zones ax f b i b' : solve_angle ax f b i = Done b' -> b_zones b' = b_zones b.
Proof. unfold solve_angle, update_angle. intros E. break E; reflexivity. Qed.
Lemma solve_axis_zones d ax b b' : solve_diagonal_angles d b ax = Done b' -> b_zones b' = b_zones b.
Proof.
  unfold solve_diagonal_angles. revert b'. generalize (on_axis (b_zones b) ax). intros L b'. revert b b'. apply (for_each_rel (fun b b' => b_zones b' = b_zones b)); [reflexivity|congruence|].
  intros z b b' _ E. unfold solve_zone_angles in E. destruct (dz_angles z) as [|first r]; try discriminate.
  destruct (for_each _ [first; _] b) as [c| |] eqn:F; try discriminate. cbn [bind] in E.
  assert (G : forall f L b b', for_each (solve_angle ax f) L b = Done b' -> b_zones b' = b_zones b).
  { intros f K. apply (for_each_rel (fun b b' => b_zones b' = b_zones b)); [reflexivity|congruence|]. intros i a a' _. apply solve_angle_zones. }
  rewrite (G _ _ _ _ E). exact (G _ _ _ _ F).
Qed.
Lemma solve_all_unzoned d L : forall b Z, same_members (b_zones b) Z ->
  for_each (solve_diagonal_angles d) L (set_zones b Z) = let! c := for_each (solve_diagonal_angles d) L b in Done (set_zones c Z).
Proof.
  induction L as [|ax L IH]; intros b Z M; cbn [for_each]; [reflexivity|].
  assert (E : solve_diagonal_angles d (set_zones b Z) ax = let! c := solve_diagonal_angles d b ax in Done (set_zones c Z)).
  { unfold solve_diagonal_angles at 1. cbn [set_zones b_zones]. rewrite (solve_zones_members d ax _ _ _ (M ax)). apply (for_each_unzoned _ _ (fun z => solve_zone_unzoned d ax z) b Z). }
  rewrite E. destruct (solve_diagonal_angles d b ax) as [c| |] eqn:F; cbn [bind]; try reflexivity. apply IH. intros a. rewrite (solve_axis_zones _ _ _ _ F). apply M.
Qed.

(** What [zone_of] reads of a zone. *)
Definition seen_of (z : diag_zone) : list nat * Q := (dz_angles z, dz_dmax z).
Definition same_seen (Z Z' : space (list diag_zone)) : Prop := forall ax, map seen_of (on_axis Z' ax) = map seen_of (on_axis Z ax).
Lemma zone_of_seen b Z ax z z' : seen_of z' = seen_of z -> zone_of (set_zones b Z) ax z' = zone_of b ax z.
Proof. intros [= A D]. unfold zone_of. rewrite A, D. reflexivity. Qed.
Lemma zones_seen b Z ax : forall l l', map seen_of l' = map seen_of l -> collect (zone_of (set_zones b Z) ax) l' = collect (zone_of b ax) l.
Proof.
  induction l as [|z l IH]; intros [|z' l'] E; try discriminate; [reflexivity|]. cbn [map] in E. assert (Ez : seen_of z' = seen_of z) by congruence. assert (El : map seen_of l' = map seen_of l) by congruence.
  cbn [collect]. rewrite (zone_of_seen b Z ax z z' Ez), (IH l' El). reflexivity.
Qed.
Lemma zone_intervals_seen tl x b Z Z' : same_seen Z Z' ->
  do_step tl x SOLVE_DIAG_ZONES_INTERVALS (set_zones b Z') = let! c := do_step tl x SOLVE_DIAG_ZONES_INTERVALS (set_zones b Z) in Done (set_zones c Z').
Proof.
  intros S. cbn [do_step].
  rewrite (on_each_axis_ext _ (fun ax y => let! zs := collect (zone_of (set_zones b Z) ax) (on_axis Z ax) in Done (apply_zones zs y)) (set_zones b Z')).
  - change (set_zones b Z') with (set_zones (set_zones b Z) Z'). apply on_each_axis_unzoned.
  - intros ax y. change (b_zones (set_zones b Z')) with Z'.
    assert (E : collect (zone_of (set_zones b Z') ax) (on_axis Z' ax) = collect (zone_of (set_zones b Z) ax) (on_axis Z ax)) by exact (zones_seen (set_zones b Z) Z' ax _ _ (S ax)).
    now rewrite E.
Qed.
Lemma last_seen tl x b Z Z' : same_seen Z Z' -> play tl x [SOLVE_DIAG_ZONES_INTERVALS; MESH] (set_zones b Z') = let! c := play tl x [SOLVE_DIAG_ZONES_INTERVALS; MESH] (set_zones b Z) in Done (set_zones c Z').
Proof.
  intros S. unfold play. cbn [for_each]. rewrite (zone_intervals_seen tl x b Z Z' S). destruct (do_step tl x SOLVE_DIAG_ZONES_INTERVALS (set_zones b Z)) as [c| |]; cbn [bind]; try reflexivity.
  rewrite (do_step_unzoned tl x MESH (or_intror eq_refl) c Z'). now destruct (do_step tl x MESH c).
Qed.

(** * Sessions *)

Section Sessions.
Context (tl : tools).
Notation play := (play tl).

Lemma nth_error_ext {A} (l : list A) : forall l', (forall n, nth_error l n = nth_error l' n) -> l = l'.
Proof.
  induction l as [|x l IH]; intros [|y l'] H; [reflexivity|specialize (H 0%nat); discriminate|specialize (H 0%nat); discriminate|].
  pose proof (H 0%nat) as H0. injection H0 as <-. f_equal. apply IH. intros n. exact (H (S n)).
Qed.
Lemma find_first s newer b x older : Forall (fun e => fst e <> s) newer -> find_before s (newer ++ (s, (b, x)) :: older) = Some (b, x, older).
Proof.
  intros N. induction N as [|[t y] newer Nt N IH]; cbn [app find_before].
  - unfold Step_eqb. destruct (AppModel.Step_eq_dec s s); [reflexivity|contradiction].
  - cbn in Nt. unfold Step_eqb at 1. destruct (AppModel.Step_eq_dec t s); [contradiction|assumption].
Qed.
Lemma run_list_newer s l : ~ In s l -> forall ss ss', run_list tl l ss = Done ss' -> ss_here ss = None -> exists newer, leave ss' = newer ++ leave ss /\ Forall (fun e => fst e <> s) newer.
Proof.
  intros N ss ss' E _. revert ss ss' E. induction l as [|t l IH]; intros ss ss' E; cbn in E; [injection E as <-; now exists []|].
  destruct (run_step tl t ss) as [s1| |] eqn:R; try discriminate. cbn [bind] in E. destruct (IH (fun I => N (or_intror I)) s1 ss' E) as (newer & L & F).
  destruct (run_step_leave _ _ _ _ R) as [E1|E1]; rewrite E1 in L; [now exists newer|].
  exists (newer ++ [(t, (ss_board ss, ss_settings ss))]). rewrite <- app_assoc. split; [exact L|]. apply Forall_app. split; [assumption|]. constructor; [|constructor]. cbn. intros ->. apply N. now left.
Qed.

(** The run of a board with zones, and the timepoints the dialog of a zone goes back to. *)
Lemma opened_zoned b x ss : natural (tl_sort_by tl) -> built b -> opened tl b x ss -> ~ without_zones (ss_board ss) -> exists b2 b3 b13 past4 past14,
  b_angles b3 = b_angles b2 /\ tidy b2 (b_zones b3) ss /\ ss_here ss = None
  /\ find_before SOLVE_DIAG_ZONES_ANGLES (ss_past ss) = Some (b3, x, past4)
  /\ find_before SOLVE_DIAG_ZONES_INTERVALS (ss_past ss) = Some (b13, x, past14)
  /\ play x (SOLVE_DIAG_ZONES_ANGLES :: middle) b3 = Done b13
  /\ b_zones b13 = b_zones b3 /\ b_zones (ss_board ss) = b_zones b3 /\ b_angles b13 = b_angles (ss_board ss).
Proof.
  intros Na Bu O W. destruct (opened_tidy tl b x ss Na Bu O) as (b2 & b3 & P2 & Z2 & Q2 & D3 & T & H0).
  destruct (opened_split _ _ _ _ O) as (s3 & s4 & s13 & s14 & E3 & E4 & E13 & E14 & E15).
  assert (Z15 : b_zones (ss_board ss) = b_zones (ss_board s14)) by (eapply step_zones; [|exact E15]; discriminate).
  assert (Z14 : b_zones (ss_board s14) = b_zones (ss_board s13)) by (eapply step_zones; [|exact E14]; discriminate).
  pose proof (run_list_board _ _ _ _ E13) as [P13 X13].
  assert (Z13 : b_zones (ss_board s13) = b_zones (ss_board s4)) by (eapply play_zones; [|exact P13]; cbn; intuition discriminate).
  assert (Z4 : b_zones (ss_board s4) = b_zones (ss_board s3)) by (eapply step_zones; [|exact E4]; discriminate).
  pose proof (run_list_board _ _ _ _ E3) as [P3 X3]. cbn [loaded ss_settings ss_board] in P3, X3.
  assert (B3 : ss_board s3 = b3).
  { change early with ([ADJUST_EDGE_TO_MATERIAL; DETECT_DIAG_ANGLES] ++ [DETECT_DIAG_ZONES]) in P3. unfold EditProofs.play in P3, P2. rewrite for_each_app, P2 in P3. cbn [bind for_each] in P3. rewrite D3 in P3. cbn in P3. congruence. }
  assert (Zc : zone_count b3 <> 0%nat).
  { intros C. apply W, without_zones_count. unfold zone_count in *. now rewrite Z15, Z14, Z13, Z4, B3. }
  assert (H3 : ss_here s3 = None).
  { change early with ([ADJUST_EDGE_TO_MATERIAL; DETECT_DIAG_ANGLES] ++ [DETECT_DIAG_ZONES]) in E3. destruct (run_list_split _ _ _ _ _ E3) as (s2 & E2 & R3). apply run_list_one in R3.
    pose proof (run_list_board _ _ _ _ E2) as [P2' _]. cbn [loaded ss_settings ss_board] in P2'. assert (ss_board s2 = b2) as B2 by congruence.
    apply run_step_done in R3. destruct R3 as (_ & _ & [(C & _)|(_ & H & _)]); [|assumption]. exfalso. cbn [creates] in C. rewrite B2, B3 in C. apply Nat.ltb_ge in C. assert (zone_count b2 = 0%nat) by (unfold zone_count; rewrite Z2; reflexivity). lia. }
  pose proof (run_step_done _ _ _ _ E4) as (D4 & X4 & [(C & _)|(_ & H4 & P4)]).
  { exfalso. cbn [creates] in C. rewrite B3 in C. apply Nat.ltb_ge in C. lia. }
  unfold mark in P4. rewrite H3 in P4.
  assert (L4 : leave s4 = (SOLVE_DIAG_ZONES_ANGLES, (b3, x)) :: ss_past s3) by (unfold leave; rewrite H4, P4, B3, X3; reflexivity).
  assert (N4 : ~ In SOLVE_DIAG_ZONES_ANGLES middle) by (cbn; intuition discriminate).
  destruct (run_list_newer _ _ N4 _ _ E13 H4) as (n13 & L13 & F13).
  assert (H13 : ss_here s13 = None).
  { change middle with (removelast middle ++ [DETECT_INTERVALS_PER_DIAG_ZONES]) in E13. destruct (run_list_split _ _ _ _ _ E13) as (s12 & _ & R13). apply run_list_one in R13.
    apply run_step_done in R13. destruct R13 as (_ & _ & [(C & _)|(_ & H & _)]); [discriminate C|assumption]. }
  assert (X13' : ss_settings s13 = x) by congruence.
  pose proof (run_step_done _ _ _ _ E14) as (D14 & X14 & [(C & _)|(_ & H14 & P14)]).
  { exfalso. cbn [creates] in C. apply Nat.ltb_ge in C. unfold zone_count in *. rewrite Z13, Z4, B3 in C. lia. }
  unfold mark in P14. rewrite H13 in P14.
  pose proof (run_step_done _ _ _ _ E15) as (D15 & X15 & [(C & _)|(_ & H15 & P15)]); [discriminate C|]. unfold mark in P15. rewrite H14 in P15.
  unfold leave in L13. rewrite H13 in L13. fold (leave s4) in L13. rewrite L4 in L13.
  exists b2, b3, (ss_board s13), (ss_past s3), (ss_past s13).
  split; [exact (proj2 (do_step_only _ _ _ _ _ D3) FAngles eq_refl)|]. split; [assumption|]. split; [assumption|].
  split; [|split; [|split; [|split; [|split]]]].
  - rewrite P15, P14, L13.
    change ((MESH, (ss_board s14, ss_settings s14)) :: (SOLVE_DIAG_ZONES_INTERVALS, (ss_board s13, ss_settings s13)) :: n13 ++ (SOLVE_DIAG_ZONES_ANGLES, (b3, x)) :: ss_past s3)
      with (((MESH, (ss_board s14, ss_settings s14)) :: (SOLVE_DIAG_ZONES_INTERVALS, (ss_board s13, ss_settings s13)) :: n13) ++ (SOLVE_DIAG_ZONES_ANGLES, (b3, x)) :: ss_past s3).
    apply find_first. constructor; [discriminate|]. constructor; [discriminate|assumption].
  - rewrite P15, P14, X13'. reflexivity.
  - change (SOLVE_DIAG_ZONES_ANGLES :: middle) with ([SOLVE_DIAG_ZONES_ANGLES] ++ middle). unfold EditProofs.play. rewrite for_each_app. cbn [for_each]. rewrite X3, B3 in D4. rewrite D4. cbn [bind].
    rewrite X4, X3 in P13. exact P13.
  - congruence.
  - congruence.
  - pose proof (proj2 (do_step_only _ _ _ _ _ D14) FAngles eq_refl) as A14. pose proof (proj2 (do_step_only _ _ _ _ _ D15) FAngles eq_refl) as A15. cbn in A14, A15. congruence.
Qed.

Lemma revert_angles b now : no_fixed tl -> b_zones now = b_zones b -> revert tl b now = set_angles b (b_angles now).
Proof.
  intros F Z. unfold revert. rewrite Z, !F, !kept_same. unfold revert_axis. cbn. destruct b as [g e a bg ce ei [z0 z1 z2] [[] [] []]]. reflexivity.
Qed.

(** The steps from the solving of angles on, the angles being those of the former run. *)
Lemma angles_again x b2 b3 b13 A Z : b_angles b3 = b_angles b2 -> same_at (zoned_at (b_zones b3) (planes (b_angles b2))) (b_angles b2) A -> same_members (b_zones b3) Z ->
  play x (SOLVE_DIAG_ZONES_ANGLES :: middle) b3 = Done b13 -> exists c13, same_board none (set_zones b13 Z) (set_zones c13 Z)
  /\ play x (that_and_after SOLVE_DIAG_ZONES_ANGLES) (set_zones (set_angles b3 A) Z) = play x [SOLVE_DIAG_ZONES_INTERVALS; MESH] (set_zones c13 Z).
Proof.
  intros A3 SA M P. unfold EditProofs.play in P. cbn [for_each] in P. destruct (do_step tl x SOLVE_DIAG_ZONES_ANGLES b3) as [b4| |] eqn:D4; try discriminate. cbn [bind] in P.
  assert (S3 : same_board (zoned_at (b_zones b3) (planes (b_angles b2))) b3 (set_angles b3 A)) by (apply same_board_of; now rewrite A3).
  cbn [do_step] in D4. destruct (solve_angles_same (st_diag x) b3 (set_angles b3 A) b4 _ S3) as (c4 & C4 & S4); [rewrite A3; trivial|exact D4|].
  destruct (play_alike tl x middle) with (b := b4) (c := c4) (b' := b13) as (c13 & C13 & S13); [|exact S4|exact P|].
  { apply Forall_forall. intros s I. cbn in I. repeat (destruct I as [<-|I]; [cbn; auto|]). destruct I. }
  exists c13. split.
  - destruct S13 as [Ec Ea]. split; [rewrite Ec; reflexivity|exact Ea].
  - change (that_and_after SOLVE_DIAG_ZONES_ANGLES) with (([SOLVE_DIAG_ZONES_ANGLES] ++ middle) ++ [SOLVE_DIAG_ZONES_INTERVALS; MESH]). unfold EditProofs.play at 1. rewrite !for_each_app. cbn [for_each].
    change (do_step tl x SOLVE_DIAG_ZONES_ANGLES (set_zones (set_angles b3 A) Z)) with (for_each (solve_diagonal_angles (st_diag x)) all_axes (set_zones (set_angles b3 A) Z)).
    rewrite (solve_all_unzoned (st_diag x) all_axes (set_angles b3 A) Z M), C4. cbn [bind].
    pose proof (play_unzoned tl x middle (incl_refl _) c4 Z) as U. unfold EditProofs.play in U, C13. rewrite U, C13. reflexivity.
Qed.

(** The axes after the dialog are those after the last two steps from the zones written. *)
Lemma zone_written b x ss : natural (tl_sort_by tl) -> no_fixed tl -> built b -> opened tl b x ss -> ~ without_zones (ss_board ss) -> exists b13, forall ax i lmin dmax minimal,
  match read (on_axis (b_zones (ss_board ss)) ax) i with
  | Done z => exists l, write (on_axis (b_zones (ss_board ss)) ax) i (mk_diag_zone dmax lmin minimal (dz_angles z)) = Done l
      /\ let R := play x [SOLVE_DIAG_ZONES_INTERVALS; MESH] (set_zones b13 (set_axis (b_zones (ss_board ss)) ax l)) in
         (forall ss', edit tl (DZone ax i lmin dmax minimal) ss = Done ss' -> exists r, R = Done r /\ b_axes r = b_axes (ss_board ss'))
         /\ (forall r, R = Done r -> exists ss', edit tl (DZone ax i lmin dmax minimal) ss = Done ss' /\ b_axes (ss_board ss') = b_axes r)
  | _ => edit tl (DZone ax i lmin dmax minimal) ss = Dangling
  end.
Proof.
  intros Na F Bu O W. destruct (opened_zoned b x ss Na Bu O W) as (b2 & b3 & b13 & past4 & past14 & A3 & T & H0 & Fa & Fi & P & Z13 & Zs & A13). exists b13. intros ax i lmin dmax minimal.
  cbn [edit]. unfold edit_zone. destruct (read (on_axis (b_zones (ss_board ss)) ax) i) as [z| |] eqn:R; [|exfalso|reflexivity].
  2:{ unfold read in R. destruct (nth_error _ i); discriminate. }
  pose proof (proj1 (read_done _ _ _) R) as Rn. destruct (write_ok (on_axis (b_zones (ss_board ss)) ax) i (mk_diag_zone dmax lmin minimal (dz_angles z))) as [l Wr]; [apply nth_error_Some; congruence|].
  exists l. split; [assumption|]. cbn [bind]. set (Z := set_axis (b_zones (ss_board ss)) ax l). cbv zeta.
  destruct (Qeq_bool minimal (dz_minimal z)).
  - unfold edit_from, go_before. rewrite Fi. rewrite (revert_same tl b13) by (try assumption; congruence). unfold edit_board. cbn [ss_board ss_settings]. rewrite Z13, <- Zs, Wr. cbn [bind]. fold Z.
    match goal with |- context [run_list tl _ ?s] => pose proof (run_list_plays tl (that_and_after SOLVE_DIAG_ZONES_INTERVALS) s) as Pl end. cbn [next_state ss_settings ss_board] in Pl.
    change (that_and_after SOLVE_DIAG_ZONES_INTERVALS) with [SOLVE_DIAG_ZONES_INTERVALS; MESH] in *. rewrite <- Pl. split.
    + intros ss' E. rewrite E. cbn [bind]. now eexists.
    + intros r. destruct (run_list tl _ _) as [ss'| |]; cbn [bind]; intros E; try discriminate. injection E as <-. now exists ss'.
  - unfold edit_from, go_before. rewrite Fa. rewrite (revert_angles b3) by (try assumption; congruence). unfold edit_board. cbn [ss_board ss_settings set_angles b_zones].
    change (mk_board (b_polygons b3) (b_edges b3) (b_angles (ss_board ss)) (b_background b3) (b_ce b3) (b_eip b3) (b_zones b3) (b_axes b3)) with (set_angles b3 (b_angles (ss_board ss))).
    rewrite <- Zs, Wr. cbn [bind]. fold Z.
    match goal with |- context [run_list tl _ ?s] => pose proof (run_list_plays tl (that_and_after SOLVE_DIAG_ZONES_ANGLES) s) as Pl end. cbn [next_state ss_settings ss_board] in Pl.
    assert (M : same_members (b_zones b3) Z).
    { intros a. unfold Z. rewrite <- Zs, on_set_axis. destruct (Axis3_eq_dec ax a) as [<-|]; [|reflexivity].
      apply nth_error_ext. intros n. rewrite !nth_error_map. destruct (write_nth _ _ _ _ Wr) as [_ Wn]. rewrite Wn. destruct (Nat.eqb_spec n i) as [->|]; [|reflexivity]. now rewrite Rn. }
    destruct (angles_again x b2 b3 b13 _ Z A3 (td_angles _ _ _ T) M P) as (c13 & S13 & E13). rewrite E13 in Pl.
    assert (Last : Forall (fun s => angle_step s = false \/ s = DETECT_INDIVIDUAL_EDGES \/ s = SOLVE_DIAG_ZONES_INTERVALS) [SOLVE_DIAG_ZONES_INTERVALS; MESH]) by (repeat constructor; auto).
    split.
    + intros ss' E. rewrite E in Pl. cbn [bind] in Pl. symmetry in Pl. destruct (play_alike tl x _ Last _ _ _ (same_board_sym _ _ _ S13) Pl) as (r & Er & [Sr _]). exists r. split; [assumption|]. rewrite Sr. reflexivity.
    + intros r Er. destruct (play_alike tl x _ Last _ _ _ S13 Er) as (c & Ec & [Sc _]). rewrite Ec in Pl. destruct (run_list tl _ _) as [ss'| |]; cbn [bind] in Pl; try discriminate. injection Pl as <-.
      exists ss'. split; [reflexivity|]. rewrite Sc. reflexivity.
Qed.

Theorem zone_fields b x ss ax i lmin dmax minimal lmin' minimal' ss1 : natural (tl_sort_by tl) -> no_fixed tl -> built b -> opened tl b x ss ->
  edit tl (DZone ax i lmin dmax minimal) ss = Done ss1 -> exists ss2, edit tl (DZone ax i lmin' dmax minimal') ss = Done ss2 /\ b_axes (ss_board ss2) = b_axes (ss_board ss1).
Proof.
  intros Na F Bu O E. assert (W : ~ without_zones (ss_board ss)).
  { intros W. cbn [edit] in E. unfold edit_zone in E. rewrite W in E. unfold read in E. destruct i; discriminate E. }
  destruct (zone_written b x ss Na F Bu O W) as (b13 & H). pose proof (H ax i lmin dmax minimal) as H1. pose proof (H ax i lmin' dmax minimal') as H2. clear H.
  destruct (read _ i) as [z| |] eqn:R; [|congruence|congruence]. destruct H1 as (l1 & W1 & [H1 _]). destruct H2 as (l2 & W2 & [_ H2]). destruct (H1 _ E) as (r & Er & Ar).
  set (Z1 := set_axis (b_zones (ss_board ss)) ax l1) in *. set (Z2 := set_axis (b_zones (ss_board ss)) ax l2) in *.
  assert (S : same_seen Z1 Z2).
  { intros a. unfold Z1, Z2. rewrite !on_set_axis. destruct (Axis3_eq_dec ax a); [|reflexivity]. apply nth_error_ext. intros n. rewrite !nth_error_map.
    destruct (write_nth _ _ _ _ W1) as [_ N1]. destruct (write_nth _ _ _ _ W2) as [_ N2]. rewrite N1, N2. now destruct (n =? i)%nat. }
  pose proof (last_seen tl x b13 Z1 Z2 S) as L. rewrite Er in L. cbn [bind] in L. destruct (H2 _ L) as (ss2 & E2 & A2). exists ss2. split; [assumption|]. rewrite A2, <- Ar. reflexivity.
Qed.
End Sessions.
