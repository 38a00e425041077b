(** The global parameters: editing them is like opening the file with them. *)
From Coq Require Import List Arith Bool Lia QArith Qabs Sorting.Sorted Sorting.Permutation.
From Verif Require Import IntervalModel ManagerModel ManagerSpec ManagerProofs ManagerMoreProofs GeomModel GeomSpec GeomProofs.
From Verif Require Import BoardModel BoardSpec BoardProofs BoardColinearProofs BoardSolveProofs BoardCoverProofs BoardDetectProofs.
From Verif Require Import BoardBuiltProofs BoardAdjustProofs BoardIndividualProofs BoardRunProofs BoardDiagProofs BoardZonedProofs.
From Verif Require AppModel.
Import AppModel(Step(..), Step_eqb, next, that_and_after).
From Verif Require Import EditModel EditSpec EditProofs.
Import ListNotations.

(** * Steps that do not look at angles *)

Definition blind (f : board -> run board) : Prop := forall b l, f (set_angles b l) = let! c := f b in Done (set_angles c l).

Lemma for_each_blind {A} (f : board -> A -> run board) L : (forall x, blind (fun b => f b x)) -> blind (for_each f L).
Proof.
  intros H. induction L as [|x L IH]; intros b l; cbn; [reflexivity|]. rewrite (H x b l). destruct (f b x); cbn; try reflexivity. apply IH.
Qed.
Lemma blind_bind (f h : board -> run board) : blind f -> blind h -> blind (fun b => let! c := f b in h c).
Proof. intros F H b l. rewrite (F b l). destruct (f b); cbn; try reflexivity. apply H. Qed.
Lemma blind_done : blind (fun b => Done b).
Proof. now intros b l. Qed.

Ltac seen := repeat match goal with
  | |- ?x = ?x => reflexivity
  | |- context [bind ?m _] => destruct m; cbn [bind]
  end; try reflexivity.

Lemma update_edge_blind i f : blind (fun b => update_edge b i f).
Proof. intros b l. unfold update_edge. cbn. seen. Qed.
Lemma update_polygon_blind i f : blind (fun b => update_polygon b i f).
Proof. intros b l. unfold update_polygon. cbn. seen. Qed.

Lemma on_each_axis_blind f : blind (on_each_axis f).
Proof.
  intros b l. unfold on_each_axis, all_axes. cbn. destruct (f AX _); cbn; try reflexivity. destruct (f AY _); cbn; try reflexivity. destruct (f AZ _); reflexivity.
Qed.

Lemma add_eip_blind a g r o : blind (fun b => add_edge_in_polygon b a g r o).
Proof.
  intros b l. unfold add_edge_in_polygon. cbn [set_angles b_edges b_polygons b_eip].
  destruct (read (b_edges b) a) as [ea| |]; cbn [bind]; try reflexivity. destruct (read (b_polygons b) g) as [pg| |]; cbn [bind]; try reflexivity.
  match goal with |- bind ?m _ = bind (bind ?m _) _ => destruct m as [wrong| |]; cbn [bind]; try reflexivity end. destruct wrong; [reflexivity|].
  destruct (find_in_polygon a (on_plane (b_eip b) (e_plane ea)) 0) as [[n c]|].
  - destruct (existsb _ (ei_overlaps c)); [reflexivity|]. destruct (write _ n _) as [all| |]; cbn [bind]; try reflexivity.
    destruct (existsb _ (ei_overlaps c)); [reflexivity|]. apply (update_polygon_blind g _ (set_eip b (set_plane (b_eip b) (e_plane ea) all)) l).
  - match goal with |- bind (update_edge (set_eip (set_angles b l) ?s) a ?f) ?k = _ => change (set_eip (set_angles b l) s) with (set_angles (set_eip b s) l) end.
    rewrite update_edge_blind. destruct (update_edge _ a _); cbn [bind]; try reflexivity. apply update_polygon_blind.
Qed.
Lemma add_ce_blind i j : blind (fun b => add_colinear_edges b i j).
Proof.
  intros b l. unfold add_colinear_edges. cbn [set_angles b_edges b_ce].
  destruct (read (b_edges b) i) as [ei| |]; cbn [bind]; try reflexivity. destruct (read (b_edges b) j) as [ej| |]; cbn [bind]; try reflexivity.
  destruct (plane_eqb _ _ && segaxis_eqb _ _); [|reflexivity]. destruct (axis_of_seg _ _) as [ax|]; [|reflexivity].
  destruct (find_colinear i j (on_axis (b_ce b) ax) 0) as [[n c]|].
  - destruct (memb i (ce_edges c)); [destruct (memb j (ce_edges c)); [reflexivity|]|]; (destruct (write _ n _) as [all| |]; cbn [bind]; try reflexivity;
      apply (update_edge_blind _ _ (set_ce b (set_axis (b_ce b) ax all)) l)).
  - match goal with |- bind (update_edge (set_ce (set_angles b l) ?s) i ?f) ?k = _ => change (set_ce (set_angles b l) s) with (set_angles (set_ce b s) l) end.
    rewrite update_edge_blind. destruct (update_edge _ i _); cbn [bind]; try reflexivity. apply update_edge_blind.
Qed.

Lemma meet_blind i g L b l : forall inter ranges, for_each (meet_edge i g) L (set_angles b l, inter, ranges)
  = let! (c, inter, ranges) := for_each (meet_edge i g) L (b, inter, ranges) in Done (set_angles c l, inter, ranges).
Proof.
  revert b. induction L as [|j L IH]; intros b inter ranges; cbn [for_each]; [reflexivity|]. unfold meet_edge at 1 3. cbn [set_angles b_edges].
  destruct (read (b_edges b) i) as [ea| |]; cbn [bind]; try reflexivity. destruct (read (b_edges b) j) as [eb| |]; cbn [bind]; try reflexivity.
  destruct (relation_seg _ _); try apply IH.
  - destruct (intersection _ _); apply IH.
  - destruct (overlap _ _) as [r|]; [|apply IH]. destruct (seg_axis r); try apply IH;
      (change (mk_board (b_polygons b) (b_edges b) l (b_background b) (b_ce b) (b_eip b) (b_zones b) (b_axes b)) with (set_angles b l); rewrite add_eip_blind;
       destruct (add_edge_in_polygon b i g r (Some j)); cbn [bind]; try reflexivity; apply IH).
Qed.

Lemma detect_eip_blind fuel srt : blind (for_each (detect_edges_in_polygons fuel srt) all_planes).
Proof.
  apply for_each_blind. intros p b l. unfold detect_edges_in_polygons. change (polygons_of (set_angles b l) p) with (polygons_of b p).
  generalize (polygons_of b p). intros L. revert b l. apply for_each_blind. intros i b l. change (polygons_of (set_angles b l) p) with (polygons_of b p).
  generalize (polygons_of b p). clear L. intros L. revert b l. apply for_each_blind. intros j b l. unfold polygon_in_polygon. cbn [set_angles b_polygons].
  destruct (read (b_polygons b) i) as [pa| |]; cbn [bind]; try reflexivity. destruct (read (b_polygons b) j) as [pb| |]; cbn [bind]; try reflexivity.
  destruct (j =? i)%nat; [reflexivity|]. destruct (_ <? _)%nat; [reflexivity|]. destruct (negb _); [reflexivity|].
  change (mk_board (b_polygons b) (b_edges b) l (b_background b) (b_ce b) (b_eip b) (b_zones b) (b_axes b)) with (set_angles b l). revert b l. apply for_each_blind.
  intros k b l. unfold edge_in_polygon. cbn [set_angles b_polygons b_edges].
  destruct (read (b_polygons b) j) as [pb'| |]; cbn [bind]; try reflexivity. destruct (read (b_edges b) k) as [ea| |]; cbn [bind]; try reflexivity.
  change (mk_board (b_polygons b) (b_edges b) l (b_background b) (b_ce b) (b_eip b) (b_zones b) (b_axes b)) with (set_angles b l). rewrite meet_blind.
  destruct (for_each (meet_edge k j) _ _) as [[[c inter] ranges]| |]; cbn [bind]; try reflexivity.
  destruct (relation_polygon fuel (g_points pb') (s0 (e_seg ea))) as [r0| |]; cbn [bind]; try reflexivity.
  destruct (relation_polygon fuel (g_points pb') (s1 (e_seg ea))) as [r1| |]; cbn [bind]; try reflexivity.
  destruct inter as [|q inter]; [destruct (_ && _); [apply add_eip_blind|reflexivity]|].
  match goal with |- bind ?m _ = _ => destruct m as [first| |]; cbn [bind]; try reflexivity end.
  match goal with |- bind ?m _ = _ => destruct m as [final| |]; cbn [bind]; try reflexivity end.
  revert c l. apply for_each_blind. intros [[range rel] mid] c l. unfold register_range. cbn [set_angles b_polygons].
  destruct (read (b_polygons c) j) as [pb2| |]; cbn [bind]; try reflexivity.
  match goal with |- bind ?m _ = _ => destruct m as [at_mid| |]; cbn [bind]; try reflexivity end. destruct (_ || _); [apply add_eip_blind|reflexivity].
Qed.
Lemma detect_ce_blind : blind (for_each detect_colinear_edges all_planes).
Proof.
  apply for_each_blind. intros p b l. unfold detect_colinear_edges. change (edges_of (set_angles b l) p) with (edges_of b p).
  generalize (edges_of b p). intros L. revert b l. induction L as [|i L IH]; intros b l; cbn [detect_colinear_loop]; [reflexivity|]. cbn [set_angles b_edges].
  destruct (read (b_edges b) i) as [e| |]; cbn [bind]; try reflexivity.
  change (mk_board (b_polygons b) (b_edges b) l (b_background b) (b_ce b) (b_eip b) (b_zones b) (b_axes b)) with (set_angles b l).
  destruct (segaxis_eqb _ SDIAG); cbn [bind]; [apply IH|].
  assert (Bl : blind (for_each (detect_colinear_pair p i) L)).
  { apply for_each_blind. clear. intros j b l. unfold detect_colinear_pair. cbn [set_angles b_edges].
    destruct (read (b_edges b) i) as [ei| |]; cbn [bind]; try reflexivity. destruct (read (b_edges b) j) as [ej| |]; cbn [bind]; try reflexivity.
    destruct (segaxis_eqb _ _); [|reflexivity]. destruct (axis_of_seg _ _); [|reflexivity].
    destruct (_ && _); [apply add_ce_blind|]. destruct (_ && _); [apply add_ce_blind|reflexivity]. }
  rewrite (Bl b l). destruct (for_each _ L b); cbn [bind]; try reflexivity. apply IH.
Qed.
Lemma solve_eip_blind srt : blind (for_each (auto_solve_all_edge_in_polygon srt) all_planes).
Proof.
  apply for_each_blind. intros p b l. unfold auto_solve_all_edge_in_polygon. cbn [set_angles b_eip].
  change (mk_board (b_polygons b) (b_edges b) l (b_background b) (b_ce b) (b_eip b) (b_zones b) (b_axes b)) with (set_angles b l).
  generalize (seq 0 (length (on_plane (b_eip b) p))). intros L. revert b l. apply for_each_blind. intros n b l. unfold solve_in_polygon. cbn [set_angles b_eip b_edges].
  destruct (read _ n) as [c| |]; cbn [bind]; try reflexivity. destruct (read _ (ei_edge c)) as [e| |]; cbn [bind]; try reflexivity.
  destruct (sort_overlaps _ _ _) as [|o r]; [reflexivity|]. destruct (merge_overlaps _ _ _ _) as [m| |]; cbn [bind]; try reflexivity.
  destruct (write _ n _) as [all| |]; cbn [bind]; try reflexivity. apply (update_edge_blind (ei_edge c) _ (set_eip b (set_plane (b_eip b) p all)) l).
Qed.
Lemma solve_ce_blind g : blind (for_each (auto_solve_all_colinear_edges g) all_axes).
Proof.
  apply for_each_blind. intros ax b l. unfold auto_solve_all_colinear_edges. cbn [set_angles b_ce].
  change (mk_board (b_polygons b) (b_edges b) l (b_background b) (b_ce b) (b_eip b) (b_zones b) (b_axes b)) with (set_angles b l).
  generalize (seq 0 (length (on_axis (b_ce b) ax))). intros L. revert b l. apply for_each_blind. intros n b l. unfold solve_colinear. cbn [set_angles b_ce b_edges b_axes].
  destruct (read _ n) as [c| |]; cbn [bind]; try reflexivity. destruct (collect _ _) as [[|e es]| |]; cbn [bind]; try reflexivity.
  destruct (seg_coord _ _); [|reflexivity]. destruct (colinear_policy _) as [[po no]|]; [|reflexivity].
  destruct (add_meshline_policy _ _ _ _ _ _) as [y a]. destruct (write _ n _); reflexivity.
Qed.
Lemma individual_edge_blind g p i : blind (fun b => individual_edge g p b i).
Proof.
  intros b l. unfold individual_edge. cbn [set_angles b_edges b_axes]. destruct (read (b_edges b) i) as [e| |]; cbn [bind]; try reflexivity.
  destruct (seg_coord _ _); [|reflexivity]. destruct (axis_of_seg _ _) as [ax|]; [|reflexivity]. destruct (_ && _); [|reflexivity].
  destruct (add_meshline_policy _ _ _ _ _ _) as [y addr]. apply (update_edge_blind i (set_policy addr) (set_axes b (set_axis (b_axes b) ax y)) l).
Qed.

Definition angle_step (s : Step) : bool :=
  match s with
  | DETECT_DIAG_ANGLES | DETECT_DIAG_ZONES | SOLVE_DIAG_ZONES_ANGLES | DETECT_INDIVIDUAL_EDGES | SOLVE_DIAG_ZONES_INTERVALS | ADJUST_EDGE_TO_MATERIAL => true
  | _ => false
  end.
Lemma do_step_blind tl x s : angle_step s = false -> blind (do_step tl x s).
Proof.
  destruct s; try discriminate; intros _; cbn [do_step].
  - apply detect_eip_blind.
  - apply detect_ce_blind.
  - apply on_each_axis_blind.
  - apply solve_eip_blind.
  - apply solve_ce_blind.
  - apply on_each_axis_blind.
  - apply on_each_axis_blind.
  - apply blind_done.
  - apply on_each_axis_blind.
Qed.

(** * Two runs from boards with the same angles but for flags *)

(** The same angles, the flags being the same where [D] does not hold. *)
Definition same_at (D : nat -> ViewAxis -> Prop) (l l' : list angle) : Prop :=
  length l = length l' /\ forall j a a', nth_error l j = Some a -> nth_error l' j = Some a' -> bare a = bare a' /\ forall v, ~ D j v -> a_to_mesh a v = a_to_mesh a' v.
Definition same_board (D : nat -> ViewAxis -> Prop) (b c : board) : Prop := c = set_angles b (b_angles c) /\ same_at D (b_angles b) (b_angles c).
Definition alike (D D' : nat -> ViewAxis -> Prop) (f : board -> run board) : Prop :=
  forall b c b', same_board D b c -> f b = Done b' -> exists c', f c = Done c' /\ same_board D' b' c'.

Lemma same_at_refl D l : same_at D l l.
Proof. split; [reflexivity|]. intros j a a' E E'. rewrite E in E'. injection E' as <-. now split. Qed.
Lemma same_at_sym D l l' : same_at D l l' -> same_at D l' l.
Proof. intros [L H]. split; [now symmetry|]. intros j a a' E E'. destruct (H j a' a E' E) as [B F]. split; [now symmetry|]. intros v N. symmetry. now apply F. Qed.
Lemma same_nth {D l l' j a} : same_at D l l' -> nth_error l j = Some a -> exists a', nth_error l' j = Some a' /\ bare a = bare a' /\ forall v, ~ D j v -> a_to_mesh a v = a_to_mesh a' v.
Proof.
  intros [L H] E. assert (Lt : (j < length l')%nat). { rewrite <- L. apply nth_error_Some. congruence. }
  destruct (nth_error l' j) as [a'|] eqn:E'; [|apply nth_error_None in E'; lia]. exists a'. split; [reflexivity|]. now apply H.
Qed.
Lemma same_at_trans D l l' l'' : same_at D l l' -> same_at D l' l'' -> same_at D l l''.
Proof.
  intros A B. split; [destruct A, B; congruence|]. intros j a a'' E E''. destruct (same_nth A E) as (a' & E' & Ba & F). destruct B as [_ B]. destruct (B j a' a'' E' E'') as [Bb G].
  split; [congruence|]. intros v N. now rewrite F, G.
Qed.
Lemma same_at_weak (D D' : nat -> ViewAxis -> Prop) l l' : (forall j v, D j v -> D' j v) -> same_at D l l' -> same_at D' l l'.
Proof. intros W [L H]. split; [assumption|]. intros j a a' E E'. destruct (H j a a' E E') as [B F]. split; [assumption|]. intros v N. apply F. intros Q. now apply N, W. Qed.
Lemma same_board_weak (D D' : nat -> ViewAxis -> Prop) b c : (forall j v, D j v -> D' j v) -> same_board D b c -> same_board D' b c.
Proof. intros W [E H]. split; [assumption|]. now apply (same_at_weak D). Qed.
Lemma same_bare D l l' : same_at D l l' -> map bare l = map bare l'.
Proof.
  revert D l'. induction l as [|a l IH]; intros D [|a' l'] [L H]; try discriminate; [reflexivity|]. cbn. f_equal.
  - exact (proj1 (H 0%nat a a' eq_refl eq_refl)).
  - apply (IH (fun j v => D (S j) v)). split; [now injection L|]. intros j x x'. apply (H (S j)).
Qed.
Lemma set_angles_id b : set_angles b (b_angles b) = b.
Proof. now destruct b. Qed.
Lemma same_board_sym D b c : same_board D b c -> same_board D c b.
Proof. intros [E H]. split; [|now apply same_at_sym]. rewrite E. destruct b. reflexivity. Qed.
Lemma same_board_refl D b : same_board D b b.
Proof. split; [symmetry; apply set_angles_id|apply same_at_refl]. Qed.
Lemma same_board_of D b l : same_at D (b_angles b) l -> same_board D b (set_angles b l).
Proof. intros H. split; [reflexivity|exact H]. Qed.

Lemma alike_bind D E F f h : alike D E f -> alike E F h -> alike D F (fun b => let! c := f b in h c).
Proof.
  intros A B b c b' H. cbn beta. destruct (f b) as [b1| |] eqn:Fb; cbn [bind]; try discriminate. intros Hb. destruct (A b c b1 H Fb) as (c1 & Fc & H1). rewrite Fc. cbn [bind]. exact (B b1 c1 b' H1 Hb).
Qed.
Lemma alike_done D : alike D D (fun b => Done b).
Proof. intros b c b' H E. injection E as <-. now exists c. Qed.
Lemma alike_for_each {A} D (f : board -> A -> run board) L : (forall x, In x L -> alike D D (fun b => f b x)) -> alike D D (for_each f L).
Proof.
  induction L as [|x L IH]; intros H; [apply alike_done|]. intros b c b' R E. cbn in E |- *. destruct (f b x) as [b1| |] eqn:Fb; cbn [bind] in E; try discriminate.
  destruct (H x (or_introl eq_refl) b c b1 R Fb) as (c1 & Fc & R1). rewrite Fc. cbn [bind]. refine (IH _ b1 c1 b' R1 E). intros y I. apply H. now right.
Qed.
Lemma blind_alike D f : blind f -> alike D D f.
Proof.
  intros Bl b c b' [Ec Ea] E. pose proof (Bl b (b_angles b)) as Bb. rewrite set_angles_id, E in Bb. cbn [bind] in Bb. assert (b' = set_angles b' (b_angles b)) as Eb by congruence.
  rewrite Ec, Bl, E. cbn [bind]. eexists. split; [reflexivity|]. split; [reflexivity|]. rewrite Eb. exact Ea.
Qed.

(** ** The detection of zones *)

Definition bares (x : nat * angle) : nat * angle := (fst x, bare (snd x)).
Lemma bares_fst l : map fst (map bares l) = map fst l.
Proof. rewrite map_map. now apply map_ext. Qed.
Lemma angle_ranges_bares v ds l : angle_ranges v ds (map bares l) = angle_ranges v ds l.
Proof. induction l as [|x [|y l] IH]; cbn in *; try reflexivity. now rewrite IH. Qed.
Lemma collect_bares b l : collect (fun i => let! a := read (map bare (b_angles b)) i in Done (i, a)) l
  = let! r := collect (fun i => let! a := read (b_angles b) i in Done (i, a)) l in Done (map bares r).
Proof.
  induction l as [|i l IH]; cbn; [reflexivity|]. unfold read at 1 3. rewrite nth_error_map. destruct (nth_error (b_angles b) i); cbn [option_map bind]; [|reflexivity].
  rewrite IH. destruct (collect (fun i0 => let! a0 := read (b_angles b) i0 in Done (i0, a0)) l); reflexivity.
Qed.
Lemma forallb_bares (f : nat * angle -> bool) l : (forall x, f (bares x) = f x) -> forallb f (map bares l) = forallb f l.
Proof. intros H. induction l as [|x l IH]; cbn; [reflexivity|]. now rewrite H, IH. Qed.
Lemma filter_bares (f : nat * angle -> bool) l : (forall x, f (bares x) = f x) -> filter f (map bares l) = map bares (filter f l).
Proof. intros H. induction l as [|x l IH]; cbn; [reflexivity|]. rewrite H. destruct (f x); cbn; now rewrite IH. Qed.

Definition barely (f : board -> run board) : Prop := forall b, f (set_angles b (map bare (b_angles b))) = let! c := f b in Done (set_angles c (map bare (b_angles b))).

Lemma add_zone_barely g d srt ax l : natural srt -> barely (fun b => add_diagonal_zone g d srt ax b l).
Proof.
  intros N b. unfold add_diagonal_zone. cbn [set_angles b_angles b_zones]. rewrite collect_bares. destruct (collect _ l) as [[|[i a] r]| |]; cbn [bind map]; try reflexivity.
  unfold bares at 1. cbn [fst snd]. change (bares (i, a) :: map bares r) with (map bares ((i, a) :: r)).
  rewrite (forallb_bares (fun x => plane_eqb (a_plane (snd x)) (a_plane (bare a)))) by reflexivity. change (a_plane (bare a)) with (a_plane a). destruct (forallb _ _); [|reflexivity]. destruct (view_of_axis (a_plane a) ax) as [v|]; [|reflexivity].
  rewrite (N _ _ bares (fun x y => Qltb (pt_coord (a_point (snd x)) v) (pt_coord (a_point (snd y)) v))) by reflexivity. rewrite bares_fst. reflexivity.
Qed.
Lemma add_zone_angles g d srt ax l b b' : add_diagonal_zone g d srt ax b l = Done b' -> b_angles b' = b_angles b.
Proof.
  unfold add_diagonal_zone. destruct (collect _ l) as [[|[i a] r]| |]; cbn [bind]; try discriminate; [now intros [= <-]|]. destruct (forallb _ _); [|now intros [= <-]].
  destruct (view_of_axis _ _); now intros [= <-].
Qed.
Lemma for_each_barely {A} (f : board -> A -> run board) L : (forall x, barely (fun b => f b x)) -> (forall x b b', f b x = Done b' -> b_angles b' = b_angles b) -> barely (for_each f L).
Proof.
  intros H K. induction L as [|x L IH]; intros b; cbn; [reflexivity|]. rewrite (H x b). destruct (f b x) as [c| |] eqn:E; cbn [bind]; try reflexivity. apply K in E. rewrite <- E. apply IH.
Qed.
Lemma for_each_angles {A} (f : board -> A -> run board) L : (forall x b b', f b x = Done b' -> b_angles b' = b_angles b) -> forall b b', for_each f L b = Done b' -> b_angles b' = b_angles b.
Proof. intros K. apply (for_each_rel (fun b b' => b_angles b' = b_angles b)); [reflexivity|congruence|]. intros x b b' _. apply K. Qed.

Lemma zones_view_barely g d srt p v b l : natural srt -> detect_zones_view g d srt p (set_angles b (map bare (b_angles b)), map bares l) v
  = let! (c, r) := detect_zones_view g d srt p (b, l) v in Done (set_angles c (map bare (b_angles b)), map bares r).
Proof.
  intros N. unfold detect_zones_view. cbn [set_angles b_edges].
  rewrite (N _ _ bares (fun x y => Qltb (pt_coord (a_point (snd x)) v) (pt_coord (a_point (snd y)) v))) by reflexivity. rewrite angle_ranges_bares.
  change (mk_board (b_polygons b) (b_edges b) (map bare (b_angles b)) (b_background b) (b_ce b) (b_eip b) (b_zones b) (b_axes b)) with (set_angles b (map bare (b_angles b))).
  rewrite for_each_barely; [|intros x; now apply add_zone_barely|intros x c c'; apply add_zone_angles]. destruct (for_each _ _ b); reflexivity.
Qed.
Lemma zones_view_angles g d srt p v b l c r : detect_zones_view g d srt p (b, l) v = Done (c, r) -> b_angles c = b_angles b.
Proof.
  unfold detect_zones_view. destruct (for_each _ _ b) as [c'| |] eqn:E; cbn [bind]; try discriminate. intros [= <- <-]. revert E. apply for_each_angles. intros x y y'. apply add_zone_angles.
Qed.
Lemma view_bare l : view (map bare l) = map bares (view l).
Proof.
  unfold view. rewrite map_length. generalize 0%nat. induction l as [|a l IH]; intros n; cbn; [reflexivity|]. now rewrite IH.
Qed.
Lemma detect_zones_barely g d srt p : natural srt -> barely (fun b => detect_diagonal_zones g d srt b p) /\ forall b b', detect_diagonal_zones g d srt b p = Done b' -> b_angles b' = b_angles b.
Proof.
  intros N. split.
  - intros b. unfold detect_diagonal_zones. cbn [set_angles b_angles for_each].
    change (mk_board (b_polygons b) (b_edges b) (map bare (b_angles b)) (b_background b) (b_ce b) (b_eip b) (b_zones b) (b_axes b)) with (set_angles b (map bare (b_angles b))).
    rewrite view_bare, filter_bares by reflexivity. rewrite zones_view_barely by assumption.
    destruct (detect_zones_view g d srt p (b, _) VH) as [[c r]| |] eqn:E; cbn [bind]; try reflexivity. apply zones_view_angles in E. rewrite <- E, zones_view_barely by assumption.
    destruct (detect_zones_view g d srt p (c, r) VV) as [[c' r']| |]; reflexivity.
  - intros b b'. unfold detect_diagonal_zones. cbn [for_each].
    destruct (detect_zones_view g d srt p (b, _) VH) as [[c r]| |] eqn:E; cbn [bind]; try discriminate. destruct (detect_zones_view g d srt p (c, r) VV) as [[c' r']| |] eqn:E'; cbn [bind]; try discriminate.
    intros [= <-]. apply zones_view_angles in E. apply zones_view_angles in E'. congruence.
Qed.

Lemma barely_alike D f : barely f -> (forall b b', f b = Done b' -> b_angles b' = b_angles b) -> alike D D f.
Proof.
  intros B K b c b' [Ec Ea] E. pose proof (B b) as Bb. pose proof (B c) as Bc. rewrite E in Bb. cbn [bind] in Bb. rewrite <- (same_bare D _ _ Ea) in Bc. rewrite Ec in Bc. cbn [set_angles b_angles] in Bc.
  change (set_angles (set_angles b (b_angles c)) (map bare (b_angles b))) with (set_angles b (map bare (b_angles b))) in Bc. rewrite Bb in Bc. rewrite <- Ec in Bc.
  destruct (f c) as [c'| |] eqn:Fc; cbn [bind] in Bc; try discriminate. exists c'. split; [reflexivity|]. apply K in Fc. apply K in E. split; [|now rewrite Fc, E].
  injection Bc as Ec'. destruct b', c'. cbn in *. unfold set_angles in *. cbn in *. congruence.
Qed.
Lemma zones_alike D g d srt : natural srt -> alike D D (for_each (detect_diagonal_zones g d srt) all_planes).
Proof. intros N. apply alike_for_each. intros p _. destruct (detect_zones_barely g d srt p N). now apply barely_alike. Qed.

(** ** Solving the angles *)

(** The plane of each angle. *)
Definition planes (l : list angle) (j : nat) : option Plane := option_map a_plane (nth_error l j).
Definition minus (pl : nat -> option Plane) (D : nat -> ViewAxis -> Prop) (ax : Axis3) (P : nat -> Prop) : nat -> ViewAxis -> Prop :=
  fun j v => D j v /\ ~ (P j /\ exists p, pl j = Some p /\ view_of_axis p ax = Some v).
Definition solving (pl : nat -> option Plane) (D D' : nat -> ViewAxis -> Prop) (f : board -> run board) : Prop :=
  forall b c b', (forall j, planes (b_angles b) j = pl j) -> same_board D b c -> f b = Done b' ->
    (forall j, planes (b_angles b') j = pl j) /\ b_zones b' = b_zones b /\ exists c', f c = Done c' /\ same_board D' b' c'.

Lemma solving_done pl D : solving pl D D (fun b => Done b).
Proof. intros b c b' P H [= <-]. split; [assumption|]. split; [reflexivity|]. now exists c. Qed.
Lemma solving_bind pl D E F f h : solving pl D E f -> solving pl E F h -> solving pl D F (fun b => let! c := f b in h c).
Proof.
  intros A B b c b' P H. cbn beta. destruct (f b) as [b1| |] eqn:Fb; cbn [bind]; try discriminate. intros Hb. destruct (A b c b1 P H Fb) as (P1 & Z1 & c1 & Fc & H1).
  rewrite Fc. cbn [bind]. destruct (B b1 c1 b' P1 H1 Hb) as (P2 & Z2 & X). split; [assumption|]. split; [congruence|assumption].
Qed.
Lemma solving_weak pl D (E F : nat -> ViewAxis -> Prop) f : (forall j v, E j v -> F j v) -> solving pl D E f -> solving pl D F f.
Proof. intros W A b c b' P H Fb. destruct (A b c b' P H Fb) as (P1 & Z1 & c1 & Fc & H1). split; [assumption|]. split; [assumption|]. exists c1. split; [assumption|]. now apply (same_board_weak E). Qed.
Lemma for_each_solving {A} pl ax (f : board -> A -> run board) (P : A -> nat -> Prop) L : (forall x D, In x L -> solving pl D (minus pl D ax (P x)) (fun b => f b x)) ->
  forall D, solving pl D (minus pl D ax (fun j => exists x, In x L /\ P x j)) (for_each f L).
Proof.
  induction L as [|x L IH]; intros H D.
  - apply (solving_weak pl D D); [|apply solving_done]. intros j v d. split; [assumption|]. intros [(x & [] & _) _].
  - cbn [for_each]. apply (solving_weak pl D (minus pl (minus pl D ax (P x)) ax (fun j => exists x, In x L /\ P x j))).
    + intros j v [[d N1] N2]. split; [assumption|]. intros [(y & [<-|I] & Py) V]; [now apply N1|]. apply N2. split; [now exists y|assumption].
    + apply (solving_bind pl D (minus pl D ax (P x))); [now apply H; left|]. apply IH. intros y E I. apply H. now right.
Qed.

Lemma write_nth {A} (l : list A) i y l' : write l i y = Done l' -> length l' = length l /\ forall j, nth_error l' j = if (j =? i)%nat then Some y else nth_error l j.
Proof.
  revert i l'. induction l as [|z l IH]; intros [|i] l' E; cbn in E; try discriminate.
  - injection E as <-. split; [reflexivity|]. now intros [|j].
  - destruct (write l i y) as [t| |] eqn:W; try discriminate. injection E as <-. destruct (IH _ _ W) as [L H]. split; [cbn; now rewrite L|]. intros [|j]; [reflexivity|]. cbn. apply H.
Qed.
Lemma write_ok {A} (l : list A) i y : (i < length l)%nat -> exists l', write l i y = Done l'.
Proof. intros L. destruct (write_spec y l i L) as (l' & E & _). now exists l'. Qed.

(** An angle is replaced in both boards. *)
Lemma update_angle_same D (D' : nat -> ViewAxis -> Prop) b c i f h b' : same_board D b c ->
  (forall a a', nth_error (b_angles b) i = Some a -> nth_error (b_angles c) i = Some a' -> bare a = bare a' -> (forall v, ~ D i v -> a_to_mesh a v = a_to_mesh a' v) ->
     bare (f a) = bare (h a') /\ forall v, ~ D' i v -> a_to_mesh (f a) v = a_to_mesh (h a') v) ->
  (forall j v, j <> i -> D j v -> D' j v) ->
  update_angle b i f = Done b' -> exists c', update_angle c i h = Done c' /\ same_board D' b' c'.
Proof.
  intros [Ec Ea] F W E. unfold update_angle in *. destruct (read (b_angles b) i) as [a| |] eqn:R; try discriminate. cbn [bind] in E. apply read_done in R.
  destruct (write (b_angles b) i (f a)) as [l| |] eqn:Wr; try discriminate. cbn [bind] in E. injection E as <-.
  destruct (same_nth Ea R) as (a' & R' & Ba & Fl). unfold read. rewrite R'. cbn [bind].
  destruct (write_ok (b_angles c) i (h a')) as [l' Wr']; [apply nth_error_Some; congruence|]. rewrite Wr'. cbn [bind]. eexists. split; [reflexivity|].
  destruct (F a a' R R' Ba Fl) as [Bf Ff]. destruct (write_nth _ _ _ _ Wr) as [L1 H1]. destruct (write_nth _ _ _ _ Wr') as [L2 H2]. split; [rewrite Ec; reflexivity|]. cbn [set_angles b_angles].
  split; [rewrite L1, L2; apply Ea|]. intros j x x'. rewrite H1, H2. destruct (Nat.eqb_spec j i) as [->|N].
  - intros [= <-] [= <-]. now split.
  - intros X X'. destruct (proj2 Ea j x x' X X') as [Bx Fx]. split; [assumption|]. intros v Nv. apply Fx. intros d. now apply Nv, W.
Qed.
Lemma update_angle_planes b i f b' : (forall a, a_plane (f a) = a_plane a) -> update_angle b i f = Done b' -> (forall j, planes (b_angles b') j = planes (b_angles b) j) /\ b_zones b' = b_zones b.
Proof.
  intros F E. unfold update_angle in E. destruct (read (b_angles b) i) as [a| |] eqn:R; try discriminate. cbn [bind] in E. apply read_done in R.
  destruct (write (b_angles b) i (f a)) as [l| |] eqn:Wr; try discriminate. cbn [bind] in E. injection E as <-. split; [|reflexivity]. cbn. destruct (write_nth _ _ _ _ Wr) as [_ H1].
  intros j. unfold planes. rewrite H1. destruct (Nat.eqb_spec j i) as [->|]; [|reflexivity]. rewrite R. cbn. now rewrite F.
Qed.
Lemma bare_mesh v x a : bare (set_angle_mesh v x a) = bare a.
Proof. now destruct v. Qed.
Lemma plane_mesh v x a : a_plane (set_angle_mesh v x a) = a_plane a.
Proof. now destruct v. Qed.
Definition same_view (v w : ViewAxis) : bool := match v, w with VH, VH | VV, VV => true | _, _ => false end.
Lemma mesh_mesh v w x a : a_to_mesh (set_angle_mesh v x a) w = if same_view v w then x else a_to_mesh a w.
Proof. now destruct v, w. Qed.
Lemma bare_plane a a' : bare a = bare a' -> a_plane a = a_plane a'.
Proof. unfold bare. congruence. Qed.

Lemma solve_angle_solving pl D ax f i : (forall a a', bare a = bare a' -> f a = f a') -> solving pl D (minus pl D ax (eq i)) (fun b => solve_angle ax f b i).
Proof.
  intros Fb b c b' P H E. unfold solve_angle in *. destruct (read (b_angles b) i) as [a| |] eqn:R; try discriminate. cbn [bind] in E. apply read_done in R.
  destruct (same_nth (proj2 H) R) as (a' & R' & Ba & Fl). unfold read at 1. rewrite R'. cbn [bind]. rewrite <- (bare_plane _ _ Ba).
  destruct (view_of_axis (a_plane a) ax) as [v|] eqn:V.
  - destruct (update_angle_planes _ _ _ _ (plane_mesh v (f a)) E) as [P' Z']. split; [intros j; now rewrite P'|]. split; [assumption|].
    apply (update_angle_same D _ b c i (set_angle_mesh v (f a)) (set_angle_mesh v (f a')) b' H); [| |exact E].
    + intros x x' X X' _ _. rewrite R in X. rewrite R' in X'. injection X as <-. injection X' as <-. rewrite !bare_mesh. split; [assumption|]. intros w Nw. rewrite !mesh_mesh.
      destruct (same_view v w) eqn:Q; [now apply Fb|]. apply Fl. intros d. apply Nw. split; [assumption|]. intros [_ (p & Pp & Vp)]. rewrite <- P in Pp. unfold planes in Pp. rewrite R in Pp.
      injection Pp as <-. rewrite V in Vp. injection Vp as <-. destruct v; discriminate.
    + intros j w N d. split; [assumption|]. intros [Q _]. now apply N.
  - injection E as <-. split; [assumption|]. split; [reflexivity|]. exists c. split; [reflexivity|]. destruct H as [Ec Ea]. split; [assumption|]. apply (same_at_weak D); [|assumption].
    intros j w d. split; [assumption|]. intros [<- (p & Pp & Vp)]. rewrite <- P in Pp. unfold planes in Pp. rewrite R in Pp. injection Pp as <-. congruence.
Qed.

Lemma solve_zone_solving pl D d ax z : solving pl D (minus pl D ax (fun j => In j (dz_angles z))) (fun b => solve_zone_angles d ax b z).
Proof.
  unfold solve_zone_angles. destruct (dz_angles z) as [|first r] eqn:Z; [intros b c b' _ _ E; discriminate|].
  eapply solving_weak; [|eapply solving_bind; apply (for_each_solving pl ax _ eq)].
  - intros j v [[dd N1] N2]. split; [assumption|]. intros [I V]. destruct I as [<-|I].
    + apply N1. split; [|assumption]. exists first. split; [now left|reflexivity].
    + destruct r as [|y r]; [destruct I|]. rewrite (app_removelast_last first (l := y :: r)) in I by discriminate. apply in_app_or in I. destruct I as [I|[<-|[]]].
      * apply N2. split; [|assumption]. now exists j.
      * apply N1. split; [|assumption]. exists (last (y :: r) first). split; [right; left; reflexivity|reflexivity].
  - intros i E _. now apply solve_angle_solving.
  - intros i E _. apply solve_angle_solving. intros a a' B. unfold bare in B. now replace (a_value a') with (a_value a) by congruence.
Qed.
Lemma solve_axis_solving pl D d ax zs : solving pl D (minus pl D ax (fun j => exists z, In z zs /\ In j (dz_angles z))) (for_each (solve_zone_angles d ax) zs).
Proof. apply (for_each_solving pl ax _ (fun z j => In j (dz_angles z))). intros z E _. apply solve_zone_solving. Qed.

(** In a zone of the board along the view axis. *)
Definition zoned_at (zones : space (list diag_zone)) (pl : nat -> option Plane) : nat -> ViewAxis -> Prop :=
  fun j v => exists ax p z, pl j = Some p /\ view_of_axis p ax = Some v /\ In z (on_axis zones ax) /\ In j (dz_angles z).

Lemma solve_angles_same d b c b' (D : nat -> ViewAxis -> Prop) : same_board D b c -> (forall j v, D j v -> zoned_at (b_zones b) (planes (b_angles b)) j v) ->
  for_each (solve_diagonal_angles d) all_axes b = Done b' -> exists c', for_each (solve_diagonal_angles d) all_axes c = Done c' /\ same_board (fun _ _ => False) b' c'.
Proof.
  intros H W. unfold all_axes. cbn [for_each]. unfold solve_diagonal_angles. set (pl := planes (b_angles b)) in *.
  assert (Zc : b_zones c = b_zones b). { destruct H as [-> _]. reflexivity. } rewrite Zc.
  destruct (for_each (solve_zone_angles d AX) _ b) as [b1| |] eqn:E1; cbn [bind]; try discriminate.
  destruct (solve_axis_solving pl D d AX _ b c b1 (fun j => eq_refl) H E1) as (P1 & Z1 & c1 & F1 & H1). rewrite F1. cbn [bind].
  assert (Zc1 : b_zones c1 = b_zones b1). { destruct H1 as [-> _]. reflexivity. } rewrite Zc1.
  destruct (for_each (solve_zone_angles d AY) _ b1) as [b2| |] eqn:E2; cbn [bind]; try discriminate.
  destruct (solve_axis_solving pl _ d AY _ b1 c1 b2 P1 H1 E2) as (P2 & Z2 & c2 & F2 & H2). rewrite F2. cbn [bind].
  assert (Zc2 : b_zones c2 = b_zones b2). { destruct H2 as [-> _]. reflexivity. } rewrite Zc2.
  destruct (for_each (solve_zone_angles d AZ) _ b2) as [b3| |] eqn:E3; cbn [bind]; try discriminate.
  destruct (solve_axis_solving pl _ d AZ _ b2 c2 b3 P2 H2 E3) as (P3 & Z3 & c3 & F3 & H3). rewrite F3. cbn [bind].
  intros [= <-]. exists c3. split; [reflexivity|]. revert H3. apply same_board_weak. intros j v [[[dd N1] N2] N3].
  destruct (W j v dd) as (ax & p & z & Pj & V & I & J). rewrite Z2, Z1 in N3. rewrite Z1 in N2.
  destruct ax; [apply N1|apply N2|apply N3]; (split; [now exists z|now exists p]).
Qed.

(** ** Policies of angles *)

Definition none : nat -> ViewAxis -> Prop := fun _ _ => False.
Lemma bare_point a a' : bare a = bare a' -> a_point a = a_point a'.
Proof. unfold bare. congruence. Qed.
Lemma set_axes_same D b c s : same_board D b c -> same_board D (set_axes b s) (set_axes c s) /\ b_axes c = b_axes b.
Proof. intros [E H]. rewrite E in *. split; [|reflexivity]. split; [reflexivity|exact H]. Qed.
Lemma angle_axis_alike g p i v : alike none none (fun b => individual_angle_axis g p i b v).
Proof.
  intros b c b' H E. unfold individual_angle_axis in *. destruct (read (b_angles b) i) as [a| |] eqn:R; try discriminate. cbn [bind] in E. apply read_done in R.
  destruct (same_nth (proj2 H) R) as (a' & R' & Ba & Fl). unfold read at 1. rewrite R'. cbn [bind].
  assert (Ax : b_axes c = b_axes b) by (destruct H as [-> _]; reflexivity). rewrite Ax, <- (bare_point _ _ Ba), <- Fl by tauto.
  destruct (add_meshline_policy _ _ _ _ _ _) as [y ad]. apply (update_angle_same none none (set_axes b (set_axis (b_axes b) (axes_table p v) y)) _ i (set_angle_policy ad) (set_angle_policy ad)); [| | |exact E].
  - now apply set_axes_same.
  - intros x x' _ _ B F. split; [exact B|]. intros w N. exact (F w N).
  - tauto.
Qed.
Lemma angles_of_same D b c p : same_board D b c -> angles_of c p = angles_of b p.
Proof.
  intros [_ H]. apply same_bare in H. assert (G : forall l, positions (fun a => plane_eqb (a_plane a) p) l = positions (fun a => plane_eqb (a_plane a) p) (map bare l)); [|unfold angles_of; rewrite G, <- H; symmetry; apply G].
  intros l. unfold positions. rewrite view_bare, filter_bares by reflexivity. now rewrite bares_fst.
Qed.
Lemma individual_alike g : alike none none (for_each (detect_individual_edges g) all_planes).
Proof.
  apply alike_for_each. intros p _ b c b' H. unfold detect_individual_edges. change (edges_of c p) with (edges_of c p).
  assert (Ec : edges_of c p = edges_of b p) by (destruct H as [-> _]; reflexivity). rewrite Ec.
  destruct (for_each (individual_edge g p) (edges_of b p) b) as [b1| |] eqn:E1; cbn [bind]; try discriminate. intros E2.
  destruct (blind_alike none (for_each (individual_edge g p) (edges_of b p)) (for_each_blind _ _ (individual_edge_blind g p)) b c b1 H E1) as (c1 & F1 & H1). rewrite F1. cbn [bind].
  rewrite (angles_of_same none b1 c1 p H1). revert H1 E2. apply alike_for_each. intros i _. apply alike_for_each. intros v _. apply angle_axis_alike.
Qed.

(** ** The intervals of zones *)

Lemma zone_of_same D b c ax z : same_board D b c -> zone_of c ax z = zone_of b ax z.
Proof.
  intros [_ H]. unfold zone_of. destruct (dz_angles z) as [|first r]; [reflexivity|].
  assert (G : forall i (A : Type) (k h : angle -> run A), (forall a a', bare a = bare a' -> h a' = k a) -> bind (read (b_angles c) i) h = bind (read (b_angles b) i) k).
  { intros i A k h K. unfold read. destruct (nth_error (b_angles b) i) as [a|] eqn:R.
    - destruct (same_nth H R) as (a' & R' & Ba & _). rewrite R'. cbn. now apply K.
    - apply nth_error_None in R. rewrite (proj1 H) in R. apply nth_error_None in R. now rewrite R. }
  apply (G first). intros a a' Ba. rewrite (bare_plane _ _ Ba), (bare_point _ _ Ba). apply (G (last (first :: r) first)).
  intros y y' By. now rewrite (bare_plane _ _ By), (bare_point _ _ By).
Qed.
Lemma collect_ext {A B} (f h : A -> run B) l : (forall x, f x = h x) -> collect f l = collect h l.
Proof. intros H. induction l as [|x l IH]; cbn; [reflexivity|]. now rewrite H, IH. Qed.
Lemma on_each_axis_ext f h b : (forall ax y, f ax y = h ax y) -> on_each_axis f b = on_each_axis h b.
Proof. intros H. unfold on_each_axis, all_axes. cbn. rewrite H. destruct (h AX _); cbn; try reflexivity. rewrite H. destruct (h AY _); cbn; try reflexivity. now rewrite H. Qed.
Lemma zone_intervals_alike tl x D : alike D D (do_step tl x SOLVE_DIAG_ZONES_INTERVALS).
Proof.
  intros b c b' H E. cbn [do_step] in *. assert (Z : b_zones c = b_zones b) by (destruct H as [-> _]; reflexivity).
  rewrite (on_each_axis_ext _ (fun ax y => let! zs := collect (zone_of b ax) (on_axis (b_zones b) ax) in Done (apply_zones zs y)) c).
  - revert H E. apply (blind_alike D). apply on_each_axis_blind.
  - intros ax y. rewrite Z. rewrite (collect_ext (zone_of c ax) (zone_of b ax)); [reflexivity|]. intros z. now apply (zone_of_same D).
Qed.

Lemma do_step_alike tl x s : angle_step s = false \/ s = DETECT_INDIVIDUAL_EDGES \/ s = SOLVE_DIAG_ZONES_INTERVALS -> alike none none (do_step tl x s).
Proof. intros [A|[-> | ->]]; [apply blind_alike; now apply do_step_blind|apply individual_alike|apply zone_intervals_alike]. Qed.

(** * Other parameters give zones of the same angles *)

Definition same_zones (b c : board) : Prop := c = set_zones b (b_zones c) /\ forall ax, map dz_angles (on_axis (b_zones c) ax) = map dz_angles (on_axis (b_zones b) ax).
Lemma same_zones_refl b : same_zones b b.
Proof. split; [now destruct b|reflexivity]. Qed.
Definition Axis3_eq_dec (a b : Axis3) : {a = b} + {a <> b}.
Proof. decide equality. Defined.
Lemma on_set_axis {A} (s : space A) ax ax' x : on_axis (set_axis s ax x) ax' = if Axis3_eq_dec ax ax' then x else on_axis s ax'.
Proof. now destruct ax, ax'. Qed.

Lemma add_zone_params g d g' d' srt ax l b c b' : same_zones b c -> add_diagonal_zone g d srt ax b l = Done b' ->
  exists c', add_diagonal_zone g' d' srt ax c l = Done c' /\ same_zones b' c'.
Proof.
  intros [Ec Ez] E. unfold add_diagonal_zone in *. assert (A : b_angles c = b_angles b) by (rewrite Ec; reflexivity). rewrite A.
  destruct (collect _ l) as [[|[i a] r]| |]; cbn [bind] in *; try discriminate; [injection E as <-; exists c; now split|].
  destruct (forallb _ _); [|injection E as <-; exists c; now split]. destruct (view_of_axis _ _); injection E as <-; [|exists c; now split].
  eexists. split; [reflexivity|]. split; [rewrite Ec; reflexivity|]. intros ax'. cbn [set_zones b_zones]. rewrite !on_set_axis. destruct (Axis3_eq_dec ax ax') as [<-|]; [|apply Ez].
  rewrite !map_app, Ez. reflexivity.
Qed.
Lemma for_each_params {A} (f h : board -> A -> run board) L : (forall x b c b', same_zones b c -> f b x = Done b' -> exists c', h c x = Done c' /\ same_zones b' c') ->
  forall b c b', same_zones b c -> for_each f L b = Done b' -> exists c', for_each h L c = Done c' /\ same_zones b' c'.
Proof.
  intros H. induction L as [|x L IH]; intros b c b' Z E; cbn in E |- *; [injection E as <-; now exists c|].
  destruct (f b x) as [b1| |] eqn:F; try discriminate. cbn [bind] in E. destruct (H x b c b1 Z F) as (c1 & F' & Z1). rewrite F'. cbn [bind]. now apply (IH b1).
Qed.
Lemma zones_view_params g d g' d' srt p v b c l b' r : same_zones b c -> detect_zones_view g d srt p (b, l) v = Done (b', r) ->
  exists c', detect_zones_view g' d' srt p (c, l) v = Done (c', r) /\ same_zones b' c'.
Proof.
  intros Z E. unfold detect_zones_view in *. assert (Ed : b_edges c = b_edges b) by (destruct Z as [-> _]; reflexivity). rewrite Ed.
  destruct (for_each _ _ b) as [b1| |] eqn:F; try discriminate. cbn [bind] in E. injection E as <- <-.
  destruct (for_each_params _ (add_diagonal_zone g' d' srt (axes_table p v)) _ (fun x b c b' => add_zone_params g d g' d' srt (axes_table p v) x b c b') b c b1 Z F) as (c1 & F' & Z1).
  rewrite F'. cbn [bind]. now exists c1.
Qed.
Lemma zones_params g d g' d' srt b c b' : same_zones b c -> for_each (detect_diagonal_zones g d srt) all_planes b = Done b' ->
  exists c', for_each (detect_diagonal_zones g' d' srt) all_planes c = Done c' /\ same_zones b' c'.
Proof.
  apply for_each_params. clear. intros p b c b' Z E. unfold detect_diagonal_zones in *. assert (A : b_angles c = b_angles b) by (destruct Z as [-> _]; reflexivity). rewrite A. cbn [for_each] in *.
  destruct (detect_zones_view g d srt p (b, _) VH) as [[b1 r]| |] eqn:E1; cbn [bind] in E; try discriminate. destruct (zones_view_params g d g' d' srt p VH b c _ b1 r Z E1) as (c1 & F1 & Z1). rewrite F1. cbn [bind].
  destruct (detect_zones_view g d srt p (b1, r) VV) as [[b2 r']| |] eqn:E2; cbn [bind] in E; try discriminate. destruct (zones_view_params g d g' d' srt p VV b1 c1 _ b2 r' Z1 E2) as (c2 & F2 & Z2). rewrite F2. cbn [bind].
  injection E as <-. now exists c2.
Qed.
Lemma zoned_same b c pl j v : same_zones b c -> zoned_at (b_zones b) pl j v -> zoned_at (b_zones c) pl j v.
Proof.
  intros [_ Z] (ax & p & z & P & V & I & J). apply (in_map dz_angles) in I. rewrite <- Z in I. apply in_map_iff in I. destruct I as (z' & E & I'). exists ax, p, z'. rewrite E. auto.
Qed.
Lemma same_zones_sym b c : same_zones b c -> same_zones c b.
Proof. intros [E Z]. split; [|intros ax; now rewrite Z]. rewrite E. now destruct b. Qed.

(** * Sessions *)

Section Sessions.
Context (tl : tools).
(** The board when zones are looked for, and the zones found. *)
Context (b2 : board) (zones : space (list diag_zone)).
Notation W := (zoned_at zones (planes (b_angles b2))).
Notation play := (play tl).

Definition inside (b : board) : Prop := forall j v, zoned_at (b_zones b) (planes (b_angles b2)) j v -> W j v.
Definition after (s : Step) : bool := match s with ADJUST_EDGE_TO_MATERIAL | DETECT_DIAG_ANGLES | DETECT_DIAG_ZONES => false | _ => true end.

Record tidy (ss : session) : Prop := mk_tidy {
  td_inside : inside (ss_board ss);
  td_angles : same_at W (b_angles b2) (b_angles (ss_board ss));
  td_past : exists newer c x older, leave ss = newer ++ (DETECT_DIAG_ZONES, (c, x)) :: older
    /\ Forall (fun e => after (fst e) = true /\ inside (fst (snd e))) newer /\ Forall (fun e => after (fst e) = false) older /\ set_angles c [] = set_angles b2 [];
}.

Lemma same_planes D l l' : same_at D l l' -> forall j, planes l' j = planes l j.
Proof.
  intros H j. unfold planes. destruct (nth_error l j) as [a|] eqn:E.
  - destruct (same_nth H E) as (a' & E' & B & _). rewrite E'. cbn. now rewrite (bare_plane _ _ B).
  - apply nth_error_None in E. rewrite (proj1 H) in E. apply nth_error_None in E. now rewrite E.
Qed.
Lemma inside_zones b b' : b_zones b' = b_zones b -> inside b -> inside b'.
Proof. intros E H j v. rewrite E. apply H. Qed.

Lemma update_angle_at b i f b' l0 : same_at W l0 (b_angles b) -> (forall a, nth_error (b_angles b) i = Some a -> bare (f a) = bare a /\ forall v, ~ W i v -> a_to_mesh (f a) v = a_to_mesh a v) ->
  update_angle b i f = Done b' -> same_at W l0 (b_angles b').
Proof.
  intros H F E. unfold update_angle in E. destruct (read (b_angles b) i) as [a| |] eqn:R; try discriminate. cbn [bind] in E. apply read_done in R.
  destruct (write (b_angles b) i (f a)) as [l| |] eqn:Wr; try discriminate. cbn [bind] in E. injection E as <-. cbn. destruct (write_nth _ _ _ _ Wr) as [L N].
  apply (same_at_trans _ _ _ _ H). split; [now symmetry|]. intros j x x' X. rewrite N. destruct (Nat.eqb_spec j i) as [->|].
  - intros [= <-]. rewrite R in X. injection X as <-. destruct (F a R) as [B Fl]. split; [now symmetry|]. intros v Nv. symmetry. now apply Fl.
  - intros X'. rewrite X in X'. injection X' as <-. now split.
Qed.

(** Solving only touches angles of zones. *)
Lemma solve_inside d b b' : inside b -> same_at W (b_angles b2) (b_angles b) -> for_each (solve_diagonal_angles d) all_axes b = Done b' -> same_at W (b_angles b2) (b_angles b').
Proof.
  intros I H E. assert (G : same_at W (b_angles b2) (b_angles b') /\ b_zones b' = b_zones b); [|apply G].
  assert (One : forall ax f i c c', (exists z, In z (on_axis (b_zones b) ax) /\ In i (dz_angles z)) -> same_at W (b_angles b2) (b_angles c) /\ b_zones c = b_zones b -> solve_angle ax f c i = Done c' ->
    same_at W (b_angles b2) (b_angles c') /\ b_zones c' = b_zones b).
  { intros ax f i c c' (z & Iz & Ii) [Hc Zc] Ec. unfold solve_angle in Ec. destruct (read (b_angles c) i) as [a| |] eqn:R; try discriminate. cbn [bind] in Ec. apply read_done in R.
    destruct (view_of_axis (a_plane a) ax) as [v|] eqn:V; [|injection Ec as <-; now split]. split.
    - refine (update_angle_at _ _ _ _ _ Hc _ Ec). intros x X. rewrite R in X. injection X as <-. split; [apply bare_mesh|]. intros w Nw. rewrite mesh_mesh. destruct (same_view v w) eqn:Q; [|reflexivity].
      exfalso. apply Nw. apply I. exists ax, (a_plane a), z. split; [|repeat split; try assumption; destruct v, w; try discriminate; exact V].
      rewrite <- (same_planes _ _ _ Hc i). unfold planes. now rewrite R.
    - destruct (update_angle_planes _ _ _ _ (plane_mesh v (f a)) Ec) as [_ Z]. congruence. }
  assert (Loop : forall ax f L c c', (forall i, In i L -> exists z, In z (on_axis (b_zones b) ax) /\ In i (dz_angles z)) -> same_at W (b_angles b2) (b_angles c) /\ b_zones c = b_zones b ->
    for_each (solve_angle ax f) L c = Done c' -> same_at W (b_angles b2) (b_angles c') /\ b_zones c' = b_zones b).
  { intros ax f L. induction L as [|i L IH]; intros c c' K P Ec; cbn in Ec; [now injection Ec as <-|].
    destruct (solve_angle ax f c i) as [c1| |] eqn:S1; try discriminate. cbn [bind] in Ec. refine (IH c1 c' _ _ Ec); [intros x X; apply K; now right|].
    refine (One ax f i c c1 _ P S1). apply K. now left. }
  assert (Axis : forall d ax L c c', incl L (on_axis (b_zones b) ax) -> same_at W (b_angles b2) (b_angles c) /\ b_zones c = b_zones b ->
    for_each (solve_zone_angles d ax) L c = Done c' -> same_at W (b_angles b2) (b_angles c') /\ b_zones c' = b_zones b).
  { clear d E. intros d ax L. induction L as [|z L IH]; intros c c' K P Ec; cbn in Ec; [now injection Ec as <-|].
    destruct (solve_zone_angles d ax c z) as [c1| |] eqn:S1; try discriminate. cbn [bind] in Ec. refine (IH c1 c' _ _ Ec); [intros x X; apply K; now right|].
    assert (Iz : In z (on_axis (b_zones b) ax)) by (apply K; now left). unfold solve_zone_angles in S1. destruct (dz_angles z) as [|first r] eqn:Zz; try discriminate.
    destruct (for_each _ [first; _] c) as [c0| |] eqn:S0; try discriminate. cbn [bind] in S1.
    assert (Last : In (last (first :: r) first) (dz_angles z)). { rewrite Zz. destruct (exists_last (l := first :: r)) as (l' & x & El); [discriminate|]. rewrite El, last_last. apply in_or_app. right. now left. }
    refine (Loop ax _ _ c0 c1 _ _ S1).
    - intros i Ii. exists z. split; [assumption|]. rewrite Zz. right. destruct r as [|y r]; [destruct Ii|]. rewrite (app_removelast_last first (l := y :: r)) by discriminate. apply in_or_app. now left.
    - refine (Loop ax _ _ c c0 _ P S0). intros i [<-|[<-|[]]]; exists z; (split; [assumption|]); [rewrite Zz; now left|exact Last]. }
  assert (All : forall L c c', same_at W (b_angles b2) (b_angles c) /\ b_zones c = b_zones b -> for_each (solve_diagonal_angles d) L c = Done c' -> same_at W (b_angles b2) (b_angles c') /\ b_zones c' = b_zones b).
  { intros L. induction L as [|ax L IH]; intros c c' P Ec; cbn in Ec; [now injection Ec as <-|].
    destruct (solve_diagonal_angles d c ax) as [c1| |] eqn:S1; try discriminate. cbn [bind] in Ec. refine (IH c1 c' _ Ec). unfold solve_diagonal_angles in S1.
    refine (Axis d ax _ c c1 _ P S1). rewrite (proj2 P). apply incl_refl. }
  exact (All _ b b' (conj H eq_refl) E).
Qed.
Lemma individual_inside g b b' : same_at W (b_angles b2) (b_angles b) -> for_each (detect_individual_edges g) all_planes b = Done b' -> same_at W (b_angles b2) (b_angles b').
Proof.
  assert (G : forall (A : Type) (f : board -> A -> run board) L, (forall x c c', f c x = Done c' -> same_at W (b_angles b2) (b_angles c) -> same_at W (b_angles b2) (b_angles c')) ->
    forall c c', for_each f L c = Done c' -> same_at W (b_angles b2) (b_angles c) -> same_at W (b_angles b2) (b_angles c')).
  { intros A f L H. induction L as [|x L IH]; intros c c' E; cbn in E; [now injection E as <-|]. destruct (f c x) as [c1| |] eqn:F; try discriminate. cbn [bind] in E. intros K. eapply IH; [exact E|]. eapply H; eassumption. }
  intros H E. revert E H. apply G. clear b b'. intros p b b' E. unfold detect_individual_edges in E. destruct (for_each (individual_edge g p) _ b) as [b1| |] eqn:F; try discriminate. cbn [bind] in E. intros H.
  refine (G _ _ _ _ b1 b' E _).
  - clear - G. intros i b b'. apply G. clear b b'. intros v b b' E H. unfold individual_angle_axis in E. destruct (read (b_angles b) i) as [a| |]; try discriminate. cbn [bind] in E.
    destruct (add_meshline_policy _ _ _ _ _ _) as [y ad]. refine (update_angle_at (set_axes b (set_axis (b_axes b) (axes_table p v) y)) i _ b' _ H _ E). intros x _. now split.
  - refine (G _ _ _ _ b b1 F H). clear. intros i b b' E. enough (b_angles b' = b_angles b) as -> by trivial. unfold individual_edge in E.
    destruct (read (b_edges b) i) as [e| |]; try discriminate. cbn [bind] in E. destruct (seg_coord _ _); [|now injection E as <-]. destruct (axis_of_seg _ _); [|now injection E as <-].
    destruct (_ && _); [|now injection E as <-]. destruct (add_meshline_policy _ _ _ _ _ _). unfold update_edge in E. break E. reflexivity.
Qed.

Lemma do_step_tidy x s b b' : after s = true -> inside b -> same_at W (b_angles b2) (b_angles b) -> do_step tl x s b = Done b' -> inside b' /\ same_at W (b_angles b2) (b_angles b').
Proof.
  intros A I H E. pose proof (do_step_only _ _ _ _ _ E) as [_ O]. split.
  - apply (inside_zones b); [|assumption]. apply (O FZones). destruct s; try discriminate A; reflexivity.
  - destruct (written s FAngles) eqn:Wr.
    + destruct s; try discriminate; cbn [do_step] in E; [now apply (solve_inside (st_diag x) b b')|now apply (individual_inside (st_params x) b b')].
    + specialize (O FAngles Wr). cbn in O. now rewrite O.
Qed.

Lemma run_step_leave s ss ss' : run_step tl s ss = Done ss' -> leave ss' = leave ss \/ leave ss' = (s, (ss_board ss, ss_settings ss)) :: leave ss.
Proof.
  intros E. apply run_step_done in E. destruct E as (_ & X & H). unfold leave, mark in *. destruct H as [(_ & B & -> & ->)|(_ & -> & ->)]; destruct (ss_here ss); try rewrite B, X; auto.
Qed.
Lemma run_step_tidy s ss ss' : after s = true -> run_step tl s ss = Done ss' -> tidy ss -> tidy ss'.
Proof.
  intros A E [I H P]. pose proof (run_step_done _ _ _ _ E) as (D & _ & _). destruct (do_step_tidy _ _ _ _ A I H D) as [I' H']. constructor; try assumption.
  destruct P as (newer & c & x & older & L & N & O & Z). destruct (run_step_leave _ _ _ E) as [-> | ->]; [now exists newer, c, x, older|].
  exists ((s, (ss_board ss, ss_settings ss)) :: newer), c, x, older. rewrite L. repeat split; try assumption. constructor; [|assumption]. now split.
Qed.
Lemma run_list_tidy l : forallb after l = true -> forall ss ss', run_list tl l ss = Done ss' -> tidy ss -> tidy ss'.
Proof.
  induction l as [|s l IH]; cbn; intros A ss ss' E T; [now injection E as <-|]. apply andb_true_iff in A. destruct A as [A1 A2].
  destruct (run_step tl s ss) as [s1| |] eqn:R; try discriminate. cbn [bind] in E. eapply IH; [assumption|exact E|]. eapply run_step_tidy; eassumption.
Qed.
Lemma run_to_mesh s ss ss' : run_list tl (that_and_after s) ss = Done ss' -> ss_here ss' = None.
Proof.
  assert (exists l, that_and_after s = l ++ [MESH]) as [l ->]. { exists (removelast (that_and_after s)). now destruct s. }
  intros E. destruct (run_list_split _ _ _ _ _ E) as (s1 & _ & E2). apply run_list_one in E2. apply run_step_done in E2. destruct E2 as (_ & _ & [(C & _)|(_ & -> & _)]); [discriminate C|reflexivity].
Qed.

(** Going back to a step after the detection of zones. *)
Lemma find_after s newer older c x : after s = true -> Forall (fun e => after (fst e) = false) older ->
  match find_before s (newer ++ (DETECT_DIAG_ZONES, (c, x)) :: older) with
  | Some (b, y, r) => exists n2, In (s, (b, y)) newer /\ r = n2 ++ (DETECT_DIAG_ZONES, (c, x)) :: older /\ incl n2 newer
  | None => True
  end.
Proof.
  intros A O. induction newer as [|[t [b y]] newer IH]; cbn [app find_before].
  - destruct (Step_eqb DETECT_DIAG_ZONES s) eqn:T; [unfold Step_eqb in T; destruct (AppModel.Step_eq_dec _ s) as [<-|]; discriminate|].
    destruct (find_before s older) as [[[b y] r]|] eqn:F; [|exact Logic.I]. destruct (find_before_in _ _ _ _ _ F) as [I _]. rewrite Forall_forall in O. specialize (O _ I). cbn in O. congruence.
  - destruct (Step_eqb t s) eqn:T.
    + unfold Step_eqb in T. destruct (AppModel.Step_eq_dec t s) as [->|]; [|discriminate]. exists newer. split; [now left|]. split; [reflexivity|]. intros e I. now right.
    + destruct (find_before s _) as [[[b' y'] r]|]; [|exact Logic.I]. destruct IH as (n2 & I & E & Ic). exists n2. split; [now right|]. split; [assumption|]. intros e Ie. right. now apply Ic.
Qed.
Lemma in_kept {A} (before now : list A) x : In x (kept before now) -> In x before \/ In x now.
Proof. revert now. induction before as [|y l IH]; intros [|z now]; cbn; auto. intros [->|I]; [auto|]. destruct (IH _ I); auto. Qed.
Lemma revert_inside b now : inside b -> inside now -> inside (revert tl b now).
Proof.
  intros B N j v (ax & p & z & P & V & I & J).
  assert (K : In z (kept (on_axis (b_zones b) ax) (on_axis (b_zones now) ax))) by (destruct ax; exact I).
  destruct (in_kept _ _ _ K) as [K1|K1]; [apply B|apply N]; now exists ax, p, z.
Qed.
Lemma go_before_tidy s ss : after s = true -> ss_here ss = None -> tidy ss -> tidy (go_before tl s ss).
Proof.
  intros A H0 [I H (newer & c & x & older & L & N & O & Z)]. unfold go_before. unfold leave in L. rewrite H0 in L. rewrite L. pose proof (find_after s newer older c x A O) as F.
  destruct (find_before s _) as [[[b y] r]|]; [|constructor; try assumption; exists newer, c, x, older; unfold leave; rewrite H0; now repeat split].
  destruct F as (n2 & In1 & -> & Ic). rewrite Forall_forall in N. destruct (N _ In1) as [_ Ib]. cbn in Ib. constructor; cbn [ss_board].
  - now apply revert_inside.
  - exact H.
  - unfold leave. cbn [ss_here ss_board ss_settings ss_past]. exists ((s, (revert tl b (ss_board ss), y)) :: n2), c, x, older. split; [reflexivity|]. split; [|now split].
    constructor; [split; [assumption|now apply revert_inside]|]. apply Forall_forall. intros e Ie. apply N. now apply Ic.
Qed.
Lemma next_state_tidy b x ss : inside b -> same_at W (b_angles b2) (b_angles b) -> tidy ss -> tidy (next_state b x ss).
Proof. intros I H [_ _ P]. constructor; assumption. Qed.
Lemma go_before_angles s ss : b_angles (ss_board (go_before tl s ss)) = b_angles (ss_board ss).
Proof. unfold go_before. now destruct (find_before s (ss_past ss)) as [[[b x] r]|]. Qed.
Lemma edit_from_tidy s f ss ss' : after s = true -> ss_here ss = None ->
  (forall b b', b_angles b = b_angles (ss_board ss) -> inside b -> f b = Done b' -> inside b' /\ (b_angles b' = b_angles b \/ same_at W (b_angles b2) (b_angles b'))) -> edit_from tl s (edit_board f) ss = Done ss' ->
  tidy ss -> tidy ss' /\ ss_here ss' = None.
Proof.
  intros A H0 F E T. unfold edit_from in E. pose proof (go_before_angles s ss) as Ga. apply (go_before_tidy s ss A H0) in T. set (s0 := go_before tl s ss) in *. unfold edit_board in E.
  destruct (f (ss_board s0)) as [b| |] eqn:Fb; try discriminate. cbn [bind] in E. split; [|exact (run_to_mesh _ _ _ E)].
  assert (G : forallb after (that_and_after s) = true) by (destruct s; try discriminate A; reflexivity). refine (run_list_tidy _ G _ _ E _).
  destruct (F _ _ Ga (td_inside _ T) Fb) as [I' Ea]. apply next_state_tidy; try assumption. destruct Ea as [->|Ea]; [apply (td_angles _ T)|assumption].
Qed.

(** The detection of zones done again. *)
Context (Nat_ : natural (tl_sort_by tl)).
Context (No_zones : b_zones b2 = mk_space [] [] []) (No_policies : forall ax, ax_policies (on_axis (b_axes b2) ax) = []).
Context (x0 : settings) (b3 : board) (Found : do_step tl x0 DETECT_DIAG_ZONES b2 = Done b3) (Zones : b_zones b3 = zones).

Lemma found_again x l b' : same_at W (b_angles b2) l -> do_step tl x DETECT_DIAG_ZONES (set_angles b2 l) = Done b' ->
  b_angles b' = l /\ forall j v, zoned_at (b_zones b') (planes (b_angles b2)) j v <-> W j v.
Proof.
  intros H E. pose proof (do_step_only _ _ _ _ _ E) as [_ O]. pose proof (O FAngles eq_refl) as Ea. cbn in Ea. split; [assumption|]. cbn [do_step] in E, Found.
  destruct (zones_alike W _ _ _ Nat_ _ _ _ (same_board_sym _ _ _ (same_board_of W b2 l H)) E) as (c & Ec & Sc).
  destruct (zones_params _ _ (st_params x0) (st_diag x0) _ _ _ _ (same_zones_refl b2) Ec) as (c0 & Ec0 & Sz). rewrite Found in Ec0. injection Ec0 as <-.
  assert (b_zones c = b_zones b') as Zc by (destruct Sc as [-> _]; reflexivity). intros j v. rewrite <- Zc, <- Zones. split; apply zoned_same; [assumption|now apply same_zones_sym].
Qed.

Lemma revert_b2 c now : set_angles c [] = set_angles b2 [] -> revert tl c now = set_angles b2 (b_angles now).
Proof.
  intros E. assert (c = set_angles b2 (b_angles c)) as -> by (destruct c, b2; unfold set_angles in *; cbn in *; congruence).
  unfold revert. cbn [set_angles b_axes b_zones]. rewrite No_zones. cbn [on_axis sp_0 sp_1 sp_2 kept].
  assert (G : forall ax a n, revert_axis (on_axis (b_axes b2) ax) a n = on_axis (b_axes b2) ax).
  { intros ax a n. unfold revert_axis. rewrite No_policies, firstn_nil, skipn_nil. cbn [kept app]. specialize (No_policies ax). destruct (on_axis (b_axes b2) ax). cbn in *. now rewrite No_policies. }
  pose proof (G AX) as GX. pose proof (G AY) as GY. pose proof (G AZ) as GZ. cbn [on_axis] in GX, GY, GZ. rewrite GX, GY, GZ. unfold set_axes, set_zones, set_angles. cbn. rewrite No_zones. destruct (b_axes b2). reflexivity.
Qed.

Lemma back_to_zones ss : ss_here ss = None -> tidy ss -> exists x older, go_before tl DETECT_DIAG_ZONES ss
  = mk_session (set_angles b2 (b_angles (ss_board ss))) x (Some DETECT_DIAG_ZONES) older /\ Forall (fun e => after (fst e) = false) older.
Proof.
  intros H0 [I H (newer & c & x & older & L & N & O & Z)]. unfold go_before. unfold leave in L. rewrite H0 in L. rewrite L.
  assert (F : find_before DETECT_DIAG_ZONES (newer ++ (DETECT_DIAG_ZONES, (c, x)) :: older) = Some (c, x, older)).
  { clear L. induction N as [|[t y] newer [At _] N IH]; cbn; [reflexivity|]. cbn in At. destruct (Step_eqb t DETECT_DIAG_ZONES) eqn:T; [|exact IH].
    unfold Step_eqb in T. destruct (AppModel.Step_eq_dec t DETECT_DIAG_ZONES) as [->|]; discriminate. }
  rewrite F. exists x, older. split; [|assumption]. now rewrite (revert_b2 _ _ Z).
Qed.

Lemma global_tidy x ss ss' : ss_here ss = None -> edit_global tl x ss = Done ss' -> tidy ss -> tidy ss' /\ ss_here ss' = None.
Proof.
  intros H0 E T. unfold edit_global, edit_from in E. cbn [bind] in E. split; [|exact (run_to_mesh _ _ _ E)]. destruct (back_to_zones ss H0 T) as (y & older & G & O). rewrite G in E. cbn [ss_board] in E.
  set (l := b_angles (ss_board ss)) in *. change (that_and_after DETECT_DIAG_ZONES) with ([DETECT_DIAG_ZONES] ++ that_and_after SOLVE_DIAG_ZONES_ANGLES) in E.
  destruct (run_list_split _ _ _ _ _ E) as (s1 & E1 & E2). apply run_list_one in E1. refine (run_list_tidy (that_and_after SOLVE_DIAG_ZONES_ANGLES) eq_refl _ _ E2 _). clear E E2.
  pose proof (run_step_done _ _ _ _ E1) as (D & X & M). cbn [next_state ss_board ss_settings ss_here ss_past mark leave] in *. destruct (found_again _ _ _ (td_angles _ T) D) as [Ea Ez]. constructor.
  - intros j v. apply Ez.
  - rewrite Ea. apply (td_angles _ T).
  - exists [], (set_angles b2 l), x, ((DETECT_DIAG_ZONES, (set_angles b2 l, y)) :: older). split; [|repeat split; [constructor|now constructor]].
    unfold leave. unfold mark in M. cbn [next_state ss_here] in M. destruct M as [(_ & B & -> & ->)|(_ & -> & ->)]; [rewrite B, X|]; reflexivity.
Qed.

Definition all_zoned : Prop := forall j v, (j < length (b_angles b2))%nat -> W j v.
Lemma edit_tidy d ss ss' : not_angle d = true \/ all_zoned -> ss_here ss = None -> edit tl d ss = Done ss' -> tidy ss -> tidy ss' /\ ss_here ss' = None.
Proof.
  intros Na H0 E T. destruct d; cbn [edit] in E.
  - unfold edit_edge in E. destruct (read _ i) as [e| |]; try discriminate. cbn [bind] in E. refine (edit_from_tidy _ _ _ _ _ H0 _ E T); [reflexivity|].
    intros b b' Eb I F. unfold write_edge in F. break F. auto.
  - destruct Na as [Na|Na]; [discriminate Na|].
    unfold edit_angle in E. destruct (read _ i) as [a| |] eqn:R; try discriminate. cbn [bind] in E. apply read_done in R. refine (edit_from_tidy _ _ _ _ _ H0 _ E T); [reflexivity|].
    intros b b' Eb I F. unfold write_angle in F. destruct (write _ i _) as [l| |] eqn:Wr; try discriminate. injection F as <-. split; [exact I|right]. cbn.
    rewrite Eb in Wr. destruct (write_nth _ _ _ _ Wr) as [L N]. apply (same_at_trans _ _ _ _ (td_angles _ T)). split; [now symmetry|]. intros j y y' Y. rewrite N.
    destruct (Nat.eqb_spec j i) as [->|].
    + rewrite R in Y. injection Y as <-. intros [= <-]. split; [reflexivity|]. intros w Nw. exfalso. apply Nw. apply Na. rewrite (proj1 (td_angles _ T)). apply nth_error_Some. congruence.
    + intros Y'. rewrite Y in Y'. injection Y' as <-. now split.
  - unfold edit_policy in E. destruct (inconsistent policy normal); [injection E as <-; now split|]. refine (edit_from_tidy _ _ _ _ _ H0 _ E T); [reflexivity|].
    intros b b' Eb I F. unfold on_one_axis in F. destruct (ManagerModel.edit_policy _ _ _ _ _ _) as [y| |]; try discriminate. injection F as <-. auto.
  - unfold edit_interval in E. refine (edit_from_tidy _ _ _ _ _ H0 _ E T); [reflexivity|].
    intros b b' Eb I F. unfold on_one_axis in F. destruct (ManagerModel.edit_interval _ _ _ _ _ _ _) as [y| |]; try discriminate. injection F as <-. auto.
  - unfold edit_too_close in E. refine (edit_from_tidy _ _ _ _ _ H0 _ E T); [reflexivity|]. intros b b' Eb I F. injection F as <-. auto.
  - unfold edit_zone in E. destruct (read _ i) as [z| |] eqn:R; try discriminate. cbn [bind] in E. refine (edit_from_tidy _ _ _ _ _ H0 _ E T); [now destruct (Qeq_bool _ _)|].
    intros b b' Eb I F. destruct (write _ i _) as [l| |] eqn:Wr; try discriminate. injection F as <-. split; [|now left].
    intros j v (a & p & y & P & V & J & K). cbn [set_zones b_zones] in J. rewrite on_set_axis in J. destruct (Axis3_eq_dec ax a) as [<-|]; [|apply I; now exists a, p, y].
    apply In_nth_error in J. destruct J as [n J]. destruct (write_nth _ _ _ _ Wr) as [_ Wn]. rewrite Wn in J. destruct (n =? i)%nat.
    + injection J as <-. cbn in K. apply (td_inside _ T). exists ax, p, z. repeat split; try assumption. exact (read_some _ _ _ R).
    + apply I. exists ax, p, y. repeat split; try assumption. now apply nth_error_In in J.
  - exact (global_tidy _ _ _ H0 E T).
Qed.
Lemma edits_tidy l : forallb not_angle l = true \/ all_zoned -> forall ss ss', ss_here ss = None -> edits tl l ss = Done ss' -> tidy ss -> tidy ss' /\ ss_here ss' = None.
Proof.
  induction l as [|d l IH]; cbn; intros Na ss ss' H0 E T; [injection E as <-; now split|]. 
  assert (N1 : not_angle d = true \/ all_zoned) by (destruct Na as [Na|Na]; [left; now apply andb_true_iff in Na|now right]).
  assert (N2 : forallb not_angle l = true \/ all_zoned) by (destruct Na as [Na|Na]; [left; now apply andb_true_iff in Na|now right]).
  destruct (edit tl d ss) as [s1| |] eqn:F; try discriminate. cbn [bind] in E. destruct (edit_tidy d ss s1 N1 H0 F T) as [T1 H1]. exact (IH N2 s1 ss' H1 E T1).
Qed.

(** From the detection of zones on, the flags of the angles in zones do not matter. *)
Lemma play_alike x l : Forall (fun s => angle_step s = false \/ s = DETECT_INDIVIDUAL_EDGES \/ s = SOLVE_DIAG_ZONES_INTERVALS) l -> alike none none (play x l).
Proof. intros F. apply alike_for_each. intros s I. apply do_step_alike. rewrite Forall_forall in F. now apply F. Qed.
Lemma zones_on x b c b' : same_board W b c -> (b = b2 \/ c = b2) -> play x (that_and_after DETECT_DIAG_ZONES) b = Done b' ->
  exists c', play x (that_and_after DETECT_DIAG_ZONES) c = Done c' /\ same_board none b' c'.
Proof.
  intros S B2 E. change (that_and_after DETECT_DIAG_ZONES) with (DETECT_DIAG_ZONES :: SOLVE_DIAG_ZONES_ANGLES :: that_and_after DETECT_CONFLICT_EIP) in *. unfold EditProofs.play in *. cbn [for_each] in *.
  destruct (do_step tl x DETECT_DIAG_ZONES b) as [b4| |] eqn:E4; try discriminate. cbn [bind] in E.
  destruct (zones_alike W _ _ _ Nat_ _ _ _ S E4) as (c4 & F4 & S4). change (do_step tl x DETECT_DIAG_ZONES c = Done c4) in F4. rewrite F4. cbn [bind].
  destruct (do_step tl x SOLVE_DIAG_ZONES_ANGLES b4) as [b5| |] eqn:E5; try discriminate. cbn [bind] in E. cbn [do_step] in E5.
  destruct (solve_angles_same (st_diag x) b4 c4 b5 W S4) as (c5 & F5 & S5); [|exact E5|].
  - intros j v Wj. assert (Sb : same_at W (b_angles b2) (b_angles b)). { destruct B2 as [-> | ->]; [apply same_at_refl|apply same_at_sym; apply S]. }
    assert (Eb : b = set_angles b2 (b_angles b)). { destruct B2 as [-> | E2]; [symmetry; apply set_angles_id|]. destruct S as [Ec _]. rewrite E2 in Ec. rewrite Ec. now destruct b. }
    rewrite Eb in E4. destruct (found_again _ _ _ Sb E4) as [Ea Ez]. destruct (proj2 (Ez j v) Wj) as (ax & p & z & P & R). exists ax, p, z. split; [|exact R]. rewrite Ea, (same_planes _ _ _ Sb). exact P.
  - change (do_step tl x SOLVE_DIAG_ZONES_ANGLES c4 = Done c5) in F5. rewrite F5. cbn [bind]. refine (play_alike x _ _ b5 c5 b' S5 E). apply Forall_forall. intros s I. cbn in I. repeat (destruct I as [<-|I]; [cbn; auto|]). destruct I.
Qed.
End Sessions.

(** * The theorem *)

Lemma early_settings tl x x' s b : s = ADJUST_EDGE_TO_MATERIAL \/ s = DETECT_DIAG_ANGLES -> do_step tl x s b = do_step tl x' s b.
Proof. intros [-> | ->]; reflexivity. Qed.

Lemma opened_tidy tl b x ss : natural (tl_sort_by tl) -> built b -> opened tl b x ss -> exists b2 b3,
  play tl x [ADJUST_EDGE_TO_MATERIAL; DETECT_DIAG_ANGLES] b = Done b2 /\ b_zones b2 = mk_space [] [] [] /\ (forall ax, ax_policies (on_axis (b_axes b2) ax) = [])
  /\ do_step tl x DETECT_DIAG_ZONES b2 = Done b3 /\ tidy b2 (b_zones b3) ss /\ ss_here ss = None.
Proof.
  intros Na Bu O. unfold opened, run_all_steps in O. pose proof (run_to_mesh _ _ _ _ O) as H0.
  change (that_and_after ADJUST_EDGE_TO_MATERIAL) with ([ADJUST_EDGE_TO_MATERIAL; DETECT_DIAG_ANGLES] ++ [DETECT_DIAG_ZONES] ++ that_and_after SOLVE_DIAG_ZONES_ANGLES) in O.
  destruct (run_list_split _ _ _ _ _ O) as (s2 & E2 & O2). destruct (run_list_split _ _ _ _ _ O2) as (s3 & E3 & O3). apply run_list_one in E3.
  pose proof (run_list_board _ _ _ _ E2) as [P2 X2]. cbn [loaded ss_settings ss_board] in P2, X2. pose proof (run_step_done _ _ _ _ E3) as (D3 & X3 & M3). rewrite X2 in D3.
  exists (ss_board s2), (ss_board s3). split; [assumption|].
  assert (S2 : exists s1, run_step tl DETECT_DIAG_ANGLES s1 = Done s2 /\ do_step tl x ADJUST_EDGE_TO_MATERIAL b = Done (ss_board s1)).
  { cbn [run_list] in E2. destruct (run_step tl ADJUST_EDGE_TO_MATERIAL (loaded b x)) as [s1| |] eqn:R; try discriminate. cbn [bind] in E2. exists s1. split.
    - destruct (run_step tl DETECT_DIAG_ANGLES s1); try discriminate. exact E2.
    - now apply run_step_done in R. }
  destruct S2 as (s1 & R2 & D1). pose proof (run_step_done _ _ _ _ R2) as (D2 & _ & [(C & _)|(_ & Hn & _)]); [discriminate C|].
  destruct (built_sound b Bu) as [_ _ _ _ (_ & _ & _ & Zb & Ab)]. pose proof (do_step_only _ _ _ _ _ D1) as [_ O1]. pose proof (do_step_only _ _ _ _ _ D2) as [_ Oo].
  assert (Z2 : b_zones (ss_board s2) = mk_space [] [] []). { pose proof (O1 FZones eq_refl) as A1. pose proof (Oo FZones eq_refl) as A2. cbn in A1, A2. congruence. }
  assert (A2 : b_axes (ss_board s2) = b_axes b). { pose proof (O1 FAxes eq_refl) as A1. pose proof (Oo FAxes eq_refl) as A2. cbn in A1, A2. congruence. }
  split; [assumption|]. split; [intros ax; rewrite A2, Ab; now destruct ax|]. split; [assumption|]. split; [|assumption].
  refine (run_list_tidy tl (ss_board s2) (b_zones (ss_board s3)) (that_and_after SOLVE_DIAG_ZONES_ANGLES) eq_refl _ _ O3 _).
  pose proof (do_step_only _ _ _ _ _ D3) as [_ O3']. pose proof (O3' FAngles eq_refl) as A3. cbn in A3. constructor.
  - intros j v. trivial.
  - rewrite A3. apply same_at_refl.
  - exists [], (ss_board s2), x, (ss_past s2). split; [|split; [constructor|split; [|reflexivity]]].
    + unfold leave. unfold mark in M3. rewrite Hn in M3. destruct M3 as [(_ & B & -> & ->)|(_ & -> & ->)]; [rewrite B, X3|]; rewrite X2; reflexivity.
    + destruct (run_list_labels _ _ _ _ E2) as [La _]. apply Forall_forall. intros [t y] I. apply (in_map fst) in I. destruct (La t I) as [[]|[K|[<-|[<-|[]]]]]; [discriminate K|reflexivity|reflexivity].
Qed.

Theorem global_reopens tl b x ss l ss1 x' : natural (tl_sort_by tl) -> built b -> opened tl b x ss -> (forallb not_angle l = true
  \/ forall b2 b3, play tl x [ADJUST_EDGE_TO_MATERIAL; DETECT_DIAG_ANGLES] b = Done b2 -> do_step tl x DETECT_DIAG_ZONES b2 = Done b3 -> all_zoned b2 (b_zones b3)) -> edits tl l ss = Done ss1 ->
  (forall ss', edit tl (DGlobal x') ss1 = Done ss' -> exists ss0, opened tl b x' ss0 /\ same_board none (ss_board ss0) (ss_board ss'))
  /\ (forall ss0, opened tl b x' ss0 -> exists ss', edit tl (DGlobal x') ss1 = Done ss' /\ same_board none (ss_board ss0) (ss_board ss')).
Proof.
  intros Na Bu O Nl E. destruct (opened_tidy tl b x ss Na Bu O) as (b2 & b3 & P2 & Z2 & Q2 & D3 & T & H0).
  assert (Nl' : forallb not_angle l = true \/ all_zoned b2 (b_zones b3)) by (destruct Nl as [Nl|Nl]; [now left|right; now apply Nl]).
  destruct (edits_tidy tl b2 (b_zones b3) Na Z2 Q2 x b3 D3 eq_refl l Nl' ss ss1 H0 E T) as [T1 H1].
  destruct (back_to_zones tl b2 (b_zones b3) Z2 Q2 x b3 D3 ss1 H1 T1) as (y & older & G & _). set (c := set_angles b2 (b_angles (ss_board ss1))) in *.
  assert (Sc : same_board (zoned_at (b_zones b3) (planes (b_angles b2))) b2 c). { apply same_board_of. apply (td_angles _ _ _ T1). }
  assert (Edit : (let! ss' := edit tl (DGlobal x') ss1 in Done (ss_board ss')) = play tl x' (that_and_after DETECT_DIAG_ZONES) c).
  { cbn [edit]. unfold edit_global, edit_from. cbn [bind]. rewrite run_list_plays, G. reflexivity. }
  assert (Open : (let! ss0 := run_all_steps tl (loaded b x') in Done (ss_board ss0)) = play tl x' (that_and_after DETECT_DIAG_ZONES) b2).
  { unfold run_all_steps. rewrite run_list_plays. cbn [loaded ss_settings ss_board].
    change (that_and_after ADJUST_EDGE_TO_MATERIAL) with ([ADJUST_EDGE_TO_MATERIAL; DETECT_DIAG_ANGLES] ++ that_and_after DETECT_DIAG_ZONES). unfold EditProofs.play in *. rewrite for_each_app.
    replace (for_each (fun b s => do_step tl x' s b) [ADJUST_EDGE_TO_MATERIAL; DETECT_DIAG_ANGLES] b) with (Done b2) by (rewrite <- P2; reflexivity). reflexivity. }
  split.
  - intros ss' Es. rewrite Es in Edit. cbn [bind] in Edit. symmetry in Edit.
    destruct (zones_on tl b2 (b_zones b3) Na x b3 D3 eq_refl x' c b2 _ (same_board_sym _ _ _ Sc) (or_intror eq_refl) Edit) as (c' & Pc & S'). rewrite Pc in Open. unfold opened.
    destruct (run_all_steps tl (loaded b x')) as [ss0| |]; cbn [bind] in Open; try discriminate. injection Open as <-. exists ss0. split; [reflexivity|]. now apply same_board_sym.
  - intros ss0 Os. unfold opened in Os. rewrite Os in Open. cbn [bind] in Open. symmetry in Open.
    destruct (zones_on tl b2 (b_zones b3) Na x b3 D3 eq_refl x' b2 c _ Sc (or_introl eq_refl) Open) as (c' & Pc & S'). rewrite Pc in Edit.
    destruct (edit tl (DGlobal x') ss1) as [ss'| |]; cbn [bind] in Edit; try discriminate. injection Edit as <-. now exists ss'.
Qed.

(** All angles are in zones. *)
Lemma built_all_zoned tl b x b2 b3 : sorts_by (tl_sort_by tl) -> built b -> sides_plain b -> play tl x [ADJUST_EDGE_TO_MATERIAL; DETECT_DIAG_ANGLES] b = Done b2 ->
  do_step tl x DETECT_DIAG_ZONES b2 = Done b3 -> all_zoned b2 (b_zones b3).
Proof.
  intros So Bu Sp P2 D3. unfold EditProofs.play in P2. cbn [for_each] in P2. destruct (do_step tl x ADJUST_EDGE_TO_MATERIAL b) as [b1| |] eqn:E1; try discriminate. cbn [bind] in P2.
  destruct (do_step tl x DETECT_DIAG_ANGLES b1) as [b2'| |] eqn:E2; try discriminate. cbn [bind] in P2. injection P2 as ->. cbn [do_step] in E1, E2, D3.
  destruct (built_sound b Bu) as [_ _ _ _ (An & _ & _ & Zo & _)]. pose proof (built_in_place b Bu) as Pl. destruct (adjust_all _ all_planes So b b1 Pl E1) as [S1 _].
  pose proof S1 as (D1 & P1 & G1 & B1 & C1 & I1 & Z1 & A1).
  destruct (diagonal_steps (st_params x) (st_diag x) (tl_sort_by tl) (tl_angle tl) b b1 So) as (b2' & b3' & b4 & E2' & E3' & E4 & K); [now apply (in_place_reverse b)|now split|congruence|congruence|].
  assert (b2' = b2) as -> by congruence. assert (b3' = b3) as -> by congruence.
  assert (A3 : b_angles b3 = b_angles b2) by exact (proj2 (do_step_only tl x DETECT_DIAG_ZONES b2 b3 D3) FAngles eq_refl).
  assert (Z4 : b_zones b4 = b_zones b3) by exact (proj2 (do_step_only tl x SOLVE_DIAG_ZONES_ANGLES b3 b4 E4) FZones eq_refl).
  assert (P4 : forall j, planes (b_angles b4) j = planes (b_angles b3) j).
  { assert (T : same_at (zoned_at (b_zones b3) (planes (b_angles b2))) (b_angles b2) (b_angles b4)).
    { apply (solve_inside b2 (b_zones b3) (st_diag x) b3 b4); [intros j v; trivial|rewrite A3; apply same_at_refl|exact E4]. }
    intros j. rewrite A3. exact (same_planes _ _ _ T j). }
  intros j v L. rewrite <- A3 in L. destruct (nth_error (b_angles b3) j) as [a3|] eqn:N3; [|apply nth_error_None in N3; lia]. pose proof (P4 j) as Pj. unfold planes in Pj. rewrite N3 in Pj. cbn in Pj.
  destruct (nth_error (b_angles b4) j) as [a4|] eqn:N4; [|discriminate]. cbn in Pj. injection Pj as Pj.
  destruct (diagonals_zoned _ _ _ b b4 Bu Sp K j a4 (axes_table (a_plane a4) v) v N4 (view_of_table _ _)) as (z & Iz & Hj). rewrite Z4 in Iz.
  exists (axes_table (a_plane a4) v), (a_plane a4), z. split; [unfold planes; rewrite <- A3, N3; cbn; congruence|]. split; [apply view_of_table|]. now split.
Qed.

Lemma same_board_result b c : same_board none b c -> same_result b c.
Proof.
  intros [E [L H]]. split; [assumption|]. symmetry in L. revert L H. generalize (b_angles b), (b_angles c). clear. intros l l'. revert l. induction l' as [|a' l' IH]; intros [|a l] L H; try discriminate; [reflexivity|].
  cbn [map]. f_equal.
  - destruct (H 0%nat a a' eq_refl eq_refl) as [B F]. pose proof (F VH (fun f => f)) as Fh. pose proof (F VV (fun f => f)) as Fv. cbn in Fh, Fv. unfold bare in B. unfold forget_policy. congruence.
  - apply IH; [cbn in L; congruence|]. intros j x x' X X'. destruct (H (S j) x x' X X') as [B F]. split; [assumption|]. intros v _. exact (F v (fun f => f)).
Qed.
