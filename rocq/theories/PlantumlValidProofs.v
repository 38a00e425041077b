(** Proofs about the state diagram: the solutions of conflicts are on the board. *)
From Coq Require Import List Arith Bool QArith Lia Permutation.
From Verif Require Import IntervalModel ManagerModel ManagerSpec ManagerProofs ManagerMoreProofs ManagerSafetyProofs GeomModel BoardModel BoardSpec BoardBuiltProofs BoardRunProofs EditModel.
From Verif Require Import SceneModel SceneSpec SceneProofs SceneValidProofs.
Import ListNotations.
Local Open Scope nat_scope.

(** ** Policies are never removed by a step *)

Definition more (ax ax' : axis) : Prop := length (ax_policies ax) <= length (ax_policies ax').
Lemma more_add g ax policy normal coord enabled : more ax (fst (add_meshline_policy g ax policy normal coord enabled)) /\
  forall i, snd (add_meshline_policy g ax policy normal coord enabled) = Some i -> i < length (ax_policies (fst (add_meshline_policy g ax policy normal coord enabled))).
Proof.
  unfold add_meshline_policy, more. destruct (inconsistent policy normal); cbn; [split; [lia|discriminate]|]. rewrite app_length. cbn. split; [lia|]. intros i E. injection E as <-. lia.
Qed.
Lemma more_fixed g coords ax : more ax (add_fixed_policies g ax coords).
Proof. destruct (fixed_appends g coords ax) as (l & -> & _). unfold more. cbn. rewrite app_length. lia. Qed.
Lemma more_close g srt ax ax' : solving g srt ax ax' -> more ax ax'.
Proof. induction 1 as [|ax a b pa pb ax1 ax' _ _ _ _ T _ IH]; unfold more in *; [lia|]. apply turn_length in T. lia. Qed.
Lemma more_intervals g l : forall ax ax', detect_intervals_loop g ax l = Done ax' -> more ax ax'.
Proof.
  unfold more. induction l as [|b l IH]; intros ax ax' H; [now injection H as <-|]. destruct l as [|a l]; [now injection H as <-|].
  change (bind (new_segment g ax b a) (fun ax => detect_intervals_loop g ax (a :: l)) = Done ax') in H. apply bind_done in H. destruct H as (ax1 & H1 & H).
  apply IH in H. unfold new_segment in H1. apply bind_done in H1. destruct H1 as (pb & _ & H1). apply bind_done in H1. destruct H1 as (pa & _ & H1).
  destruct (make_interval g pb pa) as [[pb' pa'] iv]. apply bind_done in H1. destruct H1 as (l1 & W1 & H1). apply bind_done in H1. destruct H1 as (l2 & W2 & H1). injection H1 as <-.
  cbn in H. apply write_in in W1, W2. destruct W1 as (L1 & _), W2 as (L2 & _). lia.
Qed.
Lemma more_d_at n ax i ax' : auto_solve_d_at n ax i = Done ax' -> more ax ax'.
Proof.
  unfold auto_solve_d_at, more. intros H. repeat (apply bind_done in H; destruct H as (? & ? & H)).
  repeat match type of H with (let '_ := ?x in _) = _ => destruct x end. repeat (apply bind_done in H; destruct H as (? & ? & H)). injection H as <-.
  repeat match goal with W : write _ _ _ = Done _ |- _ => apply write_in in W; destruct W as (? & _) end. cbn. lia.
Qed.
Lemma more_s_at n ax i ax' : auto_solve_smoothness_at n ax i = Done ax' -> more ax ax'.
Proof.
  unfold auto_solve_smoothness_at, more. intros H. repeat (apply bind_done in H; destruct H as (? & ? & H)).
  repeat match type of H with (let '_ := ?x in _) = _ => destruct x end. repeat (apply bind_done in H; destruct H as (? & ? & H)). injection H as <-.
  repeat match goal with W : write _ _ _ = Done _ |- _ => apply write_in in W; destruct W as (? & _) end. cbn. lia.
Qed.
Lemma more_first n order : forall ax ax', first_pass n ax order = Done ax' -> more ax ax'.
Proof.
  unfold more. induction order as [|i r IH]; intros ax ax' H; [now injection H as <-|]. cbn [first_pass] in H. apply bind_done in H. destruct H as (ax1 & H1 & H). apply IH in H. apply more_d_at in H1. unfold more in H1. lia.
Qed.
Lemma more_second n order : forall ax ax' l, second_pass n ax order = Done (ax', l) -> more ax ax'.
Proof.
  unfold more. induction order as [|i r IH]; intros ax ax' l H; [now injection H as <- _|]. cbn [second_pass] in H. apply bind_done in H. destruct H as (ax1 & H1 & H).
  repeat (match type of H with bind _ _ = _ => apply bind_done in H; destruct H as (? & ? & H) | (let '_ := ?x in _) = _ => destruct x end). injection H as <- _.
  apply more_d_at in H1. match goal with E : auto_solve_smoothness_at _ _ _ = Done _ |- _ => apply more_s_at in E; unfold more in * end.
  match goal with E : second_pass _ _ _ = Done _ |- _ => apply IH in E end. lia.
Qed.
Lemma more_mesh n srt ax ax' : mesh_axis n srt ax = Done ax' -> more ax ax'.
Proof.
  unfold mesh_axis. intros H. apply bind_done in H. destruct H as (ax1 & H1 & H). apply bind_done in H. destruct H as ([ax2 l] & H2 & H). apply more_first in H1. apply more_second in H2. injection H as <-. unfold more in *. cbn. lia.
Qed.

(** ** The solutions of colinear edges *)

Definition solved_well (b : board) : Prop := forall a c i, In c (on_axis (b_ce b) a) -> ce_policy c = Some i -> i < length (ax_policies (on_axis (b_axes b) a)).
Notation W := solved_well.

Lemma each_well {A} (f : board -> A -> run board) l : (forall x b b', f b x = Done b' -> W b -> W b') -> forall b b', for_each f l b = Done b' -> W b -> W b'.
Proof. intros H. induction l as [|x r IH]; intros b b' E X; cbn [for_each] in E; [now injection E as <-|]. apply bind_done in E. destruct E as (b1 & E1 & E). eauto. Qed.
Lemma well_same b b' : b_ce b' = b_ce b -> b_axes b' = b_axes b -> W b -> W b'.
Proof. unfold W. intros -> ->. auto. Qed.
Lemma well_edge b i f b' : update_edge b i f = Done b' -> W b -> W b'.
Proof. unfold update_edge. intros H. apply bind_done in H. destruct H as (e & _ & H). apply bind_done in H. destruct H as (l & _ & H). injection H as <-. now apply well_same. Qed.
Lemma well_polygon b i f b' : update_polygon b i f = Done b' -> W b -> W b'.
Proof. unfold update_polygon. intros H. apply bind_done in H. destruct H as (e & _ & H). apply bind_done in H. destruct H as (l & _ & H). injection H as <-. now apply well_same. Qed.
Lemma well_angle b i f b' : update_angle b i f = Done b' -> W b -> W b'.
Proof. unfold update_angle. intros H. apply bind_done in H. destruct H as (e & _ & H). apply bind_done in H. destruct H as (l & _ & H). injection H as <-. now apply well_same. Qed.

Lemma on_set_axis {A} (s : space A) a x : on_axis (set_axis s a x) a = x.
Proof. now destruct a. Qed.
Lemma on_set_other_axis {A} (s : space A) a c x : c <> a -> on_axis (set_axis s a x) c = on_axis s c.
Proof. destruct a, c; cbn; congruence. Qed.
Lemma axis_dec (a c : Axis3) : {a = c} + {a <> c}.
Proof. decide equality. Qed.

Lemma well_ce b ax l : W b -> (forall c i, In c l -> ce_policy c = Some i -> i < length (ax_policies (on_axis (b_axes b) ax))) -> W (set_ce b (set_axis (b_ce b) ax l)).
Proof.
  intros X H a c i. cbn. destruct (axis_dec a ax) as [->|N]; [rewrite on_set_axis; apply H|rewrite on_set_other_axis by assumption; apply X].
Qed.
Lemma well_axis b ax y : W b -> more (on_axis (b_axes b) ax) y -> W (set_axes b (set_axis (b_axes b) ax y)).
Proof.
  intros X M a c i I E. specialize (X a c i I E). unfold more in M. cbn. destruct (axis_dec a ax) as [->|N]; [rewrite on_set_axis; lia|now rewrite on_set_other_axis].
Qed.

Lemma well_adjust srt p b b' : adjust_edges_to_materials srt b p = Done b' -> W b -> W b'.
Proof.
  unfold adjust_edges_to_materials. apply each_well. clear b b'. intros j b b' H. apply bind_done in H. destruct H as (g & _ & H). revert H. apply each_well. clear b b'.
  intros i b b' H X. unfold adjust_edge in H. apply bind_done in H. destruct H as (e & _ & H). apply bind_done in H. destruct H as (o & _ & H).
  destruct (fst o); [|now injection H as <-]. cbn [snd] in H. destruct (g_material g); [|discriminate]. destruct (mat_gtb _ _); [|now injection H as <-]. exact (well_edge _ _ _ _ H X).
Qed.
Lemma well_add_ce b i j b' : add_colinear_edges b i j = Done b' -> W b -> W b'.
Proof.
  unfold add_colinear_edges. intros H X. apply bind_done in H. destruct H as (ei & _ & H). apply bind_done in H. destruct H as (ej & _ & H).
  destruct (_ && _); [|now injection H as <-]. destruct (axis_of_seg _ _) as [ax|]; [|now injection H as <-].
  destruct (find_colinear i j (on_axis (b_ce b) ax) 0) as [[m c]|] eqn:Fc.
  - apply find_colinear_in in Fc.
    assert (Ap : forall x l, write (on_axis (b_ce b) ax) m (ce_append c x) = Done l -> W (set_ce b (set_axis (b_ce b) ax l))).
    { intros x l Wr. destruct (write_in _ _ _ _ Wr) as (_ & _ & I). apply well_ce; [exact X|]. intros d k D E. destruct (I d D) as [->|D']; [exact (X ax c k Fc E)|exact (X ax d k D' E)]. }
    destruct (memb i (ce_edges c)); [destruct (memb j (ce_edges c)); [now injection H as <-|]|]; apply bind_done in H; destruct H as (l & Wr & H); exact (well_edge _ _ _ _ H (Ap _ _ Wr)).
  - apply bind_done in H. destruct H as (b1 & H1 & H). apply (well_edge _ _ _ _ H), (well_edge _ _ _ _ H1), well_ce; [exact X|]. intros c k I E. apply in_app_or in I. destruct I as [I|[<-|[]]]; [exact (X ax c k I E)|discriminate].
Qed.
Lemma well_colinear p b b' : detect_colinear_edges b p = Done b' -> W b -> W b'.
Proof.
  unfold detect_colinear_edges. generalize (edges_of b p) as l. intros l. revert b. induction l as [|i r IH]; intros b H X; cbn [detect_colinear_loop] in H; [now injection H as <-|].
  apply bind_done in H. destruct H as (e & _ & H). apply bind_done in H. destruct H as (b1 & H1 & H). apply (IH b1 H). destruct (segaxis_eqb _ SDIAG); [now injection H1 as <-|].
  revert H1 X. apply each_well. clear. intros j b b' H X. unfold detect_colinear_pair in H. apply bind_done in H. destruct H as (ei & _ & H). apply bind_done in H. destruct H as (ej & _ & H).
  destruct (segaxis_eqb _ _); [|now injection H as <-]. destruct (axis_of_seg _ _); [|now injection H as <-].
  destruct (_ && _); [exact (well_add_ce _ _ _ _ H X)|]. destruct (_ && _); [exact (well_add_ce _ _ _ _ H X)|now injection H as <-].
Qed.
Lemma well_add_eip b a g range other b' : add_edge_in_polygon b a g range other = Done b' -> W b -> W b'.
Proof.
  unfold add_edge_in_polygon. intros H X. apply bind_done in H. destruct H as (ea & _ & H). apply bind_done in H. destruct H as (poly & _ & H).
  apply bind_done in H. destruct H as (wrong & _ & H). destruct wrong; [now injection H as <-|]. cbn zeta in H.
  destruct (find_in_polygon a (on_plane (b_eip b) (e_plane ea)) 0) as [[m c]|].
  - destruct (existsb _ _); [now injection H as <-|]. apply bind_done in H. destruct H as (l & _ & H). assert (X0 : W (set_eip b (set_plane (b_eip b) (e_plane ea) l))) by now apply (well_same b).
    destruct (existsb _ _); [now injection H as <-|]. exact (well_polygon _ _ _ _ H X0).
  - apply bind_done in H. destruct H as (b1 & H1 & H). apply (well_polygon _ _ _ _ H), (well_edge _ _ _ _ H1). now apply (well_same b).
Qed.
Lemma well_meet i g l : forall b x y b' x' y', for_each (meet_edge i g) l (b, x, y) = Done (b', x', y') -> W b -> W b'.
Proof.
  induction l as [|j r IH]; intros b x y b' x' y' H X; cbn [for_each] in H; [now injection H as <- _ _|]. apply bind_done in H. destruct H as ([[b1 x1] y1] & H1 & H).
  apply (IH _ _ _ _ _ _ H). unfold meet_edge in H1. apply bind_done in H1. destruct H1 as (ea & _ & H1). apply bind_done in H1. destruct H1 as (eb & _ & H1).
  destruct (relation_seg _ _); try (injection H1 as <- _ _; exact X).
  - destruct (intersection _ _); injection H1 as <- _ _; exact X.
  - destruct (overlap _ _) as [s|]; [|injection H1 as <- _ _; exact X].
    destruct (seg_axis s); try (injection H1 as <- _ _; exact X); apply bind_done in H1; destruct H1 as (b2 & A & H1); injection H1 as <- _ _; exact (well_add_eip _ _ _ _ _ _ A X).
Qed.
Lemma well_detect_eip fuel srt p b b' : detect_edges_in_polygons fuel srt b p = Done b' -> W b -> W b'.
Proof.
  unfold detect_edges_in_polygons. apply each_well. clear b b'. intros i b b'. apply each_well. clear b b'. intros j b b' H. unfold polygon_in_polygon in H.
  apply bind_done in H. destruct H as (pa & _ & H). apply bind_done in H. destruct H as (pb & _ & H). destruct (j =? i); [now injection H as <-|].
  destruct (_ <? _); [now injection H as <-|]. destruct (negb _); [now injection H as <-|]. revert H. apply each_well. clear. intros i b b' H X. unfold edge_in_polygon in H.
  apply bind_done in H. destruct H as (poly & _ & H). apply bind_done in H. destruct H as (ea & _ & H). apply bind_done in H. destruct H as ([[b1 inter] ranges] & M & H).
  apply well_meet in M; [|exact X]. apply bind_done in H. destruct H as (r0 & _ & H). apply bind_done in H. destruct H as (r1 & _ & H). destruct inter as [|q0 inter].
  - destruct (_ && _); [exact (well_add_eip _ _ _ _ _ _ H M)|now injection H as <-].
  - cbn zeta in H. apply bind_done in H. destruct H as (fi & _ & H). apply bind_done in H. destruct H as (la & _ & H). revert H M. apply each_well. clear.
    intros [[s r] m] b b' H X. unfold register_range in H. apply bind_done in H. destruct H as (poly & _ & H). apply bind_done in H. destruct H as (at_ & _ & H).
    destruct (_ || _); [exact (well_add_eip _ _ _ _ _ _ H X)|now injection H as <-].
Qed.
Lemma well_solve_eip srt p b b' : auto_solve_all_edge_in_polygon srt b p = Done b' -> W b -> W b'.
Proof.
  unfold auto_solve_all_edge_in_polygon. apply each_well. clear b b'. intros m b b' H X. unfold solve_in_polygon in H.
  apply bind_done in H. destruct H as (c & _ & H). apply bind_done in H. destruct H as (e & _ & H). cbn zeta in H.
  destruct (sort_overlaps srt (seg_vec (e_seg e)) (ei_overlaps c)) as [|o r]; [discriminate|]. apply bind_done in H. destruct H as (mg & _ & H). apply bind_done in H. destruct H as (l & _ & H).
  apply (well_edge _ _ _ _ H). now apply (well_same b).
Qed.
Lemma well_solve_ce g ax b b' : auto_solve_all_colinear_edges g b ax = Done b' -> W b -> W b'.
Proof.
  unfold auto_solve_all_colinear_edges. apply each_well. clear b b'. intros m b b' H X. unfold solve_colinear in H.
  apply bind_done in H. destruct H as (c & _ & H). apply bind_done in H. destruct H as (l & _ & H). destruct l as [|e l]; [discriminate|].
  destruct (seg_coord _ _) as [x|]; [|now injection H as <-]. destruct (colinear_policy _) as [[po no]|]; [|now injection H as <-].
  pose proof (more_add g (on_axis (b_axes b) ax) po no x true) as [M Ad]. destruct (add_meshline_policy g (on_axis (b_axes b) ax) po no x true) as [y ad]. cbn [fst snd] in *.
  apply bind_done in H. destruct H as (l' & Wr & H). injection H as <-. pose proof (well_axis b ax y X M) as X1. destruct (write_in _ _ _ _ Wr) as (_ & _ & I).
  apply (well_ce (set_axes b (set_axis (b_axes b) ax y)) ax l' X1). cbn [b_axes set_axes]. rewrite on_set_axis. intros d i D E. destruct (I d D) as [->|D']; [now apply Ad|]. specialize (X ax d i D' E). unfold more in M. lia.
Qed.
Lemma well_individual g p b b' : detect_individual_edges g b p = Done b' -> W b -> W b'.
Proof.
  unfold detect_individual_edges. intros H X. apply bind_done in H. destruct H as (b1 & H1 & H). revert H. assert (X1 : W b1).
  { revert H1 X. apply each_well. clear. intros i b b' H X. unfold individual_edge in H. apply bind_done in H. destruct H as (e & Re & H).
    destruct (seg_coord _ _) as [x|]; [|now injection H as <-]. destruct (axis_of_seg _ _) as [ax|]; [|now injection H as <-]. destruct (_ && _); [|now injection H as <-].
    match type of H with (let '_ := add_meshline_policy g ?y ?po ?no ?x ?m in _) = _ =>
      pose proof (proj1 (more_add g y po no x m)) as M; destruct (add_meshline_policy g y po no x m) as [y1 ad] end.
    exact (well_edge _ _ _ _ H (well_axis b ax y1 X M)). }
  clear - X1. intros H. revert H X1. apply each_well. clear. intros i b b'. unfold individual_angle. apply each_well. clear. intros v b b' H X. unfold individual_angle_axis in H.
  apply bind_done in H. destruct H as (a & Ra & H). cbn zeta in H.
  match type of H with (let '_ := add_meshline_policy g ?y ?po ?no ?x ?m in _) = _ =>
    pose proof (proj1 (more_add g y po no x m)) as M; destruct (add_meshline_policy g y po no x m) as [y1 ad] end.
  exact (well_angle _ _ _ _ H (well_axis b (axes_table p v) y1 X M)).
Qed.
Lemma well_angles_step ang p b b' : detect_diagonal_angles ang b p = Done b' -> W b -> W b'.
Proof.
  unfold detect_diagonal_angles. intros H X. cbn zeta in H. apply bind_done in H. destruct H as (co & Hc & H). apply bind_done in H. destruct H as (cr & Hx & H). injection H as <-. now apply (well_same b).
Qed.
Lemma well_zones_step g d srt p b b' : detect_diagonal_zones g d srt b p = Done b' -> W b -> W b'.
Proof.
  intros H X. unfold detect_diagonal_zones in H. cbn zeta in H. apply bind_done in H. destruct H as ([b1 l1] & H & E). injection E as <-.
  cbn [for_each] in H. apply bind_done in H. destruct H as ([b2 l2] & H1 & H). apply bind_done in H. destruct H as ([b3 l3] & H2 & H). injection H as <- _.
  assert (K : forall v b0 l0 b' l', detect_zones_view g d srt p (b0, l0) v = Done (b', l') -> W b0 -> W b').
  { clear. intros v b0 l0 b' l' H. unfold detect_zones_view in H. cbn zeta in H. apply bind_done in H. destruct H as (b1 & H & E). injection E as <- _. revert H.
    apply each_well. intros l b c H X. unfold add_diagonal_zone in H. apply bind_done in H. destruct H as (an & C & H). destruct an as [|[i0 first] an]; [now injection H as <-|].
    destruct (forallb _ _); [|now injection H as <-]. destruct (view_of_axis _ _); [|now injection H as <-]. cbn zeta in H. injection H as <-. now apply (well_same b). }
  apply (K _ _ _ _ _ H2). now apply (K _ _ _ _ _ H1).
Qed.
Lemma well_solve_angles d ax b b' : solve_diagonal_angles d b ax = Done b' -> W b -> W b'.
Proof.
  unfold solve_diagonal_angles. apply each_well. clear b b'. intros z b b' H X. unfold solve_zone_angles in H. destruct (dz_angles z) as [|f r]; [discriminate|].
  apply bind_done in H. destruct H as (b1 & H1 & H).
  assert (K : forall h i b b', solve_angle ax h b i = Done b' -> W b -> W b').
  { clear. intros h i b b' H X. unfold solve_angle in H. apply bind_done in H. destruct H as (a & _ & H). destruct (view_of_axis _ _) as [v|]; [|now injection H as <-]. exact (well_angle _ _ _ _ H X). }
  assert (X1 : W b1) by (revert H1 X; apply each_well; intros i c c'; apply K). revert H X1. apply each_well. intros i c c'. apply K.
Qed.
Lemma well_each_axis f b b' : on_each_axis f b = Done b' -> W b -> (forall ax y, f ax (on_axis (b_axes b) ax) = Done y -> more (on_axis (b_axes b) ax) y) -> W b'.
Proof.
  intros H X M. apply on_each_axis_done in H. destruct H as [E H]. rewrite E. intros a c i I Ei. cbn in *. specialize (X a c i I Ei). specialize (M a _ (H a)). unfold more in M. lia.
Qed.

Lemma well_step tl x s b b' : sorts (tl_sorter tl) -> do_step tl x s b = Done b' -> W b -> W b'.
Proof.
  intros So. destruct s; cbn [do_step]; intros H X; cbn zeta in H.
  - revert H X. apply each_well. intros p c c'. apply well_adjust.
  - revert H X. apply each_well. intros p c c'. apply well_angles_step.
  - revert H X. apply each_well. intros p c c'. apply well_zones_step.
  - revert H X. apply each_well. intros p c c'. apply well_solve_angles.
  - revert H X. apply each_well. intros p c c'. apply well_detect_eip.
  - revert H X. apply each_well. intros p c c'. apply well_colinear.
  - apply (well_each_axis _ _ _ H X). intros ax y E. injection E as <-. apply more_fixed.
  - revert H X. apply each_well. intros p c c'. apply well_solve_eip.
  - revert H X. apply each_well. intros p c c'. apply well_solve_ce.
  - revert H X. apply each_well. intros p c c'. apply well_individual.
  - apply (well_each_axis _ _ _ H X). intros ax y E. exact (more_close _ _ _ _ (solve_done _ _ So _ _ _ E)).
  - apply (well_each_axis _ _ _ H X). intros ax y E. exact (more_intervals _ _ _ _ E).
  - now injection H as <-.
  - apply (well_each_axis _ _ _ H X). intros ax y E. apply bind_done in E. destruct E as (zs & _ & E). injection E as <-. unfold more. cbn. lia.
  - apply (well_each_axis _ _ _ H X). intros ax y E. exact (more_mesh _ _ _ _ E).
Qed.
Lemma well_run tl l : sorts (tl_sorter tl) -> forall ss ss', run_list tl l ss = Done ss' -> W (ss_board ss) -> W (ss_board ss').
Proof.
  intros So. induction l as [|s r IH]; intros ss ss' H X; cbn [run_list] in H; [now injection H as <-|]. apply bind_done in H. destruct H as (s1 & H1 & H). apply (IH _ _ H). unfold run_step in H1. cbn zeta in H1.
  apply bind_done in H1. destruct H1 as (b' & B & H1). assert (X' : W b').
  { apply (well_step _ _ _ _ _ So B). unfold annotate. destruct (ss_here ss); exact X. }
  destruct (creates _ _ _); injection H1 as <-; exact X'.
Qed.
Lemma well_built b : built b -> W b.
Proof. intros B. destruct (built_sound b B) as [_ _ _ _ (_ & Ec & _)]. intros a c i I. rewrite Ec in I. destruct a; destruct I. Qed.
Lemma well_reached tl b x ss : reached tl b x [Run_steps] ss -> W (ss_board ss).
Proof.
  intros (B & _ & So & H). cbn [perform_all perform] in H. apply bind_done in H. destruct H as (s1 & H & E). injection E as <-. unfold run_all_steps in H. apply (well_run tl _ So _ _ H). now apply well_built.
Qed.
