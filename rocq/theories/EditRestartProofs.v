(** Going back to the first steps. *)
From Coq Require Import List Arith Bool Lia QArith.
From Verif Require Import IntervalModel ManagerModel ManagerSpec ManagerProofs GeomModel GeomSpec BoardModel BoardSpec BoardProofs BoardDetectProofs BoardBuiltProofs BoardRunProofs.
From Verif Require AppModel.
Import AppModel(Step(..), Step_eqb, next, that_and_after).
From Verif Require Import EditModel EditSpec EditProofs EditGlobalProofs.
Import ListNotations.

Lemma adjust_blind srt : blind (for_each (adjust_edges_to_materials srt) all_planes).
Proof.
  apply for_each_blind. intros p b l. unfold adjust_edges_to_materials. change (polygons_of (set_angles b l) p) with (polygons_of b p).
  generalize (polygons_of b p). intros L. revert b l. apply for_each_blind. intros j b l. cbn [set_angles b_polygons]. destruct (read (b_polygons b) j) as [g| |]; cbn [bind]; try reflexivity.
  change (mk_board (b_polygons b) (b_edges b) l (b_background b) (b_ce b) (b_eip b) (b_zones b) (b_axes b)) with (set_angles b l). revert b l. apply for_each_blind. intros i b l.
  unfold adjust_edge. cbn [set_angles b_edges]. destruct (read (b_edges b) i) as [e| |]; cbn [bind]; try reflexivity.
  change (outer_material srt (set_angles b l) p (j, g) e) with (outer_material srt b p (j, g) e).
  destruct (outer_material srt b p (j, g) e) as [[o k]| |]; cbn [bind fst]; try reflexivity. destruct o as [o|]; [|reflexivity]. destruct (g_material _); [|reflexivity].
  destruct (mat_gtb _ _); [|reflexivity]. apply (update_edge_blind i set_to_reverse b l).
Qed.

(** The angles found are those of the edges. *)
Lemma polygon_angles_blind ao b A l : forall prev, polygon_angles ao (set_angles b A) prev l = polygon_angles ao b prev l.
Proof.
  induction l as [|i l IH]; intros prev; cbn; [reflexivity|]. destruct (read (b_edges b) prev); cbn; try reflexivity. destruct (read (b_edges b) i); cbn; try reflexivity. now rewrite IH.
Qed.
Lemma crossing_angles_blind ao b A l : crossing_angles ao (set_angles b A) l = crossing_angles ao b l.
Proof. induction l as [|g l IH]; cbn [crossing_angles]; [reflexivity|]. rewrite IH. reflexivity. Qed.
Definition angles_found ao b p : run (list angle) :=
  let l := filter (fun g => plane_eqb (g_plane g) p) (b_polygons b) in
  let! corners := collect (fun g => match g_edges g with [] => Done [] | i :: _ => polygon_angles ao b (last (g_edges g) i) (g_edges g) end) l in
  let! crossings := crossing_angles ao b l in Done (concat corners ++ crossings).
Lemma detect_angles_found ao b A p : detect_diagonal_angles ao (set_angles b A) p = let! d := angles_found ao b p in Done (set_angles b (A ++ d)).
Proof.
  unfold detect_diagonal_angles, angles_found. cbn [set_angles b_polygons b_angles]. set (l := filter _ (b_polygons b)).
  rewrite (collect_ext _ (fun g => match g_edges g with [] => Done [] | i :: _ => polygon_angles ao b (last (g_edges g) i) (g_edges g) end));
    [|intros g; destruct (g_edges g); [reflexivity|apply (polygon_angles_blind ao b A)]].
  destruct (collect _ l) as [corners| |]; cbn [bind]; try reflexivity.
  change (mk_board (b_polygons b) (b_edges b) A (b_background b) (b_ce b) (b_eip b) (b_zones b) (b_axes b)) with (set_angles b A). rewrite crossing_angles_blind.
  destruct (crossing_angles ao b l); reflexivity.
Qed.
Lemma all_angles_found ao b L : exists r, forall A, for_each (detect_diagonal_angles ao) L (set_angles b A) = let! d := r in Done (set_angles b (A ++ d)).
Proof.
  induction L as [|p L (r & IH)]; cbn [for_each]; [exists (Done []); intros A; cbn; now rewrite app_nil_r|].
  exists (let! d := angles_found ao b p in let! e := r in Done (d ++ e)). intros A. rewrite detect_angles_found. destruct (angles_found ao b p) as [d| |]; cbn [bind]; try reflexivity.
  rewrite IH. destruct r; cbn; try reflexivity. now rewrite app_assoc.
Qed.

Section WithTools.
Context (tl : tools).
Notation play := (play tl).

Lemma revert_fresh b now : b_zones b = mk_space [] [] [] -> (forall ax, ax_policies (on_axis (b_axes b) ax) = []) -> revert tl b now = set_angles b (b_angles now).
Proof.
  intros Z P. unfold revert. rewrite Z. cbn [on_axis sp_0 sp_1 sp_2 kept].
  assert (G : forall ax a n, revert_axis (on_axis (b_axes b) ax) a n = on_axis (b_axes b) ax).
  { intros ax a n. unfold revert_axis. rewrite P, firstn_nil, skipn_nil. cbn [kept app]. specialize (P ax). destruct (on_axis (b_axes b) ax). cbn in *. now rewrite P. }
  pose proof (G AX) as GX. pose proof (G AY) as GY. pose proof (G AZ) as GZ. cbn [on_axis] in GX, GY, GZ. rewrite GX, GY, GZ. unfold set_axes, set_zones, set_angles. cbn. rewrite Z. destruct (b_axes b). reflexivity.
Qed.

(** Back through all the timepoints down to a given one. *)
Lemma previous_down newer : forall s b x older ss, ss_past ss = newer ++ (s, (b, x)) :: older -> exists now,
  previous_steps tl (S (length newer)) ss = mk_session (revert tl b now) x (Some s) older /\ b_angles now = b_angles (ss_board ss).
Proof.
  induction newer as [|[t [c y]] newer IH]; intros s b x older ss P; cbn [length previous_steps].
  - unfold previous_step. rewrite P. cbn [app]. now exists (ss_board ss).
  - cbn [previous_steps] in IH. unfold previous_step at 2. rewrite P. cbn [app]. destruct (IH s b x older (mk_session (revert tl c (ss_board ss)) y (Some t) (newer ++ (s, (b, x)) :: older)) eq_refl) as (now & E & A).
    exists now. split; [exact E|]. rewrite A. reflexivity.
Qed.
Lemma previous_at_start n : forall ss, ss_past ss = [] -> previous_steps tl n ss = ss.
Proof. induction n as [|n IH]; intros ss P; cbn; [reflexivity|]. unfold previous_step. rewrite P. now apply IH. Qed.
Lemma previous_add n m : forall ss, previous_steps tl (n + m) ss = previous_steps tl m (previous_steps tl n ss).
Proof. induction n as [|n IH]; intros ss; cbn; [reflexivity|]. apply IH. Qed.

(** A step that reverses nothing. *)
Lemma fresh_plain b : built b -> plain b = b /\ existsb e_to_reverse (b_edges b) = false.
Proof.
  intros Bu. destruct (built_sound b Bu) as [Fr _ _ _ _]. assert (F : forall e, In e (b_edges b) -> e_to_reverse e = false).
  { intros e I. apply In_nth_error in I. destruct I as [n N]. now destruct (Fr n e N) as (_ & R & _). }
  split.
  - unfold plain, set_edges. assert (map not_reversed (b_edges b) = b_edges b) as ->; [|now destruct b]. rewrite <- (map_id (b_edges b)) at 2. apply map_ext_in. intros e I. specialize (F e I). unfold not_reversed. destruct e. cbn in *. now rewrite F.
  - apply not_true_is_false. intros X. apply existsb_exists in X. destruct X as (e & I & R). rewrite F in R by assumption. discriminate.
Qed.
Lemma first_idle b x l : built b -> do_step tl x ADJUST_EDGE_TO_MATERIAL b = Done b -> do_step tl x ADJUST_EDGE_TO_MATERIAL (set_angles b l) = Done (set_angles b l)
  /\ creates tl ADJUST_EDGE_TO_MATERIAL (set_angles b l) (set_angles b l) = false.
Proof.
  intros Bu E. cbn [do_step creates] in *. rewrite (adjust_blind (tl_sort_by tl) b l), E. split; [reflexivity|]. destruct (fresh_plain b Bu) as [P N].
  assert (Eq : set_edges (set_angles b l) (map not_reversed (b_edges (set_angles b l))) = set_angles b l).
  { change (set_edges (set_angles b l) (map not_reversed (b_edges (set_angles b l)))) with (set_angles (plain b) l). now rewrite P. }
  rewrite Eq, (adjust_blind (tl_sort_by tl) b l), E. cbn [bind]. exact N.
Qed.

(** The oldest timepoints of a run whose first step reverses nothing. *)
Lemma opened_oldest b x ss : built b -> opened tl b x ss -> do_step tl x ADJUST_EDGE_TO_MATERIAL b = Done b -> exists b2 newer,
  do_step tl x DETECT_DIAG_ANGLES b = Done b2 /\ ss_past ss = newer ++ (DETECT_DIAG_ZONES, (b2, x)) :: [(ADJUST_EDGE_TO_MATERIAL, (b, x))].
Proof.
  intros Bu O I. unfold opened, run_all_steps in O. pose proof (run_to_mesh _ _ _ _ O) as H0.
  destruct (first_idle b x (b_angles b) Bu I) as [D1 C1]. rewrite set_angles_id in D1, C1.
  change (that_and_after ADJUST_EDGE_TO_MATERIAL) with (ADJUST_EDGE_TO_MATERIAL :: DETECT_DIAG_ANGLES :: [DETECT_DIAG_ZONES] ++ that_and_after SOLVE_DIAG_ZONES_ANGLES) in O. cbn [run_list] in O.
  unfold run_step at 1 in O. cbn [annotate loaded ss_settings ss_board ss_here ss_past] in O. rewrite D1 in O. cbn [bind] in O. rewrite C1 in O.
  destruct (run_step tl DETECT_DIAG_ANGLES _) as [s2| |] eqn:R2; try discriminate. cbn [bind] in O.
  pose proof (run_step_done _ _ _ _ R2) as (D2 & X2 & [(C & _)|(_ & H2 & P2)]); [discriminate C|]. cbn [ss_settings ss_board ss_past] in D2, X2, P2. unfold mark in P2. cbn in P2.
  destruct (run_list_split _ _ _ _ _ O) as (s3 & E3 & O3). apply run_list_one in E3. exists (ss_board s2).
  assert (L3 : leave s3 = (DETECT_DIAG_ZONES, (ss_board s2, x)) :: [(ADJUST_EDGE_TO_MATERIAL, (b, x))]).
  { pose proof (run_step_done _ _ _ _ E3) as (_ & X3 & M3). unfold leave. unfold mark in M3. rewrite H2 in M3.
    destruct M3 as [(_ & B & -> & ->)|(_ & -> & ->)]; [rewrite B, X3|]; rewrite X2, P2; reflexivity. }
  assert (G : forall l s s', run_list tl l s = Done s' -> exists newer, leave s' = newer ++ leave s).
  { clear. induction l as [|t l IH]; intros s s' E; cbn in E; [injection E as <-; now exists []|]. destruct (run_step tl t s) as [s1| |] eqn:R; try discriminate. cbn [bind] in E.
    destruct (IH _ _ E) as (newer & L). destruct (run_step_leave _ _ _ _ R) as [E1|E1]; rewrite E1 in L; [now exists newer|]. eexists. rewrite L.
    change ((t, (ss_board s, ss_settings s)) :: leave s) with ([(t, (ss_board s, ss_settings s))] ++ leave s). rewrite app_assoc. reflexivity. }
  destruct (G _ _ _ O3) as (newer & L). rewrite L3 in L. unfold leave in L. rewrite H0 in L. now exists newer.
Qed.

Theorem restart_stuck b x ss n m : built b -> opened tl b x ss -> do_step tl x ADJUST_EDGE_TO_MATERIAL b = Done b ->
  (length (ss_past ss) <= n)%nat -> next_steps tl m (previous_steps tl n ss) = Done (previous_steps tl n ss) /\ ss_board (previous_steps tl n ss) = set_angles b (b_angles (ss_board ss)).
Proof.
  intros Bu O I Ln. destruct (opened_oldest b x ss Bu O I) as (b2 & newer & D2 & P).
  change ((DETECT_DIAG_ZONES, (b2, x)) :: [(ADJUST_EDGE_TO_MATERIAL, (b, x))]) with ([(DETECT_DIAG_ZONES, (b2, x))] ++ [(ADJUST_EDGE_TO_MATERIAL, (b, x))]) in P. rewrite app_assoc in P.
  destruct (previous_down _ _ _ _ _ _ P) as (now & E & A). rewrite P, app_length in Ln. cbn [length] in Ln.
  assert (n = S (length (newer ++ [(DETECT_DIAG_ZONES, (b2, x))])) + (n - S (length (newer ++ [(DETECT_DIAG_ZONES, (b2, x))]))))%nat as -> by lia.
  rewrite previous_add, E, previous_at_start by reflexivity. destruct (built_sound b Bu) as [_ _ _ _ (_ & _ & _ & Zb & Ab)].
  rewrite (revert_fresh b now Zb) by (intros ax; rewrite Ab; now destruct ax). rewrite A. cbn [ss_board]. split; [|reflexivity].
  destruct (first_idle b x (b_angles (ss_board ss)) Bu I) as [D C]. induction m as [|m IH]; cbn [next_steps]; [reflexivity|]. unfold next_step. cbn [ss_past]. unfold run_step. cbn [annotate ss_settings ss_board ss_here ss_past].
  rewrite D. cbn [bind]. rewrite C. exact IH.
Qed.

Theorem angles_doubled b x ss : natural (tl_sort_by tl) -> built b -> opened tl b x ss -> do_step tl x ADJUST_EDGE_TO_MATERIAL b = Done b ->
  exists ss', next_step tl (previous_steps tl (pred (length (ss_past ss))) ss) = Done ss' /\ length (b_angles (ss_board ss')) = (2 * length (b_angles (ss_board ss)))%nat.
Proof.
  intros Na Bu O I. destruct (opened_oldest b x ss Bu O I) as (b2 & newer & D2 & P). destruct (opened_tidy tl b x ss Na Bu O) as (b2' & b3 & P2 & Z2 & Q2 & D3 & T & H0).
  assert (b2' = b2) as ->. { unfold EditProofs.play in P2. cbn [for_each] in P2. rewrite I in P2. cbn [bind] in P2. rewrite D2 in P2. cbn [bind] in P2. congruence. }
  assert (pred (length (ss_past ss)) = S (length newer)) as ->. { rewrite P, app_length. cbn. lia. }
  destruct (previous_down _ _ _ _ _ _ P) as (now & E & A). rewrite E, (revert_fresh b2 now Z2 Q2), A. unfold next_step. cbn [ss_past next]. unfold run_step. cbn [annotate ss_settings ss_board ss_here ss_past].
  cbn [do_step] in D2 |- *. destruct (all_angles_found (tl_angle tl) b all_planes) as (r & R). destruct (built_sound b Bu) as [_ _ _ _ (An & _)].
  pose proof (R (b_angles b)) as R0. rewrite set_angles_id, D2, An in R0. cbn [app] in R0. destruct r as [d| |]; cbn [bind] in R0, R; try discriminate. injection R0 as ->.
  change (set_angles (set_angles b d) (b_angles (ss_board ss))) with (set_angles b (b_angles (ss_board ss))). rewrite R. cbn [bind creates].
  eexists. split; [reflexivity|]. cbn [ss_board set_angles b_angles]. rewrite app_length. pose proof (proj1 (td_angles _ _ _ T)) as L. cbn in L. lia.
Qed.
End WithTools.
