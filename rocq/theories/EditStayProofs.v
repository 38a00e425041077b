(** Lines that stay, whatever the dialogs of policies say too. *)
From Coq Require Import List Arith Bool Lia QArith Sorting.Permutation.
From Verif Require Import IntervalModel ManagerModel ManagerSpec GeomModel BoardModel BoardSpec BoardProofs BoardIndividualProofs BoardRunProofs.
From Verif Require AppModel.
Import AppModel(Step(..), Step_eqb, next, that_and_after).
From Verif Require Import EditModel EditSpec EditProofs.
Import ListNotations.

(** ** The conflicts of policies too close are found by one step *)

Lemma solve_d_conflicts fuel ax i ax' : auto_solve_d_at fuel ax i = Done ax' -> ax_conflicts ax' = ax_conflicts ax.
Proof. unfold auto_solve_d_at. intros E. break E; reflexivity. Qed.
Lemma solve_s_conflicts fuel ax i ax' : auto_solve_smoothness_at fuel ax i = Done ax' -> ax_conflicts ax' = ax_conflicts ax.
Proof. unfold auto_solve_smoothness_at. intros E. break E; reflexivity. Qed.
Lemma first_pass_conflicts fuel l : forall ax ax', first_pass fuel ax l = Done ax' -> ax_conflicts ax' = ax_conflicts ax.
Proof.
  induction l as [|i l IH]; cbn; intros ax ax' E; [now injection E as <-|]. destruct (auto_solve_d_at fuel ax i) as [y| |] eqn:F; try discriminate. cbn in E.
  rewrite (IH y ax' E). eapply solve_d_conflicts, F.
Qed.
Lemma second_pass_conflicts fuel l : forall ax ax' r, second_pass fuel ax l = Done (ax', r) -> ax_conflicts ax' = ax_conflicts ax.
Proof.
  induction l as [|i l IH]; cbn; intros ax ax' r E; [now injection E as <-|].
  destruct (auto_solve_d_at fuel ax i) as [y| |] eqn:F; try discriminate. cbn [bind] in E.
  destruct (auto_solve_smoothness_at fuel y i) as [z| |] eqn:G; try discriminate. cbn [bind] in E.
  destruct (mesh_segment z i) as [w| |]; try discriminate. cbn [bind] in E.
  destruct (second_pass fuel z l) as [[u v]| |] eqn:H; try discriminate. cbn [bind] in E. injection E as <- _.
  rewrite (IH z u v H), (solve_s_conflicts _ _ _ _ G). eapply solve_d_conflicts, F.
Qed.
Lemma mesh_axis_conflicts fuel srt ax ax' : mesh_axis fuel srt ax = Done ax' -> ax_conflicts ax' = ax_conflicts ax.
Proof.
  intros E. unfold mesh_axis in E. destruct (first_pass fuel ax _) as [y| |] eqn:F; try discriminate. cbn [bind] in E.
  destruct (second_pass fuel y _) as [[z r]| |] eqn:G; try discriminate. cbn [bind] in E. injection E as <-. cbn.
  now rewrite (second_pass_conflicts _ _ _ _ _ G), (first_pass_conflicts _ _ _ _ F).
Qed.
Lemma intervals_conflicts g l : forall ax ax', detect_intervals_loop g ax l = Done ax' -> ax_conflicts ax' = ax_conflicts ax.
Proof.
  induction l as [|b l IH]; intros ax ax' E; [injection E as <-; reflexivity|]. destruct l as [|a l]; [injection E as <-; reflexivity|]. cbn [detect_intervals_loop] in E.
  destruct (new_segment g ax b a) as [y| |] eqn:F; try discriminate. cbn [bind] in E. rewrite (IH _ _ E). unfold new_segment in F.
  destruct (read _ b) as [pb| |]; try discriminate. cbn [bind] in F. destruct (read _ a) as [pa| |]; try discriminate. cbn [bind] in F.
  destruct (make_interval g pb pa) as [[qb qa] iv]. break F. reflexivity.
Qed.

Section WithTools.
Context (tl : tools).
Notation play := (play tl).

Definition same_conflicts (b b' : board) : Prop := forall ax, ax_conflicts (on_axis (b_axes b') ax) = ax_conflicts (on_axis (b_axes b) ax).
Lemma last_conflicts x s b b' : In s [DETECT_INTERVALS; DETECT_INTERVALS_PER_DIAG_ZONES; SOLVE_DIAG_ZONES_INTERVALS; MESH] -> do_step tl x s b = Done b' -> same_conflicts b b'.
Proof.
  intros [<-|[<-|[<-|[<-|[]]]]] E; cbn [do_step] in E; try (injection E as <-; intros ax; reflexivity); apply on_each_axis_done in E; destruct E as [_ E]; intros ax; specialize (E ax).
  - unfold detect_intervals in E. eapply intervals_conflicts, E.
  - destruct (collect _ _) as [zs| |]; try discriminate. cbn [bind] in E. injection E as E. now rewrite <- E.
  - eapply mesh_axis_conflicts, E.
Qed.
Lemma last_conflicts_all x l : incl l [DETECT_INTERVALS; DETECT_INTERVALS_PER_DIAG_ZONES; SOLVE_DIAG_ZONES_INTERVALS; MESH] -> forall b b', play x l b = Done b' -> same_conflicts b b'.
Proof.
  intros I b b'. unfold EditProofs.play. revert b b'. apply for_each_rel; [intros b ax; reflexivity|intros a b c H1 H2 ax; now rewrite H2|].
  intros s b b' Is. apply last_conflicts. now apply I.
Qed.

Lemma opened_intervals b x ss : opened tl b x ss -> without_conflicts (ss_board ss) -> ~ In DETECT_INTERVALS (labels ss).
Proof.
  intros O W. unfold opened, run_all_steps in O.
  change (that_and_after ADJUST_EDGE_TO_MATERIAL) with ([ADJUST_EDGE_TO_MATERIAL; DETECT_DIAG_ANGLES; DETECT_DIAG_ZONES; SOLVE_DIAG_ZONES_ANGLES; DETECT_CONFLICT_EIP; DETECT_CONFLICT_CE; ADD_FIXED_MLP;
     SOLVE_ALL_EIP; SOLVE_ALL_CE; DETECT_INDIVIDUAL_EDGES] ++ [DETECT_AND_SOLVE_TCMLP] ++ [DETECT_INTERVALS] ++ [DETECT_INTERVALS_PER_DIAG_ZONES; SOLVE_DIAG_ZONES_INTERVALS; MESH]) in O.
  apply run_list_split in O. destruct O as (s10 & E10 & O). apply run_list_split in O. destruct O as (s11 & E11 & O). apply run_list_split in O. destruct O as (s12 & E12 & O).
  apply run_list_one in E11, E12.
  assert (C : same_conflicts (ss_board s11) (ss_board ss)).
  { pose proof (run_step_done _ _ _ _ E12) as (D & _). destruct (run_list_board _ _ _ _ O) as [P _]. intros ax.
    rewrite (last_conflicts_all _ [DETECT_INTERVALS_PER_DIAG_ZONES; SOLVE_DIAG_ZONES_INTERVALS; MESH] ltac:(intros t I; cbn in *; tauto) _ _ P ax).
    exact (last_conflicts _ _ _ _ (or_introl eq_refl) D ax). }
  destruct (run_list_labels _ _ _ _ E10) as [L10 H10]. cbn [loaded labels ss_past map ss_here] in L10, H10.
  assert (N10 : ~ In DETECT_INTERVALS (labels s10)) by (intros I; destruct (L10 _ I) as [[]|[K|K]]; [discriminate K|cbn in K; intuition discriminate]).
  assert (M10 : mark DETECT_AND_SOLVE_TCMLP s10 <> DETECT_INTERVALS).
  { unfold mark. destruct (ss_here s10) as [t|]; [|discriminate]. intros ->. destruct (H10 _ eq_refl) as [K|K]; [discriminate K|cbn in K; intuition discriminate]. }
  pose proof (run_step_done _ _ _ _ E11) as (_ & _ & [(_ & _ & H11 & P11)|(K & _)]).
  2:{ exfalso. cbn [creates] in K. apply Nat.ltb_lt in K. assert (close_count (ss_board s11) = 0%nat) as Z; [|lia].
      unfold close_count, size_on_axes. pose proof (C AX) as CX. pose proof (C AY) as CY. pose proof (C AZ) as CZ. rewrite W in CX, CY, CZ. cbn in CX, CY, CZ. now rewrite <- CX, <- CY, <- CZ. }
  pose proof (run_step_done _ _ _ _ E12) as (_ & _ & [(K & _)|(_ & H12 & P12)]); [discriminate K|].
  assert (N12 : ~ In DETECT_INTERVALS (labels s12)).
  { unfold labels. rewrite P12, P11. cbn [map fst]. unfold mark at 1. rewrite H11. intros [K|K]; [now apply M10|now apply N10]. }
  destruct (run_list_labels _ _ _ _ O) as [L _]. intros I. destruct (L _ I) as [K|[K|K]]; [now apply N12|congruence|cbn in K; intuition discriminate].
Qed.

Theorem lines_stay_all b x ss l ss' : sorts (tl_sorter tl) -> opened tl b x ss -> without_zones (ss_board ss) -> without_conflicts (ss_board ss) ->
  forallb (fun d => local d || is_policy d) l = true -> edits tl l ss = Done ss' -> forall ax, incl (lines_on (ss_board ss) ax) (lines_on (ss_board ss') ax).
Proof.
  intros So O W C Lo E. destruct (opened_labels _ _ _ _ O W) as (N1 & N2 & _). pose proof (opened_intervals _ _ _ O C) as N3.
  set (P := fun s : Step => s = DETECT_CONFLICT_EIP \/ s = MESH \/ s = DETECT_INTERVALS).
  destruct (locals_keep tl P (lines_on (ss_board ss)) l So (or_introl eq_refl) (or_intror (or_introl eq_refl))) with (ss := ss) (ss' := ss') as [K _]; [|exact E| |exact K].
  { intros y I. pose proof (proj1 (forallb_forall _ l) Lo y I) as T. cbn beta in T. apply orb_true_iff in T. destruct T as [T|T]; [now left|right; split; [|exact T]; right; now right]. }
  split; [intros ax; apply incl_refl|].
  apply Forall_forall. intros [s y] I La. exfalso. apply (in_map fst) in I. cbn [fst] in La, I. destruct La as [La|[La|La]]; subst s; contradiction.
Qed.
End WithTools.
