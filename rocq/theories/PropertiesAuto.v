(** Property C91: timepoints are collected without being asked. *)
From Coq Require Import List Arith Bool Lia.
From Verif Require Import HistModel HistSpec HistProofs HistExamples AppModel AppSpec PropertiesHist AutoSpec AutoProofs.
Import ListNotations.

Section Props.
Context {V A : Type}.
Implicit Types (w : world V A) (g : ghost V).

(** The collection is automatic for as long as nobody says otherwise. *)
Theorem C91_on w g : untouched w g -> reachable w g /\ w_auto w = true.
Proof. intros U. split; [exact (untouched_reachable w g U)|exact (untouched_on w g U)]. Qed.

(** Then making a timepoint while browsing leaves, besides the new timepoint,
    exactly those needed for the current one, the pinned ones and those of the
    user history that are not undone. *)
Theorem C91_next w g k a dying w' : untouched w g -> w_brow w = Some k -> step w (NextTimepoint a dying) = Ok w' ->
  w_hist w' = firstn (S k) (w_hist w) /\
  forall t, alive (w_heap w') t = true <->
    t = a \/ needed (w_heap w) (fun u => u = w_cur w \/ In u (w_pins w) \/ In u (w_hist w')) t.
Proof.
  intros U B E. split.
  - pose proof (HistNavProofs.next_hist dying a w w' E) as (H & _). now rewrite B in H.
  - apply (next_alive w g a dying w' (reachable_inv w g (untouched_reachable w g U)) (untouched_on w g U)); [congruence|exact E].
Qed.

(** And unpinning leaves exactly those needed for the current one, the other
    pinned ones and those of the user history. *)
Theorem C91_unpin w g p dying w' : untouched w g -> step w (Unpin p dying) = Ok w' ->
  forall t, alive (w_heap w') t = true <->
    needed (w_heap w) (fun u => u = w_cur w \/ (In u (w_pins w) /\ u <> p) \/ In u (w_hist w)) t.
Proof. intros U E. exact (unpin_alive w g p dying w' (reachable_inv w g (untouched_reachable w g U)) (untouched_on w g U) E). Qed.

(** Nothing is removed by any other operation, and nothing is made but by
    [make_next_timepoint]; whatever the setting. *)
Theorem C91_only w (x : op V A) w' t : may_collect w x = false -> step w x = Ok w' ->
  (alive (w_heap w') t = true <-> alive (w_heap w) t = true \/ exists dying, x = NextTimepoint t dying).
Proof. apply kept_alive. Qed.

(** A pinned timepoint stays, until it is unpinned or the history starts anew. *)
Theorem C91_pinned w g (x : op V A) w' p : reachable w g -> permitted w g x -> step w x = Ok w' -> births_alive w' (gstep g w x) ->
  (forall dying, x <> Unpin p dying) -> (forall dying, x <> Reset dying) -> In p (w_pins w) ->
  In p (w_pins w') /\ alive (w_heap w') p = true.
Proof.
  intros R P E B N M I. pose proof (step_pins w x w' p E N M I) as J. split; [exact J|].
  exact (i_pins _ _ (reachable_inv _ _ (reach_step w g x w' R P E B)) p J).
Qed.

(** If the client remembers or pins the current timepoint, or one under it, before
    leaving it,
    only needed timepoints are there at any time. *)
Theorem C91_nothing_left w g t : careful w g -> alive (w_heap w) t = true ->
  needed (w_heap w) (fun u => u = w_cur w \/ In u (w_pins w) \/ In u (w_hist w)) t.
Proof. intros C. exact (careful_tidy w g C t). Qed.
End Props.

(** The application is such a client: when steps have been run the current
    timepoint is the last remembered one, *)
Theorem C91_run {V} (board : behaviour (V := V)) steps w w' l g : run board steps w = Ok (w', l) -> reachable w' g ->
  last (w_hist w') null = w_cur w' /\ anchored w'.
Proof.
  intros E R. pose proof (run_last board steps w (w', l) E) as L. split; [exact L|]. exact (last_anchored w' g (reachable_inv w' g R) L).
Qed.

(** what the steps themselves do never leaves a timepoint nor touches the setting, *)
Theorem C91_steps {V} (board : behaviour (V := V)) s w w1 w' : lawful board -> perform (board s w1) w1 = Ok w' -> w1 = annotate_current_timepoint s w ->
  Forall (fun x => leaves x = false /\ forall b, x <> SetAutoGc b) (board s w1) /\ w_auto w' = w_auto w /\ w_pins w' = w_pins w.
Proof.
  intros Lw E Ew. destruct (domain_stays _ w1 w' (Lw s w1) E) as (F & A & P). split; [exact F|]. rewrite A, P, Ew. unfold annotate_current_timepoint. now destruct (assoc _ _).
Qed.

(** and going back before a step, or before the previous one, undo and redo lead
    to timepoints that are needed for one that is remembered or pinned. *)
Theorem C91_back {V} (w : world V Step) g w' s n : reachable w g -> anchored w ->
  go_before s w = Ok w' \/ go_before_previous_step w = Ok w' \/ undo n w = Ok w' \/ redo n w = Ok w' -> anchored w'.
Proof.
  intros R K. pose proof (reachable_inv w g R) as I. intros [E|[E|[E|E]]].
  - exact (before_anchored s w g w' I K E).
  - exact (previous_anchored w g w' I K E).
  - exact (undo_anchored n w g w' I K E).
  - exact (redo_anchored n w g w' I K E).
Qed.

(** That only needed timepoints are there at all times does not hold, even if
    the collection is automatic, for other clients: one that is left by a jump without having been
    remembered is there until the next collection. *)
Definition left_behind : list (op nat nat) := [NextTimepoint 2 []; GoWithoutRemembering 1].
Theorem C91_always_refuted : ~ forall (w : world nat nat) g t, untouched w g -> alive (w_heap w) t = true ->
  needed (w_heap w) (fun u => u = w_cur w \/ In u (w_pins w) \/ In u (w_hist w)) t.
Proof.
  intros H. destruct (H (ex_world left_behind) (ex_ghost left_behind) 2) as (u & C & D).
  - apply (played_untouched 1 left_behind); vm_compute; reflexivity.
  - vm_compute. reflexivity.
  - assert (u = 1) as -> by (destruct C as [C|[C|C]]; vm_compute in C; intuition congruence).
    apply HistTreeProofs.reaches_anc in D.
    + vm_compute in D. intuition congruence.
    + apply (i_wf _ _ (reachable_inv _ _ (play_ok 1 left_behind _ (ex_ghost left_behind) eq_refl))).
Qed.

(** In [ex_browsing] 3 is undone: making 4 removes it. *)
Example C91_next_example : exists w', untouched (ex_world ex_browsing) (ex_ghost ex_browsing) /\ w_brow (ex_world ex_browsing) <> None /\
  step (ex_world ex_browsing) (NextTimepoint 4 [8]) = Ok w' /\
  map (alive (w_heap (ex_world ex_browsing))) [1; 2; 3; 4] = [true; true; true; false] /\ map (alive (w_heap w')) [1; 2; 3; 4] = [true; true; false; true].
Proof.
  eexists. split; [apply (played_untouched 1 ex_browsing); vm_compute; reflexivity|]. split; [now vm_compute|].
  split; [vm_compute; reflexivity|]. split; vm_compute; reflexivity.
Qed.

(** 2 is pinned and left: it stays through a collection, until it is unpinned. *)
Definition ex_pinned : list (op nat nat) := [NextTimepoint 2 []; PinCurrent; GoWithoutRemembering 1; Collect []].
Example C91_unpin_example : exists w', untouched (ex_world ex_pinned) (ex_ghost ex_pinned) /\
  In 2 (w_pins (ex_world ex_pinned)) /\ alive (w_heap (ex_world ex_pinned)) 2 = true /\
  step (ex_world ex_pinned) (Unpin 2 []) = Ok w' /\ alive (w_heap w') 2 = false /\ alive (w_heap w') 1 = true.
Proof.
  eexists. split; [apply (played_untouched 1 ex_pinned); vm_compute; reflexivity|]. split; [now left|].
  split; [vm_compute; reflexivity|]. split; [vm_compute; reflexivity|]. split; vm_compute; reflexivity.
Qed.

(** Switched off, unpinning it removes nothing, nor does making a timepoint while browsing. *)
Example C91_only_example :
  let w := ex_world (ex_pinned ++ [SetAutoGc false]) in let v := ex_world (ex_browsing ++ [SetAutoGc false]) in exists w' v',
  may_collect w (Unpin 2 []) = false /\ step w (Unpin 2 []) = Ok w' /\ w_pins w' = [] /\ alive (w_heap w') 2 = true /\
  may_collect v (NextTimepoint 4 []) = false /\ step v (NextTimepoint 4 []) = Ok v' /\ map (alive (w_heap v')) [1; 2; 3; 4] = [true; true; true; true].
Proof.
  cbn zeta. eexists _, _. split; [vm_compute; reflexivity|]. split; [vm_compute; reflexivity|]. split; [vm_compute; reflexivity|]. split; [vm_compute; reflexivity|].
  split; [vm_compute; reflexivity|]. split; vm_compute; reflexivity.
Qed.

(** The pinned one stays when a new timepoint is made elsewhere. *)
Example C91_pinned_example : let w := ex_world ex_pinned in let g := ex_ghost ex_pinned in exists w',
  reachable w g /\ permitted w g (NextTimepoint 5 []) /\ step w (NextTimepoint 5 []) = Ok w' /\ births_alive w' (gstep g w (NextTimepoint 5 [])) /\ In 2 (w_pins w').
Proof.
  cbn zeta. assert (R : reachable (ex_world ex_pinned) (ex_ghost ex_pinned)) by (apply (play_ok 1 ex_pinned); vm_compute; reflexivity).
  eexists. split; [exact R|]. split; [apply (permittedb_ok _ _ _ R); vm_compute; reflexivity|]. split; [vm_compute; reflexivity|].
  split; [apply birthsb_ok; vm_compute; reflexivity|now left].
Qed.

(** 3 is undone and replaced by 4; 1, 2 and 4 are left. 4 is pinned before it is left, 2 was remembered. *)
Definition ex_careful : list (op nat nat) := ex_browsing ++ [NextTimepoint 4 [8]; PinCurrent; GoWithoutRemembering 2; GoAndRemember 1].
Example C91_nothing_left_example : careful (ex_world ex_careful) (ex_ghost ex_careful) /\
  map (alive (w_heap (ex_world ex_careful))) [1; 2; 3; 4] = [true; true; false; true] /\ w_cur (ex_world ex_careful) = 1.
Proof. split; [apply (played_careful 1 ex_careful); vm_compute; reflexivity|]. split; vm_compute; reflexivity. Qed.

(** One step is run from the root: 2 is made and remembered.  Going back before it leads to the root. *)
Definition ex_board : behaviour (V := nat) := fun _ _ => [NextTimepoint 2 []].
Definition ex_run : list (op nat Step) := [Annotate DETECT_DIAG_ANGLES; NextTimepoint 2 []; RememberCurrent].
Example C91_run_example : exists w' l g w2, run ex_board [DETECT_DIAG_ANGLES] (init_world 1) = Ok (w', l) /\ reachable w' g /\
  w_cur w' = 2 /\ w_hist w' = [1; 2] /\ anchored w' /\ go_before DETECT_DIAG_ANGLES w' = Ok w2 /\ w_cur w2 = 1.
Proof.
  destruct (play 1 ex_run) as [[w g]|] eqn:P; [|vm_compute in P; discriminate]. pose proof (play_ok 1 ex_run w g P) as R.
  assert (E : exists l, run ex_board [DETECT_DIAG_ANGLES] (init_world 1) = Ok (w, l)) by (vm_compute in P; injection P as <- _; eexists; vm_compute; reflexivity).
  destruct E as [l E]. pose proof (proj2 (C91_run ex_board _ _ w l g E R)) as K. vm_compute in P. injection P as <- _.
  eexists _, l, g, _. split; [exact E|]. split; [exact R|]. split; [reflexivity|]. split; [reflexivity|]. split; [exact K|]. split; vm_compute; reflexivity.
Qed.

Example C91_steps_example : exists w' : world nat Step, lawful (fun _ (w : world nat Step) => if alive (w_heap w) 2 then [] else match w_brow w with None => [NextTimepoint 2 []] | Some _ => [] end) /\
  perform [NextTimepoint 2 []] (annotate_current_timepoint MESH (init_world 1)) = Ok w' /\ w_cur w' = 2 /\ w_auto w' = true.
Proof.
  eexists. split; [|split; [vm_compute; reflexivity|split; reflexivity]]. intros s w. destruct (alive (w_heap w) 2) eqn:A; [exact I|]. destruct (w_brow w) eqn:B; [exact I|].
  split; [|exact (fun _ _ => I)]. split; [discriminate|]. unfold stop_browsing_user_history. rewrite B. now intros w1 [= <-].
Qed.

Print Assumptions C91_on.
Print Assumptions C91_next.
Print Assumptions C91_unpin.
Print Assumptions C91_only.
Print Assumptions C91_pinned.
Print Assumptions C91_nothing_left.
Print Assumptions C91_run.
Print Assumptions C91_steps.
Print Assumptions C91_back.
Print Assumptions C91_always_refuted.
