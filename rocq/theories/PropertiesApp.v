(** Properties C12-C15: the pipeline of steps and the output guard. *)
From Coq Require Import List Arith Bool Lia Sorted.
From Verif Require Import HistModel HistSpec HistTreeProofs HistProofs HistExamples AppModel AppSpec AppProofs.
Import ListNotations.

(** * Boards used as examples *)
(** A board that creates one timepoint per step, except for the steps of
    [idle] where it does nothing. *)
Definition fresh (w : world nat Step) : nat := S (list_max (map fst (w_heap w))).
Definition ex_board (idle : list Step) : behaviour :=
  fun s w => if existsb (Step_eqb s) idle then [] else [NextTimepoint (fresh w) []].

Lemma stop_alive dying (w w1 : world nat Step) a :
  stop_browsing_user_history dying w = Ok w1 -> alive (w_heap w1) a = true -> alive (w_heap w) a = true.
Proof.
  unfold stop_browsing_user_history. destruct (w_brow w) as [k|]; [|now intros [= <-]]. cbn [w_auto set_hist].
  destruct (w_auto w); [|now intros [= <-]]. unfold garbage_collector. destruct (forallb _ _); [|discriminate].
  destruct (erase_all _ _ _ _); cbn; try discriminate. intros [= <-]. cbn. rewrite !alive_In, !in_map_iff.
  intros (y & E & H). exists y. split; [assumption|]. unfold erase_from_descendants in H. now apply filter_In in H.
Qed.

Lemma ex_lawful idle : lawful (ex_board idle).
Proof.
  intros s w. unfold ex_board. destruct (existsb _ _); [exact I|]. cbn. split; [|auto]. split; [discriminate|].
  intros w1 E. destruct (alive (w_heap w1) (fresh w)) eqn:A; [|reflexivity]. exfalso.
  apply (stop_alive [] w w1 _ E) in A. apply alive_In in A. unfold fresh in A.
  pose proof (proj1 (list_max_le (map fst (w_heap w)) _) (le_n _)) as F. rewrite Forall_forall in F.
  apply F in A. lia.
Qed.

Lemma ex_productive s w : creates (ex_board [] s w).
Proof. eexists _, _. cbn. now left. Qed.

Definition ex_start : world nat Step := init_world 1.
Lemma ex_start_reachable : reachable ex_start ghost0.
Proof. apply reach_init. discriminate. Qed.

Section Props.
Context {V : Type}.
Implicit Types (w : world V Step) (g : ghost V).

(** ** C12 *)
(** The steps done by [run] are the requested ones, each once, in the order of
    their indices; the result is remembered in the user history. *)
Theorem C12_run_in_order board steps w g w' tr :
  reachable w g -> lawful board -> run board steps w = Ok (w', tr) ->
  StronglySorted (fun s s' => index (Some s) < index (Some s')) (map fst tr) /\
  (forall s, In s (map fst tr) <-> In s steps) /\
  last (w_hist w') null = w_cur w'.
Proof.
  intros R Lb E. pose proof (inv_tinv _ _ (reachable_inv w g R)) as T.
  destruct (run_during board steps w w' tr Lb T E) as [_ ->]. split; [|split].
  - assert (S : StronglySorted (fun s s' => index (Some s) < index (Some s')) handled).
    { unfold handled. repeat constructor. }
    induction S as [|a l S IH F]; cbn; [constructor|]. destruct (existsb _ _); [|assumption]. constructor; [assumption|].
    rewrite Forall_forall in *. intros x Hx. apply filter_In in Hx. now apply F.
  - intros s. rewrite filter_In, existsb_exists. split.
    + intros (_ & x & Hx & Hs). unfold Step_eqb in Hs. destruct (Step_eq_dec s x); [now subst | discriminate].
    + intros Hs. split; [destruct s; cbn; tauto|]. exists s. split; [assumption|]. unfold Step_eqb. now destruct (Step_eq_dec s s).
  - unfold run in E. destruct (handle_all _ _ _ _) as [[w1 tr1]| |]; try discriminate. cbn in E. injection E as <- _.
    unfold remember_current_timepoint. destruct (Nat.eqb_spec (last (w_hist w1) null) (w_cur w1)); [assumption|].
    cbn. apply last_last.
Qed.

Theorem C12_run_all_in_order board w g w' tr :
  reachable w g -> lawful board -> run_all_steps board w = Ok (w', tr) ->
  map (fun s => index (Some s)) (map fst tr) = seq 1 index_max.
Proof.
  intros R Lb E. pose proof (inv_tinv _ _ (reachable_inv w g R)) as T.
  destruct (run_during board _ w w' tr Lb T E) as [_ ->]. reflexivity.
Qed.

Theorem C12_run_from_in_order board from w g w' tr :
  reachable w g -> lawful board -> run_from_step board from w = Ok (w', tr) ->
  map (fun s => index (Some s)) (map fst tr) = seq (index (Some from)) (S index_max - index (Some from)).
Proof.
  intros R Lb E. pose proof (inv_tinv _ _ (reachable_inv w g R)) as T.
  destruct (run_during board _ w w' tr Lb T E) as [_ ->]. destruct from; reflexivity.
Qed.

Theorem C12_next_is_index_successor s s' :
  next s = Some s' <-> index (Some s') = S (index (Some s)).
Proof. destruct s, s'; cbn; split; intros H; try reflexivity; try discriminate; try lia. Qed.

Theorem C12_index_numbers_the_steps :
  (forall s s', index s = index s' -> s = s') /\ (forall s, index s <= index_max) /\
  (forall i, i <= index_max -> exists s, index s = i) /\ (forall s, next s = None <-> index (Some s) = index_max).
Proof.
  split; [|split; [|split]].
  - intros [s|] [s'|]; try destruct s; try destruct s'; cbn; intros; congruence.
  - intros [s|]; [destruct s|]; cbn; lia.
  - intros i Hi. destruct i as [|i]; [now exists None|].
    assert (Hn : exists s, nth_error handled i = Some s).
    { destruct (nth_error handled i) eqn:E; [eauto|]. apply nth_error_None in E. cbn in *. lia. }
    destruct Hn as [s Hs]. exists (Some s). cbn in Hi.
    do 15 (destruct i as [|i]; [cbn in Hs; injection Hs as <-; reflexivity|]). lia.
  - intros s. destruct s; cbn; split; intros; try discriminate; try reflexivity; lia.
Qed.

(** ** C13 *)
(** After a run, go_before a step of that run leads to the timepoint current
    when this step started, provided no other step of the run started there,
    this timepoint was not yet annotated for another step before the run, and
    something was done since. *)
Theorem C13_go_before board steps w g w' tr s t :
  reachable w g -> lawful board -> run board steps w = Ok (w', tr) -> In (s, t) tr ->
  (forall s', In (s', t) tr -> s' = s) ->
  (t = w_cur w -> get_annotation t w = None \/ get_annotation t w = Some s) ->
  w_cur w' <> t ->
  exists w'', go_before s w' = Ok w'' /\ w_cur w'' = t.
Proof. intros R Lb. exact (go_before_start board steps w w' tr s t Lb (inv_tinv _ _ (reachable_inv w g R))). Qed.

(** If another step of the run started at the same timepoint before it (and so
    created nothing), go_before does nothing at all... *)
Theorem C13_go_before_after_idle_step board steps w g w' tr1 tr2 tr3 s s' t :
  reachable w g -> lawful board ->
  run board steps w = Ok (w', tr1 ++ (s', t) :: tr2 ++ (s, t) :: tr3) ->
  (forall u, ~ annotated_above w u s) ->
  go_before s w' = Ok w'.
Proof. intros R Lb. exact (go_before_shadowed board steps w w' tr1 tr2 tr3 s s' t Lb (inv_tinv _ _ (reachable_inv w g R))). Qed.

(** ... and an edition, which should go back before that step, is applied on
    top of the result of the whole run. *)
Theorem C13_edition_on_finished_mesh board board' edit steps w g w' tr1 tr2 tr3 s s' t :
  reachable w g -> lawful board ->
  run board steps w = Ok (w', tr1 ++ (s', t) :: tr2 ++ (s, t) :: tr3) ->
  (forall u, ~ annotated_above w u s) ->
  handle_edition_from board' s edit w' = do w2 <- perform (edit w') w'; run_from_step board' s w2.
Proof.
  intros R Lb E H. unfold handle_edition_from.
  now rewrite (C13_go_before_after_idle_step board steps w g w' tr1 tr2 tr3 s s' t R Lb E H).
Qed.

(** ** C14 *)
(** From a board without annotation, when each step creates a timepoint,
    repeating run_next_step does the steps one after the other and stops after
    the last; the current step is the last one done. *)
Theorem C14_stepping board k w g w' tr :
  reachable w g -> lawful board -> (forall s w, creates (board s w)) ->
  (forall t a, ~ annotated_above w t a) ->
  next_steps board k w = Ok (w', tr) ->
  map (fun s => index (Some s)) (map fst tr) = seq 1 (Nat.min k index_max) /\
  index (get_current_step w') = Nat.min k index_max /\
  (can_run_a_next_step w' = true <-> k < index_max).
Proof.
  intros R Lb Cr H E. pose proof (inv_tinv _ _ (reachable_inv w g R)) as T.
  pose proof (next_steps_after board k w w' tr Lb Cr T H E) as A.
  rewrite (a_tr _ _ _ A), (a_step _ _ _ A). unfold can_run_a_next_step. rewrite (a_found _ _ _ A).
  change index_max with 15. destruct (Nat.ltb_spec k 15) as [Hk|Hk].
  - rewrite Nat.min_l by lia. do 15 (destruct k as [|k]; [cbn; repeat split; lia || reflexivity|]). lia.
  - rewrite Nat.min_r by lia. cbn. repeat split; try discriminate. lia.
Qed.

(** ... and go_before_previous_step goes back to where the last step started. *)
Theorem C14_going_back board k w g w' tr s t :
  reachable w g -> lawful board -> (forall s w, creates (board s w)) ->
  (forall t a, ~ annotated_above w t a) ->
  next_steps board k w = Ok (w', tr ++ [(s, t)]) ->
  can_go_before w' = true /\ exists w'', go_before_previous_step w' = Ok w'' /\ w_cur w'' = t.
Proof.
  intros R Lb Cr H E. pose proof (inv_tinv _ _ (reachable_inv w g R)) as T.
  pose proof (next_steps_after board k w w' _ Lb Cr T H E) as A.
  destruct (a_back _ _ _ A s t tr eq_refl) as [F I]. unfold can_go_before, go_before_previous_step. rewrite F. split.
  - apply negb_true_iff, Nat.eqb_neq. intros ->. apply anc_incl in I. rewrite wf_not_null in I; [discriminate|].
    apply (a_inv _ _ _ A).
  - destruct (go_remember_ok w' t (a_inv _ _ _ A) I) as (w2 & -> & C). exists w2. auto.
Qed.

(** ... and repeating it goes back through the starts of the steps done, one
    at a time. *)
Theorem C14_going_back_repeatedly board k j w g w' tr s t :
  reachable w g -> lawful board -> (forall s w, creates (board s w)) ->
  (forall t a, ~ annotated_above w t a) ->
  next_steps board k w = Ok (w', tr) -> nth_error (rev tr) j = Some (s, t) ->
  exists w'', previous_steps (S j) w' = Ok w'' /\ w_cur w'' = t.
Proof.
  intros R Lb Cr H E N. pose proof (inv_tinv _ _ (reachable_inv w g R)) as T.
  pose proof (next_steps_after board k w w' tr Lb Cr T H E) as A.
  apply (map_nth_error snd) in N. rewrite map_rev in N. cbn in N.
  destruct (previous_steps_behind j w' (rev (map snd tr))) as (w2 & E2 & N2 & _).
  - eapply after_behind; eauto.
  - apply nth_error_Some. now rewrite N.
  - exists w2. split; [assumption | congruence].
Qed.

(** Refuted in general: a step that creates no timepoint is done for ever. *)
Theorem C14_idle_step_livelock board s k w g w' tr :
  reachable w g -> lawful board -> (forall w, ~ creates (board s w)) ->
  match get_annotation (find_first_ancestor_with_annotation false w) w with
  | Some previous => next previous = Some s
  | None => s = ADJUST_EDGE_TO_MATERIAL
  end ->
  next_steps board k w = Ok (w', tr) ->
  tr = repeat (s, w_cur w) k /\ can_run_a_next_step w' = true.
Proof.
  intros R Lb Id Hn E. pose proof (inv_tinv _ _ (reachable_inv w g R)) as T.
  destruct (idle_livelock board s k w w' tr Lb Id T) as (_ & -> & _ & Hn').
  - unfold annotation_found. destruct (get_annotation _ w); [assumption | now subst].
  - assumption.
  - split; [reflexivity|]. unfold can_run_a_next_step. destruct (annotation_found false w'); [now rewrite Hn'|reflexivity].
Qed.
End Props.

Theorem C14_stepping_refuted :
  exists (board : behaviour) (w : world nat Step) g,
    reachable w g /\ lawful board /\ (forall t a, ~ annotated_above w t a) /\
    forall k, exists w', next_steps board k w = Ok (w', repeat (ADJUST_EDGE_TO_MATERIAL, w_cur w) k) /\
                         can_run_a_next_step w' = true.
Proof.
  exists (ex_board [ADJUST_EDGE_TO_MATERIAL]), ex_start, ghost0.
  assert (R := ex_start_reachable). assert (Lb := ex_lawful [ADJUST_EDGE_TO_MATERIAL]).
  split; [assumption|]. split; [assumption|]. split.
  - intros t a [_ H]. discriminate.
  - intros k. assert (X : exists r, next_steps (ex_board [ADJUST_EDGE_TO_MATERIAL]) k ex_start = Ok r).
    { induction k as [|k [[w1 tr1] IH]]; [eexists; reflexivity|]. cbn [next_steps]. rewrite IH. cbn [bind fst snd].
      destruct (idle_livelock _ ADJUST_EDGE_TO_MATERIAL k ex_start w1 tr1 Lb) as (_ & _ & _ & H); auto.
      - intros w (a & d & []).
      - exact (inv_tinv _ _ (reachable_inv _ _ R)).
      - unfold run_next_step.
        assert (Ok1 : forall w : world nat Step, exists r, run (ex_board [ADJUST_EDGE_TO_MATERIAL]) [ADJUST_EDGE_TO_MATERIAL] w = Ok r)
          by (intros w; eexists; reflexivity).
        destruct (annotation_found false w1) as [a|].
        + rewrite H. destruct (Ok1 w1) as [r ->]. eexists. reflexivity.
        + destruct (Ok1 w1) as [r ->]. eexists. reflexivity. }
    destruct X as [[w' tr] E]. exists w'.
    destruct (C14_idle_step_livelock _ ADJUST_EDGE_TO_MATERIAL k ex_start ghost0 w' tr R Lb) as (-> & C); auto.
    + intros w (a & d & []).
    + reflexivity.
Qed.

Theorem C13_go_before_refuted :
  exists (board : behaviour) (w : world nat Step) g w' tr s t,
    reachable w g /\ lawful board /\ run_all_steps board w = Ok (w', tr) /\ In (s, t) tr /\
    w_cur w' <> t /\ go_before s w' = Ok w'.
Proof.
  exists (ex_board [ADJUST_EDGE_TO_MATERIAL]), ex_start, ghost0. eexists _, _, DETECT_DIAG_ANGLES, 1.
  split; [exact ex_start_reachable|]. split; [apply ex_lawful|]. split; [vm_compute; reflexivity|].
  split; [cbn; tauto|]. split; [vm_compute; discriminate | vm_compute; reflexivity].
Qed.

(** ** C15 *)
(** Without --force a CSX run writes to no existing file. *)
Theorem C15_csx_never_overwrites exists_ parses loads grid args :
  p_force args = false -> p_format args = CSX ->
  forall f, In f (main_cli exists_ parses loads grid args) -> exists_ f = false.
Proof.
  unfold main_cli, is_about_overwriting, write. intros Hf Hc f. cbn. rewrite Hf, Hc. cbn.
  destruct parses; [|intros []]. cbn. destruct (exists_ _) eqn:E; [intros []|]. cbn.
  destruct (_ && grid); [intros []|]. destruct loads; [|intros []]. intros [<-|[]]. exact E.
Qed.

(** Nothing but the output path (or the input when it is not given) is ever
    written, and pretty print writes no file. *)
Theorem C15_writes_output_only exists_ parses loads grid args f :
  In f (main_cli exists_ parses loads grid args) ->
  parses = true /\ p_format args <> PRETTYPRINT /\
  f = (if p_output args =? 0 then p_input args else p_output args).
Proof.
  unfold main_cli, write. destruct parses; [|intros []]. cbn. destruct (is_about_overwriting _ _ _); [intros []|].
  destruct (p_format args); [destruct loads; [|intros []] | | intros []]; intros [<-|[]]; repeat split; discriminate.
Qed.

(** With --force, a CSX run of a readable file writes its output. *)
Theorem C15_force_writes exists_ grid args :
  p_force args = true -> p_format args = CSX ->
  main_cli exists_ true true grid args = [if p_output args =? 0 then p_input args else p_output args].
Proof. intros Hf Hc. unfold main_cli, is_about_overwriting, write. cbn. rewrite Hf, Hc. reflexivity. Qed.

Theorem C15_plantuml_overwrites_refuted :
  exists exists_ parses loads grid args f,
    p_force args = false /\ exists_ (p_input args) = true /\
    In f (main_cli exists_ parses loads grid args) /\ exists_ f = true /\ f = p_input args.
Proof.
  exists (fun n => n =? 7), true, true, false, (mkParams 7 0 false PLANTUML), 7.
  repeat split; cbn; auto.
Qed.

(** * Examples *)
Example C12_ex : exists w' tr, run (ex_board []) [MESH; DETECT_INTERVALS; DETECT_DIAG_ANGLES] ex_start = Ok (w', tr)
  /\ map fst tr = [DETECT_DIAG_ANGLES; DETECT_INTERVALS; MESH].
Proof. eexists _, _. split; [vm_compute; reflexivity | reflexivity]. Qed.
Example C12_from_ex : exists r, run_from_step (ex_board []) DETECT_INTERVALS ex_start = Ok r.
Proof. eexists. vm_compute. reflexivity. Qed.
Example C13_ex : exists w' tr, run_all_steps (ex_board [DETECT_DIAG_ZONES]) ex_start = Ok (w', tr)
  /\ In (DETECT_CONFLICT_EIP, 4) tr /\ (forall s', In (s', 4) tr -> s' = DETECT_CONFLICT_EIP)
  /\ w_cur w' <> 4 /\ In (DETECT_DIAG_ZONES, 3) tr /\ In (SOLVE_DIAG_ZONES_ANGLES, 3) tr.
Proof.
  eexists _, _. split; [vm_compute; reflexivity|]. split; [cbn; tauto|]. split; [|split; [vm_compute; discriminate | cbn; tauto]].
  cbn. intros s'. intuition congruence.
Qed.
Example C14_ex : exists w' tr, next_steps (ex_board []) 20 ex_start = Ok (w', tr) /\ length tr = 15.
Proof. eexists _, _. split; [vm_compute; reflexivity | reflexivity]. Qed.
Example C14_start_ex : forall t a, ~ annotated_above ex_start t a.
Proof. intros t a [_ H]. discriminate. Qed.
Example C14_back_ex : exists w' tr, next_steps (ex_board []) 3 ex_start = Ok (w', tr ++ [(DETECT_DIAG_ZONES, 3)]).
Proof. eexists _, [_; _]. vm_compute. reflexivity. Qed.
Example C14_back_many_ex : exists w' tr, next_steps (ex_board []) 5 ex_start = Ok (w', tr) /\
  nth_error (rev tr) 3 = Some (DETECT_DIAG_ANGLES, 2).
Proof. eexists _, _. split; [vm_compute; reflexivity | reflexivity]. Qed.
Example C15_ex : main_cli (fun n => n =? 7) true true false (mkParams 7 8 false CSX) = [8]
  /\ main_cli (fun n => n =? 7) true true false (mkParams 7 0 false CSX) = [].
Proof. split; reflexivity. Qed.

Print Assumptions C12_run_in_order.
Print Assumptions C12_run_all_in_order.
Print Assumptions C12_run_from_in_order.
Print Assumptions C12_next_is_index_successor.
Print Assumptions C12_index_numbers_the_steps.
Print Assumptions C13_go_before.
Print Assumptions C13_go_before_after_idle_step.
Print Assumptions C13_edition_on_finished_mesh.
Print Assumptions C13_go_before_refuted.
Print Assumptions C14_stepping.
Print Assumptions C14_going_back.
Print Assumptions C14_going_back_repeatedly.
Print Assumptions C14_idle_step_livelock.
Print Assumptions C14_stepping_refuted.
Print Assumptions C15_csx_never_overwrites.
Print Assumptions C15_writes_output_only.
Print Assumptions C15_force_writes.
Print Assumptions C15_plantuml_overwrites_refuted.
