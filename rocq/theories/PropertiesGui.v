(** Properties of the window: what is shown (C68), what is saved (C69). *)
From Coq Require Import List Arith Bool Lia.
From Verif Require Import HistModel HistSpec HistTreeProofs HistProofs HistNavProofs HistExamples AppModel AppProofs GuiModel GuiSpec
  GuiHistProofs GuiProofs GuiExamples.
Import ListNotations.

(** * C68: the window shows the current point of the history *)
Section C68.
Context {V : Type}.
Notation window := (window V).
Notation action := (action V).
Notation ghost := (ghost V).

(** Whatever the user does, both views show the objects that exist at the
    current timepoint, in the states they have there. *)
Theorem C68_shown (wn : window) (g : ghost) : session wn g -> wn_open wn = true ->
  (exists sc, vw_scene (wn_structure wn) = Some sc /\ depicts sc (wn_world wn)) /\
  (exists sc, vw_scene (wn_processing wn) = Some sc /\ depicts sc (wn_world wn)).
Proof.
  intros H O. destruct (session_inv _ _ _ H) as [Sh|[So _]]; [|congruence].
  destruct (showing_depicts wn g Sh) as (s & Es & Ds & p & Ep & Dp). split; eauto.
Qed.

(** No action fails while a document is open, nor does the opening of a file. *)
Theorem C68_safe (wn : window) (g : ghost) (a : action) : session wn g -> careful wn g a ->
  wn_open wn = true \/ (exists choice parse board, a = OpenFile choice parse board) ->
  exists wn', act a wn = Ok wn'.
Proof.
  intros H C D. destruct (act_ok wn g a (session_inv _ _ _ H) C) as (wn' & E & _); [|eauto].
  destruct D as [?|(choice & parse & board & ->)]; [now left|]. right. right. intros [].
Qed.

(** The navigation buttons are enabled exactly when they do something, and no
    button that needs a document is enabled without one. *)
Theorem C68_buttons (wn : window) (g : ghost) : session wn g ->
  (wn_open wn = true ->
     (enabled wn UndoStep = true <-> undo 1 (wn_world wn) <> Ok (wn_world wn)) /\
     (enabled wn RedoStep = true <-> redo 1 (wn_world wn) <> Ok (wn_world wn)) /\
     (enabled wn PrevStep = true <-> exists w, go_before_previous_step (wn_world wn) = Ok w /\ w_cur w <> w_cur (wn_world wn)) /\
     (forall board, enabled wn (NextStep board) = true <-> annotation_found false (wn_world wn) <> Some MESH)) /\
  (wn_open wn = false -> wn_closed wn = false ->
     enabled wn UndoStep = false /\ enabled wn RedoStep = false /\ enabled wn PrevStep = false /\ forall board, enabled wn (NextStep board) = false).
Proof.
  intros H. destruct (session_inv _ _ _ H) as [(Op & _ & _ & B)|[So Su]].
  - split; [|rewrite (op_open _ _ Op); discriminate]. intros _. cbn [enabled]. destruct B as (-> & -> & -> & ->).
    pose proof (reachable_inv _ _ (gd_reach _ _ _ _ (op_good _ _ Op))) as I. set (w := wn_world wn) in *.
    split; [symmetry; exact (undo1_moves w g I)|]. split; [symmetry; exact (redo1_moves w g I)|]. split.
    + unfold can_go_before, go_before_previous_step. rewrite negb_true_iff, Nat.eqb_neq.
      destruct (find_ancestor_spec (fun _ => true) false w g I) as [[E _]|[[In1 _] _]]; cbn zeta in *.
      * unfold find_first_ancestor_with_annotation. rewrite E. split; [congruence|]. intros (w' & Hg & Hc). exfalso.
        unfold go_and_remember, go_without_remembering in Hg. cbn in Hg. injection Hg as <-. now apply Hc.
      * fold (find_first_ancestor_with_annotation false w) in In1. set (t := find_first_ancestor_with_annotation false w) in *.
        unfold ancestors in In1. pose proof (anc_NoDup _ (i_wf _ _ I) (w_cur w)) as ND.
        destruct (anc_alive_cons _ _ (i_cur _ _ I)) as [l El]. rewrite El in In1, ND. cbn in In1. inversion ND as [|? ? Nin _]; subst.
        assert (Ha : alive (w_heap w) t = true). { apply (anc_incl _ (w_cur w)). rewrite El. now right. }
        assert (Nt : t <> null) by (intros E; rewrite E, (wf_not_null _ (i_wf _ _ I)) in Ha; discriminate).
        split; [|intros _; exact Nt]. intros _.
        destruct (go_remember_ok w t (inv_tinv w g I)) as (w' & E & Ec).
        { unfold anc. rewrite El. now right. }
        exists w'. rewrite E. split; [reflexivity|]. rewrite Ec. intros ->. now apply Nin.
    + intros _. unfold can_run_a_next_step. destruct (annotation_found false w) as [[]|]; cbn; split; congruence.
  - split; [congruence|]. intros _ C. destruct (Su C) as (U & R & P & N). now repeat split.
Qed.

(** Undoing then redoing shows exactly what was shown. *)
Theorem C68_undo_redo (wn wn1 wn2 : window) (g : ghost) : session wn g -> wn_open wn = true -> wn_closed wn = false ->
  wn_undo wn = true -> at_remembered (wn_world wn) -> act UndoStep wn = Ok wn1 -> act RedoStep wn1 = Ok wn2 ->
  w_cur (wn_world wn2) = w_cur (wn_world wn) /\
  vw_scene (wn_structure wn2) = vw_scene (wn_structure wn) /\ vw_scene (wn_processing wn2) = vw_scene (wn_processing wn).
Proof.
  intros H O C U R A1 A2. destruct (session_inv _ _ _ H) as [Sh|[So _]]; [|congruence].
  exact (window_undo_redo wn wn1 wn2 g Sh C U R A1 A2).
Qed.
End C68.

(** * Concrete sessions
    States are numbers.  A parsed document has its lines (state 1) and its
    parameters (state 2). *)
Definition fresh (l : list nat) : nat := S (fold_right Nat.max 0 l).

Definition ex_parse : @parsing nat := fun w =>
  let o := fresh (map fst (w_objs w)) in
  ([Create o false (w_root w) 1; TakeCareOf o; Create (S o) false (w_root w) 2; TakeCareOf (S o)], Some (o, S o)).

(** The parsing fails after having created an object. *)
Definition ex_fail : @parsing nat := fun w =>
  let o := fresh (map fst (w_objs w)) in ([Create o false (w_root w) 1; TakeCareOf o], None).

(** A step creates an object, the last one changes the lines. *)
Definition ex_board : @behaviour nat := fun s w =>
  let t := fresh (map fst (w_heap w)) in
  match s with
  | DETECT_INTERVALS => let o := fresh (map fst (w_objs w)) in [NextTimepoint t []; Create o false t 3; TakeCareOf o]
  | MESH => [NextTimepoint t []; SetState (hd 0 (w_regs w)) t (10 + t)]
  | _ => []
  end.

(** The parameters are edited. *)
Definition ex_edit (v : nat) : world nat Step -> list (op nat Step) := fun w =>
  let t := fresh (map fst (w_heap w)) in [NextTimepoint t []; SetState (hd 0 (tl (w_regs w))) t v].

Definition ex_args := mkParams 5 0 false CSX.
Definition ex_files : list (path * content nat) := [(5, Foreign); (6, Foreign)].
Definition yes := mkSaving SAVE SAVE true true false.
Definition ex_change v : action nat := EditFrom ADJUST_EDGE_TO_MATERIAL (ex_edit v) ex_board.

Definition ex_session (can : action nat -> bool) (xs : list (action nat)) : option (window nat * ghost nat) :=
  match launched 1 ex_args ex_files ex_parse ex_board with
  | Some (wn, g) => act_all can xs wn g
  | None => None
  end.

Definition any (a : action nat) : bool := true.
Definition reliableb (a : action nat) : bool :=
  match a with
  | SaveFile s | SaveFileAs _ s | CloseWindow _ s => sv_saves s
  | RunAppCSXCAD _ _ _ saves => saves
  | _ => true
  end.

Lemma ex_session_ok xs wn g : ex_session any xs = Some (wn, g) -> session wn g.
Proof.
  unfold ex_session. destruct (launched _ _ _ _ _) as [[wn0 g0]|] eqn:E; [|discriminate].
  apply act_all_ok; [easy|]. exact (launched_ok _ _ _ _ _ _ _ _ E).
Qed.

Lemma ex_reliable_ok xs wn g : ex_session reliableb xs = Some (wn, g) -> session_where reliable wn g.
Proof.
  unfold ex_session. destruct (launched _ _ _ _ _) as [[wn0 g0]|] eqn:E; [|discriminate].
  apply act_all_ok; [intros []; cbn; auto|]. exact (launched_ok _ _ _ _ _ _ _ _ E).
Qed.

Definition ex_window xs : window nat :=
  match ex_session any xs with Some (wn, _) => wn | None => new_window 0 ex_args [] end.

(** The document is edited, undone, redone, walked through, saved, replaced by
    another one that is edited, and its edition undone. *)
Definition ex_long := [ex_change 20; UndoStep; RedoStep; PrevStep; NextStep ex_board; ex_change 30; SaveFile yes; UndoStep;
                       OpenFile (Some 6) ex_parse ex_board; ex_change 40; UndoStep].

Definition ex_scene (wn : window nat) := vw_scene (wn_structure wn).

Ltac ex_by_session xs :=
  let E := fresh "E" in
  destruct (ex_session any xs) as [[wn g]|] eqn:E; [|vm_compute in E; discriminate];
  pose proof (ex_session_ok xs wn g E) as H; vm_compute in E; injection E as Ew Eg; exists wn, g; split; [exact H|].

Example C68_shown_ex : exists wn g, session wn g /\ wn_open wn = true /\ wn_undo wn = true /\ wn_redo wn = true /\
  ex_scene wn = Some [(6, 13); (7, 2); (8, 3)] /\ length (vw_states (wn_structure wn)) = 2.
Proof. ex_by_session ex_long. rewrite <- Ew. vm_compute. repeat split. Qed.

Example C68_undo_redo_ex : exists wn g, session wn g /\ wn_open wn = true /\ wn_closed wn = false /\ wn_undo wn = true /\
  at_remembered (wn_world wn) /\ ex_scene wn = Some [(1, 16); (2, 20); (3, 3); (4, 3)] /\
  exists wn1 wn2, act UndoStep wn = Ok wn1 /\ act RedoStep wn1 = Ok wn2 /\ ex_scene wn1 = Some [(1, 13); (2, 2); (3, 3)].
Proof. ex_by_session [ex_change 20]. rewrite <- Ew. vm_compute. repeat split. eexists _, _. repeat split. Qed.

(** Fitting the view is never disabled: without a document the window aborts. *)
Theorem C68_fit_refuted : exists (wn : window nat) g, session wn g /\ careful wn g FitView /\ enabled wn FitView = true /\
  act FitView wn = Abort.
Proof.
  destruct (launched 1 (mkParams 0 0 false CSX) [] ex_parse ex_board) as [[wn g]|] eqn:E; [|vm_compute in E; discriminate].
  pose proof (launched_ok (fun _ => True) _ _ _ _ _ _ _ E) as H. vm_compute in E. injection E as Ew Eg. exists wn, g.
  split; [exact H|]. rewrite <- Ew. vm_compute. repeat split.
Qed.

(** Going back one step while browsing the history: undoing that does not show
    again what was shown. *)
Theorem C68_undo_step_refuted : exists (wn wn1 wn2 : window nat) g, session wn g /\ wn_prev wn = true /\
  act PrevStep wn = Ok wn1 /\ wn_undo wn1 = true /\ act UndoStep wn1 = Ok wn2 /\ ex_scene wn2 <> ex_scene wn.
Proof.
  destruct (ex_session any [ex_change 20; ex_change 30; UndoStep]) as [[wn g]|] eqn:E; [|vm_compute in E; discriminate].
  pose proof (ex_session_ok _ wn g E) as H. vm_compute in E. injection E as Ew Eg.
  destruct (act PrevStep wn) as [wn1| |] eqn:E1; [|rewrite <- Ew in E1; vm_compute in E1; discriminate..].
  destruct (act UndoStep wn1) as [wn2| |] eqn:E2; rewrite <- Ew in E1; vm_compute in E1; injection E1 as E1;
    rewrite <- E1 in E2; vm_compute in E2; try discriminate. injection E2 as E2.
  exists wn, wn1, wn2, g. split; [exact H|]. subst wn wn1 wn2. vm_compute. repeat split; discriminate.
Qed.

(** * C69: what is saved, and when *)
Section C69.
Context {V : Type}.
Notation window := (window V).
Notation action := (action V).
Notation ghost := (ghost V).

(** A document that is not marked as unsaved is in a file: its own structure
    with its current lines and parameters.  Assumed: the disk works. *)
Theorem C69_saved (wn : window) (g : ghost) : session_where reliable wn g -> wn_open wn = true -> wn_unsaved wn = false ->
  exists p d, wn_doc wn = Some d /\ holds wn p d.
Proof.
  intros H O U. apply (kept_holds wn g); auto.
  - exact (session_inv _ _ _ H).
  - apply (session_kept reliable wn g); auto.
Qed.

(** While a document is open, nothing else than it is written. *)
Theorem C69_right (wn wn' : window) (g : ghost) (a : action) p geometry d l q : session wn g -> wn_open wn = true ->
  act a wn = Ok wn' -> assoc p (wn_files wn') = Some (Saved geometry d l q) ->
  assoc p (wn_files wn) = Some (Saved geometry d l q) \/
  (wn_doc wn = Some d /\ geometry = doc_path d /\ report (wn_world wn) (doc_lines d) = Ok l /\
   report (wn_world wn) (doc_params d) = Ok q).
Proof.
  intros H O A F. destruct (session_inv _ _ _ H) as [Sh|[So _]]; [|congruence].
  destruct (act_right wn wn' g a Sh A p _ F) as [?|[?|(d' & l' & q' & E & Ed & Sl & Sq)]]; [now left | discriminate|].
  injection E as -> -> -> ->. right. split; [assumption|]. split; [reflexivity|].
  destruct Sh as (Op & _). destruct (op_doc _ _ Op) as (d & Ed' & Hl & Hp & _).
  assert (d = d') by congruence. subst d'. pose proof (reachable_inv _ _ (gd_reach _ _ _ _ (op_good _ _ Op))) as I.
  assert (T : forall o, root_object (wn_world wn) o -> tracked (wn_world wn) o).
  { intros o (Hr & x & Ex & _). split; congruence. }
  destruct (report_snapshot _ g _ I (T _ Hl)) as (v1 & -> & S1). destruct (report_snapshot _ g _ I (T _ Hp)) as (v2 & -> & S2).
  split; congruence.
Qed.

(** Saving under another name puts the document there, if the user agrees to
    overwrite; saving again then goes there without asking whether it is meant. *)
Theorem C69_save_as (wn wn1 : window) (g : ghost) p s : session wn g -> wn_open wn = true -> wn_closed wn = false -> p <> 0 ->
  sv_loads s = true -> sv_saves s = true -> sv_overwrite s = SAVE -> act (SaveFileAs (Some p) s) wn = Ok wn1 ->
  exists d, wn_doc wn = Some d /\ holds wn1 p d /\ wn_unsaved wn1 = false /\
    forall s' wn2, sv_loads s' = true -> sv_saves s' = true -> sv_overwrite s' = SAVE -> act (SaveFile s') wn1 = Ok wn2 -> holds wn2 p d.
Proof.
  intros H O Cl Np L Sv Ov A. destruct (session_inv _ _ _ H) as [Sh|[So _]]; [|congruence].
  unfold act in A. rewrite Cl in A. cbn [enabled orb] in A. rewrite O in A. cbn [negb file_save_as] in A.
  destruct (save_csx_holds s (set_params (set_csx wn p) (set_output (wn_params wn) p)) wn1 g) as (d & D1 & D2 & Hd & U & C1 & P1 & Sh1); auto.
  { apply showing_params; [now apply showing_csx | reflexivity]. }
  cbn in D1, Hd, C1, P1. exists d. split; [assumption|]. split; [assumption|]. split; [assumption|].
  intros s' wn2 L' S' O' A'. apply save_csx_closed in A. cbn in A. unfold act in A'. rewrite A, Cl in A'. cbn [enabled orb] in A'.
  rewrite (op_open _ _ (proj1 Sh1)) in A'. cbn [negb] in A'. unfold file_save in A'. rewrite P1, C1, Nat.eqb_refl in A'.
  apply Nat.eqb_neq in Np. rewrite Np in A'. cbn [negb] in A'.
  destruct (save_csx_holds s' wn1 wn2 g Sh1 L' S' O' A') as (d' & D1' & _ & Hd' & _). rewrite P1 in Hd'.
  assert (d' = d) by congruence. now subst.
Qed.

(** Saving puts the document at the output path, or where it was opened from if
    there is none; if the two differ and the user was not asked before, only if
    they agree. *)
Theorem C69_save (wn wn' : window) (g : ghost) s : session wn g -> wn_open wn = true -> wn_closed wn = false ->
  sv_loads s = true -> sv_saves s = true -> sv_overwrite s = SAVE -> act (SaveFile s) wn = Ok wn' ->
  let p := if p_output (wn_params wn) =? 0 then wn_csx wn else p_output (wn_params wn) in
  if (p =? wn_csx wn) || is_save (sv_different s)
  then exists d, wn_doc wn = Some d /\ holds wn' p d /\ wn_unsaved wn' = false
  else wn' = wn.
Proof.
  intros H O Cl L Sv Ov A p. destruct (session_inv _ _ _ H) as [Sh|[So _]]; [|congruence].
  unfold act in A. rewrite Cl in A. cbn [enabled orb] in A. rewrite O in A. cbn [negb] in A. unfold file_save in A. subst p.
  destruct (p_output (wn_params wn) =? 0) eqn:E0.
  - rewrite Nat.eqb_refl. cbn [orb].
    destruct (save_csx_holds s (set_params wn (set_output (wn_params wn) (wn_csx wn))) wn' g) as (d & D1 & D2 & Hd & U & _); auto.
    { now apply showing_params. }
    eauto.
  - rewrite Nat.eqb_sym. destruct (wn_csx wn =? p_output (wn_params wn)) eqn:E1; cbn [negb orb] in *.
    + destruct (save_csx_holds s wn wn' g) as (d & D1 & D2 & Hd & U & _); auto. eauto.
    + destruct (is_save (sv_different s)).
      * destruct (save_csx_holds s (set_csx wn (p_output (wn_params wn))) wn' g) as (d & D1 & D2 & Hd & U & _); auto.
        { now apply showing_csx. }
        eauto.
      * now injection A.
Qed.

(** Opening a file gives a new document, parsed from it. *)
Theorem C69_opened (wn wn' : window) p parse board : p <> 0 -> wn_closed wn = false ->
  act (OpenFile (Some p) parse board) wn = Ok wn' -> wn_open wn' = true ->
  exists d, wn_doc wn' = Some d /\ doc_path d = p /\ doc_id d = wn_docs wn.
Proof.
  intros Np Cl A O. unfold act in A. rewrite Cl in A. cbn [enabled orb negb file_open] in A.
  destruct (parse_and_display _ _ _) as [[wn1 b]| |] eqn:E; cbn [bind fst snd] in A; try discriminate.
  apply parse_doc in E as [Eo Ed]; [|exact Np]. destruct b; [|injection A as <-; congruence].
  unfold fit in A. destruct (view_state _); cbn [bind] in A; try discriminate. destruct (view_state _); cbn [bind] in A; try discriminate.
  injection A as <-. exact (Ed eq_refl).
Qed.

(** Looking at the document in AppCSXCAD changes nothing but a temporary file. *)
Theorem C69_export (wn wn' : window) tmp opens loads saves : act (RunAppCSXCAD tmp opens loads saves) wn = Ok wn' ->
  wn_params wn' = wn_params wn /\ wn_csx wn' = wn_csx wn /\ wn_doc wn' = wn_doc wn /\ wn_unsaved wn' = wn_unsaved wn /\
  forall p, p <> tmp \/ file_exists wn tmp = true -> assoc p (wn_files wn') = assoc p (wn_files wn).
Proof.
  unfold act. destruct (_ || _); [intros [= <-]; auto 10|]. unfold appcsxcad.
  destruct (negb opens || file_exists wn tmp) eqn:E; [intros [= <-]; auto 10|]. apply orb_false_elim in E as [_ E].
  destruct (write_csx _ _ _) as [[wn1 b]| |] eqn:Ew; cbn [bind fst]; try discriminate. intros [= <-].
  apply write_csx_csx in Ew as (C1 & C2 & C3 & C4 & C5). cbn in *. repeat split; auto. intros p [Hp|Hp]; [|congruence].
  rewrite C5 by assumption. apply Nat.eqb_neq in Hp. now rewrite Hp.
Qed.

(** A file that exists is replaced only if the user asked for it: by the
    command line, or by the answer to the question. *)
Theorem C69_overwrites (wn wn' : window) (a : action) p c : act a wn = Ok wn' -> assoc p (wn_files wn) = Some c ->
  assoc p (wn_files wn') <> Some c -> p_force (wn_params wn) = true \/ agreed a.
Proof. intros A F N. destruct (act_overwrites wn wn' a p c A F) as [?|?]; [contradiction | assumption]. Qed.

(** Closing: the document is saved, or the user gave it up, or did not agree
    with saving after all, or the structure could not be read again. *)
Theorem C69_close (wn wn' : window) (g : ghost) ans s : session_where reliable wn g -> wn_open wn = true -> wn_closed wn = false ->
  careful wn g (CloseWindow ans s) -> sv_saves s = true -> act (CloseWindow ans s) wn = Ok wn' ->
  (wn_closed wn' = true <-> wn_unsaved wn = false \/ ans <> CANCEL) /\
  (wn_closed wn' = true ->
     (exists p d, wn_doc wn' = Some d /\ holds wn' p d) \/
     (wn_unsaved wn = true /\
      (ans = CLOSE \/ sv_different s <> SAVE \/ sv_overwrite s <> SAVE \/ sv_loads s = false))).
Proof.
  intros H O Cl C R A. pose proof (session_inv _ _ _ H) as W.
  assert (H' := session_acted reliable wn g (CloseWindow ans s) wn' H C R A).
  assert (Sh : showing wn g) by (destruct W as [Sh|[So _]]; [exact Sh | congruence]).
  assert (Ae := A). unfold act in A. rewrite Cl in A. cbn [enabled orb negb] in A. unfold close_event in A.
  assert (Hold : wn_open wn' = true -> wn_unsaved wn' = false -> exists p d, wn_doc wn' = Some d /\ holds wn' p d).
  { intros O' U'. exact (C69_saved wn' _ H' O' U'). }
  destruct (wn_unsaved wn) eqn:U.
  - destruct ans.
    + injection A as <-. split; [rewrite Cl; split; [discriminate | intros [?|K]; [discriminate | now destruct K]]|]. congruence.
    + destruct (file_save s wn) as [wn1| |] eqn:E; cbn [bind] in A; try discriminate. injection A as <-.
      split; [split; [right; discriminate | reflexivity]|]. intros _.
      assert (D : (sv_different s = SAVE /\ sv_overwrite s = SAVE /\ sv_loads s = true) \/
                  (sv_different s <> SAVE \/ sv_overwrite s <> SAVE \/ sv_loads s = false)).
      { destruct (sv_different s), (sv_overwrite s), (sv_loads s); auto; right; try (left; discriminate); right; left; discriminate. }
      destruct D as [(D1 & D2 & D3)|D]; [|right; auto]. left. apply Hold; cbn.
      * rewrite (save_open s wn wn1 E). exact O.
      * exact (save_agreed s wn wn1 D3 D1 D2 E).
    + injection A as <-. split; [split; [right; discriminate | reflexivity]|]. intros _. right. auto.
  - injection A as <-. split; [split; [now left | reflexivity]|]. intros _. left. apply Hold; [exact O | exact U].
Qed.
End C69.

(** Two examples for the theorems above: saved under another name, then looked
    at in AppCSXCAD; closed by answering to save. *)
Example C69_saved_ex : exists wn g, session_where reliable wn g /\ wn_open wn = true /\ wn_unsaved wn = false /\
  assoc 7 (wn_files wn) = Some (Saved 5 (mkDoc 0 5 1 2) 16 20) /\ wn_doc wn = Some (mkDoc 0 5 1 2).
Proof.
  destruct (ex_session reliableb [ex_change 20; SaveFileAs (Some 7) yes; RunAppCSXCAD 8 true true true]) as [[wn g]|] eqn:E;
    [|vm_compute in E; discriminate].
  pose proof (ex_reliable_ok _ wn g E) as H. vm_compute in E. injection E as Ew Eg. exists wn, g. split; [exact H|].
  rewrite <- Ew. vm_compute. repeat split.
Qed.

Example C69_right_ex : exists (wn wn' : window nat) g, session wn g /\ wn_open wn = true /\ act (SaveFile yes) wn = Ok wn' /\
  assoc 5 (wn_files wn) = Some Foreign /\ assoc 5 (wn_files wn') = Some (Saved 5 (mkDoc 0 5 1 2) 16 20) /\ agreed (SaveFile yes : action nat).
Proof.
  destruct (ex_session any [ex_change 20]) as [[wn g]|] eqn:E; [|vm_compute in E; discriminate].
  pose proof (ex_session_ok _ wn g E) as H. vm_compute in E. injection E as Ew Eg. exists wn. rewrite <- Ew. eexists _, g.
  split; [rewrite Ew; exact H|]. split; [reflexivity|]. split; [vm_compute; reflexivity|]. vm_compute. repeat split.
Qed.

Example C69_close_ex : exists (wn wn' : window nat) g, session_where reliable wn g /\ wn_open wn = true /\ wn_closed wn = false /\
  wn_unsaved wn = true /\ careful wn g (CloseWindow SAVE yes) /\ act (CloseWindow SAVE yes) wn = Ok wn' /\ wn_closed wn' = true.
Proof.
  destruct (ex_session reliableb [ex_change 20]) as [[wn g]|] eqn:E; [|vm_compute in E; discriminate].
  pose proof (ex_reliable_ok _ wn g E) as H. vm_compute in E. injection E as Ew Eg. exists wn. rewrite <- Ew. eexists _, g.
  split; [rewrite Ew; exact H|]. repeat (split; [vm_compute; repeat split|]). vm_compute. repeat split.
Qed.

(** The result of writing the file is ignored: a document whose saving failed is
    not unsaved any more, and the window closes without a question. *)
Theorem C69_saved_refuted : exists (wn wn' : window nat) g, session wn g /\ wn_open wn = true /\ wn_unsaved wn = false /\
  (forall p d, ~ holds wn p d) /\ forall ans s, act (CloseWindow ans s) wn = Ok (set_closed wn).
Proof.
  destruct (ex_session any [ex_change 20; SaveFile (mkSaving SAVE SAVE true false false)]) as [[wn g]|] eqn:E; [|vm_compute in E; discriminate].
  pose proof (ex_session_ok _ wn g E) as H. vm_compute in E. injection E as Ew Eg. exists wn, wn, g. split; [exact H|]. rewrite <- Ew.
  split; [reflexivity|]. split; [reflexivity|]. split; [|reflexivity]. intros p d (l & q & F & _). cbn in F.
  destruct (p =? 5); [discriminate|]. destruct (p =? 6); discriminate.
Qed.

(** The user asks to save when closing, then does not agree to overwrite: the
    window closes and the work is lost. *)
Theorem C69_close_refuted : exists (wn wn' : window nat) g s, session_where reliable wn g /\ wn_open wn = true /\
  wn_unsaved wn = true /\ sv_overwrite s = CANCEL /\ act (CloseWindow SAVE s) wn = Ok wn' /\ wn_closed wn' = true /\
  forall p d, ~ holds wn' p d.
Proof.
  destruct (ex_session reliableb [ex_change 20]) as [[wn g]|] eqn:E; [|vm_compute in E; discriminate].
  pose proof (ex_reliable_ok _ wn g E) as H. vm_compute in E. injection E as Ew Eg. exists wn. rewrite <- Ew.
  eexists _, g, (mkSaving SAVE CANCEL true true false). split; [rewrite Ew; exact H|]. split; [reflexivity|]. split; [reflexivity|].
  split; [reflexivity|]. split; [vm_compute; reflexivity|]. split; [reflexivity|]. intros p d (l & q & F & _). cbn in F.
  destruct (p =? 5); [discriminate|]. destruct (p =? 6); discriminate.
Qed.

(** Opening another file gives up the unsaved work without a question. *)
Theorem C69_open_refuted : exists (wn wn' : window nat) g parse board d, session_where reliable wn g /\ wn_open wn = true /\
  wn_unsaved wn = true /\ wn_doc wn = Some d /\ careful wn g (OpenFile (Some 6) parse board) /\
  act (OpenFile (Some 6) parse board) wn = Ok wn' /\ (forall d', wn_doc wn' = Some d' -> d' <> d) /\ forall p, ~ holds wn' p d.
Proof.
  destruct (ex_session reliableb [ex_change 20]) as [[wn g]|] eqn:E; [|vm_compute in E; discriminate].
  pose proof (ex_reliable_ok _ wn g E) as H.
  assert (C : carefulb wn g (OpenFile (Some 6) ex_parse ex_board) = true) by
    (vm_compute in E; injection E as Ew Eg; rewrite <- Ew, <- Eg; vm_compute; reflexivity).
  assert (C' : careful wn g (OpenFile (Some 6) ex_parse ex_board)).
  { unfold carefulb in C. apply andb_true_iff in C as [C1 C2]. apply andb_true_iff in C2 as [C2 C3]. split.
    - apply obeysb_ok; [|exact C1]. apply (obeys_start wn g _ (session_inv _ _ _ H)). vm_compute in E. injection E as Ew Eg. now rewrite <- Ew.
    - split; [discriminate | now apply parses_wellb_ok]. }
  vm_compute in E. injection E as Ew Eg. clear C. exists wn. rewrite <- Ew. eexists _, g, ex_parse, ex_board, _.
  split; [rewrite Ew; exact H|]. split; [reflexivity|]. split; [reflexivity|]. split; [reflexivity|].
  split; [rewrite Ew; exact C'|]. split; [vm_compute; reflexivity|]. split.
  - cbn. intros d' [= <-]. discriminate.
  - intros p (l & q & F & _). cbn in F. destruct (p =? 5); [discriminate|]. destruct (p =? 6); discriminate.
Qed.

(** After a file that could not be parsed, the former document is still there
    and marked as unsaved: saving it when closing writes its lines over its own
    file, with the structure of the other one. *)
Theorem C69_right_without_document_refuted : exists (wn wn' : window nat) g d l q, session_where reliable wn g /\
  act (CloseWindow SAVE yes) wn = Ok wn' /\ wn_doc wn = Some d /\ doc_path d = 5 /\ assoc 5 (wn_files wn) = Some Foreign /\
  assoc 5 (wn_files wn') = Some (Saved 6 d l q).
Proof.
  destruct (ex_session reliableb [OpenFile (Some 6) ex_fail ex_board]) as [[wn g]|] eqn:E; [|vm_compute in E; discriminate].
  pose proof (ex_reliable_ok _ wn g E) as H. vm_compute in E. injection E as Ew Eg. exists wn. rewrite <- Ew.
  eexists _, g, _, _, _. split; [rewrite Ew; exact H|]. split; [vm_compute; reflexivity|]. repeat split.
Qed.

(** The same, when an edition had just been undone: the parameters of the former
    document are still to be moved to a timepoint that was freed. *)
Theorem C69_close_dangling_refuted : exists (wn : window nat) g, session_where reliable wn g /\ wn_closed wn = false /\
  careful wn g (CloseWindow SAVE yes) /\ act (CloseWindow SAVE yes) wn = UB.
Proof.
  destruct (ex_session reliableb [ex_change 20; UndoStep; OpenFile (Some 6) ex_fail ex_board]) as [[wn g]|] eqn:E; [|vm_compute in E; discriminate].
  pose proof (ex_reliable_ok _ wn g E) as H. vm_compute in E. injection E as Ew Eg. exists wn, g. split; [exact H|]. rewrite <- Ew.
  split; [reflexivity|]. split; [repeat split|]. vm_compute. reflexivity.
Qed.

(** Saved under another name, then, after an edition, again. *)
Example C69_save_as_ex : exists (wn wn1 : window nat) g, session wn g /\ wn_open wn = true /\ wn_closed wn = false /\
  act (SaveFileAs (Some 7) yes) wn = Ok wn1 /\ assoc 7 (wn_files wn) = None /\ assoc 7 (wn_files wn1) = Some (Saved 5 (mkDoc 0 5 1 2) 16 20).
Proof.
  destruct (ex_session any [ex_change 20]) as [[wn g]|] eqn:E; [|vm_compute in E; discriminate].
  pose proof (ex_session_ok _ wn g E) as H. vm_compute in E. injection E as Ew Eg. exists wn. rewrite <- Ew. eexists _, g.
  split; [rewrite Ew; exact H|]. split; [reflexivity|]. split; [reflexivity|]. split; [vm_compute; reflexivity|]. split; reflexivity.
Qed.

(** A second document saved: the output path is still the first one. *)
Example C69_save_ex : exists (wn wn1 : window nat) g, session wn g /\ wn_open wn = true /\ wn_closed wn = false /\
  p_output (wn_params wn) = 5 /\ wn_csx wn = 6 /\ act (SaveFile yes) wn = Ok wn1 /\
  exists d l q, assoc 5 (wn_files wn1) = Some (Saved 6 d l q) /\ doc_path d = 6.
Proof.
  destruct (ex_session any [OpenFile (Some 6) ex_parse ex_board]) as [[wn g]|] eqn:E; [|vm_compute in E; discriminate].
  pose proof (ex_session_ok _ wn g E) as H. vm_compute in E. injection E as Ew Eg. exists wn. rewrite <- Ew. eexists _, g.
  split; [rewrite Ew; exact H|]. do 4 (split; [reflexivity|]). split; [vm_compute; reflexivity|]. eexists _, _, _. split; reflexivity.
Qed.

Print Assumptions C68_shown.
Print Assumptions C68_safe.
Print Assumptions C68_buttons.
Print Assumptions C68_undo_redo.
Print Assumptions C68_fit_refuted.
Print Assumptions C68_undo_step_refuted.
Print Assumptions C69_saved.
Print Assumptions C69_right.
Print Assumptions C69_save_as.
Print Assumptions C69_save.
Print Assumptions C69_opened.
Print Assumptions C69_export.
Print Assumptions C69_overwrites.
Print Assumptions C69_close.
Print Assumptions C69_saved_refuted.
Print Assumptions C69_close_refuted.
Print Assumptions C69_open_refuted.
Print Assumptions C69_right_without_document_refuted.
Print Assumptions C69_close_dangling_refuted.
