(** Properties C01-C11 and C47: the undo/redo history. *)
From Coq Require Import List Arith Bool Lia.
From Verif Require Import HistModel HistSpec HistTreeProofs HistProofs HistNavProofs
  HistMoreProofs HistExamples TreeModel TreeProofs.
Import ListNotations.

(** A concrete history used as example: object 7 is created at the root (1)
    with state 10, written 20 at timepoint 2 and 30 at timepoint 3; object 8 is
    created at 3; both 2 and 3 are remembered; then one undo leads to 2 and a
    jump leads to the root. *)
Definition ex_ops : list (op nat nat) :=
  [ Create 7 true 1 10; TakeCareOf 7; NextTimepoint 2 []; SetState 7 2 20; RememberCurrent;
    Annotate 100;
    NextTimepoint 3 []; SetState 7 3 30; Create 8 true 3 5; TakeCareOf 8; RememberCurrent ].
Definition ex_browsing := ex_ops ++ [Undo 1].
(* the same, then a new branch is created at 2: timepoint 3 is collected, with
   object 8, and its address is given to the new timepoint *)
Definition ex_branch := ex_browsing ++ [NextTimepoint 3 [8]; SetState 7 3 40; RememberCurrent].
Definition ex_world (ops : list (op nat nat)) : world nat nat :=
  match play 1 ops with Some (w, _) => w | None => init_world 1 end.
Definition ex_ghost (ops : list (op nat nat)) : ghost nat :=
  match play 1 ops with Some (_, g) => g | None => ghost0 end.
Example ex_reachable : reachable (ex_world ex_ops) (ex_ghost ex_ops).
Proof. apply (play_ok 1 ex_ops). vm_compute. reflexivity. Qed.
Example ex_browsing_reachable : reachable (ex_world ex_browsing) (ex_ghost ex_browsing).
Proof. apply (play_ok 1 ex_browsing). vm_compute. reflexivity. Qed.
Example ex_branch_reachable : reachable (ex_world ex_branch) (ex_ghost ex_branch).
Proof. apply (play_ok 1 ex_branch). vm_compute. reflexivity. Qed.

Section Props.
Context {V A : Type}.
Implicit Types (w : world V A) (g : ghost V).

(** ** C01 *)
(** Whatever the history, a tracked object reports what the machine that stores
    a full snapshot at every timepoint holds for the current timepoint. *)
Theorem C01_time_travel_is_snapshot w g o :
  reachable w g -> tracked w o ->
  exists v, report w o = Ok v /\ snapshot g (w_cur w) o = Some v.
Proof. intros R. exact (report_snapshot w g o (reachable_inv w g R)). Qed.

(** ... in particular after a jump to any live timepoint. *)
Theorem C01_jump_reports_snapshot w g o t :
  reachable w g -> tracked w o -> alive (w_heap w) t = true ->
  exists w' v, go_without_remembering t w = Ok (w', true) /\ w_cur w' = t /\
               report w' o = Ok v /\ snapshot g t o = Some v.
Proof.
  intros R T Ht. pose proof (reachable_inv w g R) as I.
  destruct (report_nav w g t (w_hist w) (w_brow w) o) as (v & Rv & S); [apply go_inv; auto; fromI I | assumption |].
  exists (nav w t (w_hist w) (w_brow w)), v. split; [exact (go_eq w g t I Ht) | auto].
Qed.

(** The snapshot of an object at a live timepoint is never changed by anything
    but a write of this object at that timepoint or above it. *)
Theorem C01_snapshots_are_stable w g x o t :
  reachable w g -> permitted w g x -> In o (w_regs w) -> alive (w_heap w) t = true ->
  (forall d, x <> NextTimepoint t d) ->
  (forall u v, x = SetState o u v -> ~ reaches (w_heap w) t u) ->
  snapshot (gstep g w x) t o = snapshot g t o.
Proof. intros R P Hr Ht Hn Hw. exact (snapshot_stable w g x o t (reachable_inv w g R) Ht Hr Hn Hw P). Qed.

(** ** C02 *)
Theorem C02_gc_keeps_exactly w g dying w' t :
  reachable w g -> garbage_collector dying w = Ok w' ->
  (alive (w_heap w') t = true <->
   exists u, (u = w_cur w \/ In u (w_pins w) \/ In u (w_hist w)) /\ reaches (w_heap w) u t).
Proof. intros R E. exact (gc_exists w g dying w' (reachable_inv w g R) E t). Qed.

Theorem C02_gc_keeps_paths w g dying w' t u :
  reachable w g -> garbage_collector dying w = Ok w' -> alive (w_heap w') t = true ->
  (reaches (w_heap w') t u <-> reaches (w_heap w) t u).
Proof. intros R E. exact (gc_paths w g dying w' (reachable_inv w g R) E t u). Qed.

Theorem C02_gc_annotations w g dying w' t :
  reachable w g -> garbage_collector dying w = Ok w' ->
  get_annotation t w' = if alive (w_heap w') t then get_annotation t w else None.
Proof. intros R E. exact (gc_annotations w g dying w' (reachable_inv w g R) E t). Qed.

Theorem C02_gc_drops_states w g dying w' o x k v :
  reachable w g -> garbage_collector dying w = Ok w' -> births_alive w' g ->
  In o (w_regs w') -> assoc o (w_objs w') = Some x -> In (k, v) (o_states x) ->
  alive (w_heap w') k = true.
Proof. intros R E B Hr Hx. exact (gc_states w g dying w' (reachable_inv w g R) E B o x Hr Hx k v). Qed.

Theorem C02_gc_keeps_reports w g dying w' o t :
  reachable w g -> garbage_collector dying w = Ok w' -> births_alive w' g -> tracked w' o ->
  alive (w_heap w') t = true ->
  report w' o = report w o /\
  exists w1 w1' v, go_without_remembering t w = Ok (w1, true) /\
                   go_without_remembering t w' = Ok (w1', true) /\
                   report w1 o = Ok v /\ report w1' o = Ok v.
Proof.
  intros R E B T Ht. split.
  - exact (gc_report_now w g dying w' (reachable_inv w g R) E B o T).
  - exact (gc_reports w g dying w' (reachable_inv w g R) E B o t T Ht).
Qed.

(** ** C03 *)
(** No permitted operation reads freed memory or terminates the program, when
    no object outlived its creation timepoint so far. *)
Theorem C03_no_dangling w g x :
  reachable w g -> permitted w g x -> exists w', step w x = Ok w'.
Proof. intros R P. destruct (step_inv w g x (reachable_inv w g R) P) as (w' & E & _). eauto. Qed.

(** ** C04 *)
Theorem C04_undo_redo w g n :
  reachable w g -> can_undo n w = true -> at_remembered w ->
  exists w1 w2, undo n w = Ok w1 /\ can_redo n w1 = true /\ redo n w1 = Ok w2 /\
    w_cur w2 = w_cur w /\ w_hist w2 = w_hist w /\ w_brow w2 = w_brow w /\ w_heap w2 = w_heap w /\
    (forall m, can_undo m w2 = can_undo m w) /\ (forall m, can_redo m w2 = can_redo m w) /\
    (forall o, tracked w o -> report w2 o = report w o).
Proof.
  intros R C M. pose proof (reachable_inv w g R) as I.
  destruct (undo_redo w g n I C M) as (w1 & E1 & C1 & E2). eexists _, _.
  repeat (split; [eassumption || reflexivity|]). intros o T. exact (report_nav_same w g o I T).
Qed.

Theorem C04_redo_undo w g n :
  reachable w g -> can_redo n w = true -> at_remembered w ->
  exists w1 w2, redo n w = Ok w1 /\ can_undo n w1 = true /\ undo n w1 = Ok w2 /\
    w_cur w2 = w_cur w /\ w_hist w2 = w_hist w /\ w_brow w2 = w_brow w /\ w_heap w2 = w_heap w /\
    (forall m, can_undo m w2 = can_undo m w) /\ (forall m, can_redo m w2 = can_redo m w) /\
    (forall o, tracked w o -> report w2 o = report w o).
Proof.
  intros R C M. pose proof (reachable_inv w g R) as I.
  destruct (redo_undo w g n I C M) as (w1 & E1 & C1 & E2). eexists _, _.
  repeat (split; [eassumption || reflexivity|]). intros o T. exact (report_nav_same w g o I T).
Qed.

(** ** C05 *)
Theorem C05_can_undo_exact w g n :
  reachable w g ->
  (can_undo n w = true <->
   0 < n /\ forall i, i < n -> exists wi, repeat_op (undo 1) i w = Ok wi /\ undo 1 wi <> Ok wi).
Proof. intros R. exact (can_undo_exact w g n (reachable_inv w g R)). Qed.

Theorem C05_can_redo_exact w g n :
  reachable w g ->
  (can_redo n w = true <->
   0 < n /\ forall i, i < n -> exists wi, repeat_op (redo 1) i w = Ok wi /\ redo 1 wi <> Ok wi).
Proof. intros R. exact (can_redo_exact w g n (reachable_inv w g R)). Qed.

Theorem C05_multi_step w g n :
  reachable w g ->
  undo n w = (if can_undo n w then repeat_op (undo 1) n w else Ok w) /\
  redo n w = (if can_redo n w then repeat_op (redo 1) n w else Ok w).
Proof.
  intros R. pose proof (reachable_inv w g R) as I. split.
  - destruct (can_undo n w) eqn:C; [exact (undo_repeat w g n I C) | exact (undo_no n w C)].
  - destruct (can_redo n w) eqn:C; [exact (redo_repeat w g n I C) | exact (redo_no n w C)].
Qed.

(** ** C06 *)
Theorem C06_new_timepoint w g a dying w' :
  reachable w g -> permitted w g (NextTimepoint a dying) -> make_next_timepoint dying a w = Ok w' ->
  w_cur w' = a /\ In (a, w_cur w) (w_heap w') /\
  (forall n, can_redo n w' = false) /\
  w_hist w' = match w_brow w with
              | Some k => firstn (S k) (w_hist w)   (* up to the browsed entry, included *)
              | None => w_hist w
              end.
Proof.
  intros R P E. apply next_hist in E as (Hh & Hb & Hc & Hin). repeat split; auto.
  intros n. unfold can_redo. rewrite Hb. now destruct (n =? 0).
Qed.

(** ** C07 *)
Theorem C07_user_history_well_formed w g :
  reachable w g ->
  hd_error (w_hist w) = Some (w_root w) /\
  (forall l1 a b l2, w_hist w = l1 ++ a :: b :: l2 -> a <> b) /\
  (forall t, In t (w_hist w) \/ In t (w_pins w) \/ t = w_cur w \/ t = w_root w -> alive (w_heap w) t = true) /\
  (forall k, w_brow w = Some k -> exists t, nth_error (w_hist w) k = Some t /\ can_redo 1 w = true).
Proof.
  intros R. pose proof (reachable_inv w g R) as I. destruct (i_hist_hd _ _ I) as [l El].
  split; [now rewrite El|]. split; [exact (reachable_repeats w g R)|]. split.
  - intros t [H|[H|[-> | ->]]]; [now apply (i_hist _ _ I) | now apply (i_pins _ _ I) | apply (i_cur _ _ I)|].
    rewrite (i_root _ _ I). apply alive_root, (i_wf _ _ I).
  - intros k B. assert (L := i_brow _ _ I k B). destruct (nth_error (w_hist w) k) as [t|] eqn:N.
    + exists t. split; [reflexivity|]. apply (can_redo_upos w g 1 I). unfold upos. rewrite B. lia.
    + exfalso. apply nth_error_None in N. lia.
Qed.

(** ** C08 *)
Theorem C08_undo_after_jump w g t :
  reachable w g -> w_brow w = None -> at_remembered w -> alive (w_heap w) t = true -> t <> w_cur w ->
  exists w1 w2, go_and_remember t w = Ok (w1, true) /\ w_cur w1 = t /\ undo 1 w1 = Ok w2 /\
    w_cur w2 = w_cur w /\ can_redo 1 w2 = true /\ (forall o, tracked w o -> report w2 o = report w o).
Proof. intros R. exact (go_remember_undo w g t (reachable_inv w g R)). Qed.

(** ** C09 *)
Theorem C09_write_visible w g o t v w' :
  reachable w g -> permitted w g (SetState o t v) -> step w (SetState o t v) = Ok w' -> report w' o = Ok v.
Proof. intros R. exact (write_visible w g o t v w' (reachable_inv w g R)). Qed.

Theorem C09_second_write_dropped t v1 v2 (x : orig V) :
  o_const x = true -> set_state t v2 (set_state t v1 x) = set_state t v1 x.
Proof. exact (second_write t v1 v2 x). Qed.

Theorem C09_second_write_kept_if_mutable t v1 v2 (x : orig V) h :
  o_const x = false -> assoc t (o_states x) = None -> ~ In t (o_order x) ->
  exists y, get_current_state h (set_state t v2 (set_state t v1 x)) = Ok (y, v2).
Proof. exact (second_write_mutable t v1 v2 x h). Qed.

(** ** C10 *)
Theorem C10_annotate_first_wins w a b :
  get_annotation (w_cur w) (annotate_current_timepoint a w) =
    match get_annotation (w_cur w) w with Some c => Some c | None => Some a end /\
  annotate_current_timepoint b (annotate_current_timepoint a w) = annotate_current_timepoint a w.
Proof.
  unfold get_annotation, annotate_current_timepoint. destruct (assoc (w_cur w) (w_ann w)) eqn:E.
  - now rewrite !E.
  - cbn. rewrite assoc_app, E. cbn. now rewrite Nat.eqb_refl.
Qed.

(** An annotation lasts until its timepoint is collected. *)
Theorem C10_annotation_lasts w g x w' t a :
  reachable w g -> permitted w g x -> step w x = Ok w' -> get_annotation t w = Some a ->
  get_annotation t w' = Some a \/
  get_annotation t w' = None /\ (alive (w_heap w') t = false \/ exists d, x = NextTimepoint t d).
Proof.
  intros R P E H. destruct (step_annotation w g x w' t a (reachable_inv w g R) P E H) as [?|(? & _ & ?)]; auto.
Qed.

Theorem C10_nearest_annotated_ancestor w g (p : A -> bool) (itself : bool) :
  reachable w g ->
  let r := find_first_ancestor_with_annotation_that p itself w in
  let good t := reaches (w_heap w) (w_cur w) t /\ (itself = false -> t <> w_cur w) /\
                exists a, get_annotation t w = Some a /\ p a = true in
  (r = null /\ forall t, ~ good t) \/ (good r /\ forall t, good t -> reaches (w_heap w) r t).
Proof.
  intros R. pose proof (reachable_inv w g R) as I. intros r good.
  assert (Eq : forall t, good t <-> In t (ancestors (w_heap w) itself (w_cur w)) /\
                         exists a, get_annotation t w = Some a /\ p a = true).
  { intros t. unfold good. rewrite reaches_anc by fromI I. unfold ancestors. destruct itself; [intuition discriminate|].
    pose proof (strict_anc (w_heap w) (w_cur w) t (i_wf _ _ I)) as S. unfold is_descendant_of in S.
    rewrite mem_In in S. unfold ancestors in S. split.
    - intros (H1 & H2 & H3). split; [|assumption]. apply S. split; [assumption|]. intros E. now apply (H2 eq_refl).
    - intros (H1 & H2). apply S in H1 as [H1 H3]. repeat split; auto. }
  destruct (find_ancestor_spec p itself w g I) as [[E H]|[H1 H2]].
  - left. split; [exact E|]. intros t Ht. apply (H t). now apply Eq.
  - right. split; [now apply Eq|]. intros t Ht. apply reaches_anc; [fromI I|]. apply H2. now apply Eq.
Qed.

End Props.

(** ** C03, C08: refutations *)
(** An object that survives the collection of its creation timepoint is a
    dangling pointer: the next jump and read dereference freed memory. *)
Theorem C03_outliving_object_refuted :
  exists (w : world nat nat) g w1 w2,
    reachable w g /\ tracked w 7 /\
    step w (Collect []) = Ok w1 /\ tracked w1 7 /\
    step w1 (GoWithoutRemembering 1) = Ok w2 /\ permitted w1 g (GoWithoutRemembering 1) /\
    step w2 (Read 7) = UB.
Proof.
  set (ops := [NextTimepoint 2 []; Create 7 true 2 10; TakeCareOf 7; Undo 1] : list (op nat nat)).
  exists (ex_world ops), (ex_ghost ops).
  eexists _, _. split; [apply (play_ok 1 ops); vm_compute; reflexivity|].
  split; [apply trackedb_ok; vm_compute; reflexivity|].
  split; [vm_compute; reflexivity|]. split; [apply trackedb_ok; vm_compute; reflexivity|].
  split; [vm_compute; reflexivity|]. split; [right; vm_compute; reflexivity|]. vm_compute. reflexivity.
Qed.

(** A remembered jump made while browsing (after an undo) is not undone by undo:
    here the history is 1,2,3, undo leads to 2, the jump to 1 is remembered,
    and undo then leads to 1 (where we already are) instead of 2. *)
Theorem C08_undo_after_jump_while_browsing_refuted :
  exists (w : world nat nat) g w1 w2 t,
    reachable w g /\ at_remembered w /\ alive (w_heap w) t = true /\ t <> w_cur w /\
    go_and_remember t w = Ok (w1, true) /\ undo 1 w1 = Ok w2 /\ w_cur w2 <> w_cur w.
Proof.
  exists (ex_world ex_browsing), (ex_ghost ex_browsing). eexists _, _, 1.
  split; [exact ex_browsing_reachable|]. split; [vm_compute; reflexivity|]. split; [reflexivity|].
  split; [vm_compute; discriminate|]. split; [vm_compute; reflexivity|]. split; [vm_compute; reflexivity|].
  vm_compute. discriminate.
Qed.

(** ** C11: trees *)
Theorem C11_ancestors_path h t :
  wf_heap h ->
  (forall u, In u (ancestors h true t) <-> reaches h t u) /\ NoDup (ancestors h true t) /\
  (forall u, In u (ancestors h false t) <-> reaches h t u /\ u <> t) /\
  (forall pre c post, ancestors h true t = pre ++ c :: post -> ancestors h true c = c :: post) /\
  (alive h t = true -> root_of h t = root h /\ hd_error (ancestors h true t) = Some t).
Proof.
  intros W. split; [intros u; symmetry; now apply reaches_anc|]. split; [now apply anc_NoDup|]. split.
  - intros u. pose proof (strict_anc h t u W) as S. unfold is_descendant_of in S. rewrite mem_In in S.
    rewrite S, reaches_anc by assumption. intuition.
  - split; [intros; eapply anc_split; eauto|]. intros Ht. split; [now apply root_of_alive|].
    destruct (anc_alive_cons h t Ht) as [l E]. unfold ancestors. now rewrite E.
Qed.

Theorem C11_strict_order h :
  wf_heap h ->
  (forall a, is_ancestor_of h a a = false) /\
  (forall a b c, is_ancestor_of h a b = true -> is_ancestor_of h b c = true -> is_ancestor_of h a c = true) /\
  (forall a b, is_ancestor_of h a b = is_descendant_of h b a) /\
  (forall a b, is_ancestor_of h a b = true <-> reaches h b a /\ a <> b).
Proof.
  intros W. assert (S : forall a b, is_ancestor_of h a b = true <-> reaches h b a /\ a <> b).
  { intros a b. unfold is_ancestor_of. rewrite strict_anc, reaches_anc by assumption. intuition. }
  split; [|split; [|split; [reflexivity | exact S]]].
  - intros a. apply not_true_iff_false. rewrite S. tauto.
  - intros a b c. rewrite !S, !reaches_anc by assumption. intros [H1 H2] [H3 H4]. split.
    + eapply anc_trans; eauto.
    + intros ->. apply H4. now apply (anc_antisym h W).
Qed.

Theorem C11_common_ancestor h a b (themselves : bool) :
  wf_heap h ->
  let c := common_ancestor h a b themselves in
  let common x := reaches h a x /\ reaches h b x /\ (themselves = false -> x <> a /\ x <> b) in
  c = common_ancestor h b a themselves /\
  ((c = null /\ forall x, ~ common x) \/ (common c /\ forall x, common x -> reaches h c x)).
Proof.
  intros W c common. split; [exact (common_ancestor_sym h a b themselves W)|].
  assert (Eq : forall x, common x <-> In x (ancestors h themselves a) /\ In x (ancestors h themselves b)).
  { intros x. unfold common. destruct themselves; cbn.
    - rewrite !reaches_anc by assumption. intuition discriminate.
    - pose proof (strict_anc h a x W) as Sa. pose proof (strict_anc h b x W) as Sb.
      unfold is_descendant_of, ancestors in Sa, Sb. rewrite mem_In in Sa, Sb.
      rewrite Sa, Sb, !reaches_anc by assumption. intuition congruence. }
  destruct (common_ancestor_spec h a b themselves W) as [[E H]|[H1 H2]].
  - left. split; [exact E|]. intros x Hx. apply (H x). now apply Eq.
  - right. split; [now apply Eq|]. intros x Hx. apply reaches_anc; [assumption|]. apply H2. now apply Eq.
Qed.

Theorem C11_cluster t (itself : bool) :
  (forall a, In a (tcluster itself t) <->
     exists p x, at_pos t p = Some x /\ addr x = a /\ (itself = false -> p <> [])) /\
  (distinct_nodes t -> NoDup (tcluster itself t)).
Proof. split; [intros a; exact (tcluster_iff itself t a) | exact (tcluster_NoDup itself t)]. Qed.

Theorem C11_leafs t (itself : bool) :
  (forall a, In a (leafs itself t) <->
     exists p, at_pos t p = Some (Node a []) /\ (itself = false -> p <> [])).
Proof. intros a. exact (leafs_iff itself t a). Qed.

Theorem C11_erase nodes t a :
  In a (cluster_self (terase nodes t)) <->
  exists p x, at_pos t p = Some x /\ addr x = a /\
    forall q r y, p = q ++ r -> q <> [] -> at_pos t q = Some y -> ~ In (addr y) nodes.
Proof. exact (terase_iff nodes t a). Qed.

(** The parent-pointer view used by the Caretaker model and the tree with
    children agree on cluster and erase_from_descendants. *)
Theorem C11_views_agree h t nodes :
  wf_heap h -> represents h t -> distinct_nodes t ->
  (forall p u, at_pos t p = Some u -> forall b a, In a (cluster h b (addr u)) <-> In a (tcluster b u)) /\
  (forall a, alive (erase_from_descendants h (addr t) nodes) a = true <-> In a (cluster_self (terase nodes t))).
Proof.
  intros W R D. split; [exact (represents_cluster h t W R D) | exact (represents_erase h t nodes W R D)].
Qed.

(** ** C47 *)
(** An object never registered with take_care_of is not touched by any time
    travel: it keeps reporting the same state. *)
Theorem C47_unregistered_not_reverted {V A} (w w' : world V A) x o v :
  ~ In o (w_regs w) -> (forall y, assoc o (w_objs w) = Some y -> o_lazy y = None) ->
  leaves_alone x o -> step w x = Ok w' -> report w o = Ok v -> report w' o = Ok v.
Proof.
  intros Hn Hl L E H. unfold report in *. rewrite (unknown_frame w w' x o Hn L E).
  destruct (assoc o (w_objs w)) as [y|]; [|discriminate]. specialize (Hl y eq_refl).
  unfold get_current_state, actually_go in *. rewrite Hl in *. exact H.
Qed.

(** take_care_of refuses an object created at no timepoint (nullptr), as the
    fixed meshline policies are. *)
Theorem C47_null_init_refused {V A} (w : world V A) o x :
  assoc o (w_objs w) = Some x -> o_init x = null -> take_care_of o w = Ok w.
Proof. intros E N. unfold take_care_of. rewrite E, N. reflexivity. Qed.

(** ** C48 *)
(** reset (done before parsing a file) leaves the root alone, with nothing to
    undo, redo or track; the root keeps its annotation. *)
Theorem C48_reset_starts_over {V A} (w : world V A) g dying w' :
  reachable w g -> reset dying w = Ok w' ->
  (forall t, alive (w_heap w') t = true <-> t = w_root w) /\
  w_cur w' = w_root w /\ w_hist w' = [w_root w] /\ w_pins w' = [] /\ w_regs w' = [] /\
  (forall n, can_undo n w' = false /\ can_redo n w' = false) /\
  (forall t, get_annotation t w' = if t =? w_root w then get_annotation t w else None).
Proof.
  intros R E. destruct (reset_spec w g dying w' (reachable_inv w g R) E) as (A1 & _ & A2 & A3 & A4 & A5 & A6 & A7).
  repeat (split; [assumption|]). split; [|assumption]. intros n. unfold can_undo, can_redo.
  rewrite A4, A3, A2. cbn. rewrite Nat.eqb_refl. destruct n; auto.
Qed.

(** Examples: each theorem applied to a non-trivial case. *)
Example C01_ex : report (ex_world ex_ops) 7 = Ok 30 /\ report (ex_world ex_browsing) 7 = Ok 20
  /\ report (ex_world ex_browsing) 8 = Ok 5 (* does not exist yet there: initial state *)
  /\ report (ex_world ex_branch) 7 = Ok 40 /\ snapshot (ex_ghost ex_branch) 2 7 = Some 20.
Proof. repeat (split; [vm_compute; reflexivity|]); vm_compute; reflexivity. Qed.
Example C02_ex : exists w', garbage_collector [] (ex_world (ex_browsing ++ [GoWithoutRemembering 1])) = Ok w'
  /\ alive (w_heap w') 3 = true (* still remembered *) /\ births_alive w' (ex_ghost ex_browsing).
Proof.
  eexists. split; [vm_compute; reflexivity|]. split; [reflexivity|]. apply birthsb_ok. vm_compute. reflexivity.
Qed.
Example C03_ex : permitted (ex_world ex_browsing) (ex_ghost ex_browsing) (NextTimepoint 3 [8])
  /\ exists w', step (ex_world ex_browsing) (NextTimepoint 3 [8]) = Ok w'.
Proof. split; [apply permittedb_ok; [exact ex_browsing_reachable | vm_compute; reflexivity] | eexists; vm_compute; reflexivity]. Qed.
Example C04_ex : can_undo 2 (ex_world ex_ops) = true /\ at_remembered (ex_world ex_ops)
  /\ can_redo 1 (ex_world ex_browsing) = true /\ at_remembered (ex_world ex_browsing).
Proof. do 3 (split; [vm_compute; reflexivity|]). vm_compute; reflexivity. Qed.
Example C05_ex : can_undo 2 (ex_world ex_ops) = true /\ can_undo 3 (ex_world ex_ops) = false.
Proof. split; vm_compute; reflexivity. Qed.
Example C06_ex : exists w', make_next_timepoint [8] 3 (ex_world ex_browsing) = Ok w' /\ w_hist w' = [1; 2].
Proof. eexists. split; vm_compute; reflexivity. Qed.
Example C07_ex : w_hist (ex_world ex_branch) = [1; 2; 3] /\ w_brow (ex_world ex_browsing) = Some 1.
Proof. split; vm_compute; reflexivity. Qed.
Example C08_ex : w_brow (ex_world ex_ops) = None /\ at_remembered (ex_world ex_ops) /\ alive (w_heap (ex_world ex_ops)) 2 = true
  /\ 2 <> w_cur (ex_world ex_ops).
Proof. do 3 (split; [vm_compute; reflexivity|]). vm_compute. discriminate. Qed.
Example C09_ex : permitted (ex_world (ex_ops ++ [NextTimepoint 4 []])) (ex_ghost (ex_ops ++ [NextTimepoint 4 []])) (SetState 7 4 50).
Proof. apply permittedb_ok; [apply (play_ok 1 (ex_ops ++ [NextTimepoint 4 []])) |]; vm_compute; reflexivity. Qed.
Example C10_ex : find_first_ancestor_with_annotation_that (Nat.eqb 100) false (ex_world ex_ops) = 2
  /\ find_first_ancestor_with_annotation_that (Nat.eqb 100) false (ex_world ex_browsing) = null.
Proof. split; vm_compute; reflexivity. Qed.
Example C11_ex : let h := [(5, 3); (4, 2); (3, 2); (2, 1); (1, null)] in
  let t := Node 1 [Node 2 [Node 3 [Node 5 []]; Node 4 []]] in
  wf_heap h /\ common_ancestor h 5 4 true = 2 /\ leafs false t = [5; 4] /\ tcluster false t = [2; 3; 5; 4]
  /\ terase [3] t = Node 1 [Node 2 [Node 4 []]].
Proof. repeat split; try reflexivity; try discriminate. Qed.
Example C47_ex :
  let w := match step (ex_world ex_ops) (Create 9 true 1 0) with
           | Ok w => match step w (SetState 9 3 77) with Ok w => w | _ => w end
           | _ => init_world 1 end in
  exists w', ~ In 9 (w_regs w) /\ step w (Undo 1) = Ok w' /\ w_cur w' <> w_cur w
  /\ report w 9 = Ok 77 /\ report w' 9 = Ok 77 (* 77 was written after the timepoint we went back to *).
Proof.
  eexists. split; [vm_compute; intuition discriminate|]. split; [vm_compute; reflexivity|].
  split; [vm_compute; discriminate|]. split; vm_compute; reflexivity.
Qed.
Example C47_null_ex :
  let w := match step (ex_world ex_ops) (Create 9 true null 0) with Ok w => w | _ => init_world 1 end in
  exists x, assoc 9 (w_objs w) = Some x /\ o_init x = null.
Proof. eexists. split; vm_compute; reflexivity. Qed.
Example C48_ex :
  let w := ex_world (ex_ops ++ [GoWithoutRemembering 1; Annotate 55; Undo 1]) in
  exists w', reset [8] w = Ok w' /\ alive (w_heap w) 3 = true /\ get_annotation 1 w' = Some 55.
Proof. eexists. do 2 (split; [vm_compute; reflexivity|]). vm_compute; reflexivity. Qed.

Print Assumptions C01_time_travel_is_snapshot.
Print Assumptions C01_jump_reports_snapshot.
Print Assumptions C01_snapshots_are_stable.
Print Assumptions C02_gc_keeps_exactly.
Print Assumptions C02_gc_keeps_paths.
Print Assumptions C02_gc_annotations.
Print Assumptions C02_gc_drops_states.
Print Assumptions C02_gc_keeps_reports.
Print Assumptions C03_no_dangling.
Print Assumptions C04_undo_redo.
Print Assumptions C04_redo_undo.
Print Assumptions C05_can_undo_exact.
Print Assumptions C05_can_redo_exact.
Print Assumptions C05_multi_step.
Print Assumptions C06_new_timepoint.
Print Assumptions C07_user_history_well_formed.
Print Assumptions C08_undo_after_jump.
Print Assumptions C09_write_visible.
Print Assumptions C09_second_write_dropped.
Print Assumptions C09_second_write_kept_if_mutable.
Print Assumptions C10_annotate_first_wins.
Print Assumptions C10_annotation_lasts.
Print Assumptions C10_nearest_annotated_ancestor.
Print Assumptions C03_outliving_object_refuted.
Print Assumptions C08_undo_after_jump_while_browsing_refuted.
Print Assumptions C11_ancestors_path.
Print Assumptions C11_strict_order.
Print Assumptions C11_common_ancestor.
Print Assumptions C11_cluster.
Print Assumptions C11_leafs.
Print Assumptions C11_erase.
Print Assumptions C11_views_agree.
Print Assumptions C47_unregistered_not_reverted.
Print Assumptions C47_null_init_refused.
Print Assumptions C48_reset_starts_over.
