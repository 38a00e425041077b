(** Lemmas behind the collection, write and stability properties. *)
From Coq Require Import List Arith Bool Lia.
From Verif Require Import HistModel HistSpec HistTreeProofs HistProofs HistNavProofs.
Import ListNotations.

Section WithStates.
Context {V A : Type}.
Notation world := (world V A).
Notation ghost := (ghost V).

Lemma gc_exists (w : world) (g : ghost) dying w' : inv w g -> garbage_collector dying w = Ok w' ->
  forall t, alive (w_heap w') t = true <->
    exists u, (u = w_cur w \/ In u (w_pins w) \/ In u (w_hist w)) /\ reaches (w_heap w) u t.
Proof.
  intros I E t. destruct (gc_ok w g I dying) as (w2 & E2 & Hh & _). rewrite E in E2. injection E2 as <-.
  rewrite Hh, new_alive, keep_In. split; intros (u & Hu & Ht); exists u.
  - split; [|now apply reaches_anc; [apply I|]]. rewrite !in_app_iff in Hu. cbn in Hu. intuition.
  - apply reaches_anc in Ht; [|apply I]. split; [|assumption]. rewrite !in_app_iff. cbn. intuition.
Qed.

Lemma gc_paths (w : world) (g : ghost) dying w' : inv w g -> garbage_collector dying w = Ok w' ->
  forall t u, alive (w_heap w') t = true -> (reaches (w_heap w') t u <-> reaches (w_heap w) t u).
Proof.
  intros I E t u Ht. destruct (gc_ok w g I dying) as (w2 & E2 & Hh & _). rewrite E in E2. injection E2 as <-.
  rewrite Hh in *. rewrite new_alive in Ht. rewrite !reaches_anc; [|apply I | apply (new_wf w g I)].
  now rewrite (new_anc w g I t Ht).
Qed.

Lemma gc_annotations (w : world) (g : ghost) dying w' : inv w g -> garbage_collector dying w = Ok w' ->
  forall t, get_annotation t w' = if alive (w_heap w') t then get_annotation t w else None.
Proof.
  intros I E t. destruct (gc_ok w g I dying) as (w2 & E2 & Hh & _ & _ & _ & _ & _ & _ & Ha & _).
  rewrite E in E2. injection E2 as <-. unfold get_annotation.
  rewrite Ha, Hh, new_alive, (assoc_filter (fun k => mem k (gc_keep w))). reflexivity.
Qed.

Lemma gc_states (w : world) (g : ghost) dying w' : inv w g -> garbage_collector dying w = Ok w' ->
  births_alive w' g -> forall o x, In o (w_regs w') -> assoc o (w_objs w') = Some x ->
  forall k v, In (k, v) (o_states x) -> alive (w_heap w') k = true.
Proof.
  intros I E B o x Hr Hx k v Hk. destruct (gc_ok w g I dying) as (w2 & E2 & H). rewrite E in E2. injection E2 as <-.
  decompose [and] H. assert (I' : inv w' g) by auto.
  pose proof (i_objs _ _ I' o x Hr Hx) as X. apply (ok_keys _ _ _ _ _ X). rewrite <- (ok_map _ _ _ _ _ X).
  now apply (in_map fst) in Hk.
Qed.

Lemma gc_reports (w : world) (g : ghost) dying w' : inv w g -> garbage_collector dying w = Ok w' ->
  births_alive w' g -> forall o t, tracked w' o -> alive (w_heap w') t = true ->
  exists w1 w1' v, go_without_remembering t w = Ok (w1, true) /\
                   go_without_remembering t w' = Ok (w1', true) /\
                   report w1 o = Ok v /\ report w1' o = Ok v.
Proof.
  intros I E B o t T Ht. destruct (gc_ok w g I dying) as (w2 & E2 & H). rewrite E in E2. injection E2 as <-.
  destruct H as (Hh & _ & _ & _ & _ & _ & _ & _ & Hin & _ & _ & H3 & _ & Hb). assert (I' : inv w' g) by auto.
  assert (T0 : tracked w o) by (destruct T as [Tr Tx]; split; [now apply Hin | now apply H3]).
  assert (Ht0 : alive (w_heap w) t = true).
  { rewrite Hh, new_alive in Ht. now apply keep_alive in Ht. }
  rewrite (go_eq w g t I Ht0), (go_eq w' g t I' Ht).
  destruct (report_nav w g t (w_hist w) (w_brow w) o) as (v & R & S); [apply go_inv; auto; fromI I | assumption |].
  destruct (report_nav w' g t (w_hist w') (w_brow w') o) as (v' & R' & S'); [apply go_inv; auto; fromI I' | assumption |].
  assert (v = v') by congruence. subst v'. eauto 10.
Qed.

Lemma gc_report_now (w : world) (g : ghost) dying w' : inv w g -> garbage_collector dying w = Ok w' ->
  births_alive w' g -> forall o, tracked w' o -> report w' o = report w o.
Proof.
  intros I E B o T. destruct (gc_ok w g I dying) as (w2 & E2 & H). rewrite E in E2. injection E2 as <-.
  destruct H as (_ & _ & _ & Hc & _ & _ & _ & _ & Hin & _ & _ & H3 & _ & Hb). assert (I' : inv w' g) by auto.
  assert (T0 : tracked w o) by (destruct T as [Tr Tx]; split; [now apply Hin | now apply H3]).
  destruct (report_snapshot w g o I T0) as (v & -> & S).
  destruct (report_snapshot w' g o I' T) as (v' & -> & S'). rewrite Hc in S'. congruence.
Qed.

(** The snapshot of an object at a live timepoint changes only by writing this
    object at that timepoint or above it. *)
Lemma snapshot_stable (w : world) (g : ghost) x o t : inv w g ->
  alive (w_heap w) t = true -> In o (w_regs w) ->
  (forall d, x <> NextTimepoint t d) ->
  (forall u v, x = SetState o u v -> ~ reaches (w_heap w) t u) ->
  permitted w g x ->
  snapshot (gstep g w x) t o = snapshot g t o.
Proof.
  intros I Ht Hr Hx Hw P. unfold snapshot.
  destruct x as [a dying|p c u v|p|p u v|p|n|n|u|u| | |u dying|a|dying|b|p|dying]; cbn in *; try reflexivity.
  - assert (t <> a) by (intros ->; now apply (Hx dying)).
    unfold upd at 2. rewrite (proj2 (Nat.eqb_neq t a)) by assumption.
    unfold upd. rewrite (proj2 (Nat.eqb_neq _ (g_n g))); [reflexivity|].
    apply (i_ser_lt _ _ I) in Ht. lia.
  - destruct P as (Hf & Hp & Hb). destruct (g_made g p) as [[u v]|] eqn:M; [|reflexivity]. cbn.
    unfold snap_write, upd. destruct (Nat.eqb_spec o p) as [->|]; [|reflexivity].
    exfalso. now apply (i_reg_first _ _ I) in Hr.
  - destruct P as ((Hrp & Hxp) & Hb & Hn). rewrite (proj2 (mem_In _ _) Hrp). cbn.
    unfold snap_write. destruct (Nat.eqb_spec o p) as [->|]; [|reflexivity].
    apply reaches_anc in Hb; [|apply I].
    rewrite (mem_path w g u t I (anc_incl _ _ _ Hb) Ht).
    rewrite (proj2 (mem_nIn _ _)); [reflexivity|]. intros Hin. apply (Hw u v eq_refl).
    now apply reaches_anc; [apply I|].
Qed.

(** * Writes *)
Lemma write_visible (w : world) (g : ghost) o t v w' : inv w g -> permitted w g (SetState o t v) ->
  step w (SetState o t v) = Ok w' -> report w' o = Ok v.
Proof.
  intros I P E. destruct (step_inv w g _ I P) as (w2 & E2 & H). rewrite E in E2. injection E2 as <-.
  destruct P as ((Hr & Hx) & Hb & Hn). assert (Hb' := Hb). apply reaches_anc in Hb'; [|apply I].
  cbn in E. destruct (assoc o (w_objs w)) as [x|] eqn:Ex; [|congruence]. injection E as <-.
  unfold report. cbn. rewrite assoc_update, Nat.eqb_refl, Ex.
  pose proof (i_objs _ _ I o x Hr Ex) as X.
  assert (Nt : ~ In t (o_order x)) by (intros Hin; apply Hn; now apply X).
  unfold set_state. rewrite (proj2 (mem_nIn _ _) Nt). cbn [negb].
  assert (Na : assoc t (o_states x) = None) by (apply assoc_None; now rewrite (ok_map _ _ _ _ _ X)).
  rewrite Na. unfold get_current_state, actually_go. cbn.
  rewrite assoc_app, Na. cbn. now rewrite Nat.eqb_refl.
Qed.

Lemma update_same o (x : orig V) objs : assoc o objs = Some x -> NoDup (map fst objs) -> update_obj o x objs = objs.
Proof.
  unfold update_obj. induction objs as [|[k y] l IH]; cbn; [discriminate|].
  intros E ND. inversion ND; subst. destruct (Nat.eqb_spec k o) as [->|Hn].
  - rewrite Nat.eqb_refl in E. injection E as ->. f_equal.
    rewrite <- map_id. apply map_ext_in. intros [k z] Hin. cbn.
    destruct (Nat.eqb_spec k o) as [->|]; [|reflexivity]. exfalso. apply H1. now apply (in_map fst) in Hin.
  - destruct (Nat.eqb_spec o k); [congruence|]. f_equal. now apply IH.
Qed.

(** Second write of an immutable state at the same timepoint. *)
Lemma second_write t v1 v2 (x : orig V) : o_const x = true ->
  set_state t v2 (set_state t v1 x) = set_state t v1 x.
Proof.
  intros C. unfold set_state at 2 3. destruct (mem_spec t (o_order x)) as [Hin|Hn]; cbn [negb].
  - rewrite C. unfold set_state. rewrite (proj2 (mem_In _ _) Hin). cbn. now rewrite C.
  - unfold set_state. cbn. rewrite (proj2 (mem_In t _)) by (apply in_or_app; right; now left).
    cbn. now rewrite C.
Qed.

Lemma second_write_mutable t v1 v2 (x : orig V) h : o_const x = false -> assoc t (o_states x) = None ->
  ~ In t (o_order x) ->
  exists y, get_current_state h (set_state t v2 (set_state t v1 x)) = Ok (y, v2).
Proof.
  intros C Na Hn. unfold set_state at 2. rewrite (proj2 (mem_nIn _ _) Hn), Na. cbn [negb].
  unfold set_state. cbn [o_order o_const o_states o_init o_cur o_lazy].
  rewrite (proj2 (mem_In t _)) by (apply in_or_app; right; now left). rewrite C. cbn [negb].
  unfold get_current_state, actually_go. cbn. rewrite filter_app. cbn. rewrite Nat.eqb_refl. cbn.
  rewrite app_nil_r, assoc_app.
  assert (F : assoc t (filter (fun kv => negb (fst kv =? t)) (o_states x)) = None).
  { rewrite (assoc_filter (fun k => negb (k =? t))), Nat.eqb_refl. reflexivity. }
  rewrite F. cbn. rewrite Nat.eqb_refl. eauto.
Qed.

(** * Objects the Caretaker does not know *)
Lemma assoc_gc dying (w w' : world) o : garbage_collector dying w = Ok w' -> ~ In o (w_regs w) ->
  assoc o (w_objs w') = if mem o dying then None else assoc o (w_objs w).
Proof.
  unfold garbage_collector. destruct (forallb _ _); [|discriminate].
  destruct (erase_all (w_heap w) (gc_remove w) (w_regs w) (w_objs w)) as [objs| |] eqn:E; cbn; try discriminate.
  intros [= <-] Hn. cbn. rewrite (assoc_filter (fun k => negb (mem k dying))).
  destruct (mem o dying); cbn; [reflexivity|].
  assert (G : forall regs objs objs', ~ In o regs -> erase_all (w_heap w) (gc_remove w) regs objs = Ok objs' ->
              assoc o objs' = assoc o (objs : list (nat * orig V))).
  { induction regs as [|r regs IH]; cbn; intros l l' Hr.
    - intros [= <-]. reflexivity.
    - destruct (assoc r l); [|apply IH; tauto]. destruct (erase _ _ _); cbn; try discriminate.
      intros El. rewrite (IH _ _ ltac:(tauto) El), assoc_update.
      destruct (Nat.eqb_spec o r) as [->|]; [tauto | reflexivity]. }
  exact (G _ _ _ Hn E).
Qed.

(** An operation that does not create, write, read, register or destroy the
    object [o]. *)
Definition leaves_alone (x : op V A) (o : nat) : Prop :=
  match x with
  | Create p _ _ _ | TakeCareOf p | SetState p _ _ | Read p | Expire p => p <> o
  | NextTimepoint _ d | Unpin _ d | Collect d | Reset d => ~ In o d
  | _ => True
  end.

Lemma unknown_frame (w w' : world) x o : ~ In o (w_regs w) -> leaves_alone x o -> step w x = Ok w' ->
  assoc o (w_objs w') = assoc o (w_objs w).
Proof.
  intros Hn L E.
  assert (Gw : forall t y b, go_without_remembering t w = Ok (y, b) -> assoc o (w_objs y) = assoc o (w_objs w)).
  { intros t y b. unfold go_without_remembering. destruct (t =? null); [now intros [= <- <-]|].
    destruct (alive _ _); [|discriminate]. destruct (_ =? _); [|now intros [= <- <-]].
    intros [= <- <-]. cbn.
    transitivity (assoc o (map (fun e => (fst e, if mem (fst e) (w_regs w) then go t (snd e) else snd e)) (w_objs w))).
    - f_equal. apply map_ext. intros [k z]. cbn. now destruct (mem k (w_regs w)).
    - rewrite (assoc_map_go (fun o x => if mem o (w_regs w) then go t x else x)).
      rewrite (proj2 (mem_nIn _ _) Hn). now destruct (assoc o (w_objs w)). }
  assert (Gb : forall k y, browse_to k w = Ok y -> assoc o (w_objs y) = assoc o (w_objs w)).
  { intros k y. unfold browse_to, go_without_remembering. cbn. destruct (_ =? null); [now intros [= <-]|].
    destruct (alive _ _); [|discriminate]. destruct (root_of _ _ =? _); cbn; [|now intros [= <-]].
    intros [= <-]. cbn. set (t := nth k (w_hist w) null).
    transitivity (assoc o (map (fun e => (fst e, if mem (fst e) (w_regs w) then go t (snd e) else snd e)) (w_objs w))).
    - f_equal. apply map_ext. intros [j z]. cbn. now destruct (mem j (w_regs w)).
    - rewrite (assoc_map_go (fun o x => if mem o (w_regs w) then go t x else x)).
      rewrite (proj2 (mem_nIn _ _) Hn). now destruct (assoc o (w_objs w)). }
  assert (Gs : forall d y, ~ In o d -> stop_browsing_user_history d w = Ok y -> assoc o (w_objs y) = assoc o (w_objs w)).
  { intros d y Hd. unfold stop_browsing_user_history. destruct (w_brow w); [|now intros [= <-]].
    cbn [w_auto set_hist]. destruct (w_auto w); [|now intros [= <-]].
    intros G. apply assoc_gc with (o := o) in G; [|assumption]. rewrite G, (proj2 (mem_nIn _ _) Hd). reflexivity. }
  destruct x as [a dying|p c u v|p|p u v|p|n|n|u|u| | |u dying|a|dying|b|p|dying]; cbn [step leaves_alone] in *.
  - unfold make_next_timepoint in E. destruct (stop_browsing_user_history dying w) as [w1| |] eqn:St; try discriminate.
    cbn in E. destruct (alive _ _); [|discriminate]. injection E as <-. cbn. now apply Gs in St.
  - injection E as <-. cbn. rewrite assoc_app. cbn. rewrite (proj2 (Nat.eqb_neq o p)) by congruence.
    now destruct (assoc o (w_objs w)).
  - unfold take_care_of in E. destruct (assoc p (w_objs w)); [|now injection E as <-].
    destruct (_ =? _); [now injection E as <-|]. destruct (alive _ _); [|discriminate].
    destruct (_ =? _); now injection E as <-.
  - destruct (assoc p (w_objs w)); [|discriminate]. injection E as <-. cbn. rewrite assoc_update.
    now rewrite (proj2 (Nat.eqb_neq o p)) by congruence.
  - destruct (assoc p (w_objs w)); [|discriminate]. destruct (get_current_state _ _); try discriminate.
    injection E as <-. cbn. rewrite assoc_update. now rewrite (proj2 (Nat.eqb_neq o p)) by congruence.
  - unfold undo in E. destruct (_ || _); [now injection E as <-|].
    destruct (w_brow w); eapply Gb; exact E.
  - unfold redo in E. destruct (_ || _); [now injection E as <-|].
    destruct (w_brow w); [eapply Gb; exact E | discriminate].
  - destruct (go_without_remembering u w) as [[y b]| |] eqn:G; try discriminate. injection E as <-. eapply Gw; eauto.
  - unfold go_and_remember in E. destruct (go_without_remembering u w) as [[y b]| |] eqn:G; try discriminate.
    cbn in E. apply Gw in G. destruct b; injection E as <-; [|assumption].
    cbn. unfold remember_current_timepoint. destruct (_ =? _); assumption.
  - injection E as <-. unfold remember_current_timepoint. now destruct (_ =? _).
  - injection E as <-. unfold pin_current_timepoint. now destruct (mem _ _).
  - unfold unpin in E. cbn [w_auto set_pins] in E. destruct (w_auto w); [|now injection E as <-].
    apply assoc_gc with (o := o) in E; [|assumption]. now rewrite E, (proj2 (mem_nIn _ _) L).
  - injection E as <-. unfold annotate_current_timepoint. now destruct (assoc (w_cur w) (w_ann w)).
  - apply assoc_gc with (o := o) in E; [|assumption]. now rewrite E, (proj2 (mem_nIn _ _) L).
  - now injection E as <-.
  - injection E as <-. cbn. rewrite (assoc_filter (fun k => negb (k =? p))).
    now rewrite (proj2 (Nat.eqb_neq o p)) by congruence.
  - unfold reset in E. apply assoc_gc with (o := o) in E; [|intros []]. now rewrite E, (proj2 (mem_nIn _ _) L).
Qed.

(** * Starting over *)
Lemma anc_of_root h : wf_heap h -> ancestors_self h (root h) = [root h].
Proof.
  intros W. induction W as [r Hr | x p h W Hx Hd Hp IH] using wf_ind.
  - cbn. now rewrite Nat.eqb_refl.
  - rewrite root_cons by assumption. rewrite anc_cons_ne; [assumption|].
    intros E. rewrite <- E, (alive_root h W) in Hd. discriminate.
Qed.

Lemma reset_spec (w : world) (g : ghost) dying w' : inv w g -> reset dying w = Ok w' ->
  (forall t, alive (w_heap w') t = true <-> t = w_root w) /\
  w_root w' = w_root w /\ w_cur w' = w_root w /\ w_hist w' = [w_root w] /\ w_brow w' = None /\
  w_pins w' = [] /\ w_regs w' = [] /\
  (forall t, get_annotation t w' = if t =? w_root w then get_annotation t w else None).
Proof.
  unfold reset. intros I.
  match goal with |- context [garbage_collector dying ?x] => set (w0 := x) end. intros E.
  destruct (i_hist_hd _ _ I) as [l Eh].
  assert (I' : inv w0 g).
  { constructor; cbn; try fromI I; auto; try (intros; contradiction).
    - rewrite (i_root _ _ I). apply alive_root; fromI I.
    - intros t Ht. rewrite Eh in Ht. cbn in Ht. destruct Ht as [<-|[]]. rewrite (i_root _ _ I). apply alive_root; fromI I.
    - rewrite Eh. cbn. eauto.
    - discriminate.
    - constructor. }
  pose proof (gc_exists w0 g dying w' I' E) as GE. pose proof (gc_annotations w0 g dying w' I' E) as GA.
  assert (Al : forall t, alive (w_heap w') t = true <-> t = w_root w).
  { intros t. rewrite GE. cbn [w_cur w_pins w_hist w_heap w0]. rewrite Eh. cbn [firstn In].
    assert (Ar : ancestors_self (w_heap w) (w_root w) = [w_root w])
      by (rewrite (i_root _ _ I); apply anc_of_root; fromI I).
    split.
    - intros (u & Hu & Hr). assert (u = w_root w) as -> by intuition.
      apply reaches_anc in Hr; [|fromI I]. rewrite Ar in Hr. destruct Hr as [<-|[]]. reflexivity.
    - intros ->. exists (w_root w). split; [auto|]. apply reaches_anc; [fromI I|]. rewrite Ar. now left. }
  destruct (gc_ok w0 g I' dying) as (w2 & E2 & H). rewrite E in E2. injection E2 as <-.
  decompose [and] H. split; [exact Al|]. repeat (split; [assumption|]).
  split; [transitivity (w_hist w0); [assumption | cbn; now rewrite Eh]|]. split; [assumption|]. split; [assumption|]. split.
  - match goal with X : incl (w_regs w') _ |- _ => cbn in X; now apply incl_l_nil in X end.
  - intros t. rewrite GA. specialize (Al t). destruct (Nat.eqb_spec t (w_root w)).
    + now rewrite (proj2 Al).
    + destruct (alive (w_heap w') t); [|reflexivity]. destruct n. now apply Al.
Qed.

End WithStates.
