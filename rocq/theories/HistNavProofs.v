(** Lemmas on undo, redo, remembered jumps, annotations and collection. *)
From Coq Require Import List Arith Bool Lia.
From Verif Require Import HistModel HistSpec HistTreeProofs HistProofs.
Import ListNotations.

Global Arguments mem : simpl never.

Section WithStates.
Context {V A : Type}.
Notation world := (world V A).
Notation ghost := (ghost V).

Lemma nav_nav (w : world) t h b t' h' b' : nav (nav w t h b) t' h' b' = nav w t' h' b'.
Proof.
  unfold nav. cbn. f_equal. rewrite map_map. apply map_ext. intros [o x]. cbn.
  destruct (mem o (w_regs w)); reflexivity.
Qed.

(** Position in the user history; [length] when the current timepoint comes
    after the last remembered one. *)
Definition upos (w : world) : nat :=
  match w_brow w with
  | Some k => k
  | None => if last (w_hist w) null =? w_cur w then length (w_hist w) - 1 else length (w_hist w)
  end.

Definition br (w : world) (k : nat) : option nat :=
  if k =? length (w_hist w) - 1 then None else Some k.

Definition at_index (w : world) (k : nat) : world :=
  nav w (nth k (w_hist w) null) (w_hist w) (br w k).

Lemma can_undo_upos n (w : world) : can_undo n w = true <-> 0 < n <= upos w.
Proof.
  unfold can_undo, upos. destruct (Nat.eqb_spec n 0); [split; [discriminate | lia]|].
  destruct (w_brow w); [rewrite Nat.ltb_lt | rewrite Nat.leb_le]; lia.
Qed.

Lemma undo_eq (w : world) (g : ghost) n : inv w g -> can_undo n w = true -> undo n w = Ok (at_index w (upos w - n)).
Proof.
  intros I C. pose proof (hist_pos w g I) as L. unfold undo. rewrite C.
  apply can_undo_upos in C as [C1 C2].
  rewrite (proj2 (Nat.eqb_neq n 0)) by lia. cbn [orb negb]. unfold upos in *.
  destruct (w_brow w) as [k|] eqn:B.
  - rewrite (browse_eq w g); auto. apply (i_brow _ _ I) in B. lia.
  - destruct (last (w_hist w) null =? w_cur w).
    + rewrite (browse_eq w g) by (auto; lia). reflexivity.
    + rewrite (browse_eq w g) by (auto; lia). unfold at_index, br.
      now replace (length (w_hist w) - 1 - (n - 1)) with (length (w_hist w) - n) by lia.
Qed.

Lemma undo_no n (w : world) : can_undo n w = false -> undo n w = Ok w.
Proof. intros C. unfold undo. rewrite C. now rewrite orb_true_r. Qed.

Lemma redo_no n (w : world) : can_redo n w = false -> redo n w = Ok w.
Proof. intros C. unfold redo. rewrite C. now rewrite orb_true_r. Qed.

Lemma last_nth {X} (l : list X) d : last l d = nth (length l - 1) l d.
Proof.
  induction l as [|a [|b l] IH]; auto.
  change (last (a :: b :: l) d) with (last (b :: l) d). rewrite IH. cbn. now rewrite Nat.sub_0_r.
Qed.

Lemma upos_at (w : world) k : k < length (w_hist w) -> upos (at_index w k) = k.
Proof.
  intros Hk. unfold upos, at_index, nav, br. cbn.
  destruct (Nat.eqb_spec k (length (w_hist w) - 1)) as [->|]; [|reflexivity].
  now rewrite last_nth, Nat.eqb_refl.
Qed.

Lemma at_at (w : world) k j : at_index (at_index w k) j = at_index w j.
Proof. unfold at_index. rewrite nav_nav. reflexivity. Qed.

Lemma at_inv (w : world) (g : ghost) k : inv w g -> k < length (w_hist w) -> inv (at_index w k) g.
Proof.
  intros I Hk. apply go_inv; auto; try fromI I.
  - apply (i_hist _ _ I). now apply nth_In.
  - intros j. unfold br. destruct (Nat.eqb_spec k (length (w_hist w) - 1)); [discriminate|]. intros [= <-]. lia.
Qed.

Lemma upos_le (w : world) (g : ghost) : inv w g -> upos w <= length (w_hist w).
Proof.
  intros I. unfold upos. destruct (w_brow w) eqn:B; [apply (i_brow _ _ I) in B; lia|].
  destruct (_ =? _); lia.
Qed.

Lemma can_redo_upos (w : world) (g : ghost) n : inv w g ->
  (can_redo n w = true <-> 0 < n /\ upos w + n <= length (w_hist w) - 1).
Proof.
  intros I. pose proof (hist_pos w g I) as L. unfold can_redo, upos.
  destruct (Nat.eqb_spec n 0); [split; [discriminate | lia]|].
  destruct (w_brow w) eqn:B.
  - apply (i_brow _ _ I) in B. rewrite Nat.leb_le. lia.
  - destruct (_ =? _); split; try discriminate; lia.
Qed.

Lemma redo_eq (w : world) (g : ghost) n : inv w g -> can_redo n w = true -> redo n w = Ok (at_index w (upos w + n)).
Proof.
  intros I C. pose proof (hist_pos w g I) as L. unfold redo. rewrite C.
  assert (C0 := C). apply (can_redo_upos w g n I) in C as [C1 C2].
  rewrite (proj2 (Nat.eqb_neq n 0)) by lia. cbn [orb negb].
  unfold can_redo in C0. unfold upos in *. destruct (w_brow w) as [k|] eqn:B.
  - rewrite Nat.min_r by lia. rewrite (browse_eq w g); auto. apply (i_brow _ _ I) in B. lia.
  - destruct (n =? 0); discriminate.
Qed.

(** The current timepoint is the one designated by the user history. *)
Definition at_remembered (w : world) : Prop :=
  match w_brow w with
  | Some k => nth_error (w_hist w) k = Some (w_cur w)
  | None => last (w_hist w) null = w_cur w
  end.

Lemma at_remembered_nav (w : world) (g : ghost) : inv w g -> at_remembered w ->
  upos w < length (w_hist w) /\ at_index w (upos w) = nav w (w_cur w) (w_hist w) (w_brow w).
Proof.
  intros I R. pose proof (hist_pos w g I) as L. unfold at_remembered, at_index, upos, br in *.
  destruct (w_brow w) as [k|] eqn:B.
  - apply (i_brow _ _ I) in B. split; [lia|]. apply nth_error_nth with (d := null) in R. rewrite R.
    rewrite (proj2 (Nat.eqb_neq _ _)) by lia. reflexivity.
  - rewrite R, Nat.eqb_refl. split; [lia|]. rewrite Nat.eqb_refl, <- last_nth, R. reflexivity.
Qed.

Lemma undo_redo (w : world) (g : ghost) n : inv w g -> can_undo n w = true -> at_remembered w ->
  exists w1, undo n w = Ok w1 /\ can_redo n w1 = true /\
             redo n w1 = Ok (nav w (w_cur w) (w_hist w) (w_brow w)).
Proof.
  intros I C R. destruct (at_remembered_nav w g I R) as [L E].
  rewrite (undo_eq w g n I C). eexists. split; [reflexivity|].
  apply can_undo_upos in C. assert (I' := at_inv w g (upos w - n) I ltac:(lia)).
  assert (C' : can_redo n (at_index w (upos w - n)) = true).
  { apply (can_redo_upos _ g n I'). rewrite upos_at by lia. cbn. lia. }
  split; [assumption|]. rewrite (redo_eq _ g n I' C'), upos_at, at_at by lia.
  replace (upos w - n + n) with (upos w) by lia. now rewrite E.
Qed.

Lemma redo_undo (w : world) (g : ghost) n : inv w g -> can_redo n w = true -> at_remembered w ->
  exists w1, redo n w = Ok w1 /\ can_undo n w1 = true /\
             undo n w1 = Ok (nav w (w_cur w) (w_hist w) (w_brow w)).
Proof.
  intros I C R. destruct (at_remembered_nav w g I R) as [L E].
  rewrite (redo_eq w g n I C). eexists. split; [reflexivity|].
  apply (can_redo_upos w g n I) in C. assert (I' := at_inv w g (upos w + n) I ltac:(lia)).
  assert (C' : can_undo n (at_index w (upos w + n)) = true).
  { apply can_undo_upos. rewrite upos_at by lia. lia. }
  split; [assumption|]. rewrite (undo_eq _ g n I' C'), upos_at, at_at by lia.
  replace (upos w + n - n) with (upos w) by lia. now rewrite E.
Qed.

(** * Repetition *)
Fixpoint repeat_op (f : world -> outcome world) (n : nat) (w : world) : outcome world :=
  match n with 0 => Ok w | S m => do w' <- f w; repeat_op f m w' end.

Lemma undo1_moves (w : world) (g : ghost) : inv w g -> (undo 1 w <> Ok w <-> can_undo 1 w = true).
Proof.
  intros I. split.
  - intros H. destruct (can_undo 1 w) eqn:C; [reflexivity|]. now apply undo_no in C.
  - intros C. rewrite (undo_eq w g 1 I C). apply can_undo_upos in C. pose proof (upos_le w g I) as L.
    intros [= E]. apply (f_equal upos) in E. rewrite upos_at in E by lia. lia.
Qed.

Lemma redo1_moves (w : world) (g : ghost) : inv w g -> (redo 1 w <> Ok w <-> can_redo 1 w = true).
Proof.
  intros I. split.
  - intros H. destruct (can_redo 1 w) eqn:C; [reflexivity|]. now apply redo_no in C.
  - intros C. rewrite (redo_eq w g 1 I C). apply (can_redo_upos w g 1 I) in C.
    intros [= E]. apply (f_equal upos) in E. rewrite upos_at in E by lia. lia.
Qed.

Lemma repeat_undo (w : world) (g : ghost) : inv w g -> forall n, 0 < n <= upos w ->
  repeat_op (undo 1) n w = Ok (at_index w (upos w - n)).
Proof.
  intros I n. revert w I. induction n as [|n IH]; intros w I Hn; [lia|]. cbn.
  rewrite (undo_eq w g 1 I) by (apply can_undo_upos; lia). cbn.
  pose proof (upos_le w g I) as L. assert (I' := at_inv w g (upos w - 1) I ltac:(lia)).
  destruct n as [|n]; [reflexivity|]. rewrite IH; auto; rewrite upos_at by lia; [|lia].
  rewrite at_at. f_equal. f_equal. lia.
Qed.

Lemma repeat_redo (w : world) (g : ghost) : inv w g -> forall n, 0 < n -> upos w + n <= length (w_hist w) - 1 ->
  repeat_op (redo 1) n w = Ok (at_index w (upos w + n)).
Proof.
  intros I n. revert w I. induction n as [|n IH]; intros w I Hn Hl; [lia|]. cbn.
  rewrite (redo_eq w g 1 I) by (apply (can_redo_upos w g 1 I); lia). cbn.
  assert (I' := at_inv w g (upos w + 1) I ltac:(lia)).
  destruct n as [|n]; [reflexivity|]. rewrite IH; auto; rewrite ?upos_at by lia; try lia.
  - rewrite at_at. f_equal. f_equal. lia.
  - cbn. lia.
Qed.

Lemma repeat_op_inv f g (w : world) : (forall w, inv w g -> exists w', f w = Ok w' /\ inv w' g) -> inv w g ->
  forall n, exists w', repeat_op f n w = Ok w' /\ inv w' g.
Proof.
  intros H I n. revert w I. induction n as [|n IH]; intros w I; cbn; [eauto|].
  destruct (H w I) as (w1 & -> & I1). cbn. auto.
Qed.

Lemma can_undo_exact (w : world) (g : ghost) n : inv w g ->
  (can_undo n w = true <->
   0 < n /\ forall i, i < n -> exists wi, repeat_op (undo 1) i w = Ok wi /\ undo 1 wi <> Ok wi).
Proof.
  intros I. rewrite can_undo_upos. split.
  - intros Hn. split; [lia|]. intros i Hi. pose proof (upos_le w g I) as L.
    destruct i as [|i].
    + exists w. split; [reflexivity|]. apply (undo1_moves w g I), can_undo_upos. lia.
    + rewrite (repeat_undo w g I) by lia. eexists. split; [reflexivity|].
      apply (undo1_moves _ g (at_inv w g (upos w - S i) I ltac:(lia))), can_undo_upos.
      rewrite upos_at by lia. lia.
  - intros [Hn H]. split; [assumption|]. destruct (le_lt_dec n (upos w)) as [|Hlt]; [assumption|exfalso].
    destruct (H (upos w) Hlt) as (wi & E & M). pose proof (upos_le w g I) as L.
    destruct (upos w) as [|u] eqn:U.
    + cbn in E. injection E as <-. apply (undo1_moves w g I), can_undo_upos in M. lia.
    + rewrite (repeat_undo w g I) in E by lia. rewrite U in E. injection E as <-.
      apply (undo1_moves _ g (at_inv w g (S u - S u) I ltac:(lia))), can_undo_upos in M.
      rewrite upos_at in M by lia. lia.
Qed.

Lemma can_redo_exact (w : world) (g : ghost) n : inv w g ->
  (can_redo n w = true <->
   0 < n /\ forall i, i < n -> exists wi, repeat_op (redo 1) i w = Ok wi /\ redo 1 wi <> Ok wi).
Proof.
  intros I. rewrite (can_redo_upos w g n I). split.
  - intros [Hn Hl]. split; [lia|]. intros i Hi.
    destruct i as [|i].
    + exists w. split; [reflexivity|]. apply (redo1_moves w g I), (can_redo_upos w g 1 I). lia.
    + rewrite (repeat_redo w g I) by lia. eexists. split; [reflexivity|].
      assert (I' := at_inv w g (upos w + S i) I ltac:(lia)).
      apply (redo1_moves _ g I'), (can_redo_upos _ g 1 I'). rewrite upos_at by lia. cbn. lia.
  - intros [Hn H]. split; [assumption|].
    destruct (le_lt_dec (upos w + n) (length (w_hist w) - 1)) as [|Hlt]; [assumption|exfalso].
    pose proof (upos_le w g I) as L. set (m := length (w_hist w) - 1 - upos w).
    destruct (H m ltac:(unfold m; lia)) as (wi & E & M).
    destruct m as [|u] eqn:U; unfold m in U.
    + cbn in E. injection E as <-. apply (redo1_moves w g I), (can_redo_upos w g 1 I) in M. lia.
    + rewrite (repeat_redo w g I) in E by lia. injection E as <-.
      assert (I' := at_inv w g (upos w + S u) I ltac:(lia)).
      apply (redo1_moves _ g I'), (can_redo_upos _ g 1 I') in M. rewrite upos_at in M by lia. cbn in M. lia.
Qed.

Lemma undo_repeat (w : world) (g : ghost) n : inv w g -> can_undo n w = true -> undo n w = repeat_op (undo 1) n w.
Proof.
  intros I C. rewrite (undo_eq w g n I C). apply can_undo_upos in C. now rewrite (repeat_undo w g I).
Qed.

Lemma redo_repeat (w : world) (g : ghost) n : inv w g -> can_redo n w = true -> redo n w = repeat_op (redo 1) n w.
Proof.
  intros I C. rewrite (redo_eq w g n I C). apply (can_redo_upos w g n I) in C.
  now rewrite (repeat_redo w g I) by lia.
Qed.

(** * Reports *)
Lemma report_snapshot (w : world) (g : ghost) o : inv w g -> tracked w o ->
  exists v, report w o = Ok v /\ snapshot g (w_cur w) o = Some v.
Proof.
  intros I [Hr Hx]. unfold report. destruct (assoc o (w_objs w)) as [x|] eqn:E; [|congruence].
  destruct (get_state_ok _ _ _ _ _ (i_wf _ _ I) (i_cur _ _ I) (i_objs _ _ I o x Hr E)) as (v & -> & S).
  cbn. eauto.
Qed.

Lemma tracked_nav (w : world) t h b o : tracked (nav w t h b) o <-> tracked w o.
Proof.
  unfold tracked. cbn. rewrite (assoc_map_go (fun o x => if mem o (w_regs w) then go t x else x)).
  destruct (assoc o (w_objs w)); intuition discriminate.
Qed.

Lemma report_nav (w : world) (g : ghost) t h b o : inv (nav w t h b) g -> tracked w o ->
  exists v, report (nav w t h b) o = Ok v /\ snapshot g t o = Some v.
Proof. intros I T. apply (report_snapshot _ g o I). now apply tracked_nav. Qed.

Lemma nav_same_inv (w : world) (g : ghost) : inv w g -> inv (nav w (w_cur w) (w_hist w) (w_brow w)) g.
Proof. intros I. apply go_inv; auto; fromI I. Qed.

Lemma report_nav_same (w : world) (g : ghost) o : inv w g -> tracked w o ->
  report (nav w (w_cur w) (w_hist w) (w_brow w)) o = report w o.
Proof.
  intros I T. destruct (report_nav w g _ _ _ o (nav_same_inv w g I) T) as (v & -> & S).
  destruct (report_snapshot w g o I T) as (v' & -> & S'). congruence.
Qed.

(** * User history without repetition *)
Definition repeats_no (l : list nat) : Prop := forall l1 a b l2, l = l1 ++ a :: b :: l2 -> a <> b.

Lemma repeats_firstn l n : repeats_no l -> repeats_no (firstn n l).
Proof.
  intros H l1 a b l2 E. apply (H l1 a b (l2 ++ skipn n l)).
  rewrite <- (firstn_skipn n l) at 1. rewrite E, <- app_assoc. reflexivity.
Qed.

Lemma repeats_snoc l c : repeats_no l -> last l null <> c -> repeats_no (l ++ [c]).
Proof.
  intros H Hc l1 a b l2 E.
  destruct l2 as [|y l2] using rev_ind.
  - replace (l1 ++ [a; b]) with ((l1 ++ [a]) ++ [b]) in E by now rewrite <- app_assoc.
    apply app_inj_tail in E as [-> ->]. now rewrite last_last in Hc.
  - replace (l1 ++ a :: b :: l2 ++ [y]) with ((l1 ++ a :: b :: l2) ++ [y]) in E by now rewrite <- app_assoc.
    apply app_inj_tail in E as [-> _]. eapply H. reflexivity.
Qed.

Lemma remember_repeats (w : world) : repeats_no (w_hist w) -> repeats_no (w_hist (remember_current_timepoint w : world)).
Proof.
  intros H. unfold remember_current_timepoint. destruct (Nat.eqb_spec (last (w_hist w) null) (w_cur w)); [assumption|].
  cbn. now apply repeats_snoc.
Qed.

Lemma gc_hist dying (w w' : world) : garbage_collector dying w = Ok w' ->
  w_hist w' = w_hist w /\ w_brow w' = w_brow w /\ w_pins w' = w_pins w /\ w_cur w' = w_cur w /\ w_auto w' = w_auto w.
Proof.
  unfold garbage_collector. destruct (forallb _ _); [|discriminate].
  destruct (erase_all _ _ _ _); cbn; try discriminate. intros [= <-]. auto 10.
Qed.

Lemma stop_hist dying (w w' : world) : stop_browsing_user_history dying w = Ok w' ->
  w_hist w' = match w_brow w with Some k => firstn (S k) (w_hist w) | None => w_hist w end /\
  w_brow w' = None /\ w_cur w' = w_cur w.
Proof.
  unfold stop_browsing_user_history. destruct (w_brow w) eqn:B.
  - cbn [w_auto set_hist]. destruct (w_auto w).
    + intros E. apply gc_hist in E as (-> & -> & _ & -> & _). auto.
    + intros [= <-]. auto.
  - intros [= <-]. auto.
Qed.

Lemma next_hist dying a (w w' : world) : make_next_timepoint dying a w = Ok w' ->
  w_hist w' = match w_brow w with Some k => firstn (S k) (w_hist w) | None => w_hist w end /\
  w_brow w' = None /\ w_cur w' = a /\ In (a, w_cur w) (w_heap w').
Proof.
  unfold make_next_timepoint. destruct (stop_browsing_user_history dying w) eqn:E; try discriminate.
  cbn. destruct (alive _ _); [|discriminate]. intros [= <-]. cbn.
  apply stop_hist in E as (-> & -> & ->). auto.
Qed.

Lemma step_repeats (w : world) (g : ghost) x w' : inv w g -> permitted w g x -> step w x = Ok w' ->
  repeats_no (w_hist w) -> repeats_no (w_hist w').
Proof.
  intros I P E H. destruct x as [a dying|o c t v|o|o t v|o|n|n|t|t| | |t dying|a|dying|b|o|dying]; cbn [step permitted] in *.
  - apply next_hist in E as (-> & _). destruct (w_brow w); [now apply repeats_firstn | assumption].
  - now injection E as <-.
  - unfold take_care_of in E. destruct (assoc o (w_objs w)); [|now injection E as <-].
    destruct (_ =? _); [now injection E as <-|]. destruct (alive _ _); [|discriminate].
    destruct (_ =? _); now injection E as <-.
  - destruct (assoc o (w_objs w)); [now injection E as <- | discriminate].
  - destruct (assoc o (w_objs w)); [|discriminate]. destruct (get_current_state _ _); try discriminate.
    now injection E as <-.
  - destruct (can_undo n w) eqn:C.
    + rewrite (undo_eq w g n I C) in E. now injection E as <-.
    + rewrite (undo_no n w C) in E. now injection E as <-.
  - destruct (can_redo n w) eqn:C.
    + rewrite (redo_eq w g n I C) in E. now injection E as <-.
    + rewrite (redo_no n w C) in E. now injection E as <-.
  - destruct P as [->|P]; [now injection E as <-|]. rewrite (go_eq w g t I P) in E. now injection E as <-.
  - unfold go_and_remember in E. destruct P as [->|P]; [now injection E as <-|].
    rewrite (go_eq w g t I P) in E. injection E as <-. now apply remember_repeats.
  - injection E as <-. now apply remember_repeats.
  - injection E as <-. unfold pin_current_timepoint. now destruct (mem _ _).
  - unfold unpin in E. cbn [w_auto set_pins] in E. destruct (w_auto w); [|now injection E as <-].
    apply gc_hist in E as (-> & _). assumption.
  - injection E as <-. unfold annotate_current_timepoint. now destruct (assoc _ _).
  - apply gc_hist in E as (-> & _). assumption.
  - now injection E as <-.
  - now injection E as <-.
  - unfold reset in E. apply gc_hist in E as (-> & _). now apply (repeats_firstn _ 1).
Qed.

Lemma reachable_repeats (w : world) (g : ghost) : reachable w g -> repeats_no (w_hist w).
Proof.
  induction 1 as [r Hr | w g x w' R IH P E B].
  - intros l1 a b l2 E. cbn in E. destruct l1 as [|? [|? ?]]; discriminate.
  - eapply step_repeats; eauto. now apply reachable_inv.
Qed.

(** * Remembered jumps *)
Lemma go_remember_undo (w : world) (g : ghost) t : inv w g -> w_brow w = None -> at_remembered w ->
  alive (w_heap w) t = true -> t <> w_cur w ->
  exists w1 w2, go_and_remember t w = Ok (w1, true) /\ w_cur w1 = t /\ undo 1 w1 = Ok w2 /\
                w_cur w2 = w_cur w /\ can_redo 1 w2 = true /\
                (forall o, tracked w o -> report w2 o = report w o).
Proof.
  intros I B R Ht Hn. unfold at_remembered in R. rewrite B in R.
  unfold go_and_remember. rewrite (go_eq w g t I Ht). cbn [bind fst snd].
  unfold remember_current_timepoint. cbn [w_hist w_cur nav]. rewrite R.
  rewrite (proj2 (Nat.eqb_neq _ _)) by congruence.
  set (w1 := set_hist _ _ _).
  pose proof (hist_pos w g I) as L.
  assert (E1 : w1 = nav w t (w_hist w ++ [t]) None) by (unfold w1, set_hist, nav; cbn; now rewrite B).
  assert (I1 : inv w1 g).
  { rewrite E1. apply go_inv; auto.
    - intros u Hu. apply in_app_or in Hu as [Hu|[<-|[]]]; [now apply (i_hist _ _ I) | assumption].
    - destruct (i_hist_hd _ _ I) as [l ->]. cbn. eauto.
    - discriminate. }
  assert (U : upos w1 = length (w_hist w)).
  { rewrite E1. unfold upos. cbn. rewrite last_last, Nat.eqb_refl, app_length. cbn. lia. }
  assert (C : can_undo 1 w1 = true) by (apply can_undo_upos; lia).
  exists w1, (at_index w1 (length (w_hist w) - 1)). split; [reflexivity|]. split; [now rewrite E1|].
  rewrite (undo_eq w1 g 1 I1 C), U. split; [reflexivity|].
  assert (N : nth (length (w_hist w) - 1) (w_hist w1) null = w_cur w).
  { rewrite E1. cbn. rewrite app_nth1 by lia. rewrite <- last_nth. assumption. }
  assert (L1 : length (w_hist w1) = S (length (w_hist w))).
  { rewrite E1. cbn. rewrite app_length. cbn. lia. }
  assert (I2 := at_inv w1 g (length (w_hist w) - 1) I1 ltac:(lia)).
  split; [exact N|]. split.
  - apply (can_redo_upos _ g 1 I2). rewrite upos_at by lia. cbn [w_hist at_index nav]. lia.
  - intros o T. destruct (report_snapshot w g o I T) as (v & -> & S).
    assert (T2 : tracked (at_index w1 (length (w_hist w) - 1)) o).
    { unfold at_index. apply tracked_nav. rewrite E1. now apply tracked_nav. }
    destruct (report_snapshot _ g o I2 T2) as (v' & -> & S').
    cbn [w_cur at_index nav] in S'. rewrite N in S'. congruence.
Qed.

(** * Annotations *)
Lemma find_ancestor_spec (p : A -> bool) b (w : world) g : inv w g ->
  let r := find_first_ancestor_with_annotation_that p b w in
  let good t := In t (ancestors (w_heap w) b (w_cur w)) /\ exists a, get_annotation t w = Some a /\ p a = true in
  (r = null /\ forall t, ~ good t) \/
  (good r /\ forall t, good t -> In t (ancestors_self (w_heap w) r)).
Proof.
  intros I r good. unfold r, find_first_ancestor_with_annotation_that.
  set (f := fun t => match assoc t (w_ann w) with Some a => p a | None => false end).
  assert (F : forall t, f t = true <-> exists a, get_annotation t w = Some a /\ p a = true).
  { intros t. unfold f, get_annotation. destruct (assoc t (w_ann w)); split; try discriminate; eauto.
    - intros (a' & [= <-] & ?). assumption.
    - intros (a' & ? & _). discriminate. }
  destruct (find f (ancestors (w_heap w) b (w_cur w))) as [t|] eqn:E.
  - right. split.
    + apply find_some in E as [E1 E2]. split; [assumption | now apply F].
    + intros u [Hu Hp]. apply F in Hp.
      assert (D : exists l1 l2, ancestors (w_heap w) b (w_cur w) = l1 ++ t :: l2 /\ forall y, In y l1 -> f y = false).
      { clear - E. induction (ancestors (w_heap w) b (w_cur w)) as [|y l IH]; [discriminate|]. cbn in E.
        destruct (f y) eqn:Fy.
        - injection E as ->. exists [], l. split; [reflexivity | intros ? []].
        - destruct (IH E) as (l1 & l2 & -> & H). exists (y :: l1), l2. split; [reflexivity|].
          intros z [<-|Hz]; auto. }
      destruct D as (l1 & l2 & D & Hl). rewrite D in Hu.
      assert (Su : exists pre, ancestors_self (w_heap w) (w_cur w) = pre ++ t :: l2).
      { unfold ancestors in D. destruct b; [eauto|].
        destruct (anc_alive_cons _ _ (i_cur _ _ I)) as [l El]. rewrite El in *. cbn in D. subst l.
        exists (w_cur w :: l1). reflexivity. }
      destruct Su as [pre Su].
      assert (Ht : In t (ancestors_self (w_heap w) (w_cur w))) by (rewrite Su; apply in_elt).
      destruct (anc_suffix _ (i_wf _ _ I) _ _ Ht) as [pre' Su'].
      destruct (anc_alive_cons _ _ (anc_incl _ _ _ Ht)) as [l' El'].
      assert (l2 = l').
      { pose proof (anc_NoDup _ (i_wf _ _ I) (w_cur w)) as ND.
        rewrite El' in Su'. rewrite Su in Su'. clear - ND Su Su'. rewrite Su in ND. clear Su.
        revert pre' Su'. induction pre as [|x pre IH]; intros [|y pre'] E; cbn in *; inversion E; subst.
        - reflexivity.
        - exfalso. inversion ND; subst. apply H1. apply in_elt.
        - exfalso. inversion ND; subst. apply H1. apply in_elt.
        - inversion ND. eapply IH; eauto. }
      subst l'. rewrite El'. apply in_app_or in Hu as [Hu|Hu]; [rewrite (Hl u Hu) in Hp; discriminate | assumption].
  - left. split; [reflexivity|]. intros t [Ht Hp]. apply F in Hp. rewrite (find_none _ _ E t Ht) in Hp. discriminate.
Qed.

Lemma step_annotation (w : world) (g : ghost) x w' t a : inv w g -> permitted w g x -> step w x = Ok w' ->
  get_annotation t w = Some a ->
  get_annotation t w' = Some a \/ get_annotation t w' = None /\ alive (w_heap w) t = true /\
    (alive (w_heap w') t = false \/ exists d, x = NextTimepoint t d).
Proof.
  intros I P E H. unfold get_annotation in *.
  assert (Al : alive (w_heap w) t = true).
  { apply (i_ann _ _ I), assoc_Some_iff. congruence. }
  assert (GC : forall w0 dying w1, inv w0 g -> w_heap w0 = w_heap w -> w_ann w0 = w_ann w ->
            garbage_collector dying w0 = Ok w1 ->
            assoc t (w_ann w1) = Some a \/ assoc t (w_ann w1) = None /\ alive (w_heap w1) t = false).
  { intros w0 dying w1 I0 Eh Ea G. destruct (gc_ok w0 g I0 dying) as (w2 & G' & Hh & _ & _ & _ & _ & _ & _ & Ha & _).
    rewrite G in G'. injection G' as <-. rewrite Ha, Hh, new_alive, (assoc_filter (fun k => mem k (gc_keep w0))), Ea, H.
    destruct (mem t (gc_keep w0)); auto. }
  destruct x as [b dying|o c u v|o|o u v|o|n|n|u|u| | |u dying|b|dying|b|o|dying]; cbn [step permitted] in *.
  - unfold make_next_timepoint in E. destruct (stop_browsing_user_history dying w) as [w1| |] eqn:St; try discriminate.
    cbn in E. destruct (alive (w_heap w1) (w_cur w1)); [|discriminate]. injection E as <-. cbn.
    unfold add_child. rewrite alive_cons.
    destruct (Nat.eqb_spec t b) as [->|]; cbn [orb].
    + unfold stop_browsing_user_history in St. destruct (w_brow w) as [k|] eqn:B; [|injection St as <-; auto].
      cbn [w_auto set_hist] in St. destruct (w_auto w); [|injection St as <-; auto].
      assert (I' : inv (set_hist w (firstn (S k) (w_hist w)) None) g).
      { apply hist_inv; auto.
        - intros z Hu. apply (i_hist _ _ I). rewrite <- (firstn_skipn (S k)). apply in_or_app. now left.
        - destruct (i_hist_hd _ _ I) as [l ->]. cbn. eauto.
        - discriminate. }
      destruct (GC _ _ _ I' eq_refl eq_refl St) as [?|[? ?]]; [auto | right; eauto 10].
    + unfold stop_browsing_user_history in St. destruct (w_brow w) as [k|] eqn:B; [|injection St as <-; auto].
      cbn [w_auto set_hist] in St. destruct (w_auto w); [|injection St as <-; auto].
      assert (I' : inv (set_hist w (firstn (S k) (w_hist w)) None) g).
      { apply hist_inv; auto.
        - intros z Hu. apply (i_hist _ _ I). rewrite <- (firstn_skipn (S k)). apply in_or_app. now left.
        - destruct (i_hist_hd _ _ I) as [l ->]. cbn. eauto.
        - discriminate. }
      destruct (GC _ _ _ I' eq_refl eq_refl St) as [?|[? ?]]; auto.
  - injection E as <-. auto.
  - unfold take_care_of in E. destruct (assoc o (w_objs w)); [|injection E as <-; auto].
    destruct (_ =? _); [injection E as <-; auto|]. destruct (alive _ _); [|discriminate].
    destruct (_ =? _); injection E as <-; auto.
  - destruct (assoc o (w_objs w)); [injection E as <-; auto | discriminate].
  - destruct (assoc o (w_objs w)); [|discriminate]. destruct (get_current_state _ _); try discriminate.
    injection E as <-; auto.
  - destruct (can_undo n w) eqn:C.
    + rewrite (undo_eq w g n I C) in E. injection E as <-; auto.
    + rewrite (undo_no n w C) in E. injection E as <-; auto.
  - destruct (can_redo n w) eqn:C.
    + rewrite (redo_eq w g n I C) in E. injection E as <-; auto.
    + rewrite (redo_no n w C) in E. injection E as <-; auto.
  - destruct P as [->|P]; [injection E as <-; auto|]. rewrite (go_eq w g u I P) in E. injection E as <-; auto.
  - unfold go_and_remember in E. destruct P as [->|P]; [injection E as <-; auto|].
    rewrite (go_eq w g u I P) in E. injection E as <-. cbn. unfold remember_current_timepoint.
    destruct (_ =? _); auto.
  - injection E as <-. unfold remember_current_timepoint. destruct (_ =? _); auto.
  - injection E as <-. unfold pin_current_timepoint. destruct (mem _ _); auto.
  - unfold unpin in E. cbn [w_auto set_pins] in E. destruct (w_auto w); [|injection E as <-; auto].
    assert (I' : inv (set_pins w (filter (fun x => negb (x =? u)) (w_pins w))) g).
    { constructor; cbn; try fromI I. intros z Hu. apply filter_In in Hu as [Hu _]. now apply (i_pins _ _ I). }
    destruct (GC _ _ _ I' eq_refl eq_refl E) as [?|[? ?]]; auto.
  - injection E as <-. unfold annotate_current_timepoint.
    destruct (assoc (w_cur w) (w_ann w)) eqn:Ea; auto. cbn. rewrite assoc_app, H. auto.
  - destruct (GC _ _ _ I eq_refl eq_refl E) as [?|[? ?]]; auto.
  - injection E as <-; auto.
  - injection E as <-; auto.
  - unfold reset in E.
    match type of E with garbage_collector _ ?x = _ => set (w0 := x) in E end.
    assert (I' : inv w0 g).
    { pose proof (i_wf _ _ I) as W. constructor; cbn; try fromI I; auto; try (intros; contradiction).
      - rewrite (i_root _ _ I). now apply alive_root.
      - intros z Ht. destruct (i_hist_hd _ _ I) as [l El]. rewrite El in Ht.
        cbn in Ht. destruct Ht as [<-|[]]. rewrite (i_root _ _ I). now apply alive_root.
      - destruct (i_hist_hd _ _ I) as [l ->]. cbn. eauto.
      - discriminate.
      - constructor. }
    destruct (GC _ _ _ I' eq_refl eq_refl E) as [?|[? ?]]; auto.
Qed.

End WithStates.
