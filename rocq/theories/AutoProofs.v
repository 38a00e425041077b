(** Proofs about the automatic collection. *)
From Coq Require Import List Arith Bool Lia.
From Verif Require Import HistModel HistSpec HistTreeProofs HistProofs HistNavProofs HistMoreProofs HistExamples AppModel AppSpec AutoSpec.
Import ListNotations.

Section WithStates.
Context {V A : Type}.
Implicit Types (w : world V A) (g : ghost V).

Lemma untouched_reachable w g : untouched w g -> reachable w g.
Proof. induction 1 as [r|w g x w' _ IH _ P E B]; [now constructor|]. exact (reach_step w g x w' IH P E B). Qed.

(** What an operation does to the setting and to the pins. *)
Definition same w w' : Prop := w_auto w' = w_auto w /\ w_pins w' = w_pins w.
Lemma same_gc dying w w' : garbage_collector dying w = Ok w' -> same w w'.
Proof. intros E. apply gc_hist in E. unfold same. tauto. Qed.
Lemma same_stop dying w w' : stop_browsing_user_history dying w = Ok w' -> same w w'.
Proof. unfold stop_browsing_user_history. destruct (w_brow w) as [k|]; [|now intros [= <-]]. cbn zeta. destruct (w_auto _); [|now intros [= <-]]. intros E. exact (same_gc dying (set_hist w (firstn (S k) (w_hist w)) None) w' E). Qed.
Lemma same_go t w r : go_without_remembering t w = Ok r -> same w (fst r).
Proof. unfold go_without_remembering. destruct (t =? null); [now intros [= <-]|]. destruct (alive _ _); [|discriminate]. destruct (root_of _ _ =? _); now intros [= <-]. Qed.
Lemma same_remember w : same w (remember_current_timepoint w).
Proof. unfold remember_current_timepoint. now destruct (_ =? _). Qed.
Lemma same_browse k w w' : browse_to k w = Ok w' -> same w w'.
Proof. unfold browse_to. cbn zeta. match goal with |- context [go_without_remembering ?t ?v] => destruct (go_without_remembering t v) as [r| |] eqn:E end; cbn [bind]; try discriminate. intros [= <-]. exact (same_go _ _ _ E). Qed.

Lemma step_auto w (x : op V A) w' : step w x = Ok w' -> (forall b, x <> SetAutoGc b) -> w_auto w' = w_auto w.
Proof.
  intros E N. revert E. destruct x as [a d|o c t v|o|o t v|o|n|n|t|t| | |t d|a|d|b|o|d]; cbn [step].
  - unfold make_next_timepoint. destruct (stop_browsing_user_history d w) as [w1| |] eqn:E; cbn [bind]; try discriminate. destruct (alive _ _); [|discriminate]. intros [= <-]. exact (proj1 (same_stop _ _ _ E)).
  - now intros [= <-].
  - unfold take_care_of. destruct (assoc o (w_objs w)) as [x|]; [|now intros [= <-]]. destruct (o_init x =? null); [now intros [= <-]|]. destruct (alive _ _); [|discriminate]. destruct (_ =? _); now intros [= <-].
  - destruct (assoc o (w_objs w)); [|discriminate]. now intros [= <-].
  - destruct (assoc o (w_objs w)) as [x|]; [|discriminate]. destruct (get_current_state (w_heap w) x); cbn [bind]; try discriminate. now intros [= <-].
  - unfold undo. destruct (_ || _); [now intros [= <-]|]. destruct (w_brow w); intros E; exact (proj1 (same_browse _ _ _ E)).
  - unfold redo. destruct (_ || _); [now intros [= <-]|]. destruct (w_brow w); [|discriminate]. intros E; exact (proj1 (same_browse _ _ _ E)).
  - destruct (go_without_remembering t w) as [r| |] eqn:E; cbn [bind]; try discriminate. intros [= <-]. exact (proj1 (same_go _ _ _ E)).
  - unfold go_and_remember. destruct (go_without_remembering t w) as [r| |] eqn:E; cbn [bind]; try discriminate. destruct (snd r); cbn [bind]; intros [= <-]; cbn [fst]; [rewrite (proj1 (same_remember (fst r)))|]; exact (proj1 (same_go _ _ _ E)).
  - intros [= <-]. exact (proj1 (same_remember w)).
  - intros [= <-]. unfold pin_current_timepoint. now destruct (mem _ _).
  - unfold unpin. cbn zeta. destruct (w_auto (set_pins _ _)); [|now intros [= <-]]. intros E. exact (proj1 (same_gc d (set_pins w _) w' E)).
  - intros [= <-]. unfold annotate_current_timepoint. now destruct (assoc _ _).
  - intros E. exact (proj1 (same_gc _ _ _ E)).
  - now destruct (N b).
  - now intros [= <-].
  - unfold reset. intros E. exact (proj1 (same_gc d (mkWorld _ _ _ _ _ _ _ _ _ _) w' E)).
Qed.
Lemma untouched_on w g : untouched w g -> w_auto w = true.
Proof. induction 1 as [r|w g x w' _ IH N P E _]; [reflexivity|]. now rewrite (step_auto w x w' E N). Qed.

Lemma step_pins w (x : op V A) w' p : step w x = Ok w' -> (forall d, x <> Unpin p d) -> (forall d, x <> Reset d) -> In p (w_pins w) -> In p (w_pins w').
Proof.
  intros E N R I. revert E. destruct x as [a d|o c t v|o|o t v|o|n|n|t|t| | |t d|a|d|b|o|d]; cbn [step].
  - unfold make_next_timepoint. destruct (stop_browsing_user_history d w) as [w1| |] eqn:E; cbn [bind]; try discriminate. destruct (alive _ _); [|discriminate]. intros [= <-]. cbn. now rewrite (proj2 (same_stop _ _ _ E)).
  - now intros [= <-].
  - unfold take_care_of. destruct (assoc o (w_objs w)) as [x|]; [|now intros [= <-]]. destruct (o_init x =? null); [now intros [= <-]|]. destruct (alive _ _); [|discriminate]. destruct (_ =? _); now intros [= <-].
  - destruct (assoc o (w_objs w)); [|discriminate]. now intros [= <-].
  - destruct (assoc o (w_objs w)) as [x|]; [|discriminate]. destruct (get_current_state (w_heap w) x); cbn [bind]; try discriminate. now intros [= <-].
  - unfold undo. destruct (_ || _); [now intros [= <-]|]. destruct (w_brow w); intros E; now rewrite (proj2 (same_browse _ _ _ E)).
  - unfold redo. destruct (_ || _); [now intros [= <-]|]. destruct (w_brow w); [|discriminate]. intros E; now rewrite (proj2 (same_browse _ _ _ E)).
  - destruct (go_without_remembering t w) as [r| |] eqn:E; cbn [bind]; try discriminate. intros [= <-]. now rewrite (proj2 (same_go _ _ _ E)).
  - unfold go_and_remember. destruct (go_without_remembering t w) as [r| |] eqn:E; cbn [bind]; try discriminate. destruct (snd r); cbn [bind]; intros [= <-]; cbn [fst]; [rewrite (proj2 (same_remember (fst r)))|]; now rewrite (proj2 (same_go _ _ _ E)).
  - intros [= <-]. now rewrite (proj2 (same_remember w)).
  - intros [= <-]. unfold pin_current_timepoint. destruct (mem _ _); [exact I|]. cbn. apply in_or_app. now left.
  - unfold unpin. cbn zeta. assert (J : In p (filter (fun y : nat => negb (y =? t)) (w_pins w))). { apply filter_In. split; [exact I|]. destruct (Nat.eqb_spec p t) as [->|]; [now destruct (N d)|reflexivity]. }
    destruct (w_auto _); [|now intros [= <-]]. intros E. now rewrite (proj2 (same_gc d (set_pins w _) w' E)).
  - intros [= <-]. unfold annotate_current_timepoint. now destruct (assoc _ _).
  - intros E. now rewrite (proj2 (same_gc _ _ _ E)).
  - now intros [= <-].
  - now intros [= <-].
  - now destruct (R d).
Qed.

Lemma next_alive w g a dying w' : inv w g -> w_auto w = true -> w_brow w <> None -> make_next_timepoint dying a w = Ok w' -> forall t,
  alive (w_heap w') t = true <-> t = a \/ needed (w_heap w) (fun u => u = w_cur w \/ In u (w_pins w) \/ In u (w_hist w')) t.
Proof.
  intros I Au B E t. destruct (next_hist _ _ _ _ E) as (Hh & _). revert E. unfold make_next_timepoint, stop_browsing_user_history. destruct (w_brow w) as [k|]; [|congruence]. cbn zeta. cbn [w_auto set_hist]. rewrite Au.
  assert (I' : inv (set_hist w (firstn (S k) (w_hist w)) None) g).
  { apply hist_inv; auto.
    - intros u Hu. apply (i_hist _ _ I). rewrite <- (firstn_skipn (S k)). apply in_or_app. now left.
    - destruct (i_hist_hd _ _ I) as [l ->]. cbn. eauto.
    - discriminate. }
  destruct (garbage_collector dying _) as [w1| |] eqn:G; cbn [bind]; try discriminate. destruct (alive _ _); [|discriminate]. intros [= <-].
  cbn [set_cur set_heap w_heap w_hist] in *. unfold add_child. rewrite alive_cons, orb_true_iff, (gc_exists _ g dying w1 I' G t). rewrite Hh. cbn [set_hist w_cur w_pins w_hist w_heap]. unfold needed.
  rewrite Nat.eqb_eq. split; (intros [->|H]; [left; reflexivity|right; exact H]).
Qed.
Lemma unpin_alive w g p dying w' : inv w g -> w_auto w = true -> unpin dying p w = Ok w' -> forall t,
  alive (w_heap w') t = true <-> needed (w_heap w) (fun u => u = w_cur w \/ (In u (w_pins w) /\ u <> p) \/ In u (w_hist w)) t.
Proof.
  intros I Au. unfold unpin. cbn zeta. cbn [w_auto set_pins]. rewrite Au. intros G t.
  assert (I' : inv (set_pins w (filter (fun x => negb (x =? p)) (w_pins w))) g).
  { constructor; cbn; try fromI I. intros u Hu. apply filter_In in Hu as [Hu _]. now apply (i_pins _ _ I). }
  rewrite (gc_exists _ g dying w' I' G t). cbn [set_pins w_cur w_pins w_hist w_heap]. unfold needed.
  split; intros (u & C & H); exists u; (split; [|exact H]); rewrite filter_In in *; destruct C as [->|[[C D]|C]]; auto; right; left; (split; [exact C|]).
  - intros ->. now rewrite Nat.eqb_refl in D.
  - destruct (Nat.eqb_spec u p); [contradiction|reflexivity].
Qed.
(** What does not collect leaves the live timepoints as they are. *)
Lemma heap_go t w r : go_without_remembering t w = Ok r -> w_heap (fst r) = w_heap w.
Proof. unfold go_without_remembering. destruct (t =? null); [now intros [= <-]|]. destruct (alive _ _); [|discriminate]. destruct (root_of _ _ =? _); now intros [= <-]. Qed.
Lemma heap_remember w : w_heap (remember_current_timepoint w) = w_heap w.
Proof. unfold remember_current_timepoint. now destruct (_ =? _). Qed.
Lemma heap_browse k w w' : browse_to k w = Ok w' -> w_heap w' = w_heap w.
Proof. unfold browse_to. cbn zeta. match goal with |- context [go_without_remembering ?t ?v] => destruct (go_without_remembering t v) as [r| |] eqn:E end; cbn [bind]; try discriminate. intros [= <-]. exact (heap_go _ _ _ E). Qed.

Lemma kept_alive w (x : op V A) w' t : may_collect w x = false -> step w x = Ok w' -> alive (w_heap w') t = true <-> alive (w_heap w) t = true \/ exists d, x = NextTimepoint t d.
Proof.
  intros C E. assert (Same : (forall a d, x <> NextTimepoint a d) -> w_heap w' = w_heap w -> alive (w_heap w') t = true <-> alive (w_heap w) t = true \/ exists d, x = NextTimepoint t d).
  { intros N ->. split; [now left|]. intros [H|[d H]]; [exact H|now destruct (N t d)]. }
  revert E. destruct x as [a d|o c u v|o|o u v|o|n|n|u|u| | |u d|a|d|b|o|d]; cbn [step may_collect] in *; try discriminate C.
  2-15: intros E; apply Same; [discriminate|]; clear Same; revert E.
  - clear Same. unfold make_next_timepoint, stop_browsing_user_history.
    assert (D : forall w1, w_heap w1 = w_heap w -> (if alive (w_heap w1) (w_cur w1) then Ok (set_cur (set_heap w1 (add_child (w_heap w1) (w_cur w1) a)) a) else UB) = Ok w' -> alive (w_heap w') t = true <-> alive (w_heap w) t = true \/ exists d0, NextTimepoint a d = NextTimepoint t d0 :> op V A).
    { intros w1 H. rewrite H. destruct (alive _ (w_cur w1)); [|discriminate]. intros [= <-]. cbn. unfold add_child. rewrite alive_cons, orb_true_iff, Nat.eqb_eq.
      split; [intros [->|K]; eauto|]. intros [K|[d0 [= <- _]]]; auto. }
    destruct (w_brow w); [|exact (D w eq_refl)]. cbn zeta. cbn [w_auto set_hist]. rewrite C. exact (D (set_hist w _ None) eq_refl).
  - now intros [= <-].
  - unfold take_care_of. destruct (assoc o (w_objs w)) as [x|]; [|now intros [= <-]]. destruct (o_init x =? null); [now intros [= <-]|]. destruct (alive _ _); [|discriminate]. destruct (_ =? _); now intros [= <-].
  - destruct (assoc o (w_objs w)); [|discriminate]. now intros [= <-].
  - destruct (assoc o (w_objs w)) as [x|]; [|discriminate]. destruct (get_current_state (w_heap w) x); cbn [bind]; try discriminate. now intros [= <-].
  - unfold undo. destruct (_ || _); [now intros [= <-]|]. destruct (w_brow w); apply heap_browse.
  - unfold redo. destruct (_ || _); [now intros [= <-]|]. destruct (w_brow w); [|discriminate]. apply heap_browse.
  - destruct (go_without_remembering u w) as [r| |] eqn:E; cbn [bind]; try discriminate. intros [= <-]. exact (heap_go _ _ _ E).
  - unfold go_and_remember. destruct (go_without_remembering u w) as [r| |] eqn:E; cbn [bind]; try discriminate. destruct (snd r); cbn [bind]; intros [= <-]; cbn [fst]; [rewrite heap_remember|]; exact (heap_go _ _ _ E).
  - intros [= <-]. apply heap_remember.
  - intros [= <-]. unfold pin_current_timepoint. now destruct (mem _ _).
  - unfold unpin. cbn zeta. cbn [w_auto set_pins]. rewrite C. now intros [= <-].
  - intros [= <-]. unfold annotate_current_timepoint. now destruct (assoc _ _).
  - now intros [= <-].
  - now intros [= <-].
Qed.

(** ** Nothing is left over *)
Lemma careful_untouched w g : careful w g -> untouched w g.
Proof. induction 1 as [r|w g x w' _ IH N _ P E B]; [now constructor|]. exact (untouched_step w g x w' IH N P E B). Qed.

Definition rooted w : tp -> Prop := fun u => u = w_cur w \/ In u (w_pins w) \/ In u (w_hist w).
Definition tidy w : Prop := forall t, alive (w_heap w) t = true -> needed (w_heap w) (rooted w) t.
Lemma alive_pair h t : alive h t = true -> exists p, In (t, p) h.
Proof. rewrite alive_In, in_map_iff. intros ([k p] & <- & I). now exists p. Qed.
Lemma above h t u : reaches h t u -> forall v, reaches h u v -> reaches h t v.
Proof. induction 1 as [t p I|t p u I _ IH]; intros v D; [exact D|]. exact (reaches_parent _ t p v I (IH v D)). Qed.
Lemma reaches_more h e t u : reaches h t u -> reaches (e :: h) t u.
Proof. induction 1 as [t p I|t p u I _ IH]; [apply (reaches_self _ t p); now right|apply (reaches_parent _ t p u); [now right|exact IH]]. Qed.
Lemma tidy_gc w g dying w' : inv w g -> garbage_collector dying w = Ok w' -> tidy w'.
Proof.
  intros I E t T. pose proof (gc_exists w g dying w' I E) as X. destruct (gc_hist _ _ _ E) as (Hh & _ & Hp & Hc & _).
  apply X in T as (u & C & R). exists u. unfold rooted. rewrite Hh, Hc, Hp. split; [exact C|].
  apply (gc_paths w g dying w' I E); [|exact R]. apply X. exists u. split; [exact C|].
  assert (L : alive (w_heap w) u = true) by (destruct C as [->|[C|C]]; [apply (i_cur _ _ I)|apply (i_pins _ _ I); exact C|apply (i_hist _ _ I); exact C]).
  apply alive_pair in L as [p L]. exact (reaches_self _ u p L).
Qed.
Lemma tidy_same w w' : w_heap w' = w_heap w -> (forall u, rooted w u -> rooted w' u) -> tidy w -> tidy w'.
Proof. intros H R T t. rewrite H. intros L. destruct (T t L) as (u & C & D). exists u. split; [exact (R u C)|exact D]. Qed.
Lemma tidy_next w1 a : alive (w_heap w1) (w_cur w1) = true -> tidy w1 -> tidy (set_cur (set_heap w1 (add_child (w_heap w1) (w_cur w1) a)) a).
Proof.
  intros L T t. cbn. unfold add_child. rewrite alive_cons, orb_true_iff, Nat.eqb_eq. intros [->|K].
  - exists a. split; [now left|]. apply (reaches_self _ a (w_cur w1)); now left.
  - destruct (T t K) as (u & [->|C] & D).
    + exists a. split; [now left|]. apply (reaches_parent _ a (w_cur w1) t); [now left|now apply reaches_more].
    + exists u. split; [now right|]. now apply reaches_more.
Qed.
Lemma hist_go t w r : go_without_remembering t w = Ok r -> w_hist (fst r) = w_hist w /\ w_pins (fst r) = w_pins w.
Proof. unfold go_without_remembering. destruct (t =? null); [now intros [= <-]|]. destruct (alive _ _); [|discriminate]. destruct (root_of _ _ =? _); now intros [= <-]. Qed.
Lemma hist_browse k w w' : browse_to k w = Ok w' -> w_hist w' = w_hist w /\ w_pins w' = w_pins w.
Proof. unfold browse_to. cbn zeta. match goal with |- context [go_without_remembering ?t ?v] => destruct (go_without_remembering t v) as [r| |] eqn:E end; cbn [bind]; try discriminate. intros [= <-]. exact (hist_go _ _ _ E). Qed.
Lemma hist_remember w u : In u (w_hist w) -> In u (w_hist (remember_current_timepoint w)).
Proof. unfold remember_current_timepoint. destruct (_ =? _); [easy|]. cbn. intros I. apply in_or_app. now left. Qed.

Lemma tidy_step w g (x : op V A) w' : inv w g -> w_auto w = true -> (leaves x = true -> needed (w_heap w) (fun u => In u (w_pins w) \/ In u (w_hist w)) (w_cur w)) ->
  step w x = Ok w' -> tidy w -> tidy w'.
Proof.
  intros I Au Cf E T. revert E.
  assert (Left : forall v, leaves x = true -> w_heap v = w_heap w -> (forall u, In u (w_hist w) -> In u (w_hist v)) -> w_pins v = w_pins w -> tidy v).
  { intros v Lv Hh Hi Hp t L. rewrite Hh in *. assert (R : exists u, (In u (w_pins w) \/ In u (w_hist w)) /\ reaches (w_heap w) u t).
    { destruct (T t L) as (u & [->|C] & D); [|now exists u]. destruct (Cf Lv) as (u & C & D'). exists u. split; [exact C|exact (above _ _ _ D' _ D)]. }
    destruct R as (u & C & D). exists u. split; [|exact D]. right. rewrite Hp. destruct C as [C|C]; [now left|right; now apply Hi]. }
  assert (Same : forall v, w_heap v = w_heap w -> w_cur v = w_cur w -> w_pins v = w_pins w -> w_hist v = w_hist w -> tidy v).
  { intros v H1 H2 H3 H4. apply (tidy_same w v H1); [|exact T]. unfold rooted. now rewrite H2, H3, H4. }
  destruct x as [a d|o c u v|o|o u v|o|n|n|u|u| | |u d|a|d|b|o|d]; cbn [step leaves] in *.
  - clear Left Same Cf. unfold make_next_timepoint, stop_browsing_user_history. destruct (w_brow w) as [k|].
    + cbn zeta. cbn [w_auto set_hist]. rewrite Au.
      assert (I' : inv (set_hist w (firstn (S k) (w_hist w)) None) g).
      { apply hist_inv; auto.
        - intros u Hu. apply (i_hist _ _ I). rewrite <- (firstn_skipn (S k)). apply in_or_app. now left.
        - destruct (i_hist_hd _ _ I) as [l ->]. cbn. eauto.
        - discriminate. }
      destruct (garbage_collector d _) as [w1| |] eqn:G; cbn [bind]; try discriminate. pose proof (tidy_gc _ g d w1 I' G) as T1.
      destruct (alive (w_heap w1) (w_cur w1)) eqn:L; [|discriminate]. intros [= <-]. exact (tidy_next w1 a L T1).
    + cbn [bind]. destruct (alive (w_heap w) (w_cur w)) eqn:L; [|discriminate]. intros [= <-]. exact (tidy_next w a L T).
  - intros [= <-]. now apply Same.
  - clear Left. unfold take_care_of. destruct (assoc o (w_objs w)) as [x|]; [|now intros [= <-]]. destruct (o_init x =? null); [now intros [= <-]|]. destruct (alive (w_heap w) (o_init x)); [|discriminate]. destruct (_ =? _); intros [= <-]; now apply Same.
  - destruct (assoc o (w_objs w)); [|discriminate]. intros [= <-]. now apply Same.
  - destruct (assoc o (w_objs w)) as [x|]; [|discriminate]. destruct (get_current_state (w_heap w) x); cbn [bind]; try discriminate. intros [= <-]. now apply Same.
  - unfold undo. destruct (_ || _); [now intros [= <-]|]. destruct (w_brow w); intros E; destruct (hist_browse _ _ _ E) as [Hi Hp]; apply Left; auto; try (exact (heap_browse _ _ _ E)); now rewrite Hi.
  - unfold redo. destruct (_ || _); [now intros [= <-]|]. destruct (w_brow w); [|discriminate]. intros E; destruct (hist_browse _ _ _ E) as [Hi Hp]; apply Left; auto; try (exact (heap_browse _ _ _ E)); now rewrite Hi.
  - destruct (go_without_remembering u w) as [r| |] eqn:E; cbn [bind]; try discriminate. intros [= <-]. destruct (hist_go _ _ _ E) as [Hi Hp]. apply Left; auto; [exact (heap_go _ _ _ E)|now rewrite Hi].
  - unfold go_and_remember. destruct (go_without_remembering u w) as [r| |] eqn:E; cbn [bind]; try discriminate. destruct (hist_go _ _ _ E) as [Hi Hp]. pose proof (heap_go _ _ _ E) as Hh.
    destruct (snd r); cbn [bind]; intros [= <-]; cbn [fst]; apply Left; auto; rewrite ?heap_remember, ?(proj2 (same_remember (fst r))); auto; intros y; rewrite <- Hi; auto. apply hist_remember.
  - intros [= <-]. apply (tidy_same w); [apply heap_remember| |exact T]. intros u. unfold rooted. rewrite (proj2 (same_remember w)). intros [->|[C|C]]; [left|auto|right; right; now apply hist_remember]. unfold remember_current_timepoint. now destruct (_ =? _).
  - intros [= <-]. clear Left Same. unfold pin_current_timepoint. destruct (mem _ _); [exact T|]. apply (tidy_same w); [reflexivity| |exact T]. intros u. unfold rooted. cbn. rewrite in_app_iff. tauto.
  - clear Left Same. unfold unpin. cbn zeta. cbn [w_auto set_pins]. rewrite Au.
    assert (I' : inv (set_pins w (filter (fun x => negb (x =? u)) (w_pins w))) g).
    { constructor; cbn; try fromI I. intros y Hu. apply filter_In in Hu as [Hu _]. now apply (i_pins _ _ I). }
    exact (tidy_gc _ g d w' I').
  - intros [= <-]. unfold annotate_current_timepoint. destruct (assoc _ _); [exact T|now apply Same].
  - exact (tidy_gc w g d w' I).
  - intros [= <-]. now apply Same.
  - intros [= <-]. now apply Same.
  - intros E. destruct (reset_spec w g d w' I E) as (Al & _ & Hc & _). intros t L. exists t. apply alive_pair in L as [p L'].
    split; [|exact (reaches_self _ t p L')]. left. rewrite Hc. apply Al. now apply (heap_In_alive _ t p).
Qed.
Lemma careful_tidy w g : careful w g -> tidy w.
Proof.
  induction 1 as [r N|w g x w' C IH N K P E B].
  - intros t L. exists r. split; [now left|]. apply alive_pair in L as (p & [[= <- <-]|[]]). apply (reaches_self _ r null); now left.
  - pose proof (careful_untouched w g C) as U. exact (tidy_step w g x w' (reachable_inv w g (untouched_reachable w g U)) (untouched_on w g U) K E IH).
Qed.

Definition touches (x : op V A) : bool := match x with SetAutoGc _ => true | _ => false end.
Lemma played_untouched r ops w g : play r ops = Some (w, g) -> existsb touches ops = false -> untouched w g.
Proof.
  unfold play. destruct (Nat.eqb_spec r null) as [|R]; [discriminate|].
  assert (C : forall ops w0 g0, untouched w0 g0 -> check w0 g0 ops = Some (w, g) -> existsb touches ops = false -> untouched w g).
  { clear. induction ops as [|x ops IH]; intros w0 g0 U; cbn; [now intros [= <- <-]|].
    destruct (permittedb w0 g0 x) eqn:P; [|discriminate]. destruct (step w0 x) as [w1| |] eqn:E; try discriminate. destruct (birthsb w1 (gstep g0 w0 x)) eqn:B; [|discriminate].
    intros K. rewrite orb_false_iff. intros [N M]. revert K M. apply IH. eapply untouched_step; eauto.
    - intros b ->. discriminate.
    - apply permittedb_ok; [now apply untouched_reachable|exact P].
    - now apply birthsb_ok. }
  apply C. now constructor.
Qed.

Fixpoint carefulb w (ops : list (op V A)) : bool :=
  match ops with
  | [] => true
  | x :: r => negb (touches x) && (negb (leaves x) || existsb (fun u => mem (w_cur w) (ancestors_self (w_heap w) u)) (w_pins w ++ w_hist w))
              && match step w x with Ok w' => carefulb w' r | _ => false end
  end.
Lemma played_careful r ops w g : play r ops = Some (w, g) -> carefulb (init_world r) ops = true -> careful w g.
Proof.
  unfold play. destruct (Nat.eqb_spec r null) as [|R]; [discriminate|].
  assert (C : forall ops w0 g0, careful w0 g0 -> check w0 g0 ops = Some (w, g) -> carefulb w0 ops = true -> careful w g).
  { clear. induction ops as [|x ops IH]; intros w0 g0 U; cbn [check carefulb]; [now intros [= <- <-]|].
    destruct (permittedb w0 g0 x) eqn:P; [|discriminate]. destruct (step w0 x) as [w1| |] eqn:E; try discriminate. destruct (birthsb w1 (gstep g0 w0 x)) eqn:B; [|discriminate].
    intros K. rewrite !andb_true_iff. intros [[N L] M]. revert K M. apply IH. eapply careful_step; eauto.
    - intros b ->. discriminate.
    - intros Lv. rewrite Lv in L. cbn [negb orb] in L. apply existsb_exists in L as (u & Iu & Lu). exists u. split; [now apply in_app_or in Iu|]. apply mem_In in Lu. apply reaches_anc; [|exact Lu].
      exact (i_wf _ _ (reachable_inv _ _ (untouched_reachable _ _ (careful_untouched _ _ U)))).
    - apply permittedb_ok; [now apply untouched_reachable, careful_untouched|exact P].
    - now apply birthsb_ok. }
  apply C. now constructor.
Qed.
End WithStates.

(** ** The application *)
Section App.
Context {V : Type}.
Implicit Types (w : world V Step) (g : ghost V).

Lemma remember_last w : last (w_hist (remember_current_timepoint w)) null = w_cur (remember_current_timepoint w).
Proof. unfold remember_current_timepoint. destruct (Nat.eqb_spec (last (w_hist w) null) (w_cur w)) as [E|_]; [exact E|]. cbn. apply last_last. Qed.
Lemma run_last board steps w r : run board steps w = Ok r -> last (w_hist (fst r)) null = w_cur (fst r).
Proof. unfold run. destruct (handle_all _ _ _ _); cbn [bind]; try discriminate. intros [= <-]. apply remember_last. Qed.
Lemma last_anchored w g : inv w g -> last (w_hist w) null = w_cur w -> anchored w.
Proof.
  intros I L. exists (w_cur w). split.
  - right. destruct (i_hist_hd _ _ I) as [l E]. rewrite <- L, E. destruct (exists_last (l := w_root w :: l)) as (l' & x & ->); [discriminate|]. rewrite last_last. apply in_or_app. right. now left.
  - destruct (alive_pair _ _ (i_cur _ _ I)) as [p H]. exact (reaches_self _ _ p H).
Qed.

Lemma found_above p w g : inv w g -> let t := find_first_ancestor_with_annotation_that p false w in t = null \/ reaches (w_heap w) (w_cur w) t.
Proof.
  intros I. cbn zeta. unfold find_first_ancestor_with_annotation_that. destruct (find _ _) as [t|] eqn:F; [right|now left].
  apply find_some in F as [F _]. apply reaches_anc; [apply (i_wf _ _ I)|]. unfold ancestors in F. destruct (ancestors_self _ _); [exact F|right; exact F].
Qed.
Lemma go_anchored w t r : t = null \/ reaches (w_heap w) (w_cur w) t -> anchored w -> go_without_remembering t w = Ok r -> anchored (fst r).
Proof.
  intros C (u & D & R). unfold go_without_remembering. destruct (Nat.eqb_spec t null) as [|N]; [intros [= <-]; now exists u|]. destruct C as [C|C]; [contradiction|].
  destruct (alive _ _); [|discriminate]. destruct (_ =? _); intros [= <-]; cbn; [|now exists u]. exists u. split; [exact D|exact (above _ _ _ R _ C)].
Qed.
Lemma before_anchored s w g w' : inv w g -> anchored w -> go_before s w = Ok w' -> anchored w'.
Proof.
  intros I K. unfold go_before. destruct (go_without_remembering _ w) as [r| |] eqn:E; cbn [bind]; try discriminate. intros [= <-].
  exact (go_anchored w _ r (found_above _ w g I) K E).
Qed.
Lemma remember_anchored w : anchored w -> anchored (remember_current_timepoint w).
Proof. unfold remember_current_timepoint. destruct (_ =? _); [easy|]. intros (u & D & R). exists u. split; [|exact R]. cbn. rewrite in_app_iff. tauto. Qed.
Lemma previous_anchored w g w' : inv w g -> anchored w -> go_before_previous_step w = Ok w' -> anchored w'.
Proof.
  intros I K. unfold go_before_previous_step, go_and_remember. destruct (go_without_remembering _ w) as [r| |] eqn:E; cbn [bind]; try discriminate.
  pose proof (go_anchored w _ r (found_above _ w g I) K E) as K'. destruct (snd r); cbn [bind]; intros [= <-]; cbn [fst]; [now apply remember_anchored|exact K'].
Qed.
Lemma index_anchored w g n : inv w g -> n < length (w_hist w) -> anchored (at_index w n).
Proof.
  intros I L. exists (nth n (w_hist w) null). cbn. split; [right; now apply nth_In|].
  destruct (alive_pair _ _ (i_hist _ _ I _ (nth_In _ null L))) as [p H]. exact (reaches_self _ _ p H).
Qed.
Lemma undo_anchored n w g w' : inv w g -> anchored w -> undo n w = Ok w' -> anchored w'.
Proof.
  intros I K. destruct (can_undo n w) eqn:C.
  - rewrite (undo_eq w g n I C). intros [= <-]. apply (index_anchored w g _ I). apply can_undo_upos in C. pose proof (hist_pos w g I). unfold upos in *. destruct (w_brow w) as [k|] eqn:B; [pose proof (i_brow _ _ I k B); lia|]. destruct (_ =? _); lia.
  - rewrite (undo_no n w C). now intros [= <-].
Qed.
Lemma redo_anchored n w g w' : inv w g -> anchored w -> redo n w = Ok w' -> anchored w'.
Proof.
  intros I K. destruct (can_redo n w) eqn:C.
  - rewrite (redo_eq w g n I C). intros [= <-]. apply (index_anchored w g _ I). apply (can_redo_upos w g n I) in C. pose proof (hist_pos w g I). lia.
  - rewrite (redo_no n w C). now intros [= <-].
Qed.

Lemma domain_stays (xs : list (op V Step)) w w' : domain_ops w xs -> perform xs w = Ok w' ->
  Forall (fun x => leaves x = false /\ forall b, x <> SetAutoGc b) xs /\ w_auto w' = w_auto w /\ w_pins w' = w_pins w.
Proof.
  revert w. induction xs as [|x xs IH]; intros w; cbn [perform domain_ops]; [intros _ [= <-]; auto|]. intros [D N]. destruct (step w x) as [w1| |] eqn:E; cbn [bind]; try discriminate.
  intros P. destruct (IH w1 (N w1 eq_refl) P) as (F & A & Pn).
  assert (Q : leaves x = false /\ forall b, x <> SetAutoGc b) by (destruct x; try contradiction; split; (reflexivity || discriminate)).
  split; [now constructor|]. rewrite A, Pn. split; [exact (step_auto w x w1 E (proj2 Q))|]. clear - D E. revert E. destruct x; try contradiction; cbn [step].
  - unfold make_next_timepoint. destruct (stop_browsing_user_history _ w) as [w2| |] eqn:E; cbn [bind]; try discriminate. destruct (alive _ _); [|discriminate]. intros [= <-]. exact (proj2 (same_stop _ _ _ E)).
  - now intros [= <-].
  - unfold take_care_of. destruct (assoc o (w_objs w)) as [x|]; [|now intros [= <-]]. destruct (o_init x =? null); [now intros [= <-]|]. destruct (alive _ _); [|discriminate]. destruct (_ =? _); now intros [= <-].
  - destruct (assoc o (w_objs w)); [|discriminate]. now intros [= <-].
  - destruct (assoc o (w_objs w)) as [x|]; [|discriminate]. destruct (get_current_state (w_heap w) x); cbn [bind]; try discriminate. now intros [= <-].
  - now intros [= <-].
Qed.
End App.
