(** Boards reached through buttons and dialogs. *)
From Coq Require Import List Arith Bool QArith Lia Sorting.Permutation.
From Verif Require Import IntervalModel ManagerModel ManagerSpec ManagerProofs ManagerSafetyProofs GeomModel BoardModel BoardSpec BoardColinearProofs.
From Verif Require AppModel.
From Verif Require Import EditModel SceneModel SceneSpec SceneProofs SceneValidProofs.
Import AppModel(Step(..), Step_eqb, next, that_and_after).
Import ListNotations.
Open Scope nat_scope.

Lemma valid_less (P : Prop) n m m' es b : valid P n m es b -> m' <= m -> valid P n m' es b.
Proof. intros [A B C D E F G K M] L. constructor; auto. lia. Qed.
Lemma valid_own (P : Prop) n m es b : valid P n m es b -> valid P n (length (b_angles b)) es b.
Proof. intros [A B C D E F G K M]. constructor; auto. Qed.

Lemma kept_length {A} (l : list A) : forall r, length (kept l r) = length l.
Proof. induction l as [|x l IH]; intros [|y r]; cbn; auto. Qed.
Lemma kept_in {A} (l : list A) : forall r x, In x (kept l r) -> In x l \/ In x r.
Proof. induction l as [|y l IH]; intros [|z r] x; cbn; auto. intros [<-|H]; [auto|]. destruct (IH r x H); auto. Qed.

Section Session.
Context (P : Prop) (n : nat) (es : list (list nat)) (tl : tools) (Pm : permutes (tl_sort_by tl)) (So : sorts (tl_sorter tl)).

Lemma revert_policies before now k : length (ax_policies (revert_axis before now k)) = length (ax_policies before).
Proof.
  unfold revert_axis. cbn. rewrite app_length, kept_length, <- app_length. now rewrite firstn_skipn.
Qed.
Lemma sane_revert before now k : sane before -> sane now -> sane (revert_axis before now k).
Proof.
  intros ([G1 G2] & R & C) (_ & _ & C'). split; [|split; [exact R|]]; [split; rewrite revert_policies; assumption|].
  unfold ManagerSpec.all_consistent in *. rewrite Forall_forall in *. intros p I. cbn in I. apply in_app_or in I. destruct I as [I|I]; [apply kept_in in I; destruct I as [I|I]; [|now apply C']|]; apply C.
  - rewrite <- (firstn_skipn k). apply in_or_app. now left.
  - rewrite <- (firstn_skipn k). apply in_or_app. now right.
Qed.

Lemma valid_revert m before now : valid P n 0 es before -> length (b_angles before) <= length (b_angles now) -> valid P n m es now -> valid P n m es (revert tl before now).
Proof.
  intros [A B C D E F G K _] L [_ _ _ D' _ _ G' K' M']. unfold revert. constructor; cbn; auto.
  - intros ax z I i J.
    assert (I' : In z (kept (on_axis (b_zones before) ax) (on_axis (b_zones now) ax))) by (destruct ax; exact I).
    apply kept_in in I'. destruct I' as [I'|I']; [specialize (G ax z I' i J); lia|exact (G' ax z I' i J)].
  - intros ax. assert (X : sane (revert_axis (on_axis (b_axes before) ax) (on_axis (b_axes now) ax) (fixed_count (on_axis (tl_fixed tl) ax)))) by (apply sane_revert; [apply K|apply K']).
    destruct ax; exact X.
Qed.

(** The board, and those to go back to. *)
Definition fine (ss : session) : Prop :=
  valid P n 0 es (ss_board ss) /\ forall s b x, In (s, (b, x)) (ss_past ss) -> valid P n 0 es b /\ length (b_angles b) <= length (b_angles (ss_board ss)).

Lemma fine_loaded b x : valid P n 0 es b -> fine (loaded b x).
Proof. intros X. split; [exact X|]. intros s c y []. Qed.

Lemma fine_leave ss b x : fine ss -> valid P n (length (b_angles (ss_board ss))) es b -> fine (mk_session b x None (leave ss)).
Proof.
  intros [X Pa] Y. split; [exact (valid_less _ _ _ _ _ _ Y (Nat.le_0_l _))|]. cbn [ss_board ss_past]. intros s c y I. unfold leave in I. pose proof (va_more _ _ _ _ _ Y) as M.
  assert (K : In (s, (c, y)) (ss_past ss) -> valid P n 0 es c /\ length (b_angles c) <= length (b_angles b)) by (intros J; destruct (Pa s c y J); split; [assumption|lia]).
  destruct (ss_here ss); [|auto]. destruct I as [I|I]; [|auto]. injection I as _ <- _. split; [exact X|lia].
Qed.
Lemma fine_stay ss b x h : fine ss -> valid P n (length (b_angles (ss_board ss))) es b -> fine (mk_session b x h (ss_past ss)).
Proof.
  intros [X Pa] Y. split; [exact (valid_less _ _ _ _ _ _ Y (Nat.le_0_l _))|]. cbn [ss_board ss_past]. intros s c y I. pose proof (va_more _ _ _ _ _ Y) as M. destruct (Pa s c y I). split; [assumption|lia].
Qed.

Lemma fine_step s ss ss' : run_step tl s ss = Done ss' -> fine ss -> fine ss'.
Proof.
  unfold run_step. intros H X. assert (X1 : fine (annotate s ss)) by exact X. cbn zeta in H. apply bind_done in H. destruct H as (b & H & E). injection E as <-.
  assert (Y : valid P n (length (b_angles (ss_board (annotate s ss)))) es b) by exact (valid_step _ _ _ _ tl Pm So _ _ _ _ H (valid_own _ _ _ _ _ (proj1 X1))).
  match goal with |- fine (if ?t then _ else _) => destruct t end; [now apply (fine_leave (annotate s ss))|now apply (fine_stay (annotate s ss))].
Qed.
Lemma fine_run l : forall ss ss', run_list tl l ss = Done ss' -> fine ss -> fine ss'.
Proof.
  induction l as [|s r IH]; intros ss ss' H X; cbn [run_list] in H; [now injection H as <-|]. apply bind_done in H. destruct H as (s1 & H1 & H). apply (IH s1 ss' H). exact (fine_step _ _ _ H1 X).
Qed.

Lemma find_before_in s past b x r : find_before s past = Some (b, x, r) -> (exists t, In (t, (b, x)) past) /\ incl r past.
Proof.
  induction past as [|[t [c y]] p IH]; cbn [find_before]; [discriminate|]. destruct (Step_eqb t s).
  - intros H. injection H as -> -> ->. split; [exists t; now left|]. intros z Z. now right.
  - intros H. destruct (IH H) as [(t' & I) J]. split; [exists t'; now right|]. intros z Z. right. now apply J.
Qed.

Lemma fine_back b x s past ss : fine ss -> (exists t, In (t, (b, x)) (ss_past ss)) -> incl past (ss_past ss) -> fine (mk_session (revert tl b (ss_board ss)) x (Some s) past).
Proof.
  intros [X Pa] (t & I) J. destruct (Pa t b x I) as [Y L]. split; [exact (valid_revert 0 _ _ Y L X)|]. cbn [ss_board ss_past]. intros s' c y K. exact (Pa s' c y (J _ K)).
Qed.
Lemma fine_before s ss : fine ss -> fine (go_before tl s ss).
Proof.
  intros X. unfold go_before. destruct (find_before s (ss_past ss)) as [[[b x] past]|] eqn:E; [|exact X]. apply find_before_in in E. destruct E as [E J]. now apply fine_back.
Qed.
Lemma fine_previous ss : fine ss -> fine (previous_step tl ss).
Proof.
  intros X. unfold previous_step. destruct (ss_past ss) as [|[s [b x]] past] eqn:E; [exact X|]. apply fine_back; [exact X|exists s; rewrite E; now left|].
  intros z Z. rewrite E. now right.
Qed.
Lemma fine_next ss ss' : next_step tl ss = Done ss' -> fine ss -> fine ss'.
Proof.
  unfold next_step. destruct (ss_past ss) as [|[t x] past]; [apply fine_step|]. destruct (next t); [apply fine_step|]. intros H. now injection H as <-.
Qed.

Lemma fine_edit_board f ss ss' : edit_board f ss = Done ss' -> fine ss ->
  (forall m b', valid P n m es (ss_board ss) -> f (ss_board ss) = Done b' -> valid P n m es b') -> fine ss'.
Proof.
  intros H X F. unfold edit_board in H. apply bind_done in H. destruct H as (b & H & E). injection E as <-. unfold next_state. apply fine_leave; [exact X|].
  apply F; [exact (valid_own _ _ _ _ _ (proj1 X))|exact H].
Qed.
Lemma fine_from s e ss ss' : edit_from tl s e ss = Done ss' -> fine ss -> (forall x y, e x = Done y -> fine x -> x = go_before tl s ss -> fine y) -> fine ss'.
Proof.
  intros H X F. unfold edit_from in H. apply bind_done in H. destruct H as (s1 & H1 & H). apply (fine_run _ _ _ H). apply (F _ _ H1); [now apply fine_before|reflexivity].
Qed.
Lemma fine_axis ax f ss ss' : (forall y y', sane y -> f y = Done y' -> sane y') -> edit_board (on_one_axis ax f) ss = Done ss' -> fine ss -> fine ss'.
Proof.
  intros F H X. apply (fine_edit_board _ _ _ H X). intros m b' Y E. unfold on_one_axis in E. apply bind_done in E. destruct E as (y & E & E'). injection E' as <-.
  apply valid_axis; [exact Y|]. exact (F _ _ (va_axes _ _ _ _ _ Y ax) E).
Qed.

(** Going back does not change the angles; nor the zones there are then. *)
Lemma before_angles s ss : b_angles (ss_board (go_before tl s ss)) = b_angles (ss_board ss).
Proof. unfold go_before. destruct (find_before s (ss_past ss)) as [[[b x] past]|]; reflexivity. Qed.

Lemma fine_dialog d ss ss' : (P -> not_edge_dialog (Use d) = true) -> edit tl d ss = Done ss' -> fine ss -> fine ss'.
Proof.
  destruct d as [i to_mesh to_reverse|i h v|ax i po no en dd|ax i dmax lb sb la sa| |ax i lmin dmax minimal|x]; intros N H X; cbn [edit] in H.
  - unfold edit_edge in H. apply bind_done in H. destruct H as (e & R & H). apply read_some in R. cbn zeta in H. apply (fine_from _ _ _ _ H X). intros y y' E Y _.
    apply (fine_edit_board _ _ _ E Y). intros m b' Z W. unfold write_edge in W. apply bind_done in W. destruct W as (l & W & W'). injection W' as <-.
    destruct (write_in _ _ _ _ W) as (Len & _). destruct Z as [A B C D F G K L M]. constructor; cbn; auto; [congruence|]. intros Pr. now apply N in Pr.
  - unfold edit_angle in H. apply bind_done in H. destruct H as (a & R & H). apply read_some in R. cbn zeta in H. apply (fine_from _ _ _ _ H X). intros y y' E Y _.
    apply (fine_edit_board _ _ _ E Y). intros m b' Z W. unfold write_angle in W. apply bind_done in W. destruct W as (l & W & W'). injection W' as <-.
    destruct (write_in _ _ _ _ W) as (Len & _ & I). apply valid_angles; [exact Z|lia|]. intros a' J. destruct (I a' J) as [->|J']; [|now apply (va_angles _ _ _ _ _ Z)].
    destruct (va_angles _ _ _ _ _ (proj1 X) a (nth_error_In _ _ R)). split; assumption.
  - unfold edit_policy in H. destruct (inconsistent po no); [now injection H as <-|]. apply (fine_from _ _ _ _ H X). intros y y' E Y _. revert E Y. apply fine_axis. intros z z'. apply sane_edit.
  - unfold edit_interval in H. apply (fine_from _ _ _ _ H X). intros y y' E Y _. revert E Y. apply fine_axis. intros z z'. apply sane_edit_interval.
  - unfold edit_too_close in H. apply (fine_from _ _ _ _ H X). intros y y' E Y _. apply (fine_edit_board _ _ _ E Y). intros m b' Z W. now injection W as <-.
  - unfold edit_zone in H. apply bind_done in H. destruct H as (z & R & H). apply read_some in R. cbn zeta in H. apply (fine_from _ _ _ _ H X). intros y y' E Y Ey.
    apply (fine_edit_board _ _ _ E Y). intros m b' Z W. apply bind_done in W. destruct W as (l & W & W'). injection W' as <-. destruct (write_in _ _ _ _ W) as (_ & _ & I).
    apply valid_zones; [exact Z|]. intros z' J. destruct (I z' J) as [->|J']; [|now apply (va_zones _ _ _ _ _ Z ax)]. intros k K. cbn in K.
    rewrite Ey, before_angles. exact (va_zones _ _ _ _ _ (proj1 X) ax z (nth_error_In _ _ R) k K).
  - unfold edit_global in H. apply (fine_from _ _ _ _ H X). intros y y' E Y _. injection E as <-. unfold next_state. apply fine_leave; [exact Y|]. exact (valid_own _ _ _ _ _ (proj1 Y)).
Qed.

Lemma fine_all l : forall ss ss', (P -> forallb not_edge_dialog l = true) -> perform_all tl l ss = Done ss' -> fine ss -> fine ss'.
Proof.
  induction l as [|x r IH]; intros ss ss' N H X; cbn [perform_all] in H; [now injection H as <-|]. cbn [forallb] in N.
  assert (N0 : P -> not_edge_dialog x = true) by (intros Pr; apply N, andb_true_iff in Pr; tauto).
  assert (N1 : P -> forallb not_edge_dialog r = true) by (intros Pr; apply N, andb_true_iff in Pr; tauto).
  apply bind_done in H. destruct H as (s1 & H1 & H). apply (IH s1 ss' N1 H). destruct x; cbn [perform] in H1.
  - exact (fine_run _ _ _ H1 X).
  - injection H1 as <-. now apply fine_previous.
  - now apply (fine_next ss).
  - now apply (fine_dialog x ss).
Qed.
End Session.
