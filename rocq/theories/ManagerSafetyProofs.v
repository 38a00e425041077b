(** Pointers between the policies, intervals and conflicts of an axis stay valid. *)
From Coq Require Import List Arith Bool Lia QArith Sorting.Permutation.
From Verif Require Import IntervalModel IntervalSpec.
From Verif Require Import ManagerModel ManagerSpec ManagerProofs ManagerMeshProofs ManagerMoreProofs.
Import ListNotations.

(** [m] follows no bad pointer and its result, if any, satisfies [P]. *)
Definition ok {A : Type} (P : A -> Prop) (m : run A) : Prop :=
  match m with Done x => P x | Running => True | Dangling => False end.

Lemma ok_bind {A B} (P : A -> Prop) (R : B -> Prop) m f : ok P m -> (forall x, P x -> ok R (f x)) -> ok R (bind m f).
Proof. intros M F. destruct m; cbn in *; auto. Qed.

Lemma ok_safe {A} (P : A -> Prop) m : ok P m -> safe m.
Proof. intros H E. rewrite E in H. exact H. Qed.

Lemma ok_done {A} (P : A -> Prop) m x : ok P m -> m = Done x -> P x.
Proof. intros H E. now rewrite E in H. Qed.

Lemma ok_read {A} (l : list A) i : (i < length l)%nat -> ok (fun x => nth_error l i = Some x) (read l i).
Proof.
  intros L. unfold read. destruct (nth_error l i) eqn:E; cbn; [reflexivity|]. apply nth_error_None in E. lia.
Qed.

Lemma ok_write {A} (l : list A) i x : (i < length l)%nat ->
  ok (fun l' => length l' = length l /\ forall y, In y l' -> y = x \/ In y l) (write l i x).
Proof.
  intros L. destruct (write_spec x l i L) as (l' & -> & Len & H & O). cbn. split; [assumption|].
  intros y Y. apply In_nth_error in Y. destruct Y as (j & Y). destruct (Nat.eq_dec j i) as [->|N].
  - rewrite H in Y. inversion Y. now left.
  - rewrite O in Y by assumption. right. eapply nth_error_In; eassumption.
Qed.

(** The same, on numbers. *)
Definition seg_ok (n : nat) (s : segment) : Prop := (sg_before s < n /\ sg_after s < n)%nat.
Definition tc_ok (n : nat) (c : too_close) : Prop :=
  (tc_a c < n /\ tc_b c < n)%nat /\ forall k, tc_solution c = Some k -> (k < n)%nat.
Definition good (ax : axis) : Prop :=
  (forall s, In s (ax_segments ax) -> seg_ok (length (ax_policies ax)) s) /\
  (forall c, In c (ax_conflicts ax) -> tc_ok (length (ax_policies ax)) c).

Lemma at_lt ax i : (exists p, policy_at ax i p) <-> (i < length (ax_policies ax))%nat.
Proof.
  unfold policy_at. split; [intros (p & P); eapply nth_lt; eassumption|]. intros L.
  destruct (nth_error (ax_policies ax) i) eqn:E; [eauto|]. apply nth_error_None in E. lia.
Qed.

Lemma good_iff ax : pointers_valid ax <-> good ax.
Proof.
  unfold pointers_valid, good, seg_ok, tc_ok. split; intros [H1 H2]; split.
  - intros s I. destruct (H1 s I). split; now apply at_lt.
  - intros c I. destruct (H2 c I) as (A & B & K). split; [split; now apply at_lt|]. intros k E. apply at_lt. now apply K.
  - intros s I. destruct (H1 s I). split; now apply at_lt.
  - intros c I. destruct (H2 c I) as ((A & B) & K). split; [now apply at_lt|]. split; [now apply at_lt|]. intros k E. apply at_lt. now apply K.
Qed.

Lemma seg_more n m s : (n <= m)%nat -> seg_ok n s -> seg_ok m s.
Proof. unfold seg_ok. lia. Qed.

Lemma tc_more n m c : (n <= m)%nat -> tc_ok n c -> tc_ok m c.
Proof. intros L (H & K). split; [lia|]. intros k E. specialize (K k E). lia. Qed.

Lemma good_add g ax policy normal coord enabled : good ax ->
  good (fst (add_meshline_policy g ax policy normal coord enabled)) /\
  (length (ax_policies ax) <= length (ax_policies (fst (add_meshline_policy g ax policy normal coord enabled))))%nat /\
  ax_conflicts (fst (add_meshline_policy g ax policy normal coord enabled)) = ax_conflicts ax /\
  forall k, snd (add_meshline_policy g ax policy normal coord enabled) = Some k ->
    (k < length (ax_policies (fst (add_meshline_policy g ax policy normal coord enabled))))%nat.
Proof.
  intros [H1 H2]. unfold add_meshline_policy. destruct (inconsistent policy normal); cbn [fst snd].
  - split; [now split|]. split; [lia|]. split; [reflexivity|discriminate].
  - cbn [set_policies ax_policies ax_conflicts]. assert (length (ax_policies ax) <= length (ax_policies ax ++ [new_policy g policy normal coord enabled]))%nat as L.
    { rewrite app_length. lia. }
    split; [|split; [exact L|split; [reflexivity|intros k E; inversion E; subst; rewrite app_length; cbn; lia]]]. split; cbn [set_policies ax_policies ax_segments ax_conflicts].
    + intros s I. eapply seg_more; [exact L|auto].
    + intros c I. eapply tc_more; [exact L|auto].
Qed.

Lemma good_fixed g coords : forall ax, good ax -> good (add_fixed_policies g ax coords).
Proof.
  unfold add_fixed_policies. induction coords as [|x r IH]; intros ax G; [exact G|]. cbn [fold_left]. apply IH.
  unfold add_fixed_policy. destruct (existsb _ _); [assumption|]. now apply good_add.
Qed.

Lemma good_close ax a b : good ax -> (a < length (ax_policies ax))%nat -> (b < length (ax_policies ax))%nat ->
  ok (fun r => match r with None => True | Some (ax', c) => good ax' /\ (c < length (ax_conflicts ax'))%nat end) (add_too_close ax a b).
Proof.
  intros [H1 H2] La Lb. unfold add_too_close. destruct (in_conflict ax a || in_conflict ax b); [exact I|].
  eapply ok_bind; [apply ok_read, La|]. intros pa _.
  eapply ok_bind; [apply ok_read, Lb|]. intros pb _.
  eapply ok_bind; [apply ok_write, La|]. intros l1 [L1 _].
  eapply ok_bind; [apply ok_write; lia|]. intros l2 [L2 _]. cbn.
  split; [|rewrite app_length; cbn; lia]. split; cbn [set_conflicts set_policies ax_policies ax_segments ax_conflicts]; rewrite L2, L1; [exact H1|].
  intros c I. apply in_app_or in I. destruct I as [I|[<-|[]]]; [auto|]. split; [now split|discriminate].
Qed.

Lemma good_solve g ax c : good ax -> (c < length (ax_conflicts ax))%nat -> ok good (solve_too_close g ax c).
Proof.
  intros G Lc. pose proof G as [H1 H2]. unfold solve_too_close.
  eapply ok_bind; [apply ok_read, Lc|]. intros cf Ec. apply nth_error_In in Ec. destruct (H2 cf Ec) as ((La & Lb) & _).
  eapply ok_bind; [apply ok_read, La|]. intros a _.
  eapply ok_bind; [apply ok_read, Lb|]. intros b _.
  destruct (merged a b) as [[[policy normal] x]|]; [|exact G].
  destruct (good_add g ax policy normal x true G) as (G' & Len & Cs & K).
  destruct (add_meshline_policy g ax policy normal x true) as [ax1 sol]. cbn [fst snd] in *. destruct G' as [G1 G2].
  eapply ok_bind; [apply ok_write; rewrite Cs; exact Lc|]. intros cs [_ In']. split; cbn [set_conflicts ax_policies ax_segments ax_conflicts]; [exact G1|].
  intros d Id. destruct (In' d Id) as [->|Id']; [|auto]. split; [cbn; lia|exact K].
Qed.

Lemma good_detect_and_solve n g srt : sorts srt -> forall ax, good ax -> ok good (detect_and_solve_too_close n g srt ax).
Proof.
  intros S. induction n as [|n IH]; intros ax G; [exact I|]. cbn [detect_and_solve_too_close].
  destruct (detect_closest srt ax (g_proximity_limit g)) as [[a b]|] eqn:E; [|exact G].
  destruct (detect_closest_some _ _ _ _ _ S E) as (pa & pb & [Pa _] & [Pb _] & _). unfold policy_at in *.
  eapply ok_bind; [apply good_close; [assumption|eapply nth_lt; eassumption..]|].
  intros [[ax' c]|] H; [|now apply IH]. destruct H as [G' Lc].
  eapply ok_bind; [now apply good_solve|]. intros ax2 G2. now apply IH.
Qed.

Lemma good_new_segment g ax b a : good ax -> (b < length (ax_policies ax))%nat -> (a < length (ax_policies ax))%nat ->
  ok (fun ax' => good ax' /\ length (ax_policies ax') = length (ax_policies ax)) (new_segment g ax b a).
Proof.
  intros [H1 H2] Lb La. unfold new_segment.
  eapply ok_bind; [apply ok_read, Lb|]. intros pb _.
  eapply ok_bind; [apply ok_read, La|]. intros pa _.
  destruct (make_interval g pb pa) as [[pb' pa'] iv].
  eapply ok_bind; [apply ok_write, Lb|]. intros l1 [L1 _].
  eapply ok_bind; [apply ok_write; lia|]. intros l2 [L2 _]. cbn.
  split; [|congruence]. split; cbn [set_segments set_policies ax_policies ax_segments ax_conflicts]; rewrite L2, L1; [|exact H2].
  intros s I. apply in_app_or in I. destruct I as [I|[<-|[]]]; [auto|]. now split.
Qed.

Lemma good_detect_loop g l : forall ax, good ax -> (forall i, In i l -> (i < length (ax_policies ax))%nat) ->
  ok good (detect_intervals_loop g ax l).
Proof.
  induction l as [|b l IH]; intros ax G L; [exact G|]. destruct l as [|a l]; [exact G|].
  change (ok good (let! ax := new_segment g ax b a in detect_intervals_loop g ax (a :: l))).
  eapply ok_bind; [apply good_new_segment; [assumption|apply L; now left|apply L; right; now left]|].
  intros ax' [G' Len]. apply IH; [assumption|]. intros i I. rewrite Len. apply L. now right.
Qed.

Lemma good_detect_intervals g srt ax : sorts srt -> good ax -> ok good (detect_intervals g srt ax).
Proof.
  intros S G. apply good_detect_loop; [assumption|]. intros i I. apply in_map_iff in I. destruct I as ([j p] & <- & I).
  apply (dimension_in srt ax j p S) in I. destruct I as [P _]. cbn. eapply nth_lt; eassumption.
Qed.

Lemma good_zones zs ax : good ax -> good (apply_zones zs ax).
Proof.
  intros [H1 H2]. split; [|exact H2]. unfold apply_zones. cbn [set_segments ax_segments ax_policies].
  assert (forall l, (forall s, In s l -> seg_ok (length (ax_policies ax)) s) ->
    forall s, In s (fold_left (fun l z => map (apply_zone z) l) zs l) -> seg_ok (length (ax_policies ax)) s) as K; [|now apply K].
  clear H1. induction zs as [|z zs IH]; intros l H; [exact H|]. cbn [fold_left]. apply IH.
  intros s I. apply in_map_iff in I. destruct I as (t & <- & I). destruct (apply_zone_same z t) as (A & B & _).
  unfold seg_ok. rewrite A, B. now apply H.
Qed.

Lemma good_edit ax i policy normal enabled d : good ax -> (i < length (ax_policies ax))%nat ->
  ok good (edit_policy ax i policy normal enabled d).
Proof.
  intros [H1 H2] L. unfold edit_policy. destruct (inconsistent policy normal); [now split|].
  eapply ok_bind; [apply ok_read, L|]. intros p _.
  eapply ok_bind; [apply ok_write, L|]. intros l [Len _]. split; cbn [set_policies ax_policies ax_segments ax_conflicts]; rewrite Len; assumption.
Qed.

Lemma good_write_seg ax i s : good ax -> seg_ok (length (ax_policies ax)) s -> (i < length (ax_segments ax))%nat ->
  ok (fun ss => good (set_segments ax ss) /\ length ss = length (ax_segments ax)) (write (ax_segments ax) i s).
Proof.
  intros [H1 H2] Hs L. pose proof (ok_write (ax_segments ax) i s L) as W.
  destruct (write (ax_segments ax) i s) as [ss| |]; [|exact I|exact W]. destruct W as [Len In']. cbn. split; [|assumption].
  split; cbn [set_segments ax_policies ax_segments ax_conflicts]; [|exact H2].
  intros t It. destruct (In' t It) as [->|It']; auto.
Qed.

Lemma good_edit_interval ax i dmax lb sb la sa : good ax -> (i < length (ax_segments ax))%nat ->
  ok good (edit_interval ax i dmax lb sb la sa).
Proof.
  intros G L. unfold edit_interval. eapply ok_bind; [apply ok_read, L|]. intros s Es. apply nth_error_In in Es.
  cbn zeta. eapply ok_bind; [apply good_write_seg; [assumption|apply (proj1 G _ Es)|assumption]|]. intros ss [G' _]. exact G'.
Qed.

Definition same_shape (ax ax' : axis) : Prop := good ax' /\ length (ax_segments ax') = length (ax_segments ax).

Lemma good_d_at n ax i : good ax -> (i < length (ax_segments ax))%nat -> ok (same_shape ax) (auto_solve_d_at n ax i).
Proof.
  intros G L. unfold auto_solve_d_at. eapply ok_bind; [apply ok_read, L|]. intros s Es. apply nth_error_In in Es.
  pose proof (proj1 G _ Es) as [Lb La].
  eapply ok_bind; [apply ok_read, Lb|]. intros b _. eapply ok_bind; [apply ok_read, La|]. intros a _.
  destruct (auto_solve_d n b a (sg_iv s)) as [[[b' a'] iv]|]; [|exact I]. cbn [lift bind].
  eapply ok_bind; [apply ok_write, Lb|]. intros l1 [L1 _]. eapply ok_bind; [apply ok_write; lia|]. intros l2 [L2 _].
  assert (G2 : good (set_policies ax l2)).
  { destruct G as [H1 H2]. split; cbn [set_policies ax_policies ax_segments ax_conflicts]; rewrite L2, L1; assumption. }
  change (ax_segments ax) with (ax_segments (set_policies ax l2)).
  eapply ok_bind; [apply good_write_seg; [exact G2|cbn [set_policies ax_policies]; rewrite L2, L1; now split|exact L]|].
  intros ss [G' Len]. now split.
Qed.

Lemma good_s_at n ax i : good ax -> (i < length (ax_segments ax))%nat -> ok (same_shape ax) (auto_solve_smoothness_at n ax i).
Proof.
  intros G L. unfold auto_solve_smoothness_at. eapply ok_bind; [apply ok_read, L|]. intros s Es. apply nth_error_In in Es.
  pose proof (proj1 G _ Es) as [Lb La].
  eapply ok_bind; [apply ok_read, Lb|]. intros b _. eapply ok_bind; [apply ok_read, La|]. intros a _.
  destruct (auto_solve_smoothness n b a (sg_iv s)) as [iv|]; [|exact I]. cbn [lift bind].
  eapply ok_bind; [apply good_write_seg; [exact G|now split|exact L]|]. intros ss [G' Len]. now split.
Qed.

Lemma good_first_pass n order : forall ax, good ax -> (forall i, In i order -> (i < length (ax_segments ax))%nat) ->
  ok (same_shape ax) (first_pass n ax order).
Proof.
  induction order as [|i r IH]; intros ax G L; [split; [exact G|reflexivity]|]. cbn [first_pass].
  eapply ok_bind; [apply good_d_at; [assumption|apply L; now left]|]. intros ax' [G' Len].
  assert (ok (same_shape ax') (first_pass n ax' r)) as K.
  { apply IH; [assumption|]. intros j J. rewrite Len. apply L. now right. }
  destruct (first_pass n ax' r) as [ax2| |]; [|exact I|exact K]. destruct K as [G2 L2]. split; [assumption|congruence].
Qed.

Lemma good_second_pass n order : forall ax, good ax -> (forall i, In i order -> (i < length (ax_segments ax))%nat) ->
  ok (fun r => good (fst r)) (second_pass n ax order).
Proof.
  induction order as [|i r IH]; intros ax G L; [exact G|]. cbn [second_pass].
  eapply ok_bind; [apply good_d_at; [assumption|apply L; now left]|]. intros ax1 [G1 L1].
  eapply ok_bind; [apply good_s_at; [assumption|rewrite L1; apply L; now left]|]. intros ax2 [G2 L2].
  eapply (ok_bind (fun _ => True)).
  - assert (i < length (ax_segments ax2))%nat as Li by (rewrite L2, L1; apply L; now left).
    unfold mesh_segment. eapply ok_bind; [apply ok_read, Li|]. intros s Es. apply nth_error_In in Es.
    pose proof (proj1 G2 _ Es) as [Lb La].
    eapply ok_bind; [apply ok_read, Lb|]. intros b _. eapply ok_bind; [apply ok_read, La|]. intros a _. exact I.
  - intros lines _. eapply ok_bind; [apply IH; [exact G2|intros j J; rewrite L2, L1; apply L; now right]|].
    intros [ax3 rest] G3. exact G3.
Qed.

Lemma good_mesh n srt ax : sorts srt -> good ax -> ok good (mesh_axis n srt ax).
Proof.
  intros S G. unfold mesh_axis. cbn zeta.
  assert (Or : forall i, In i (visiting_order srt ax) -> (i < length (ax_segments ax))%nat).
  { intros i I. apply (Permutation_in _ (visiting_order_perm srt ax S)) in I. apply in_seq in I. lia. }
  eapply ok_bind; [apply good_first_pass; assumption|]. intros ax1 [G1 L1].
  eapply ok_bind; [apply good_second_pass; [exact G1|intros i I; rewrite L1; now apply Or]|]. intros [ax2 lines] G2. exact G2.
Qed.

Lemma write_dangling_read {A} (l : list A) i x : read l i = Done x -> (i < length l)%nat.
Proof. intros E. apply read_done in E. eapply nth_lt; eassumption. Qed.

Lemma reached_good srt ax : sorts srt -> reached srt ax -> good ax.
Proof.
  intros S. induction 1.
  - split; intros ? [].
  - now apply good_add.
  - now apply good_fixed.
  - eapply ok_done; [apply good_detect_and_solve; eassumption|eassumption].
  - eapply ok_done; [apply good_detect_intervals; eassumption|eassumption].
  - now apply good_zones.
  - destruct (le_lt_dec (length (ax_policies ax)) i) as [L|L].
    + unfold edit_policy in H0. destruct (inconsistent policy normal); [inversion H0; now subst|].
      assert (read (ax_policies ax) i = Dangling) as E by (unfold read; apply nth_error_None in L; now rewrite L).
      rewrite E in H0. discriminate.
    + eapply ok_done; [apply good_edit; eassumption|eassumption].
  - destruct (le_lt_dec (length (ax_segments ax)) i) as [L|L].
    + unfold edit_interval in H0.
      assert (read (ax_segments ax) i = Dangling) as E by (unfold read; apply nth_error_None in L; now rewrite L).
      rewrite E in H0. discriminate.
    + eapply ok_done; [apply good_edit_interval; eassumption|eassumption].
  - eapply ok_done; [apply good_mesh; eassumption|eassumption].
Qed.
