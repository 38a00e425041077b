(** Detecting the intervals of an axis and meshing it. *)
From Coq Require Import List Arith Bool Lia QArith Qabs Qminmax Lqa Sorting.Sorted Sorting.Permutation.
From Verif Require Import IntervalModel IntervalSpec IntervalProofs IntervalSolveProofs IntervalMeshProofs.
From Verif Require Import ManagerModel ManagerSpec ManagerProofs.
Import ListNotations.
Open Scope Q_scope.

(** * Detecting intervals *)

(** What one new interval does to the policies: only lowering [d]. *)
Definition touches (s : segment) (i : nat) : Prop := sg_before s = i \/ sg_after s = i.

(** The policy [p'] at [i] is [p] with its [d] lowered to the half lengths of the
    intervals [new] it bounds. *)
Definition clamped_by (new : list segment) (i : nat) (p p' : mlp) : Prop :=
  same_but_d p p' /\ p_d p' <= p_d p /\
  (forall s, In s new -> touches s i -> p_d p' <= iv_h (sg_iv s)) /\
  (p_d p' = p_d p \/ exists s, In s new /\ touches s i /\ p_d p' = iv_h (sg_iv s)).

(** An interval as it is built. *)
Definition fresh (g : params) (ax : axis) (s : segment) : Prop :=
  exists b a, policy_at ax (sg_before s) b /\ policy_at ax (sg_after s) a /\
    sg_iv s = snd (make_interval g b a).

Lemma same_but_d_refl p : same_but_d p p.
Proof. repeat split. Qed.

Lemma same_but_d_trans p q r : same_but_d p q -> same_but_d q r -> same_but_d p r.
Proof. unfold same_but_d. intuition congruence. Qed.

Lemma clamp_facts h p : same_but_d p (clamp_d h p) /\ p_d (clamp_d h p) <= p_d p /\ p_d (clamp_d h p) <= h /\
  (p_d (clamp_d h p) = p_d p \/ p_d (clamp_d h p) = h).
Proof.
  unfold clamp_d. destruct (Qltb h (p_d p)) eqn:E.
  - apply Qltb_lt in E. cbn. repeat split; try lra. now right.
  - apply Qltb_ge in E. repeat split; try lra. now left.
Qed.

Lemma make_interval_coord g b a b' a' : p_coord b = p_coord b' -> p_coord a = p_coord a' ->
  snd (make_interval g b a) = snd (make_interval g b' a').
Proof. unfold make_interval. cbn. intros -> ->. reflexivity. Qed.

Lemma new_segment_ok g ax b a pb pa : policy_at ax b pb -> policy_at ax a pa -> b <> a ->
  exists ax', new_segment g ax b a = Done ax' /\
    ax_conflicts ax' = ax_conflicts ax /\ ax_lines ax' = ax_lines ax /\
    length (ax_policies ax') = length (ax_policies ax) /\
    exists s, ax_segments ax' = ax_segments ax ++ [s] /\ sg_before s = b /\ sg_after s = a /\
      sg_iv s = snd (make_interval g pb pa) /\
      forall i p, policy_at ax i p -> exists p', policy_at ax' i p' /\ clamped_by [s] i p p'.
Proof.
  intros Pb Pa N. unfold new_segment, policy_at in *. unfold read. rewrite Pb, Pa. cbn [bind].
  unfold make_interval. set (h := calc_h (p_coord pb) (p_coord pa)).
  destruct (write_spec (clamp_d h pb) (ax_policies ax) b (nth_lt _ _ _ Pb)) as (l1 & W1 & Len1 & H1 & O1).
  rewrite W1. cbn [bind].
  destruct (write_spec (clamp_d h pa) l1 a) as (l2 & W2 & Len2 & H2 & O2).
  { rewrite Len1. eapply nth_lt; eassumption. }
  rewrite W2. cbn [bind]. eexists. split; [reflexivity|].
  cbn [set_segments set_policies ax_conflicts ax_lines ax_policies ax_segments].
  split; [reflexivity|]. split; [reflexivity|]. split; [congruence|].
  eexists. split; [reflexivity|]. cbn [sg_before sg_after sg_iv snd].
  split; [reflexivity|]. split; [reflexivity|]. split; [reflexivity|].
  intros i p P. destruct (Nat.eq_dec i a) as [->|Na]; [|destruct (Nat.eq_dec i b) as [->|Nb]].
  - assert (p = pa) by congruence. subst p. exists (clamp_d h pa). split; [assumption|].
    destruct (clamp_facts h pa) as (S & L & Lh & C). split; [assumption|]. split; [assumption|]. split.
    + intros s [<-|[]] _. cbn. assumption.
    + destruct C as [C|C]; [now left|]. right. eexists. split; [left; reflexivity|]. split; [right; reflexivity|]. cbn. assumption.
  - assert (p = pb) by congruence. subst p. exists (clamp_d h pb). split; [rewrite O2 by assumption; assumption|].
    destruct (clamp_facts h pb) as (S & L & Lh & C). split; [assumption|]. split; [assumption|]. split.
    + intros s [<-|[]] _. cbn. assumption.
    + destruct C as [C|C]; [now left|]. right. eexists. split; [left; reflexivity|]. split; [left; reflexivity|]. cbn. assumption.
  - exists p. split; [rewrite O2, O1 by assumption; assumption|]. split; [apply same_but_d_refl|]. split; [apply Qle_refl|]. split.
    + intros s [<-|[]] [T|T]; cbn in T; congruence.
    + now left.
Qed.

Lemma clamped_trans s new i p q r : clamped_by [s] i p q -> clamped_by new i q r -> clamped_by (s :: new) i p r.
Proof.
  intros (S1 & L1 & F1 & C1) (S2 & L2 & F2 & C2). split; [eapply same_but_d_trans; eassumption|]. split; [lra|]. split.
  - intros t [<-|I] T; [|now apply F2]. specialize (F1 s (or_introl eq_refl) T). lra.
  - destruct C2 as [C2|(t & I & T & E)].
    + rewrite C2. destruct C1 as [C1|(t & [<-|[]] & T & E)]; [now left|]. right. exists s. split; [now left|]. now split.
    + right. exists t. split; [now right|]. now split.
Qed.

Lemma fresh_clamped g ax ax' s new : (forall i p, policy_at ax i p -> exists p', policy_at ax' i p' /\ clamped_by new i p p') ->
  length (ax_policies ax') = length (ax_policies ax) -> fresh g ax' s -> fresh g ax s.
Proof.
  intros H L (b & a & Pb & Pa & E).
  assert (K : forall i q, policy_at ax' i q -> exists p, policy_at ax i p /\ p_coord p = p_coord q).
  { intros i q P. destruct (nth_error (ax_policies ax) i) as [p|] eqn:X.
    - exists p. split; [exact X|]. destruct (H i p X) as (p' & P' & S & _).
      unfold policy_at in *. assert (p' = q) by congruence. subst. apply S.
    - apply nth_error_None in X. apply nth_lt in P. lia. }
  destruct (K _ _ Pb) as (b0 & Pb0 & Eb). destruct (K _ _ Pa) as (a0 & Pa0 & Ea).
  exists b0, a0. split; [assumption|]. split; [assumption|]. rewrite E. now apply make_interval_coord.
Qed.

Lemma detect_loop_ok g l : forall ax, NoDup l -> (forall i, In i l -> exists p, policy_at ax i p) ->
  exists ax' new, detect_intervals_loop g ax l = Done ax' /\
    ax_conflicts ax' = ax_conflicts ax /\ ax_lines ax' = ax_lines ax /\
    length (ax_policies ax') = length (ax_policies ax) /\
    ax_segments ax' = ax_segments ax ++ new /\
    map (fun s => (sg_before s, sg_after s)) new = combine l (tl l) /\
    (forall s, In s new -> fresh g ax s) /\
    forall i p, policy_at ax i p -> exists p', policy_at ax' i p' /\ clamped_by new i p p'.
Proof.
  assert (Zero : forall ax, exists ax' new, Done ax = Done ax' /\
    ax_conflicts ax' = ax_conflicts ax /\ ax_lines ax' = ax_lines ax /\
    length (ax_policies ax') = length (ax_policies ax) /\
    ax_segments ax' = ax_segments ax ++ new /\
    map (fun s => (sg_before s, sg_after s)) new = [] /\
    (forall s, In s new -> fresh g ax s) /\
    forall i p, policy_at ax i p -> exists p', policy_at ax' i p' /\ clamped_by new i p p').
  { intros ax. exists ax, []. rewrite app_nil_r. repeat split; try reflexivity.
    - intros s [].
    - intros i p P. exists p. split; [assumption|]. split; [apply same_but_d_refl|]. split; [apply Qle_refl|].
      split; [intros s []|now left]. }
  induction l as [|b [|a l] IH]; intros ax N P; [apply Zero|apply Zero|].
  destruct (P b) as (pb & Pb); [now left|]. destruct (P a) as (pa & Pa); [right; now left|].
  inversion N as [|? ? Nb N']; subst.
  destruct (new_segment_ok g ax b a pb pa Pb Pa) as (ax1 & E1 & C1 & L1 & Len1 & s & S1 & Sb & Sa & Si & K1).
  { intros ->. apply Nb. now left. }
  destruct (IH ax1 N') as (ax' & new & E2 & C2 & L2 & Len2 & S2 & M2 & F2 & K2).
  { intros i I. destruct (P i) as (p & Pi); [now right|]. destruct (K1 i p Pi) as (p' & Pi' & _). now exists p'. }
  exists ax', (s :: new).
  change (detect_intervals_loop g ax (b :: a :: l)) with (let! ax := new_segment g ax b a in detect_intervals_loop g ax (a :: l)).
  rewrite E1. cbn [bind]. rewrite E2.
  split; [reflexivity|]. split; [congruence|]. split; [congruence|]. split; [congruence|].
  split; [rewrite S2, S1, <- app_assoc; reflexivity|].
  split; [cbn [map tl combine]; rewrite Sb, Sa; f_equal; exact M2|]. split.
  - intros t [<-|I].
    + exists pb, pa. rewrite Sb, Sa. now repeat split.
    + eapply fresh_clamped; [exact K1|exact Len1|]. now apply F2.
  - intros i p Pi. destruct (K1 i p Pi) as (p1 & P1 & Cl1). destruct (K2 i p1 P1) as (p2 & P2 & Cl2).
    exists p2. split; [assumption|]. eapply clamped_trans; eassumption.
Qed.

Lemma sorted_nth {A} (R : A -> A -> Prop) l : StronglySorted R l -> forall j k x y,
  (j < k)%nat -> nth_error l j = Some x -> nth_error l k = Some y -> R x y.
Proof.
  induction 1 as [|z l S IH F]; intros j k x y L Ex Ey; [destruct j; discriminate|].
  destruct k as [|k]; [lia|]. destruct j as [|j]; cbn in Ex, Ey.
  - inversion Ex; subst. rewrite Forall_forall in F. apply F. eapply nth_error_In; eassumption.
  - eapply (IH j k); eauto. lia.
Qed.

Lemma dimension_in_order srt ax : sorts srt -> in_order ax (map fst (dimension srt ax)).
Proof.
  intros S. split; [now apply dimension_nodup|]. split.
  - intros i. rewrite in_map_iff. split.
    + intros ((i' & p) & E & I). cbn in E. subst i'. apply (dimension_in _ _ _ _ S) in I. now exists p.
    + intros (p & E). exists (i, p). split; [reflexivity|]. now apply (dimension_in _ _ _ _ S).
  - intros j k i i' p p' L Ei Ei' Pi Pi'. rewrite nth_error_map in Ei, Ei'.
    destruct (nth_error (dimension srt ax) j) as [[x q]|] eqn:X; [|discriminate].
    destruct (nth_error (dimension srt ax) k) as [[y q']|] eqn:Y; [|discriminate].
    cbn in Ei, Ei'. inversion Ei; inversion Ei'; subst.
    pose proof (sorted_nth _ _ (dimension_sorted srt ax S) _ _ _ _ L X Y) as H. cbn in H.
    apply nth_error_In in X. apply nth_error_In in Y.
    apply (dimension_in _ _ _ _ S) in X. apply (dimension_in _ _ _ _ S) in Y.
    unfold enabled_at, policy_at in *. destruct X, Y. congruence.
Qed.

Lemma detect_intervals_ok g srt ax : sorts srt ->
  exists ax' new l, detect_intervals g srt ax = Done ax' /\ in_order ax l /\
    ax_conflicts ax' = ax_conflicts ax /\ ax_lines ax' = ax_lines ax /\
    length (ax_policies ax') = length (ax_policies ax) /\
    ax_segments ax' = ax_segments ax ++ new /\
    map (fun s => (sg_before s, sg_after s)) new = combine l (tl l) /\
    (forall s, In s new -> fresh g ax s) /\
    forall i p, policy_at ax i p -> exists p', policy_at ax' i p' /\ clamped_by new i p p'.
Proof.
  intros S. pose proof (dimension_in_order srt ax S) as O.
  destruct (detect_loop_ok g (map fst (dimension srt ax)) ax) as (ax' & new & H).
  - apply O.
  - intros i I. apply O in I. destruct I as (p & E). exists p. apply E.
  - exists ax', new, (map fst (dimension srt ax)). destruct H as (E & H). split; [exact E|]. split; [assumption|]. exact H.
Qed.

(** * States of an axis during the meshing *)

Definition lower (p0 p : mlp) : Prop := same_but_d p0 p /\ (p_d p = p_d p0 \/ 0 < p_d p <= p_d p0).

Record sub (s0 s : segment) : Prop :=
  { su_before : sg_before s = sg_before s0;
    su_after : sg_after s = sg_after s0;
    su_h : iv_h (sg_iv s) = iv_h (sg_iv s0);
    su_m : iv_m (sg_iv s) = iv_m (sg_iv s0);
    su_dmax : iv_dmax (sg_iv s) = iv_dmax (sg_iv s0) \/ 0 < iv_dmax (sg_iv s) <= iv_dmax (sg_iv s0);
    su_smb : sd_smoothness (iv_before (sg_iv s)) = sd_smoothness (iv_before (sg_iv s0)) \/
             1 <= sd_smoothness (iv_before (sg_iv s)) <= sd_smoothness (iv_before (sg_iv s0));
    su_sma : sd_smoothness (iv_after (sg_iv s)) = sd_smoothness (iv_after (sg_iv s0)) \/
             1 <= sd_smoothness (iv_after (sg_iv s)) <= sd_smoothness (iv_after (sg_iv s0)) }.

Record shrinks (ax ax' : axis) : Prop :=
  { sh_policies : Forall2 lower (ax_policies ax) (ax_policies ax');
    sh_segments : Forall2 sub (ax_segments ax) (ax_segments ax');
    sh_conflicts : ax_conflicts ax' = ax_conflicts ax;
    sh_lines : ax_lines ax' = ax_lines ax }.

Lemma lower_refl p : lower p p.
Proof. split; [apply same_but_d_refl|now left]. Qed.

Lemma lower_trans p q r : lower p q -> lower q r -> lower p r.
Proof.
  intros [S1 D1] [S2 D2]. split; [eapply same_but_d_trans; eassumption|].
  destruct D1 as [D1|D1], D2 as [D2|D2]; [left; congruence|right..].
  - rewrite <- D1. assumption.
  - rewrite D2. assumption.
  - lra.
Qed.

Lemma sub_refl s : sub s s.
Proof. split; try reflexivity; now left. Qed.

Lemma either_trans (P : Q -> Prop) (x y z : Q) : y = x \/ (P y /\ y <= x) -> z = y \/ (P z /\ z <= y) -> z = x \/ (P z /\ z <= x).
Proof.
  intros [->|[Py L]] [->|[Pz L']]; [now left|right; now split|right; now split|]. right. split; [assumption|lra].
Qed.

Lemma sub_trans s t u : sub s t -> sub t u -> sub s u.
Proof.
  intros [A B C D E F G] [A' B' C' D' E' F' G']. split; try congruence.
  - exact (either_trans (fun x => 0 < x) _ _ _ E E').
  - exact (either_trans (fun x => 1 <= x) _ _ _ F F').
  - exact (either_trans (fun x => 1 <= x) _ _ _ G G').
Qed.

Lemma forall2_refl {A} (R : A -> A -> Prop) l : (forall x, R x x) -> Forall2 R l l.
Proof. intros H. induction l; constructor; auto. Qed.

Lemma forall2_trans {A} (R : A -> A -> Prop) l1 : (forall x y z, R x y -> R y z -> R x z) ->
  forall l2 l3, Forall2 R l1 l2 -> Forall2 R l2 l3 -> Forall2 R l1 l3.
Proof.
  intros H. induction l1; intros l2 l3 F G; inversion F; subst; inversion G; subst; constructor; eauto.
Qed.

Lemma forall2_length {A B} (R : A -> B -> Prop) l l' : Forall2 R l l' -> length l = length l'.
Proof. induction 1; cbn; congruence. Qed.

Lemma forall2_impl {A B} (R R' : A -> B -> Prop) l l' : (forall x y, R x y -> R' x y) -> Forall2 R l l' -> Forall2 R' l l'.
Proof. intros H. induction 1; constructor; auto. Qed.

Lemma forall2_nth {A B} (R : A -> B -> Prop) l l' i x : Forall2 R l l' -> nth_error l i = Some x ->
  exists y, nth_error l' i = Some y /\ R x y.
Proof.
  intros F. revert i. induction F; intros [|i] E; try discriminate; cbn in *.
  - inversion E; subst. eauto.
  - auto.
Qed.

Lemma forall2_nth_r {A B} (R : A -> B -> Prop) l l' i y : Forall2 R l l' -> nth_error l' i = Some y ->
  exists x, nth_error l i = Some x /\ R x y.
Proof.
  intros F. revert i. induction F; intros [|i] E; try discriminate; cbn in *.
  - inversion E; subst. eauto.
  - auto.
Qed.

Lemma forall2_write {A} (R : A -> A -> Prop) x0 x l : (forall y, R y y) -> forall i l',
  nth_error l i = Some x0 -> write l i x = Done l' -> R x0 x -> Forall2 R l l'.
Proof.
  intros Rf. induction l as [|y l IH]; intros i l' E W H; [destruct i; discriminate|].
  destruct i as [|i]; cbn in E, W.
  - inversion E; inversion W; subst. constructor; [assumption|]. now apply forall2_refl.
  - destruct (write l i x) eqn:W2; try discriminate. inversion W; subst. constructor; [apply Rf|]. eapply IH; eassumption.
Qed.

Lemma shrinks_refl ax : shrinks ax ax.
Proof. split; try reflexivity; apply forall2_refl; [apply lower_refl|apply sub_refl]. Qed.

Lemma shrinks_trans x y z : shrinks x y -> shrinks y z -> shrinks x z.
Proof.
  intros [A B C D] [A' B' C' D']. split; try congruence.
  - eapply forall2_trans; eauto. apply lower_trans.
  - eapply forall2_trans; eauto. apply sub_trans.
Qed.

(** All the intervals of the axis can be meshed. *)
Definition ready_axis (ax : axis) : Prop :=
  forall i s, nth_error (ax_segments ax) i = Some s ->
    exists b a, policy_at ax (sg_before s) b /\ policy_at ax (sg_after s) a /\ ready b a (sg_iv s).

Lemma ready_shrunk b a s b' a' s' : ready b a (sg_iv s) -> lower b b' -> lower a a' -> sub s s' -> ready b' a' (sg_iv s').
Proof.
  intros [] [Sb Lb] [Sa La] []. destruct Sb as (Cb & _), Sa as (Ca & _).
  split; rewrite ?su_h0, ?su_m0, <- ?Cb, <- ?Ca; try assumption; try lra.
  - destruct su_dmax0 as [E|E]; [rewrite E|]; lra.
  - destruct su_smb0 as [E|E]; [rewrite E|]; lra.
  - destruct su_sma0 as [E|E]; [rewrite E|]; lra.
  - destruct Lb as [E|E]; [rewrite E|]; lra.
  - destruct La as [E|E]; [rewrite E|]; lra.
Qed.

Lemma shrinks_ready ax ax' : shrinks ax ax' -> ready_axis ax -> ready_axis ax'.
Proof.
  intros [P S _ _] R i s' E. destruct (forall2_nth_r _ _ _ _ _ S E) as (s & E0 & Su).
  destruct (R i s E0) as (b & a & Pb & Pa & Rd).
  destruct (forall2_nth _ _ _ _ _ P Pb) as (b' & Pb' & Lb). destruct (forall2_nth _ _ _ _ _ P Pa) as (a' & Pa' & La).
  exists b', a'. unfold policy_at. rewrite (su_before _ _ Su), (su_after _ _ Su).
  split; [assumption|]. split; [assumption|]. eapply ready_shrunk; eassumption.
Qed.

(** * Computations that end *)

Lemma finishes_bind {A B} (f : nat -> run A) (k : nat -> A -> run B) x y :
  finishes f x -> finishes (fun n => k n x) y -> finishes (fun n => bind (f n) (k n)) y.
Proof.
  intros [n H] [m K]. exists (n + m)%nat. intros p L. rewrite H by lia. cbn. apply K. lia.
Qed.

Lemma finishes_ret {A} (x : A) : finishes (fun _ => Done x) x.
Proof. exists 0%nat. reflexivity. Qed.

Lemma finishes_lift {A} (f : nat -> option A) x : ends f x -> finishes (fun n => lift (f n)) x.
Proof. intros [n H]. exists n. intros m L. now rewrite H. Qed.

Lemma finishes_eq {A} (f : nat -> run A) x y : finishes f x -> finishes f y -> x = y.
Proof. intros [n H] [m K]. specialize (H (n + m)%nat ltac:(lia)). specialize (K (n + m)%nat ltac:(lia)). congruence. Qed.

(** * Visits of an interval *)

Lemma solved_d_lower_b b a iv b' a' iv' : solved_d b a iv b' a' iv' -> lower b b'.
Proof. intros H. destruct (sd_b _ _ _ _ _ _ H) as (d & -> & L). split; [repeat split|]. right. exact L. Qed.

Lemma solved_d_lower_a b a iv b' a' iv' : solved_d b a iv b' a' iv' -> lower a a'.
Proof. intros H. destruct (sd_a _ _ _ _ _ _ H) as (d & -> & L). split; [repeat split|]. right. exact L. Qed.

Lemma visit_d ax i s b a : nth_error (ax_segments ax) i = Some s ->
  policy_at ax (sg_before s) b -> policy_at ax (sg_after s) a -> ready b a (sg_iv s) ->
  exists ax' b' a' iv', finishes (fun n => auto_solve_d_at n ax i) ax' /\ shrinks ax ax' /\
    nth_error (ax_segments ax') i = Some (mk_segment (sg_before s) (sg_after s) iv') /\
    policy_at ax' (sg_before s) b' /\ policy_at ax' (sg_after s) a' /\
    solved_d b a (sg_iv s) b' a' iv'.
Proof.
  intros Es Pb Pa R.
  destruct (auto_solve_d_total b a (sg_iv s) R) as (b' & a' & iv' & E & So).
  assert (N : sg_before s <> sg_after s).
  { intros X. unfold policy_at in *. rewrite X in Pb. assert (b = a) by congruence. subst. pose proof (ready_order _ _ _ R). lra. }
  unfold policy_at in *.
  destruct (write_spec b' (ax_policies ax) (sg_before s) (nth_lt _ _ _ Pb)) as (l1 & W1 & Len1 & H1 & O1).
  destruct (write_spec a' l1 (sg_after s)) as (l2 & W2 & Len2 & H2 & O2).
  { rewrite Len1. eapply nth_lt; eassumption. }
  destruct (write_spec (mk_segment (sg_before s) (sg_after s) iv') (ax_segments ax) i (nth_lt _ _ _ Es)) as (ss & W3 & Len3 & H3 & O3).
  exists (set_segments (set_policies ax l2) ss), b', a', iv'.
  split; [|split].
  - unfold auto_solve_d_at, read. rewrite Es. cbn [bind]. rewrite Pb, Pa. cbn [bind].
    eapply (finishes_bind (fun n => lift (auto_solve_d n b a (sg_iv s)))); [apply finishes_lift; exact E|].
    cbn. rewrite W1. cbn [bind]. rewrite W2. cbn [bind]. rewrite W3. cbn [bind]. apply finishes_ret.
  - split; try reflexivity; cbn [set_segments set_policies ax_policies ax_segments].
    + assert (Pa1 : nth_error l1 (sg_after s) = Some a) by (rewrite O1; auto).
      eapply forall2_trans; [apply lower_trans| |].
      * eapply forall2_write; [apply lower_refl|exact Pb|exact W1|]. eapply solved_d_lower_b; eassumption.
      * eapply forall2_write; [apply lower_refl|exact Pa1|exact W2|]. eapply solved_d_lower_a; eassumption.
    + eapply forall2_write; [apply sub_refl|exact Es|exact W3|].
      split; cbn; try reflexivity.
      * apply So. * apply So. * right. apply So. * left. apply So. * left. apply So.
  - cbn [set_segments set_policies ax_policies ax_segments]. split; [assumption|]. split; [rewrite O2; assumption|].
    split; [assumption|]. assumption.
Qed.

Lemma visit_s ax i s b a : nth_error (ax_segments ax) i = Some s ->
  policy_at ax (sg_before s) b -> policy_at ax (sg_after s) a -> ready b a (sg_iv s) ->
  exists ax' iv', finishes (fun n => auto_solve_smoothness_at n ax i) ax' /\ shrinks ax ax' /\
    nth_error (ax_segments ax') i = Some (mk_segment (sg_before s) (sg_after s) iv') /\
    policy_at ax' (sg_before s) b /\ policy_at ax' (sg_after s) a /\
    solved_s b a (sg_iv s) iv'.
Proof.
  intros Es Pb Pa R. destruct (auto_solve_smoothness_total b a (sg_iv s) R) as (iv' & E & So).
  destruct (write_spec (mk_segment (sg_before s) (sg_after s) iv') (ax_segments ax) i (nth_lt _ _ _ Es)) as (ss & W3 & Len3 & H3 & O3).
  exists (set_segments ax ss), iv'. unfold policy_at in *. split; [|split].
  - unfold auto_solve_smoothness_at, read. rewrite Es. cbn [bind]. rewrite Pb, Pa. cbn [bind].
    eapply (finishes_bind (fun n => lift (auto_solve_smoothness n b a (sg_iv s)))); [apply finishes_lift; exact E|].
    cbn. rewrite W3. cbn [bind]. apply finishes_ret.
  - split; try reflexivity; cbn [set_segments ax_policies ax_segments]; [apply forall2_refl, lower_refl|].
    eapply forall2_write; [apply sub_refl|exact Es|exact W3|].
    split; cbn; try reflexivity.
    + apply So. + apply So. + left. apply So. + right. apply So. + right. apply So.
  - repeat (split; [assumption|]); assumption.
Qed.

(** * The lines of an interval *)

(** [c] are lines for an interval between [b] and [a] with spaces of at most [D]. *)
Record cell (D : Q) (b a : mlp) (c : list Q) : Prop :=
  { ce_increasing : increasing (p_coord b :: c ++ [p_coord a]);
    ce_middle : exists m, In m c /\ m == (p_coord b + p_coord a) / 2;
    ce_within : within D ((if is_oneline (p_policy b) then [p_coord b] else []) ++ c ++
                          (if is_oneline (p_policy a) then [p_coord a] else []));
    ce_first : is_oneline (p_policy b) = false -> exists d r, c = (p_coord b + d_init_before b d) :: r /\ 0 < d <= D;
    ce_last : is_oneline (p_policy a) = false -> exists d r, c = r ++ [p_coord a - d_init_after a d] /\ 0 < d <= D }.

Lemma within_weaken D D' l : D <= D' -> within D l -> within D' l.
Proof.
  intros H. induction l as [|a [|b l] IH]; intros W; [exact I|exact I|]. destruct W as [W1 W2].
  split; [lra|apply IH; exact W2].
Qed.

Lemma mesh_cell b0 a0 D b a iv b' a' iv1 iv2 : lower b0 b -> lower a0 a -> iv_dmax iv <= D -> ready b a iv ->
  solved_d b a iv b' a' iv1 -> solved_s b' a' iv1 iv2 -> cell D b0 a0 (mesh_interval b' a' iv2).
Proof.
  intros Lb La HD R So Ss.
  assert (R1 : ready b' a' iv1) by (eapply solved_d_ready; eassumption).
  assert (R2 : ready b' a' iv2) by (eapply solved_s_ready; eassumption).
  assert (Sb : same_but_d b0 b').
  { eapply same_but_d_trans; [apply Lb|]. destruct (sd_b _ _ _ _ _ _ So) as (d & -> & _). repeat split. }
  assert (Sa : same_but_d a0 a').
  { eapply same_but_d_trans; [apply La|]. destruct (sd_a _ _ _ _ _ _ So) as (d & -> & _). repeat split. }
  destruct Sb as (Cb & Pb & Nb & _), Sa as (Ca & Pa & Na & _).
  destruct (mesh_facts b' a' iv2 R2 (ss_solved_b _ _ _ _ Ss) (ss_solved_a _ _ _ _ Ss)) as (l1 & l2 & E & Inc & (W1 & _) & (W2 & _)).
  { rewrite (ss_h _ _ _ _ Ss), (sd_h _ _ _ _ _ _ So). apply So. }
  { rewrite (ss_h _ _ _ _ Ss), (sd_h _ _ _ _ _ _ So). apply So. }
  assert (HD2 : iv_dmax iv2 <= D).
  { rewrite (ss_dmax _ _ _ _ Ss). pose proof (sd_dmax _ _ _ _ _ _ So). lra. }
  pose proof (sd_db _ _ _ _ _ _ So). pose proof (sd_da _ _ _ _ _ _ So).
  pose proof (ready_d_b _ _ _ R2). pose proof (ready_d_a _ _ _ R2).
  split.
  - rewrite E, Cb, Ca. exact Inc.
  - exists (iv_m iv2). split; [rewrite E; apply in_app_iff; right; now left|].
    rewrite (ready_m _ _ _ R2), Cb, Ca, Qplus_comm. reflexivity.
  - rewrite Pb, Pa, Cb, Ca, E. apply within_weaken with (iv_dmax iv2); [assumption|].
    rewrite <- app_assoc, app_assoc. cbn [app]. apply within_app.
    + rewrite <- app_assoc. exact W1.
    + exact W2.
  - intros O. rewrite Pb in O. exists (p_d b').
    unfold mesh_interval. rewrite O. cbn [app]. rewrite Cb.
    assert (d_init_before b0 (p_d b') = d_init_before b' (p_d b')) as ->.
    { unfold d_init_before. now rewrite Pb, Nb. }
    eexists. split; [reflexivity|]. lra.
  - intros O. rewrite Pa in O. exists (p_d a').
    unfold mesh_interval. rewrite O. rewrite Ca.
    assert (d_init_after a0 (p_d a') = d_init_after a' (p_d a')) as ->.
    { unfold d_init_after. now rewrite Pa, Na. }
    rewrite !app_assoc. eexists. split; [reflexivity|]. lra.
Qed.

(** * The two passes *)

(** The lines found for the interval at address [i]. *)
Definition cell_at (ax : axis) (i : nat) (c : list Q) : Prop :=
  exists s b a, nth_error (ax_segments ax) i = Some s /\ policy_at ax (sg_before s) b /\ policy_at ax (sg_after s) a /\
    cell (iv_dmax (sg_iv s)) b a c.

Lemma first_pass_ok order : forall ax, ready_axis ax -> (forall i, In i order -> (i < length (ax_segments ax))%nat) ->
  exists ax', finishes (fun n => first_pass n ax order) ax' /\ shrinks ax ax'.
Proof.
  induction order as [|i r IH]; intros ax R L.
  - exists ax. split; [apply finishes_ret|apply shrinks_refl].
  - destruct (nth_error (ax_segments ax) i) as [s|] eqn:Es.
    2:{ apply nth_error_None in Es. specialize (L i (or_introl eq_refl)). lia. }
    destruct (R i s Es) as (b & a & Pb & Pa & Rd).
    destruct (visit_d ax i s b a Es Pb Pa Rd) as (ax1 & b' & a' & iv' & F & Sh & _).
    destruct (IH ax1) as (ax' & F' & Sh').
    { eapply shrinks_ready; eassumption. }
    { intros j J. rewrite <- (forall2_length _ _ _ (sh_segments _ _ Sh)). apply L. now right. }
    exists ax'. split; [|eapply shrinks_trans; eassumption].
    exact (finishes_bind (fun n => auto_solve_d_at n ax i) (fun n ax => first_pass n ax r) _ _ F F').
Qed.

Lemma either_le (P : Q -> Prop) x y : y = x \/ (P y /\ y <= x) -> y <= x.
Proof. intros [->|[_ L]]; [apply Qle_refl|assumption]. Qed.

Lemma cell_same D D' b a b' a' c : D' <= D -> same_but_d b b' -> same_but_d a a' -> cell D' b' a' c -> cell D b a c.
Proof.
  intros L (Cb & Pb & Nb & _) (Ca & Pa & Na & _) [I M W F La]. split.
  - now rewrite Cb, Ca.
  - now rewrite Cb, Ca.
  - rewrite Cb, Ca, Pb, Pa. eapply within_weaken; eassumption.
  - rewrite Pb. intros O. destruct (F O) as (d & r & E & B). exists d, r. rewrite Cb.
    assert (d_init_before b d = d_init_before b' d) as -> by (unfold d_init_before; now rewrite Pb, Nb). split; [assumption|lra].
  - rewrite Pa. intros O. destruct (La O) as (d & r & E & B). exists d, r. rewrite Ca.
    assert (d_init_after a d = d_init_after a' d) as -> by (unfold d_init_after; now rewrite Pa, Na). split; [assumption|lra].
Qed.

Lemma cell_at_shrunk ax ax' i c : shrinks ax ax' -> cell_at ax' i c -> cell_at ax i c.
Proof.
  intros [P S _ _] (s' & b' & a' & Es & Pb & Pa & C).
  destruct (forall2_nth_r _ _ _ _ _ S Es) as (s & E & Su).
  destruct (forall2_nth_r _ _ _ _ _ P Pb) as (b & Eb & Lb).
  destruct (forall2_nth_r _ _ _ _ _ P Pa) as (a & Ea & La).
  exists s, b, a. unfold policy_at. rewrite <- (su_before _ _ Su), <- (su_after _ _ Su).
  split; [assumption|]. split; [assumption|]. split; [assumption|].
  eapply cell_same; [|apply Lb|apply La|exact C]. apply (either_le (fun x => 0 < x)). apply Su.
Qed.

Lemma second_pass_ok order : forall ax, ready_axis ax -> (forall i, In i order -> (i < length (ax_segments ax))%nat) ->
  exists ax' lines, finishes (fun n => second_pass n ax order) (ax', lines) /\ shrinks ax ax' /\
    Forall2 (cell_at ax) order lines.
Proof.
  induction order as [|i r IH]; intros ax R L.
  - exists ax, []. split; [apply finishes_ret|]. split; [apply shrinks_refl|constructor].
  - destruct (nth_error (ax_segments ax) i) as [s|] eqn:Es.
    2:{ apply nth_error_None in Es. specialize (L i (or_introl eq_refl)). lia. }
    destruct (R i s Es) as (b & a & Pb & Pa & Rd).
    destruct (visit_d ax i s b a Es Pb Pa Rd) as (ax1 & b1 & a1 & iv1 & F1 & Sh1 & Es1 & Pb1 & Pa1 & So).
    assert (R1 : ready b1 a1 iv1) by (eapply solved_d_ready; eassumption).
    destruct (visit_s ax1 i _ b1 a1 Es1 Pb1 Pa1 R1) as (ax2 & iv2 & F2 & Sh2 & Es2 & Pb2 & Pa2 & Ss). cbn in *.
    assert (Sh12 : shrinks ax ax2) by (eapply shrinks_trans; eassumption).
    destruct (IH ax2) as (ax' & lines & F' & Sh' & C').
    { eapply shrinks_ready; eassumption. }
    { intros j J. rewrite <- (forall2_length _ _ _ (sh_segments _ _ Sh12)). apply L. now right. }
    exists ax', (mesh_interval b1 a1 iv2 :: lines).
    split; [|split].
    + refine (finishes_bind (fun n => auto_solve_d_at n ax i) (fun n ax => _) _ _ F1 _).
      refine (finishes_bind (fun n => auto_solve_smoothness_at n ax1 i) (fun n ax => _) _ _ F2 _).
      unfold mesh_segment, read. rewrite Es2. cbn [bind sg_before sg_after sg_iv]. unfold policy_at in Pb2, Pa2. rewrite Pb2, Pa2. cbn [bind].
      refine (finishes_bind (fun n => second_pass n ax2 r) (fun n x => let (ax, rest) := x in Done (ax, mesh_interval b1 a1 iv2 :: rest)) _ _ F' _).
      apply finishes_ret.
    + eapply shrinks_trans; eassumption.
    + constructor.
      * exists s, b, a. split; [assumption|]. split; [assumption|]. split; [assumption|].
        apply (mesh_cell b a _ b a (sg_iv s) b1 a1 iv1 iv2); try assumption; [apply lower_refl|apply lower_refl|apply Qle_refl].
      * eapply forall2_impl; [|exact C']. intros j c. apply cell_at_shrunk. assumption.
Qed.

(** * Sorting the lines *)

Lemma forall2_perm {A B} (R : A -> B -> Prop) l1 l1' : Permutation l1 l1' -> forall l2, Forall2 R l1 l2 ->
  exists l2', Permutation l2 l2' /\ Forall2 R l1' l2'.
Proof.
  induction 1; intros m F.
  - inversion F; subst. exists []. split; constructor.
  - inversion F; subst. destruct (IHPermutation _ H4) as (m' & P & F'). exists (y :: m'). split; now constructor.
  - inversion F; subst. inversion H3; subst. exists (y1 :: y0 :: l'0). split; [apply perm_swap|]. repeat constructor; assumption.
  - destruct (IHPermutation1 _ F) as (m' & P & F'). destruct (IHPermutation2 _ F') as (m2 & P2 & F2).
    exists m2. split; [eapply perm_trans; eassumption|assumption].
Qed.

Lemma increasing_strong l : increasing l -> StronglySorted Qlt l.
Proof.
  intros I. apply Sorted_StronglySorted; [intros x y z; apply Qlt_trans|].
  induction l as [|a [|b l] IH]; [constructor|repeat constructor|]. destruct I as [H I].
  constructor; [now apply IH|now constructor].
Qed.

(** A sorted permutation of a strictly increasing list is that list. *)
Lemma sort_unique l : increasing l -> forall l', Permutation l l' -> StronglySorted Qle l' -> l' = l.
Proof.
  intros I. apply increasing_strong in I. induction I as [|a l S IH F]; intros l' P S'.
  - now apply Permutation_nil.
  - destruct l' as [|b l']; [apply Permutation_sym, Permutation_nil in P; discriminate|].
    apply StronglySorted_inv in S'. destruct S' as [S' F']. rewrite Forall_forall in F, F'.
    assert (b = a).
    { assert (In b (a :: l)) as [->|B] by (eapply Permutation_in; [apply Permutation_sym; exact P|now left]); [reflexivity|].
      assert (In a (b :: l')) as [->|A] by (eapply Permutation_in; [exact P|now left]); [reflexivity|].
      specialize (F b B). specialize (F' a A). lra. }
    subst b. f_equal. apply IH; [|assumption]. eapply Permutation_cons_inv; eassumption.
Qed.

Lemma sorts_q srt l : sorts srt -> Permutation l (srt Q (fun x => x) l) /\ StronglySorted Qle (srt Q (fun x => x) l).
Proof. intros S. apply (S Q (fun x => x) l). Qed.

(** * Putting the intervals side by side *)

(** Between consecutive policies there is a cell. *)
Inductive row (D : Q) : list mlp -> list (list Q) -> Prop :=
| row_one p : row D [p] []
| row_cons b a r c cs : cell D b a c -> row D (a :: r) cs -> row D (b :: a :: r) (c :: cs).

Lemma increasing_tl a l : increasing (a :: l) -> increasing l.
Proof. destruct l; [intros _; exact I|]. intros [_ H]. exact H. Qed.

Lemma increasing_lt a l : increasing (a :: l) -> forall x, In x l -> a < x.
Proof.
  intros I. apply increasing_strong in I. apply StronglySorted_inv in I. destruct I as [_ F]. now rewrite Forall_forall in F.
Qed.

Lemma increasing_drop l1 x l2 : increasing (l1 ++ x :: l2) -> increasing (l1 ++ l2).
Proof.
  induction l1 as [|a l1 IH]; intros I; [now apply increasing_tl in I|].
  destruct l1 as [|b l1].
  - cbn in *. destruct l2 as [|c l2]; [exact Logic.I|]. destruct I as [H1 [H2 H3]]. split; [lra|assumption].
  - destruct I as [H I]. split; [assumption|]. apply IH. exact I.
Qed.

Lemma row_increasing D l cs : row D l cs -> forall p r, l = p :: r ->
  increasing (p_coord p :: (match cs with [] => [] | c :: cs => c ++ laid_out r cs end)) /\
  (forall x, In x (laid_out l cs) -> p_coord p <= x /\ exists q, In q l /\ x <= p_coord q).
Proof.
  induction 1 as [p|b a r c cs C R IH]; intros p0 r0 E; inversion E; subst; clear E.
  - split; [exact I|]. intros x X. cbn in X. destruct (is_oneline (p_policy p0)); cbn in X; [|tauto].
    destruct X as [<-|[]]. split; [apply Qle_refl|]. exists p0. split; [now left|apply Qle_refl].
  - destruct (IH a r eq_refl) as [I1 H1].
    assert (Inc : increasing (p_coord p0 :: c ++ p_coord a :: match cs with [] => [] | c :: cs => c ++ laid_out r cs end)).
    { pose proof (ce_increasing _ _ _ _ C) as Ci.
      change (increasing ((p_coord p0 :: c) ++ p_coord a :: match cs with [] => [] | c :: cs => c ++ laid_out r cs end)).
      apply increasing_app; [exact Ci|exact I1]. }
    split.
    + cbn [laid_out]. destruct (is_oneline (p_policy a)); [exact Inc|].
      change (increasing ((p_coord p0 :: c) ++ match cs with [] => [] | c :: cs => c ++ laid_out r cs end)).
      eapply increasing_drop. exact Inc.
    + intros x X. pose proof (increasing_lt _ _ Inc) as Lt.
      assert (Ha : p_coord p0 < p_coord a) by (apply Lt, in_app_iff; right; now left).
      cbn [laid_out] in X. apply in_app_iff in X. destruct X as [X|X].
      { destruct (is_oneline (p_policy p0)); [|destruct X]. destruct X as [<-|[]]. split; [apply Qle_refl|].
        exists p0. split; [now left|apply Qle_refl]. }
      apply in_app_iff in X. destruct X as [X|X].
      { split; [apply Qlt_le_weak, Lt, in_app_iff; now left|]. exists a. split; [right; now left|].
        pose proof (ce_increasing _ _ _ _ C) as Ci. apply increasing_tl in Ci.
        assert (K : forall u v, increasing (u ++ [v]) -> forall y, In y u -> y < v).
        { clear. induction u as [|z u IH]; intros v I y Y; [destruct Y|]. destruct Y as [<-|Y].
          - apply (increasing_lt _ _ I). apply in_app_iff. right. now left.
          - apply IH; [now apply increasing_tl in I|assumption]. }
        apply Qlt_le_weak. eapply K; eassumption. }
      { destruct (H1 x X) as (L & q & Iq & Lq). split; [lra|]. exists q. split; [now right|assumption]. }
Qed.

Lemma within_cons_last x l1 a b l2 : within x (l1 ++ [a]) -> b - a <= x -> within x (b :: l2) -> within x (l1 ++ a :: b :: l2).
Proof. intros A H B. apply (within_app x l1 a (b :: l2)); [assumption|]. split; assumption. Qed.

Lemma across D p d1 d2 : consistent p -> is_oneline (p_policy p) = false -> 0 < d1 <= D -> 0 < d2 <= D ->
  (p_coord p + d_init_before p d2) - (p_coord p - d_init_after p d1) <= D.
Proof.
  unfold consistent, d_init_before, d_init_after. intros C O H1 H2.
  destruct (p_policy p); [discriminate| |].
  - assert (d1 / 2 == d1 * (1 # 2)) as -> by field. assert (d2 / 2 == d2 * (1 # 2)) as -> by field. lra.
  - destruct (p_normal p); [exfalso; now apply C|lra|lra].
Qed.

Lemma within_left x u v : within x (u ++ v) -> within x u.
Proof.
  induction u as [|a [|b u] IH]; intros W; [exact I|exact I|]. destruct W as [H W]. split; [assumption|]. apply IH. exact W.
Qed.

Lemma within_right x u v : within x (u ++ v) -> within x v.
Proof.
  induction u as [|a u IH]; intros W; [exact W|]. apply IH. cbn in W. destruct (u ++ v); [exact I|apply W].
Qed.

(** The last line before what follows the policy [p]. *)
Definition arrives (D : Q) (pre : list Q) (p : mlp) : Prop :=
  if is_oneline (p_policy p) then exists u, pre = u ++ [p_coord p]
  else pre = [] \/ exists u d, pre = u ++ [p_coord p - d_init_after p d] /\ 0 < d <= D.

Lemma row_within_from D l cs : row D l cs -> Forall consistent l -> forall p r pre, l = p :: r ->
  arrives D pre p -> within D pre ->
  within D (pre ++ match cs with [] => [] | c :: cs => c ++ laid_out r cs end).
Proof.
  induction 1 as [p|b a r c cs C R IH]; intros Cons p0 r0 pre E A W; inversion E; subst; clear E.
  { rewrite app_nil_r. assumption. }
  inversion Cons as [|? ? Cp Cr]; subst. specialize (IH Cr a r).
  destruct C as [_ (m & Im & _) Cw Cf Cl].
  (* up to the end of the cell, and the line of the next policy *)
  assert (Wc : within D (pre ++ c ++ (if is_oneline (p_policy a) then [p_coord a] else []))).
  { unfold arrives in A. destruct (is_oneline (p_policy p0)) eqn:Op.
    - destruct A as (u & ->). rewrite <- app_assoc. cbn [app]. apply within_app; assumption.
    - destruct A as [->|(u & d1 & -> & B1)]; [exact Cw|].
      destruct (Cf eq_refl) as (d2 & r' & Ec & B2). cbn [app] in Cw. rewrite Ec in *. rewrite <- app_assoc.
      change (within D (u ++ (p_coord p0 - d_init_after p0 d1) :: (p_coord p0 + d_init_before p0 d2)
                          :: r' ++ (if is_oneline (p_policy a) then [p_coord a] else []))).
      apply within_cons_last; [assumption|now apply across|exact Cw]. }
  cbn [laid_out]. rewrite (app_assoc c), (app_assoc pre). apply IH; [reflexivity| |].
  - unfold arrives. destruct (is_oneline (p_policy a)) eqn:Oa.
    + rewrite app_assoc. eexists. reflexivity.
    + right. destruct (Cl eq_refl) as (d & r' & -> & B). exists (pre ++ r'), d. rewrite app_nil_r, app_assoc. now split.
  - assumption.
Qed.

Lemma row_within D l cs : row D l cs -> Forall consistent l -> within D (laid_out l cs).
Proof.
  intros R Cons.
  assert (exists p r, l = p :: r) as (p & r & ->) by (destruct R; eauto).
  cbn [laid_out]. destruct (is_oneline (p_policy p)) eqn:O.
  - eapply (row_within_from D _ _ R Cons p r [p_coord p]); [reflexivity| |exact I].
    unfold arrives. rewrite O. exists []. reflexivity.
  - eapply (row_within_from D _ _ R Cons p r []); [reflexivity| |exact I].
    unfold arrives. rewrite O. now left.
Qed.

(** * The whole axis *)

Definition one (p : mlp) : list Q := if is_oneline (p_policy p) then [p_coord p] else [].

Lemma laid_out_perm D l cs : row D l cs -> Permutation (laid_out l cs) (concat cs ++ flat_map one l).
Proof.
  induction 1 as [p|b a r c cs C R IH].
  - cbn. rewrite !app_nil_r. reflexivity.
  - change (laid_out (b :: a :: r) (c :: cs)) with (one b ++ c ++ laid_out (a :: r) cs).
    change (flat_map one (b :: a :: r)) with (one b ++ flat_map one (a :: r)).
    change (concat (c :: cs)) with (c ++ concat cs).
    rewrite IH. rewrite !app_assoc.
    transitivity ((c ++ concat cs) ++ one b ++ flat_map one (a :: r)); [|rewrite !app_assoc; reflexivity].
    rewrite <- !app_assoc. rewrite (app_assoc c), (app_assoc c).
    transitivity ((one b ++ c ++ concat cs) ++ flat_map one (a :: r)); [rewrite <- !app_assoc; reflexivity|].
    rewrite (Permutation_app_comm (one b)). rewrite <- !app_assoc. reflexivity.
Qed.

Lemma mesh_policies_filter l : flat_map mesh_policy l = flat_map one (filter p_enabled l).
Proof.
  induction l as [|p l IH]; [reflexivity|]. cbn. rewrite IH. unfold mesh_policy. destruct (p_enabled p); reflexivity.
Qed.

Lemma mesh_policies_lower l l' : Forall2 lower l l' -> flat_map mesh_policy l' = flat_map mesh_policy l.
Proof.
  induction 1 as [|p p' l l' [(C & P & _ & E) _] F IH]; [reflexivity|]. cbn. rewrite IH. f_equal.
  unfold mesh_policy. now rewrite C, P, E.
Qed.

Lemma forall2_at_eq (ax : axis) l p1 : Forall2 (policy_at ax) l p1 -> forall p2, Forall2 (policy_at ax) l p2 -> p1 = p2.
Proof.
  unfold policy_at. induction 1; intros p2 F; inversion F; subst; [reflexivity|]. f_equal; [congruence|auto].
Qed.

Lemma policies_exist ax l : (forall i, In i l -> exists p, policy_at ax i p) -> exists pl, Forall2 (policy_at ax) l pl.
Proof.
  induction l as [|i l IH]; intros H; [exists []; constructor|].
  destruct (H i) as (p & P); [now left|]. destruct IH as (pl & F); [intros j J; apply H; now right|].
  exists (p :: pl). now constructor.
Qed.

Lemma filter_view_at ax : Forall2 (policy_at ax)
  (map fst (filter (fun x => p_enabled (snd x)) (view (ax_policies ax))))
  (map snd (filter (fun x => p_enabled (snd x)) (view (ax_policies ax)))).
Proof.
  assert (H : forall x, In x (filter (fun x => p_enabled (snd x)) (view (ax_policies ax))) -> policy_at ax (fst x) (snd x)).
  { intros [i p] I. apply filter_In in I. apply view_in. tauto. }
  induction (filter (fun x => p_enabled (snd x)) (view (ax_policies ax))) as [|x l IH]; [constructor|].
  cbn. constructor; [apply H; now left|]. apply IH. intros y Y. apply H. now right.
Qed.

Lemma map_snd_filter_view (l : list mlp) : map snd (filter (fun x => p_enabled (snd x)) (view l)) = filter p_enabled l.
Proof.
  unfold view. generalize 0%nat. induction l as [|p l IH]; intros k; [reflexivity|]. cbn.
  destruct (p_enabled p); cbn; now rewrite IH.
Qed.

Lemma in_order_perm ax l pl : in_order ax l -> Forall2 (policy_at ax) l pl -> Permutation pl (filter p_enabled (ax_policies ax)).
Proof.
  intros (N & E & _) F.
  assert (P : Permutation l (map fst (filter (fun x => p_enabled (snd x)) (view (ax_policies ax))))).
  { apply NoDup_Permutation; [assumption|apply nodup_filter_fst; rewrite view_fst; apply seq_NoDup|].
    intros i. rewrite E, in_map_iff. split.
    - intros (p & Pi & Ei). exists (i, p). split; [reflexivity|]. apply filter_In. split; [apply view_in; assumption|assumption].
    - intros ((j & p) & <- & I). apply filter_In in I. exists p. destruct I as [I Ep]. split; [apply view_in; assumption|assumption]. }
  destruct (forall2_perm _ _ _ P _ F) as (pl' & Pp & F').
  rewrite (forall2_at_eq _ _ _ F' _ (filter_view_at ax)) in Pp. rewrite map_snd_filter_view in Pp. assumption.
Qed.

Definition segment_cell (ax : axis) (s : segment) (c : list Q) : Prop :=
  exists b a, policy_at ax (sg_before s) b /\ policy_at ax (sg_after s) a /\ cell (iv_dmax (sg_iv s)) b a c.

Lemma cells_of ax cells : Forall2 (cell_at ax) (seq 0 (length (ax_segments ax))) cells ->
  Forall2 (segment_cell ax) (ax_segments ax) cells.
Proof.
  assert (K : forall ss pre cells, ax_segments ax = pre ++ ss ->
    Forall2 (cell_at ax) (seq (length pre) (length ss)) cells -> Forall2 (segment_cell ax) ss cells).
  { induction ss as [|s ss IH]; intros pre cs E F; cbn in F; inversion F; subst; constructor.
    - destruct H1 as (s' & b & a & Es & Pb & Pa & C). rewrite E, nth_error_app2, Nat.sub_diag in Es by lia.
      cbn in Es. inversion Es; subst. exists b, a. now split.
    - apply (IH (pre ++ [s])); [rewrite E, <- app_assoc; reflexivity|]. rewrite app_length. cbn. rewrite Nat.add_1_r. assumption. }
  apply (K _ []). reflexivity.
Qed.

Lemma cell_weaken D D' b a c : D <= D' -> cell D b a c -> cell D' b a c.
Proof. intros H. apply cell_same; [assumption|apply same_but_d_refl|apply same_but_d_refl]. Qed.

Lemma make_row ax D l : forall ss pl cells, map (fun s => (sg_before s, sg_after s)) ss = combine l (tl l) ->
  Forall2 (policy_at ax) l pl -> Forall2 (segment_cell ax) ss cells -> (forall s, In s ss -> iv_dmax (sg_iv s) <= D) ->
  l <> [] -> row D pl cells.
Proof.
  induction l as [|b [|a l] IH]; intros ss pl cells M F C HD N; [congruence| |].
  - cbn in M. destruct ss; [|discriminate]. inversion C; subst. inversion F; subst. inversion H3; subst. constructor.
  - cbn [tl combine] in M. destruct ss as [|s ss]; [discriminate|]. cbn [map] in M. inversion M as [[Mb Ma M']].
    inversion C as [|? c ? cs C1 C2]; subst. inversion F as [|? pb ? pl' F1 F2]; subst. inversion F2 as [|? pa ? pl'' F3 F4]; subst.
    destruct C1 as (b' & a' & Pb & Pa & Ce). unfold policy_at in *.
    assert (b' = pb) by congruence. assert (a' = pa) by congruence. subst b' a'.
    constructor.
    + eapply cell_weaken; [|exact Ce]. apply HD. now left.
    + eapply (IH ss); [exact M'|exact F2|exact C2| |discriminate]. intros t T. apply HD. now right.
Qed.

Lemma meshable_ready ax l : meshable ax l -> ready_axis ax.
Proof.
  intros [O _ T R _] i s Es. pose proof (nth_error_In _ _ Es) as I.
  assert (In (sg_before s, sg_after s) (combine l (tl l))) as J.
  { rewrite <- T. apply in_map_iff. now exists s. }
  pose proof (in_combine_l _ _ _ _ J) as Jb. pose proof (in_combine_r _ _ _ _ J) as Ja.
  assert (In (sg_after s) l) as Ja' by (destruct l; [destruct Ja|right; exact Ja]).
  apply O in Jb. apply O in Ja'. destruct Jb as (b & Pb & _), Ja' as (a & Pa & _).
  exists b, a. split; [assumption|]. split; [assumption|]. apply R; assumption.
Qed.

Lemma visiting_order_perm srt ax : sorts srt -> Permutation (visiting_order srt ax) (seq 0 (length (ax_segments ax))).
Proof.
  intros S. unfold visiting_order. rewrite <- view_fst. apply Permutation_map, Permutation_sym. apply S.
Qed.

Lemma cell_at_lines ax ax' i c : shrinks ax ax' -> cell_at ax' i c -> cell_at ax i c.
Proof. apply cell_at_shrunk. Qed.

Lemma row_strict D l cs : row D l cs -> increasing (laid_out l cs).
Proof.
  intros R. assert (exists p r, l = p :: r) as (p & r & ->) by (destruct R; eauto).
  destruct (row_increasing D _ _ R p r eq_refl) as [I _]. cbn [laid_out].
  destruct (is_oneline (p_policy p)); [exact I|]. now apply increasing_tl in I.
Qed.

Lemma max_dmax (ss : list segment) : exists D, forall s, In s ss -> iv_dmax (sg_iv s) <= D.
Proof.
  induction ss as [|s ss (D & H)]; [exists 0; intros s []|].
  exists (Qmax (iv_dmax (sg_iv s)) D). intros t [<-|I]; [apply Q.le_max_l|].
  eapply Qle_trans; [apply H; assumption|apply Q.le_max_r].
Qed.

Lemma mesh_axis_ok srt ax l : sorts srt -> meshable ax l ->
  exists ax' pl cells, finishes (fun n => mesh_axis n srt ax) ax' /\
    Forall2 (policy_at ax) l pl /\ Forall2 (segment_cell ax) (ax_segments ax) cells /\
    ax_lines ax' = laid_out pl cells /\ increasing (ax_lines ax') /\
    Forall2 lower (ax_policies ax) (ax_policies ax') /\ Forall2 sub (ax_segments ax) (ax_segments ax') /\
    ax_conflicts ax' = ax_conflicts ax.
Proof.
  intros S M. pose proof (meshable_ready _ _ M) as R. pose proof (visiting_order_perm srt ax S) as Po.
  set (order := visiting_order srt ax) in *.
  assert (Lo : forall i, In i order -> (i < length (ax_segments ax))%nat).
  { intros i I. apply (Permutation_in _ Po) in I. apply in_seq in I. lia. }
  destruct (first_pass_ok order ax R Lo) as (ax1 & F1 & Sh1).
  assert (Len1 : length (ax_segments ax1) = length (ax_segments ax)) by (symmetry; eapply forall2_length; apply Sh1).
  destruct (second_pass_ok order ax1) as (ax2 & lines & F2 & Sh2 & C2).
  { eapply shrinks_ready; eassumption. }
  { intros i I. rewrite Len1. auto. }
  assert (C : Forall2 (cell_at ax) order lines).
  { eapply forall2_impl; [|exact C2]. intros i c. now apply cell_at_shrunk. }
  destruct (forall2_perm _ _ _ Po _ C) as (cells & Pc & Cc). apply cells_of in Cc.
  pose proof (me_order _ _ M) as O.
  destruct (policies_exist ax l) as (pl & Fp).
  { intros i I. apply O in I. destruct I as (p & P & _). now exists p. }
  assert (Sh : shrinks ax ax2) by (eapply shrinks_trans; eassumption).
  set (all := ax_lines ax2 ++ concat lines ++ flat_map mesh_policy (ax_policies ax2)).
  assert (Hall : Permutation all (concat cells ++ flat_map one pl)).
  { unfold all. rewrite (sh_lines _ _ Sh), (me_lines _ _ M). cbn [app].
    rewrite (mesh_policies_lower _ _ (sh_policies _ _ Sh)), mesh_policies_filter.
    apply Permutation_app.
    - clear -Pc. induction Pc; cbn; [reflexivity|now apply Permutation_app_head| |etransitivity; eassumption].
      rewrite !app_assoc. apply Permutation_app_tail, Permutation_app_comm.
    - apply Permutation_flat_map, Permutation_sym. now apply in_order_perm with l. }
  assert (Hl : srt Q (fun x => x) all = laid_out pl cells /\ increasing (laid_out pl cells)).
  { destruct (max_dmax (ax_segments ax)) as (D & HD).
    destruct (sorts_q srt all S) as [Ps Ss].
    destruct (list_eq_dec Nat.eq_dec l []) as [->|Nl].
    - inversion Fp; subst. assert (ax_segments ax = []) as E0 by (pose proof (me_tiles _ _ M) as T; destruct (ax_segments ax); [reflexivity|discriminate]).
      rewrite E0 in Cc. inversion Cc; subst. cbn in Hall |- *. split; [|exact I].
      apply Permutation_sym, Permutation_nil in Hall. rewrite Hall in Ps at 1. apply Permutation_nil in Ps. exact Ps.
    - pose proof (make_row ax D l _ _ _ (me_tiles _ _ M) Fp Cc HD Nl) as Rw.
      pose proof (row_strict _ _ _ Rw) as Inc. split; [|assumption].
      apply sort_unique; [assumption| |assumption].
      rewrite (laid_out_perm _ _ _ Rw). etransitivity; [apply Permutation_sym; exact Hall|exact Ps]. }
  destruct Hl as [Hl Inc].
  exists (set_lines ax2 (srt Q (fun x => x) all)), pl, cells.
  split; [|split; [assumption|split; [assumption|]]].
  - unfold mesh_axis. fold order.
    refine (finishes_bind (fun n => first_pass n ax order) (fun n ax => _) _ _ F1 _).
    refine (finishes_bind (fun n => second_pass n ax1 order)
      (fun n x => let (ax, lines) := x in Done (set_lines ax (srt Q (fun x => x) (ax_lines ax ++ concat lines ++ flat_map mesh_policy (ax_policies ax))))) _ _ F2 _).
    apply finishes_ret.
  - cbn [set_lines ax_lines ax_policies ax_segments ax_conflicts]. rewrite Hl.
    repeat (split; [first [reflexivity|assumption|apply Sh]|]). apply Sh.
Qed.
