(** Reachable axes, the whole run on an axis, fixed lines. *)
From Coq Require Import List Arith Bool Lia QArith Qabs Qminmax Lqa Sorting.Sorted Sorting.Permutation.
From Verif Require Import IntervalModel IntervalSpec IntervalProofs IntervalSolveProofs IntervalMeshProofs.
From Verif Require Import ManagerModel ManagerSpec ManagerProofs ManagerMeshProofs.
Import ListNotations.
Open Scope Q_scope.

(** * A sort *)

Fixpoint insert {A : Type} (key : A -> Q) (x : A) (l : list A) : list A :=
  match l with
  | [] => [x]
  | y :: r => if Qle_bool (key x) (key y) then x :: l else y :: insert key x r
  end.

Definition isort : sorter := fun A key l => fold_right (insert key) [] l.

Lemma insert_perm {A} (key : A -> Q) x l : Permutation (x :: l) (insert key x l).
Proof.
  induction l as [|y l IH]; cbn; [reflexivity|]. destruct (Qle_bool (key x) (key y)); [reflexivity|].
  rewrite perm_swap. now apply perm_skip.
Qed.

Lemma insert_sorted {A} (key : A -> Q) x l : StronglySorted (fun x y => key x <= key y) l ->
  StronglySorted (fun x y => key x <= key y) (insert key x l).
Proof.
  induction 1 as [|y l S IH F]; cbn; [repeat constructor|].
  destruct (Qle_bool (key x) (key y)) eqn:E.
  - apply Qle_bool_iff in E. constructor; [now constructor|]. constructor; [assumption|].
    eapply Forall_impl; [|exact F]. intros z Z. cbn in Z. lra.
  - constructor; [assumption|].
    apply Forall_forall. intros z Z. apply (Permutation_in _ (Permutation_sym (insert_perm key x l))) in Z.
    destruct Z as [<-|Z]; [|rewrite Forall_forall in F; now apply F].
    destruct (Qlt_le_dec (key y) (key x)) as [L|L]; [lra|]. apply Qle_bool_iff in L. congruence.
Qed.

Lemma isort_sorts : sorts isort.
Proof.
  intros A key l. unfold isort. induction l as [|x l [P S]]; cbn; [split; constructor|]. split.
  - rewrite <- insert_perm. now apply perm_skip.
  - now apply insert_sorted.
Qed.

(** * Reachable axes *)

Lemma solve_done srt g : sorts srt -> forall n ax ax', detect_and_solve_too_close n g srt ax = Done ax' -> solving g srt ax ax'.
Proof.
  intros S. induction n as [|n IH]; intros ax ax' E; [discriminate|].
  pose proof E as E0. cbn [detect_and_solve_too_close] in E.
  destruct (detect_closest srt ax (g_proximity_limit g)) as [[a b]|] eqn:D; [|inversion E; subst; now constructor].
  destruct (detect_closest_some _ _ _ _ _ S D) as (pa & pb & Ea & Eb & N & _).
  destruct (in_conflict ax a || in_conflict ax b) eqn:C.
  - exfalso. apply orb_true_iff in C. rewrite !in_conflict_spec in C.
    pose proof (solve_stuck g srt ax a b D C (Datatypes.S n)) as H. congruence.
  - apply orb_false_iff in C. rewrite !in_conflict_false in C.
    destruct (turn_ok g ax a b pa pb (proj1 Ea) (proj1 Eb) N (proj1 C) (proj2 C)) as (ax1 & ax2 & A1 & A2 & T).
    rewrite A1 in E. cbn [bind] in E. rewrite A2 in E. cbn [bind] in E.
    eapply solving_turn; try eassumption. now apply IH.
Qed.

Lemma same_consistent p q : same_but_d p q -> consistent p -> consistent q.
Proof. intros (_ & P & N & _). unfold consistent. now rewrite P, N. Qed.

Lemma forall2_forall {A} (R : A -> A -> Prop) (P : A -> Prop) l l' : (forall x y, R x y -> P x -> P y) ->
  Forall2 R l l' -> Forall P l -> Forall P l'.
Proof. intros H F. induction F; intros G; inversion G; subst; constructor; eauto. Qed.

Lemma auto_solve_d_same n b a iv b' a' iv' : auto_solve_d n b a iv = Some (b', a', iv') ->
  same_but_d b b' /\ same_but_d a a'.
Proof.
  unfold auto_solve_d. intros E.
  repeat match type of E with (match ?m with _ => _ end) = _ => destruct m; [|discriminate] end.
  inversion E; subst. split; repeat split.
Qed.

Lemma solve_d_at_consistent n ax i ax' : auto_solve_d_at n ax i = Done ax' -> all_consistent ax -> all_consistent ax'.
Proof.
  unfold auto_solve_d_at. intros E C.
  destruct (read (ax_segments ax) i) as [s| |]; try discriminate. cbn [bind] in E.
  destruct (read (ax_policies ax) (sg_before s)) as [b| |] eqn:Eb; try discriminate. cbn [bind] in E.
  destruct (read (ax_policies ax) (sg_after s)) as [a| |] eqn:Ea; try discriminate. cbn [bind] in E.
  apply read_done in Eb. apply read_done in Ea.
  destruct (auto_solve_d n b a (sg_iv s)) as [[[b' a'] iv']|] eqn:D; try discriminate. cbn [bind lift] in E.
  destruct (write (ax_policies ax) (sg_before s) b') as [l1| |] eqn:W1; try discriminate. cbn [bind] in E.
  destruct (write l1 (sg_after s) a') as [l2| |] eqn:W2; try discriminate. cbn [bind] in E.
  destruct (write (ax_segments ax) i _) as [ss| |]; try discriminate. cbn [bind] in E. inversion E; subst.
  destruct (auto_solve_d_same _ _ _ _ _ _ _ D) as [Sb Sa].
  rewrite all_consistent_at in C.
  unfold all_consistent. cbn [ax_policies set_segments set_policies].
  eapply write_forall; [exact W2| |eapply same_consistent; [exact Sa|exact (C _ _ Ea)]].
  eapply write_forall; [exact W1| |eapply same_consistent; [exact Sb|exact (C _ _ Eb)]].
  now apply all_consistent_at.
Qed.

Lemma solve_s_at_policies n ax i ax' : auto_solve_smoothness_at n ax i = Done ax' -> ax_policies ax' = ax_policies ax.
Proof.
  unfold auto_solve_smoothness_at. intros E.
  destruct (read (ax_segments ax) i) as [s| |]; try discriminate. cbn [bind] in E.
  destruct (read (ax_policies ax) (sg_before s)) as [b| |] eqn:Eb; try discriminate. cbn [bind] in E.
  destruct (read (ax_policies ax) (sg_after s)) as [a| |] eqn:Ea; try discriminate. cbn [bind] in E.
  destruct (auto_solve_smoothness n b a (sg_iv s)) as [iv'|]; try discriminate. cbn [bind lift] in E.
  destruct (write (ax_segments ax) i _) as [ss| |]; try discriminate. cbn [bind] in E. inversion E; subst. reflexivity.
Qed.

Lemma first_pass_consistent n order : forall ax ax', first_pass n ax order = Done ax' -> all_consistent ax -> all_consistent ax'.
Proof.
  induction order as [|i r IH]; intros ax ax' E C; cbn in E; [inversion E; now subst|].
  destruct (auto_solve_d_at n ax i) as [ax1| |] eqn:D; try discriminate. cbn [bind] in E.
  eapply IH; [exact E|]. eapply solve_d_at_consistent; eassumption.
Qed.

Lemma second_pass_consistent n order : forall ax ax' ls, second_pass n ax order = Done (ax', ls) -> all_consistent ax -> all_consistent ax'.
Proof.
  induction order as [|i r IH]; intros ax ax' ls E C; cbn in E; [inversion E; now subst|].
  destruct (auto_solve_d_at n ax i) as [ax1| |] eqn:D; try discriminate. cbn [bind] in E.
  destruct (auto_solve_smoothness_at n ax1 i) as [ax2| |] eqn:D2; try discriminate. cbn [bind] in E.
  destruct (mesh_segment ax2 i) as [c| |]; try discriminate. cbn [bind] in E.
  destruct (second_pass n ax2 r) as [[ax3 ls3]| |] eqn:D3; try discriminate. cbn [bind] in E. inversion E; subst.
  eapply IH; [exact D3|]. unfold all_consistent. rewrite (solve_s_at_policies _ _ _ _ D2).
  eapply solve_d_at_consistent; eassumption.
Qed.

Lemma add_policy_consistent g ax policy normal coord enabled : all_consistent ax ->
  all_consistent (fst (add_meshline_policy g ax policy normal coord enabled)).
Proof.
  intros C. unfold add_meshline_policy. destruct (inconsistent policy normal) eqn:I; [exact C|].
  unfold all_consistent. cbn. apply Forall_app. split; [exact C|]. constructor; [|constructor].
  now apply consistent_dec.
Qed.

Lemma detect_consistent g srt ax ax' : sorts srt -> detect_intervals g srt ax = Done ax' -> all_consistent ax -> all_consistent ax'.
Proof.
  intros S E C. destruct (detect_intervals_ok g srt ax S) as (ax1 & new & l & E1 & _ & _ & _ & Len & _ & _ & _ & K).
  assert (ax1 = ax') by congruence. subst ax1. rewrite all_consistent_at in *. intros i p' P.
  assert (exists p, policy_at ax i p) as (p & P0).
  { unfold policy_at in *. destruct (nth_error (ax_policies ax) i) eqn:N; [eauto|]. apply nth_error_None in N.
    apply nth_lt in P. lia. }
  destruct (K i p P0) as (p2 & P2 & Cl). unfold policy_at in *. assert (p2 = p') by congruence. subst p2.
  eapply same_consistent; [apply Cl|]. eapply C; eassumption.
Qed.

Lemma reached_consistent srt ax : sorts srt -> reached srt ax -> all_consistent ax.
Proof.
  intros S. induction 1.
  - constructor.
  - now apply add_policy_consistent.
  - unfold add_fixed_policies. revert ax H IHreached. induction coords as [|x r IH]; intros ax H C; [exact C|].
    cbn [fold_left]. unfold add_fixed_policy at 2. destruct (existsb _ _); [now apply IH|].
    apply IH; [now constructor|now apply add_policy_consistent].
  - eapply solving_consistent; [|exact IHreached]. eapply solve_done; eassumption.
  - eapply detect_consistent; eassumption.
  - exact IHreached.
  - unfold edit_policy in H0. destruct (inconsistent policy normal) eqn:I; [inversion H0; now subst|].
    destruct (read (ax_policies ax) i) as [p| |]; try discriminate. cbn [bind] in H0.
    destruct (write (ax_policies ax) i _) as [ps| |] eqn:W; try discriminate. inversion H0; subst.
    eapply write_forall; [exact W|exact IHreached|]. now apply consistent_dec.
  - unfold edit_interval in H0. destruct (read (ax_segments ax) i) as [p| |]; try discriminate. cbn [bind] in H0.
    destruct (write (ax_segments ax) i _) as [ps| |] eqn:W; try discriminate. inversion H0; subst. exact IHreached.
  - unfold mesh_axis in H0. destruct (first_pass n ax _) as [ax1| |] eqn:F; try discriminate. cbn [bind] in H0.
    destruct (second_pass n ax1 _) as [[ax2 ls]| |] eqn:G; try discriminate. cbn [bind] in H0. inversion H0; subst.
    change (all_consistent ax2). eapply second_pass_consistent; [exact G|]. eapply first_pass_consistent; eassumption.
Qed.

(** * Solving keeps the lines *)

Lemma d_at_lines n ax i ax' : auto_solve_d_at n ax i = Done ax' -> ax_lines ax' = ax_lines ax.
Proof.
  unfold auto_solve_d_at. intros E.
  destruct (read (ax_segments ax) i) as [s| |]; try discriminate. cbn [bind] in E.
  destruct (read (ax_policies ax) (sg_before s)) as [b| |]; try discriminate. cbn [bind] in E.
  destruct (read (ax_policies ax) (sg_after s)) as [a| |]; try discriminate. cbn [bind] in E.
  destruct (auto_solve_d n b a (sg_iv s)) as [[[b' a'] iv]|]; try discriminate. cbn [lift bind] in E.
  destruct (write _ _ b') as [l1| |]; try discriminate. cbn [bind] in E.
  destruct (write _ _ a') as [l2| |]; try discriminate. cbn [bind] in E.
  destruct (write (ax_segments ax) i _) as [ss| |]; try discriminate. inversion E; subst. reflexivity.
Qed.

Lemma s_at_lines n ax i ax' : auto_solve_smoothness_at n ax i = Done ax' -> ax_lines ax' = ax_lines ax.
Proof.
  unfold auto_solve_smoothness_at. intros E.
  destruct (read (ax_segments ax) i) as [s| |]; try discriminate. cbn [bind] in E.
  destruct (read (ax_policies ax) (sg_before s)) as [b| |]; try discriminate. cbn [bind] in E.
  destruct (read (ax_policies ax) (sg_after s)) as [a| |]; try discriminate. cbn [bind] in E.
  destruct (auto_solve_smoothness n b a (sg_iv s)) as [iv|]; try discriminate. cbn [lift bind] in E.
  destruct (write (ax_segments ax) i _) as [ss| |]; try discriminate. inversion E; subst. reflexivity.
Qed.

Lemma first_pass_lines n order : forall ax ax', first_pass n ax order = Done ax' -> ax_lines ax' = ax_lines ax.
Proof.
  induction order as [|i r IH]; intros ax ax' E; cbn [first_pass] in E; [now inversion E|].
  destruct (auto_solve_d_at n ax i) as [ax1| |] eqn:D; try discriminate. cbn [bind] in E.
  rewrite (IH _ _ E). eapply d_at_lines; eassumption.
Qed.

Lemma second_pass_lines n order : forall ax ax' ls, second_pass n ax order = Done (ax', ls) -> ax_lines ax' = ax_lines ax.
Proof.
  induction order as [|i r IH]; intros ax ax' ls E; cbn [second_pass] in E; [now inversion E|].
  destruct (auto_solve_d_at n ax i) as [ax1| |] eqn:D; try discriminate. cbn [bind] in E.
  destruct (auto_solve_smoothness_at n ax1 i) as [ax2| |] eqn:S; try discriminate. cbn [bind] in E.
  destruct (mesh_segment ax2 i) as [c| |]; try discriminate. cbn [bind] in E.
  destruct (second_pass n ax2 r) as [[ax3 rest]| |] eqn:G; try discriminate. cbn [bind] in E. inversion E; subst.
  rewrite (IH _ _ _ G), (s_at_lines _ _ _ _ S). eapply d_at_lines; eassumption.
Qed.

(** * From detecting the intervals to meshing them *)

Lemma combine_tl_nth {A} (l : list A) x y : In (x, y) (combine l (tl l)) ->
  exists j, nth_error l j = Some x /\ nth_error l (S j) = Some y.
Proof.
  induction l as [|u l IH]; [intros []|]. destruct l as [|v l]; [intros []|].
  cbn [tl combine]. intros [E|I].
  - inversion E; subst. exists 0%nat. now split.
  - destruct (IH I) as (j & H1 & H2). exists (S j). now split.
Qed.

Lemma nodup_nth_neq {A} (l : list A) j x y : NoDup l -> nth_error l j = Some x -> nth_error l (S j) = Some y -> x <> y.
Proof.
  intros N. revert j. induction N as [|u l I N IH]; intros [|j] X Y; try discriminate; cbn in X, Y.
  - inversion X; subst. intros ->. apply I. destruct l; [discriminate|]. cbn in Y. inversion Y; subst. now left.
  - destruct l; [discriminate|]. eapply IH; eassumption.
Qed.

Lemma tile_strict ax l s b a : in_order ax l -> distinct ax ->
  In (sg_before s, sg_after s) (combine l (tl l)) -> policy_at ax (sg_before s) b -> policy_at ax (sg_after s) a ->
  p_coord b < p_coord a.
Proof.
  intros (N & M & O) Di I Pb Pa. destruct (combine_tl_nth _ _ _ I) as (j & H1 & H2).
  pose proof (O j (S j) _ _ _ _ (Nat.lt_succ_diag_r j) H1 H2 Pb Pa) as L.
  assert (Eb : enabled_at ax (sg_before s) b).
  { destruct (proj1 (M _) (nth_error_In _ _ H1)) as (p & P & E). unfold policy_at in *. split; [assumption|]. congruence. }
  assert (Ea : enabled_at ax (sg_after s) a).
  { destruct (proj1 (M _) (nth_error_In _ _ H2)) as (p & P & E). unfold policy_at in *. split; [assumption|]. congruence. }
  pose proof (Di _ _ _ _ (nodup_nth_neq _ _ _ _ N H1 H2) Eb Ea) as Ne.
  destruct (Qlt_le_dec (p_coord b) (p_coord a)) as [K|K]; [assumption|]. exfalso. apply Ne. lra.
Qed.

Definition same_policies (ax ax' : axis) : Prop := Forall2 same_but_d (ax_policies ax) (ax_policies ax').

Lemma same_at ax ax' i p' : same_policies ax ax' -> policy_at ax' i p' -> exists p, policy_at ax i p /\ same_but_d p p'.
Proof. intros S P. exact (forall2_nth_r _ _ _ _ _ S P). Qed.

Lemma same_at_l ax ax' i p : same_policies ax ax' -> policy_at ax i p -> exists p', policy_at ax' i p' /\ same_but_d p p'.
Proof. intros S P. exact (forall2_nth _ _ _ _ _ S P). Qed.

Lemma in_order_same ax ax' l : same_policies ax ax' -> in_order ax l -> in_order ax' l.
Proof.
  intros S (N & M & O). split; [assumption|]. split.
  - intros i. rewrite M. split.
    + intros (p & P & E). destruct (same_at_l _ _ _ _ S P) as (p' & P' & (_ & _ & _ & Q)). exists p'. split; [assumption|congruence].
    + intros (p & P & E). destruct (same_at _ _ _ _ S P) as (p' & P' & (_ & _ & _ & Q)). exists p'. split; [assumption|congruence].
  - intros j k i i' p p' L J K P P'.
    destruct (same_at _ _ _ _ S P) as (q & Q & (C & _)). destruct (same_at _ _ _ _ S P') as (q' & Q' & (C' & _)).
    rewrite <- C, <- C'. eapply O; eassumption.
Qed.

Lemma distinct_same ax ax' : same_policies ax ax' -> distinct ax -> distinct ax'.
Proof.
  intros S D i j p q N [Pi Ei] [Pj Ej].
  destruct (same_at _ _ _ _ S Pi) as (p0 & P0 & (C & _ & _ & En)). destruct (same_at _ _ _ _ S Pj) as (q0 & Q0 & (C' & _ & _ & En')).
  rewrite <- C, <- C'. apply (D i j); [assumption|split; [assumption|congruence]..].
Qed.

Lemma same_of_at ax ax' : length (ax_policies ax') = length (ax_policies ax) ->
  (forall i p, policy_at ax i p -> exists p', policy_at ax' i p' /\ same_but_d p p') -> same_policies ax ax'.
Proof.
  unfold same_policies, policy_at. generalize (ax_policies ax) (ax_policies ax'). clear.
  induction l as [|x l IH]; intros [|y l'] L H; try discriminate; constructor.
  - destruct (H 0%nat x eq_refl) as (p & P & Q). cbn in P. congruence.
  - apply IH; [cbn in L; lia|]. intros i p P. destruct (H (S i) p P) as (p' & P' & Q). now exists p'.
Qed.

Lemma intervals_meshable g srt ax : sorts srt -> 0 < g_dmax g -> 1 <= g_smoothness g ->
  ax_segments ax = [] -> ax_lines ax = [] -> distinct ax -> (forall i p, enabled_at ax i p -> 0 < p_d p) ->
  exists ax' l, detect_intervals g srt ax = Done ax' /\ in_order ax l /\ meshable ax' l /\
    same_policies ax ax' /\ ax_conflicts ax' = ax_conflicts ax /\
    (forall s, In s (ax_segments ax') -> iv_dmax (sg_iv s) = g_dmax g).
Proof.
  intros S D0 S1 E0 L0 Di Pos.
  destruct (detect_intervals_ok g srt ax S) as (ax' & new & l & E & O & Cs & Ls & Len & Ss & T & F & K).
  rewrite E0 in Ss. cbn in Ss. subst new.
  assert (Sp : same_policies ax ax').
  { apply same_of_at; [assumption|]. intros i p P. destruct (K i p P) as (p' & P' & Cl). exists p'. split; [assumption|apply Cl]. }
  exists ax', l. split; [assumption|]. split; [assumption|]. split; [|split; [assumption|split; [assumption|]]].
  - split.
    + eapply in_order_same; eassumption.
    + eapply distinct_same; eassumption.
    + assumption.
    + intros s b a I Pb Pa.
      destruct (F s I) as (b0 & a0 & Pb0 & Pa0 & Ei).
      assert (In (sg_before s, sg_after s) (combine l (tl l))) as J.
      { rewrite <- T. apply in_map_iff. now exists s. }
      pose proof (tile_strict ax l s b0 a0 O Di J Pb0 Pa0) as Lt.
      destruct (same_at _ _ _ _ Sp Pb) as (b1 & Pb1 & (Cb & _)). destruct (same_at _ _ _ _ Sp Pa) as (a1 & Pa1 & (Ca & _)).
      unfold policy_at in *. assert (b1 = b0) by congruence. assert (a1 = a0) by congruence. subst b1 a1.
      assert (Hpos : forall i p, In i l -> nth_error (ax_policies ax') i = Some p -> 0 < p_d p).
      { intros i p Ii P. apply O in Ii. destruct Ii as (p0 & P0 & En).
        destruct (K i p0 P0) as (p1 & P1 & (_ & _ & _ & H)). unfold policy_at in P1. assert (p1 = p) by congruence. subst p1.
        destruct H as [H|(s1 & I1 & _ & H)].
        - rewrite H. apply (Pos i). now split.
        - rewrite H. destruct (F s1 I1) as (b2 & a2 & Pb2 & Pa2 & Ei2). rewrite Ei2. cbn.
          assert (In (sg_before s1, sg_after s1) (combine l (tl l))) as J2.
          { rewrite <- T. apply in_map_iff. now exists s1. }
          pose proof (tile_strict ax l s1 b2 a2 O Di J2 Pb2 Pa2) as Lt2.
          unfold calc_h, coord_distance. rewrite Qabs_neg by lra.
          assert (- (p_coord b2 - p_coord a2) / 2 == (p_coord a2 - p_coord b2) * (1 # 2)) as -> by field. lra. }
      destruct (combine_tl_nth _ _ _ J) as (j & N1 & N2).
      split; rewrite <- ?Cb, <- ?Ca, ?Ei; cbn; try assumption.
      * unfold calc_h, coord_distance. rewrite Qabs_neg by lra. field.
      * unfold coord_mid. field.
      * apply (Hpos (sg_before s)); [eapply nth_error_In; eassumption|assumption].
      * apply (Hpos (sg_after s)); [eapply nth_error_In; eassumption|assumption].
    + now rewrite Ls.
  - intros s I. destruct (F s I) as (b0 & a0 & _ & _ & ->). reflexivity.
Qed.

Lemma apply_zone_same z s : sg_before (apply_zone z s) = sg_before s /\ sg_after (apply_zone z s) = sg_after s /\
  (sg_iv (apply_zone z s) = sg_iv s \/ sg_iv (apply_zone z s) = set_dmax (sg_iv s) (z_dmax z)).
Proof. unfold apply_zone. destruct (in_zone z _); cbn; repeat split; tauto. Qed.

Lemma apply_zones_cons z zs ax : apply_zones (z :: zs) ax = apply_zones zs (set_segments ax (map (apply_zone z) (ax_segments ax))).
Proof. reflexivity. Qed.

Lemma zones_meshable l zs : Forall (fun z => 0 < z_dmax z) zs -> forall ax, meshable ax l -> meshable (apply_zones zs ax) l.
Proof.
  induction 1 as [|z zs Z _ IH]; intros ax M; [destruct ax; exact M|]. rewrite apply_zones_cons. apply IH.
  destruct M as [O D T R L]. split; try assumption.
  - cbn. rewrite map_map, <- T. apply map_ext. intros s. destruct (apply_zone_same z s) as (-> & -> & _). reflexivity.
  - cbn. intros s b a I Pb Pa. apply in_map_iff in I. destruct I as (s0 & <- & I).
    destruct (apply_zone_same z s0) as (Eb & Ea & Ei). rewrite Eb in Pb. rewrite Ea in Pa.
    pose proof (R s0 b a I Pb Pa) as Rd. destruct Ei as [->| ->]; [assumption|]. destruct Rd. split; cbn; assumption.
Qed.

Lemma zones_dmax D zs : Forall (fun z => z_dmax z <= D) zs -> forall ax,
  (forall s, In s (ax_segments ax) -> iv_dmax (sg_iv s) <= D) ->
  forall s, In s (ax_segments (apply_zones zs ax)) -> iv_dmax (sg_iv s) <= D.
Proof.
  induction 1 as [|z zs Z _ IH]; intros ax H; [exact H|]. rewrite apply_zones_cons. apply IH.
  cbn. intros s I. apply in_map_iff in I. destruct I as (s0 & <- & I).
  destruct (apply_zone_same z s0) as (_ & _ & [->| ->]); [auto|]. exact Z.
Qed.

(** * What the lines of a meshed axis are *)

Lemma laid_out_oneline l p : In p l -> p_policy p = ONELINE -> forall cs, length l = S (length cs) -> In (p_coord p) (laid_out l cs).
Proof.
  induction l as [|q l IH]; intros I O cs L; [destruct I|]. cbn [laid_out]. apply in_app_iff.
  destruct I as [->|I].
  - left. rewrite O. now left.
  - right. destruct cs as [|c cs]; [destruct l; [destruct I|cbn in L; lia]|]. apply in_app_iff. right. apply IH; auto.
Qed.

Lemma laid_out_cell l : forall cs c x, length l = S (length cs) -> In c cs -> In x c -> In x (laid_out l cs).
Proof.
  induction l as [|q l IH]; intros cs c x L I X; [cbn in L; lia|]. cbn [laid_out]. apply in_app_iff. right.
  destruct cs as [|c0 cs]; [destruct I|]. apply in_app_iff. destruct I as [->|I]; [now left|]. right. eapply IH; eauto.
Qed.

Lemma row_length D l cs : row D l cs -> length l = S (length cs).
Proof. induction 1; cbn in *; congruence. Qed.

Lemma increasing_before c a : increasing (c ++ [a]) -> forall x, In x c -> x < a.
Proof.
  induction c as [|y c IH]; intros I x X; [destruct X|]. destruct X as [->|X].
  - apply (increasing_lt x (c ++ [a]) I). apply in_app_iff. right. now left.
  - apply IH; [|assumption]. apply increasing_tl in I. exact I.
Qed.

Lemma row_inside D l cs : row D l cs -> forall x, In x (laid_out l cs) ->
  (exists p, In p l /\ p_policy p = ONELINE /\ x = p_coord p) \/
  (exists p q, In p l /\ In q l /\ p_coord p < x < p_coord q).
Proof.
  assert (One : forall p x (k : list mlp), In x (if is_oneline (p_policy p) then [p_coord p] else []) -> In p k ->
    exists p, In p k /\ p_policy p = ONELINE /\ x = p_coord p).
  { intros p x k X I. exists p. destruct (p_policy p); cbn in X; [|destruct X..]. destruct X as [<-|[]]. now split. }
  induction 1 as [p|b a r c cs C R IH]; intros x X; cbn [laid_out] in X.
  - left. rewrite app_nil_r in X. eapply One; [exact X|now left].
  - apply in_app_iff in X. destruct X as [X|X]; [left; eapply One; [exact X|now left]|].
    apply in_app_iff in X. destruct X as [X|X].
    + right. exists b, a. split; [now left|]. split; [right; now left|].
      pose proof (ce_increasing _ _ _ _ C) as I. split.
      * apply (increasing_lt _ _ I). apply in_app_iff. now left.
      * apply increasing_tl in I. now apply (increasing_before c).
    + destruct (IH x X) as [(p & I & H)|(p & q & I & J & H)].
      * left. exists p. split; [now right|assumption].
      * right. exists p, q. split; [now right|]. split; [now right|assumption].
Qed.

(** The lines from the policy [b] to the policy [a]. *)
Definition part (b a : mlp) (c : list Q) : list Q :=
  (if is_oneline (p_policy b) then [p_coord b] else []) ++ c ++ (if is_oneline (p_policy a) then [p_coord a] else []).

Lemma laid_out_cons p r c cs : laid_out (p :: r) (c :: cs) = (if is_oneline (p_policy p) then [p_coord p] else []) ++ c ++ laid_out r cs.
Proof. reflexivity. Qed.

Lemma row_part D l cs : row D l cs -> forall k c b a, nth_error cs k = Some c -> nth_error l k = Some b -> nth_error l (S k) = Some a ->
  cell D b a c /\ (forall x, In x (part b a c) -> In x (laid_out l cs)) /\
  (forall x, In x (laid_out l cs) -> p_coord b <= x <= p_coord a -> In x (part b a c)).
Proof.
  assert (Low : forall D l cs, row D l cs -> forall p r, l = p :: r -> (forall q, In q r -> p_coord p < p_coord q) /\
    forall x, In x (laid_out l cs) -> p_coord p < x \/ (is_oneline (p_policy p) = true /\ x = p_coord p)).
  { clear. intros D l cs R. induction R as [p|b a r c cs C R IH]; intros q r' E; injection E as <- <-.
    - split; [intros q []|]. intros x X. cbn in X. rewrite app_nil_r in X. destruct (is_oneline (p_policy p)); [|destruct X]. destruct X as [<-|[]]. now right.
    - destruct (IH a r eq_refl) as [Lr Lx]. pose proof (ce_increasing _ _ _ _ C) as I.
      assert (Lba : p_coord b < p_coord a) by (apply (increasing_lt _ _ I), in_or_app; right; now left). split.
      + intros q [<-|Q]; [assumption|]. specialize (Lr q Q). lra.
      + intros x X. rewrite laid_out_cons in X. apply in_app_iff in X. destruct X as [X|X]; [|left; apply in_app_iff in X; destruct X as [X|X]].
        * destruct (is_oneline (p_policy b)); [|destruct X]. destruct X as [<-|[]]. now right.
        * apply (increasing_lt _ _ I), in_or_app. now left.
        * destruct (Lx x X) as [H|[_ ->]]; lra. }
  induction 1 as [p|b0 a0 r c0 cs C R IH]; intros k c b a Kc Kb Ka; [destruct k; discriminate|].
  destruct (Low _ _ _ R a0 r eq_refl) as [Lr Lx]. pose proof (ce_increasing _ _ _ _ C) as I.
  assert (Lba : p_coord b0 < p_coord a0) by (apply (increasing_lt _ _ I), in_or_app; right; now left).
  destruct k as [|k].
  - cbn in Kc, Kb, Ka. injection Kc as <-. injection Kb as <-. injection Ka as <-. split; [assumption|]. unfold part. rewrite laid_out_cons. split.
    + intros x X. rewrite !in_app_iff in *. destruct X as [X|[X|X]]; [tauto..|]. right. right. cbn [laid_out]. apply in_app_iff. now left.
    + intros x X B. rewrite !in_app_iff in *. destruct X as [X|[X|X]]; [tauto..|].
      destruct (Lx x X) as [H|[O ->]]; [lra|]. rewrite O. right. right. now left.
  - cbn in Kc, Kb. change (nth_error (a0 :: r) (S k) = Some a) in Ka. destruct (IH k c b a Kc Kb Ka) as (Ce & In1 & In2). split; [assumption|]. split.
    + intros x X. rewrite laid_out_cons, !in_app_iff. right. right. now apply In1.
    + intros x X B. assert (Gb : p_coord a0 <= p_coord b).
      { destruct k as [|k]; [cbn in Kb; injection Kb as <-; lra|]. cbn in Kb. specialize (Lr b (nth_error_In _ _ Kb)). lra. }
      rewrite laid_out_cons, !in_app_iff in X. destruct X as [X|[X|X]].
      * destruct (is_oneline (p_policy b0)); [|destruct X]. destruct X as [<-|[]]. lra.
      * apply increasing_tl in I. pose proof (increasing_before c0 _ I x X). lra.
      * now apply In2.
Qed.

Lemma increasing_app_l l l' : increasing (l ++ l') -> increasing l.
Proof. induction l as [|x [|y l] IH]; intros H; [exact I|exact I|]. destruct H as [H1 H2]. split; [assumption|now apply IH]. Qed.

Lemma part_increasing D b a c : cell D b a c -> increasing (part b a c).
Proof.
  intros C. pose proof (ce_increasing _ _ _ _ C) as I. unfold part.
  assert (J : increasing (p_coord b :: c ++ (if is_oneline (p_policy a) then [p_coord a] else []))).
  { destruct (is_oneline (p_policy a)); [assumption|]. rewrite app_nil_r. now apply (increasing_app_l (p_coord b :: c) [p_coord a]). }
  destruct (is_oneline (p_policy b)); [exact J|now apply increasing_tl in J].
Qed.

Lemma within_next D l x y : increasing l -> within D l -> next_line l x y -> y - x <= D.
Proof.
  intros I W (X & Y & L & Z). induction l as [|a [|b l] IH]; [destruct X|destruct X as [<-|[]], Y as [<-|[]]; lra|].
  pose proof (increasing_lt _ _ I) as Lt. destruct I as [Lab I], W as [Wab W]. destruct X as [<-|X].
  - destruct (Z b ltac:(right; now left)) as [H|H]; lra.
  - destruct Y as [<-|Y]; [specialize (Lt x X); lra|]. apply IH; try assumption. intros z Hz. apply Z. now right.
Qed.

Lemma part_reach D b a c : cell D b a c -> (exists x, In x (part b a c) /\ p_coord b <= x <= p_coord b + D) /\
  (exists y, In y (part b a c) /\ p_coord a - D <= y <= p_coord a).
Proof.
  intros C. pose proof (ce_increasing _ _ _ _ C) as I. unfold part.
  assert (Lba : p_coord b < p_coord a) by (apply (increasing_lt _ _ I), in_or_app; right; now left).
  assert (D0 : 0 < D \/ (is_oneline (p_policy b) = true /\ is_oneline (p_policy a) = true)).
  { destruct (is_oneline (p_policy b)) eqn:E1; [|destruct (ce_first _ _ _ _ C E1) as (d & _ & _ & H); left; lra].
    destruct (is_oneline (p_policy a)) eqn:E2; [|destruct (ce_last _ _ _ _ C E2) as (d & _ & _ & H); left; lra]. now right. }
  assert (Dp : 0 < D).
  { destruct D0 as [H|[H1 H2]]; [assumption|]. pose proof (ce_within _ _ _ _ C) as W. rewrite H1 in W.
    destruct (ce_middle _ _ _ _ C) as (m & M & _). destruct c as [|x c]; [destruct M|]. destruct W as [W _], I as [I _]. lra. }
  split.
  - destruct (is_oneline (p_policy b)) eqn:E1; [exists (p_coord b); split; [now left|lra]|].
    destruct (ce_first _ _ _ _ C E1) as (d & r & -> & H). exists (p_coord b + d_init_before b d). split; [now left|].
    pose proof (di_le d_init_before b d before_proportional ltac:(lra)). lra.
  - destruct (is_oneline (p_policy a)) eqn:E1; [exists (p_coord a); split; [rewrite !in_app_iff; right; right; now left|lra]|].
    destruct (ce_last _ _ _ _ C E1) as (d & r & -> & H). exists (p_coord a - d_init_after a d).
    split; [rewrite !in_app_iff; right; left; right; now left|].
    pose proof (di_le d_init_after a d after_proportional ltac:(lra)). lra.
Qed.

(** The same, with the [dmax] of the interval. *)
Lemma part_of ax l pl cells k s c b a : in_order ax l -> map (fun s => (sg_before s, sg_after s)) (ax_segments ax) = combine l (tl l) ->
  Forall2 (policy_at ax) l pl -> Forall2 (segment_cell ax) (ax_segments ax) cells ->
  nth_error (ax_segments ax) k = Some s -> nth_error cells k = Some c -> policy_at ax (sg_before s) b -> policy_at ax (sg_after s) a ->
  cell (iv_dmax (sg_iv s)) b a c /\ nth_error pl k = Some b /\ nth_error pl (S k) = Some a.
Proof.
  intros O T Fp Fc K Kc Pb Pa. destruct (forall2_nth _ _ _ _ _ Fc K) as (c' & Kc' & (b' & a' & Pb' & Pa' & Ce)). unfold policy_at in *.
  assert (b' = b) by congruence. assert (a' = a) by congruence. assert (c' = c) by congruence. subst b' a' c'. split; [assumption|].
  assert (Kl : nth_error (combine l (tl l)) k = Some (sg_before s, sg_after s)) by (rewrite <- T; now rewrite nth_error_map, K).
  assert (nth_error l k = Some (sg_before s) /\ nth_error l (S k) = Some (sg_after s)) as [K1 K2].
  { clear - Kl. revert k Kl. induction l as [|x [|y l] IH]; intros k Kl; [destruct k; discriminate..|]. destruct k as [|k]; [cbn in Kl; now injection Kl as <- <-|].
    apply (IH k Kl). }
  destruct (forall2_nth _ _ _ _ _ Fp K1) as (p1 & Q1 & P1). destruct (forall2_nth _ _ _ _ _ Fp K2) as (p2 & Q2 & P2).
  split; congruence.
Qed.

Lemma mesh_axis_meshed srt ax l : sorts srt -> meshable ax l ->
  exists ax', finishes (fun n => mesh_axis n srt ax) ax' /\ meshed ax (ax_lines ax') /\
    same_policies ax ax' /\ ax_conflicts ax' = ax_conflicts ax.
Proof.
  intros S M. destruct (mesh_axis_ok srt ax l S M) as (ax' & pl & cells & F & Fp & Fc & E & Inc & Lo & _ & Cs).
  exists ax'. split; [assumption|]. split; [|split; [|assumption]].
  2:{ eapply forall2_impl; [|exact Lo]. intros x y [H _]. exact H. }
  pose proof (me_order _ _ M) as (N & Me & _).
  assert (Inl : forall p, In p pl -> exists i, In i l /\ enabled_at ax i p).
  { intros p I. apply In_nth_error in I. destruct I as (k & K). destruct (forall2_nth_r _ _ _ _ _ Fp K) as (i & Ki & P).
    exists i. split; [eapply nth_error_In; eassumption|]. pose proof (nth_error_In _ _ Ki) as J. apply Me in J.
    destruct J as (p' & P' & En). unfold policy_at in *. split; [assumption|congruence]. }
  destruct (list_eq_dec Nat.eq_dec l []) as [->|Nl].
  - inversion Fp; subst. assert (ax_segments ax = []) as E0 by (pose proof (me_tiles _ _ M) as T; destruct (ax_segments ax); [reflexivity|discriminate]).
    rewrite E0 in Fc. inversion Fc; subst. cbn in E. rewrite E. split; try (intros; contradiction); try exact I.
    + intros i p En. exfalso. assert (In i []) as [] by (apply Me; eauto).
    + rewrite E0. intros s b a [].
    + intros; exact I.
    + rewrite E0. intros s b a x y [].
    + rewrite E0. intros s b a [].
  - destruct (max_dmax (ax_segments ax)) as (D & HD).
    pose proof (make_row ax D l _ _ _ (me_tiles _ _ M) Fp Fc HD Nl) as Rw.
    rewrite E. split; [now rewrite <- E| | | | | |].
    + intros x X. destruct (row_inside D _ _ Rw x X) as [(p & Ip & H)|(p & q & Ip & Iq & H)].
      * left. destruct (Inl p Ip) as (i & _ & Ei). exists i, p. now split.
      * right. destruct (Inl p Ip) as (i & _ & Ei). destruct (Inl q Iq) as (j & _ & Ej). exists i, p, j, q. now split.
    + intros i p En O. assert (In i l) as Ii by (apply Me; eauto). apply In_nth_error in Ii. destruct Ii as (k & K).
      destruct (forall2_nth _ _ _ _ _ Fp K) as (p' & Kp & P'). destruct En as [P En]. unfold policy_at in *.
      assert (p' = p) by congruence. subst p'. apply laid_out_oneline; [eapply nth_error_In; eassumption|assumption|eapply row_length; eassumption].
    + intros s b a Is Pb Pa. apply In_nth_error in Is. destruct Is as (k & K).
      destruct (forall2_nth _ _ _ _ _ Fc K) as (c & Kc & (b' & a' & Pb' & Pa' & Ce)). unfold policy_at in *.
      assert (b' = b) by congruence. assert (a' = a) by congruence. subst b' a'.
      destruct (ce_middle _ _ _ _ Ce) as (m & Im & Em). exists m. split; [|assumption].
      eapply laid_out_cell; [eapply row_length; eassumption|eapply nth_error_In; eassumption|assumption].
    + intros C D' HD'. apply row_within.
      * eapply make_row; try eassumption. apply (me_tiles _ _ M).
      * apply Forall_forall. intros p I. destruct (Inl p I) as (i & _ & (P & _)). rewrite all_consistent_at in C. eauto.
    + intros s b a x y Is Pb Pa (X & Y & L & Z) Lx Ly. apply In_nth_error in Is. destruct Is as (k & K).
      destruct (forall2_nth _ _ _ _ _ Fc K) as (c & Kc & _).
      destruct (part_of _ _ _ _ _ _ _ _ _ (me_order _ _ M) (me_tiles _ _ M) Fp Fc K Kc Pb Pa) as (Ce & Kb & Ka).
      destruct (row_part D _ _ Rw k c b a Kc Kb Ka) as (_ & In1 & In2).
      apply (within_next _ (part b a c) x y); [eapply part_increasing; eassumption|exact (ce_within _ _ _ _ Ce)|].
      split; [apply In2; [assumption|lra]|]. split; [apply In2; [assumption|lra]|]. split; [assumption|]. intros z Hz. apply Z. now apply In1.
    + intros s b a Is Pb Pa. apply In_nth_error in Is. destruct Is as (k & K).
      destruct (forall2_nth _ _ _ _ _ Fc K) as (c & Kc & _).
      destruct (part_of _ _ _ _ _ _ _ _ _ (me_order _ _ M) (me_tiles _ _ M) Fp Fc K Kc Pb Pa) as (Ce & Kb & Ka).
      destruct (row_part D _ _ Rw k c b a Kc Kb Ka) as (_ & In1 & _).
      destruct (part_reach _ _ _ _ Ce) as [(x & X & Hx) (y & Y & Hy)].
      split; [exists x; split; [now apply In1|assumption]|exists y; split; [now apply In1|assumption]].
Qed.

(** * Solved conflicts *)

Lemma merged_kind a b policy normal coord : consistent a -> consistent b -> merged a b = Some (policy, normal, coord) ->
  (policy = ONELINE <-> p_policy a = ONELINE \/ p_policy b = ONELINE) /\
  (forall n, policy = THIRDS /\ normal = n <->
     p_policy a = THIRDS /\ p_normal a = n /\ p_policy b = THIRDS /\ p_normal b = n).
Proof.
  unfold merged, consistent. intros Ca Cb E.
  destruct (p_policy a), (p_policy b); try destruct (p_normal a), (p_normal b); inversion E; subst; clear E;
  (split; [split; [intros H; try discriminate; tauto|intros [H|H]; discriminate || reflexivity]|];
   intros n; split; [intros [H1 H2]; try discriminate; subst; repeat split
                    |intros (H1 & H2 & H3 & H4); try discriminate; subst; try discriminate; now split]).
Qed.

Lemma merged_between a b policy normal coord : merged a b = Some (policy, normal, coord) ->
  between (p_coord a) (p_coord b) coord.
Proof.
  intros E. pose proof (merged_facts _ _ _ _ _ E) as H. rewrite half_mid in H. unfold between.
  destruct (Qlt_le_dec (p_coord a) (p_coord b)) as [L|L]; [left|right];
    destruct H as [(_ & _ & _ & H)|[(_ & _ & _ & H)|[(_ & _ & _ & H)|(_ & _ & _ & H)]]]; rewrite H; lra.
Qed.

Lemma disable_off p : p_enabled p = false -> disable p = p.
Proof. destruct p; cbn. now intros ->. Qed.

Lemma turn_well_solved g ax a b pa pb ax' : turn g ax a b pa pb ax' -> a <> b ->
  policy_at ax a pa -> policy_at ax b pb -> all_consistent ax ->
  Forall (well_solved ax) (ax_conflicts ax) -> Forall (well_solved ax') (ax_conflicts ax').
Proof.
  intros T N Pa Pb C F. rewrite all_consistent_at in C.
  destruct (merged_consistent pa pb (C _ _ Pa) (C _ _ Pb)) as (pol & nrm & co & M & I).
  pose proof (tu_new _ _ _ _ _ _ _ T) as New. rewrite M, I in New. destruct New as (Len & Pn & Cs).
  rewrite Cs. apply Forall_app. split.
  - eapply Forall_impl; [|exact F]. intros c (k & qa & qb & qk & S & Nc & La & Lb & Qa & Qb & Qk & Da & Db & Bt & K1 & K2).
    assert (exists qk', policy_at ax' k qk' /\ p_coord qk' = p_coord qk /\ p_policy qk' = p_policy qk /\ p_normal qk' = p_normal qk) as (qk' & Qk' & E1 & E2 & E3).
    { destruct (turn_frame _ _ _ _ _ _ _ _ _ T Pa Pb Qk) as [H|H]; eexists; (split; [exact H|repeat split]). }
    assert (Qa' : policy_at ax' (tc_a c) qa).
    { destruct (turn_frame _ _ _ _ _ _ _ _ _ T Pa Pb Qa) as [H|H]; [exact H|now rewrite (disable_off _ Da) in H]. }
    assert (Qb' : policy_at ax' (tc_b c) qb).
    { destruct (turn_frame _ _ _ _ _ _ _ _ _ T Pa Pb Qb) as [H|H]; [exact H|now rewrite (disable_off _ Db) in H]. }
    exists k, qa, qb, qk'. rewrite E1, E2, E3. repeat (split; [assumption|]). assumption.
  - constructor; [|constructor]. destruct (merged_kind _ _ _ _ _ (C _ _ Pa) (C _ _ Pb) M) as [K1 K2].
    exists (length (ax_policies ax)), (disable pa), (disable pb), (new_policy g pol nrm co true). cbn [tc_a tc_b tc_solution].
    split; [reflexivity|]. split; [assumption|]. split; [eapply nth_lt; exact Pa|]. split; [eapply nth_lt; exact Pb|].
    split; [apply (tu_a _ _ _ _ _ _ _ T)|]. split; [apply (tu_b _ _ _ _ _ _ _ T)|]. split; [assumption|].
    split; [reflexivity|]. split; [reflexivity|]. cbn. split; [now apply (merged_between _ _ _ _ _ M)|]. split; assumption.
Qed.

Lemma solving_well_solved g srt ax ax' : solving g srt ax ax' -> all_consistent ax ->
  Forall (well_solved ax) (ax_conflicts ax) -> Forall (well_solved ax') (ax_conflicts ax').
Proof.
  intros H. induction H; intros C F; [assumption|]. apply IHsolving.
  - eapply turn_consistent; try eassumption; [apply H0|apply H1].
  - eapply turn_well_solved; try eassumption; [apply H0|apply H1].
Qed.

Lemma replaced_oneline ax i j p q : Forall (well_solved ax) (ax_conflicts ax) -> replaced_by ax i j ->
  policy_at ax i p -> policy_at ax j q -> p_policy p = ONELINE -> p_policy q = ONELINE.
Proof.
  intros F R. revert p. induction R as [i|i c k j Ic Hi Hs R IH]; intros p P Q O; [unfold policy_at in *; congruence|].
  rewrite Forall_forall in F. destruct (F c Ic) as (k' & pa & pb & pk & S & _ & _ & _ & Pa & Pb & Pk & _ & _ & _ & K1 & _).
  assert (k' = k) by congruence. subst k'. apply (IH pk Pk Q). apply K1. unfold policy_at in *.
  destruct Hi as [<-|<-]; [left|right]; congruence.
Qed.

(** [d] stays positive. *)
Lemma solving_pos g srt ax ax' : 0 < g_dmax g -> solving g srt ax ax' -> (forall i p, enabled_at ax i p -> 0 < p_d p) ->
  forall i p, enabled_at ax' i p -> 0 < p_d p.
Proof.
  intros D H. induction H; intros P; [assumption|]. apply IHsolving. intros i p E.
  destruct (turn_enabled _ _ _ _ _ _ _ _ _ H3 E) as [(_ & _ & E0)|(pol & nrm & co & _ & _ & _ & ->)]; [eauto|].
  cbn. assert (g_dmax g / 2 == g_dmax g * (1 # 2)) as -> by field. lra.
Qed.

(** Where the policies that were enabled end up. *)
Lemma solving_moved g srt ax ax' i p : sorts srt -> solving g srt ax ax' -> all_consistent ax ->
  enabled_at ax i p -> 0 <= g_proximity_limit g ->
  exists j q, enabled_at ax' j q /\ replaced_by ax' i j /\ gap p q <= (5 # 2) * g_proximity_limit g.
Proof.
  intros S H C E L. destruct (solving_near g srt ax ax' S H C (p_coord p) i) as (j & q & Ej & R & (B & _)).
  { exists i, p. split; [assumption|]. split; [constructor|]. split.
    - setoid_replace (p_coord p - p_coord p) with 0 by ring. rewrite Qabs_pos by lra. lra.
    - intros k r _ _. setoid_replace (p_coord p - p_coord p) with 0 by ring. rewrite Qabs_pos by lra.
      pose proof (reach_factor_ge p). unfold gap. pose proof (Qabs_nonneg (p_coord p - p_coord r)). nra. }
  exists j, q. split; [assumption|]. split; [assumption|]. exact B.
Qed.

Lemma apart_distinct limit ax : 0 <= limit ->
  (forall i j p q, i <> j -> enabled_at ax i p -> enabled_at ax j q -> limit < gap p q) -> distinct ax.
Proof.
  intros L H i j p q N Ei Ej E. pose proof (H i j p q N Ei Ej) as K. unfold gap in K.
  setoid_replace (p_coord p - p_coord q) with 0 in K by lra. rewrite Qabs_pos in K; lra.
Qed.

(** * Fixed lines *)

Lemma coord_eqb_spec a b : coord_eqb a b = true <-> Qabs (a - b) < 1 # 100000000.
Proof. unfold coord_eqb. rewrite Qltb_lt. reflexivity. Qed.

Lemma fixed_spec g ax x : (has_oneline_near ax x /\ add_fixed_policy g ax x = ax) \/
  (~ has_oneline_near ax x /\ add_fixed_policy g ax x = set_policies ax (ax_policies ax ++ [new_policy g ONELINE NNONE x true])).
Proof.
  unfold add_fixed_policy. destruct (existsb _ _) eqn:E.
  - left. split; [|reflexivity]. apply existsb_exists in E. destruct E as (p & I & H).
    apply andb_true_iff in H. destruct H as [H H3]. apply andb_true_iff in H. destruct H as [H1 H2].
    exists p. split; [assumption|]. split; [now destruct (p_policy p)|]. split; [now destruct (p_normal p)|]. now apply coord_eqb_spec.
  - right. split; [|reflexivity]. intros (p & I & H1 & H2 & H3).
    assert (existsb (fun p => is_oneline (p_policy p) && match p_normal p with NNONE => true | _ => false end && coord_eqb (p_coord p) x) (ax_policies ax) = true); [|congruence].
    apply existsb_exists. exists p. split; [assumption|]. rewrite H1, H2. cbn. now apply coord_eqb_spec.
Qed.

Lemma near_mono ax ax' x : (exists l, ax_policies ax' = ax_policies ax ++ l) -> has_oneline_near ax x -> has_oneline_near ax' x.
Proof. intros (l & E) (p & I & H). exists p. rewrite E. split; [apply in_app_iff; now left|assumption]. Qed.

Lemma fixed_appends g coords : forall ax, exists l, add_fixed_policies g ax coords = set_policies ax (ax_policies ax ++ l) /\
  Forall (fun p => exists x, In x coords /\ p = new_policy g ONELINE NNONE x true) l.
Proof.
  induction coords as [|x r IH]; intros ax.
  - exists []. split; [|constructor]. rewrite app_nil_r. destruct ax; reflexivity.
  - cbn [add_fixed_policies fold_left]. fold (add_fixed_policies g (add_fixed_policy g ax x) r).
    destruct (fixed_spec g ax x) as [(_ & ->)|(_ & ->)].
    + destruct (IH ax) as (l & E & F). exists l. split; [assumption|]. eapply Forall_impl; [|exact F]. intros p (y & Y & ->). exists y. split; [now right|reflexivity].
    + destruct (IH (set_policies ax (ax_policies ax ++ [new_policy g ONELINE NNONE x true]))) as (l & E & F).
      exists (new_policy g ONELINE NNONE x true :: l). split.
      * rewrite E. cbn. rewrite <- app_assoc. reflexivity.
      * constructor; [exists x; split; [now left|reflexivity]|]. eapply Forall_impl; [|exact F]. intros p (y & Y & ->). exists y. split; [now right|reflexivity].
Qed.

Lemma fixed_near g coords : forall ax x, In x coords -> has_oneline_near (add_fixed_policies g ax coords) x.
Proof.
  induction coords as [|y r IH]; intros ax x I; [destruct I|].
  cbn [add_fixed_policies fold_left]. fold (add_fixed_policies g (add_fixed_policy g ax y) r).
  destruct I as [->|I]; [|now apply IH].
  destruct (fixed_appends g r (add_fixed_policy g ax x)) as (l & E & _).
  apply near_mono with (add_fixed_policy g ax x); [exists l; now rewrite E|].
  destruct (fixed_spec g ax x) as [(H & ->)|(_ & ->)]; [assumption|].
  exists (new_policy g ONELINE NNONE x true). split; [apply in_app_iff; right; now left|]. split; [reflexivity|]. split; [reflexivity|].
  cbn [p_coord new_policy]. setoid_replace (x - x) with 0 by ring. reflexivity.
Qed.

Lemma fixed_noop g coords : forall ax, (forall x, In x coords -> has_oneline_near ax x) -> add_fixed_policies g ax coords = ax.
Proof.
  induction coords as [|y r IH]; intros ax H; [reflexivity|].
  cbn [add_fixed_policies fold_left]. fold (add_fixed_policies g (add_fixed_policy g ax y) r).
  destruct (fixed_spec g ax y) as [(_ & ->)|(K & _)]; [apply IH; intros; apply H; now right|].
  exfalso. apply K, H. now left.
Qed.
