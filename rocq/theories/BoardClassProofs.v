(** The policies of a whole run: one for each class of colinear edges. *)
From Coq Require Import List Arith Bool Lia QArith Qabs Lqa Sorting.Sorted Sorting.Permutation.
From Verif Require Import IntervalModel ManagerModel GeomModel GeomSpec BoardModel BoardSpec BoardProofs BoardColinearProofs BoardSolveProofs BoardCoverProofs.
From Verif Require Import BoardDetectProofs BoardBuiltProofs BoardAdjustProofs BoardIndividualProofs BoardRunProofs.
Import ListNotations.
Open Scope Q_scope.

Lemma axis_at_across b i ax : axis_at b i ax <-> exists x, across b ax i x.
Proof.
  unfold axis_at, across, edge_axis, axis_of_seg. split.
  - intros (e & E & A). destruct (seg_axis (e_seg e)) eqn:X; try (destruct (e_plane e); discriminate).
    + exists (level VH (s0 (e_seg e))), e, VH. split; [assumption|]. split; [assumption|]. split; [|reflexivity]. destruct (e_plane e); cbn in *; congruence.
    + exists (level VV (s0 (e_seg e))), e, VV. split; [assumption|]. split; [assumption|]. split; [|reflexivity]. destruct (e_plane e); cbn in *; congruence.
  - intros (x & e & v & E & V & A & _). exists e. split; [assumption|]. rewrite V, A. destruct v, (e_plane e); reflexivity.
Qed.

Lemma colinear_at_refl b i ax : axis_at b i ax -> colinear_at b i i.
Proof.
  rewrite axis_at_across. intros (x & e & v & E & V & _). exists e, e. split; [assumption|]. split; [assumption|]. split; [reflexivity|]. exists v.
  split; [assumption|]. split; [assumption|]. unfold Qminus. rewrite Qplus_opp_r. reflexivity.
Qed.

Lemma edges_at_in b c es : edges_at b c es -> (forall e, In e es -> exists i, In i c /\ edge_at b i e) /\ (forall i, In i c -> exists e, In e es /\ edge_at b i e).
Proof.
  induction 1 as [|i e c es E F [I1 I2]]; [split; intros ? []|]. split.
  - intros x [<-|I]; [exists i; split; [now left|assumption]|]. destruct (I1 x I) as (j & J & K). exists j. split; [now right|assumption].
  - intros x [<-|I]; [exists e; split; [now left|assumption]|]. destruct (I2 x I) as (j & J & K). exists j. split; [now right|assumption].
Qed.

(** The class of the head of a group is the group. *)
Lemma class_of_group b c es i : edges_at b c es -> In i c -> (forall j, In j c <-> colinear_at b i j) -> forall n, some_faces es n <-> class_faces b i n.
Proof.
  intros E I K n. destruct (edges_at_in b c es E) as [I1 I2]. split.
  - intros (e & Ie & M & F). destruct (I1 e Ie) as (j & J & Ej). exists j, e. split; [assumption|]. split; [now apply K|]. now split.
  - intros (j & f & Ej & C & M & F). apply K in C. destruct (I2 j C) as (e & Ie & Ej'). assert (e = f) as -> by (unfold edge_at in *; congruence). exists f. now repeat split.
Qed.

Lemma fits_class b es i policy normal : (forall n, some_faces es n <-> class_faces b i n) -> fits es policy normal -> class_fits b i policy normal.
Proof. intros K. unfold fits, class_fits. destruct policy; rewrite ?K; tauto. Qed.

(** What the groups of an axis are, when colinear means colinear. *)
Definition classes (b : board) (ax : Axis3) : Prop :=
  forall c, In c (groups b ax) -> forall i, In i c -> axis_at b i ax /\ forall j, In j c <-> colinear_at b i j.

Lemma run_classes g fixed b0 b ax : run_result g fixed b0 b -> transitive_at b -> classes b ax.
Proof.
  intros R T c I i Ii. apply In_nth_error in I. destruct I as (n & G). destruct (rr_wf _ _ _ _ R ax n c G) as (_ & _ & A & _ & _).
  destruct (rr_strong _ _ _ _ R T ax) as [Ti Ap]. split; [now apply A|]. intros j. split.
  - intros J. destruct (Nat.eq_dec i j) as [->|D]; [apply (colinear_at_refl b j ax), A, J|]. exact (Ti n c G i j Ii J D).
  - intros C. destruct (Nat.eq_dec i j) as [->|D]; [assumption|]. destruct (rr_found _ _ _ _ R i j D C) as (ax' & n' & c' & A' & G' & I' & J').
    assert (ax' = ax) as ->. { destruct A' as (e & E & A'), (A i Ii) as (e' & E' & A''). unfold edge_at in *. congruence. }
    pose proof (Ap n n' c c' i G G' Ii I'). subst n'. congruence.
Qed.

Definition heads (cs : list (list nat)) (i : nat) : Prop := exists c, In (i :: c) cs.

Lemma policies_reps g b ax cs l : policies_for g b cs l -> (forall c, In c cs -> forall i, In i c -> axis_at b i ax /\ forall j, In j c <-> colinear_at b i j) -> apart cs ->
  exists reps, Forall2 (class_policy g b ax) reps l /\ NoDup reps /\ (forall i, In i reps -> heads cs i)
    /\ (forall c i e, In c cs -> In i c -> edge_at b i e -> e_to_mesh e = true -> exists j, In j reps /\ In j c).
Proof.
  induction 1 as [|c cs l es E No P IH|c cs l e es v policy normal E V F P IH]; intros K Ap.
  - exists []. split; [constructor|]. split; [constructor|]. split; [intros i []|]. intros c i e [].
  - destruct IH as (reps & R1 & R2 & R3 & R4); [intros c' I; apply K; now right|exact (fun n m c d x H1 H2 => ltac:(intros X Y; pose proof (Ap (S n) (S m) c d x H1 H2 X Y); congruence))|].
    exists reps. split; [assumption|]. split; [assumption|]. split.
    + intros i I. destruct (R3 i I) as (c' & I'). exists c'. now right.
    + intros c' i e [<-|I] Ii Ei M.
      * destruct (proj2 (edges_at_in b c es E) i Ii) as (e' & I' & E'). assert (e' = e) as -> by (unfold edge_at in *; congruence). rewrite (No e I') in M. discriminate.
      * eapply R4; eassumption.
  - destruct IH as (reps & R1 & R2 & R3 & R4); [intros c' I; apply K; now right|exact (fun n m c d x H1 H2 => ltac:(intros X Y; pose proof (Ap (S n) (S m) c d x H1 H2 X Y); congruence))|].
    pose proof E as E0. inversion E0 as [|i e0 c' es0 Ei Er Ec Ee]; subst. exists (i :: reps).
    assert (Hd : axis_at b i ax /\ forall j, In j (i :: c') <-> colinear_at b i j) by (apply (K (i :: c')); now left).
    split; [|split; [|split]].
    + constructor; [|assumption]. split; [|split; [|now split]]; cbn.
      * destruct (proj1 (axis_at_across b i ax) (proj1 Hd)) as (x & e' & v' & E' & V' & A' & X). assert (e' = e) as -> by (unfold edge_at in *; congruence).
        exists e, v'. assert (v = v') as -> by (destruct v, v'; cbn in *; congruence). now repeat split.
      * apply (fits_class b (e :: es)); [|assumption]. apply (class_of_group b (i :: c')); [assumption|now left|]. apply Hd.
    + constructor; [|assumption]. intros I. destruct (R3 i I) as (d & Id). apply In_nth_error in Id. destruct Id as (n & Id).
      pose proof (Ap 0%nat (S n) (i :: c') (i :: d) i eq_refl Id (or_introl eq_refl) (or_introl eq_refl)). discriminate.
    + intros j [<-|I]; [exists c'; now left|]. destruct (R3 j I) as (d & Id). exists d. now right.
    + intros d j f [<-|I] Ij Ef M; [exists i; split; now left|]. destruct (R4 d j f I Ij Ef M) as (k & K1 & K2). exists k. split; [now right|assumption].
Qed.

(** ** Lonely edges *)
Definition alone_at (b : board) (ax : Axis3) (i : nat) : bool := match nth_error (b_edges b) i with Some e => alone ax e | None => false end.

Lemma run_alone g fixed b0 b ax i : run_result g fixed b0 b -> alone_at b ax i = true ->
  exists e, edge_at b i e /\ axis_at b i ax /\ e_to_mesh e = true /\ faces e <> NNONE /\ (forall j, colinear_at b i j -> j = i) /\ class_policy g b ax i (pol g e).
Proof.
  intros R A. unfold alone_at in A. destruct (nth_error (b_edges b) i) as [e|] eqn:E; [|discriminate]. exists e. split; [assumption|].
  apply alone_spec in A. destruct A as (v & V & A & M & C & F).
  assert (Ac : across b ax i (lev e)). { exists e, v. split; [assumption|]. split; [assumption|]. split; [assumption|]. unfold lev. rewrite V. now destruct v. }
  assert (Ax : axis_at b i ax) by (apply axis_at_across; eauto).
  assert (L : forall j, colinear_at b i j -> j = i).
  { intros j Cj. destruct (Nat.eq_dec i j) as [|D]; [now symmetry|]. exfalso. destruct (rr_found _ _ _ _ R i j D Cj) as (ax' & n & c & _ & G & I & _).
    apply (C ax' n). apply (rr_links _ _ _ _ R i e E). now exists c. }
  split; [assumption|]. split; [assumption|]. split; [assumption|]. split; [assumption|]. split; [|split; [|now split]]; [exact Ac|]. cbn.
  assert (Cl : forall n, class_faces b i n <-> faces e = n).
  { intros n. split.
    - intros (j & f & Ej & Cj & Mf & Ff). apply L in Cj. subst j. unfold edge_at in Ej. congruence.
    - intros <-. exists i, e. split; [assumption|]. split; [now apply (colinear_at_refl b i ax)|]. now split. }
  rewrite !Cl. split; [assumption|]. split; [reflexivity|]. split; [assumption|]. destruct (faces e); cbn; congruence.
Qed.

Lemma pols_reps g fixed b0 b ax : run_result g fixed b0 b -> forall l, Forall2 (class_policy g b ax) (filter (alone_at b ax) l) (pols g b ax l).
Proof.
  intros R. induction l as [|i l IH]; cbn [filter pols flat_map]; [constructor|]. destruct (alone_at b ax i) eqn:A.
  - pose proof A as A'. unfold alone_at in A'. destruct (nth_error (b_edges b) i) as [e|] eqn:E; [|discriminate]. rewrite A'. cbn [app].
    constructor; [|exact IH]. destruct (run_alone g fixed b0 b ax i R A) as (e' & E' & H). assert (e' = e) as -> by (unfold edge_at in E'; congruence). apply H.
  - unfold alone_at in A. destruct (nth_error (b_edges b) i) as [e|]; [rewrite A|]; exact IH.
Qed.

Definition solos (b : board) (ax : Axis3) (p : Plane) : list nat := filter (alone_at b ax) (edges_of b p).

Lemma apols_lines g b p ax : Forall2 (angle_line g ax) (if match view_of_axis p ax with Some _ => true | None => false end then filter (fun a => plane_eqb (a_plane a) p) (b_angles b) else [])
  (apols g p ax (filter (fun a => plane_eqb (a_plane a) p) (b_angles b))).
Proof.
  unfold apols. destruct (view_of_axis p ax) as [v|] eqn:V; [|constructor].
  assert (K : forall a, In a (filter (fun a => plane_eqb (a_plane a) p) (b_angles b)) -> a_plane a = p).
  { intros a I. apply filter_In in I. destruct I as [_ I]. now destruct (a_plane a), p. }
  revert K. generalize (filter (fun a => plane_eqb (a_plane a) p) (b_angles b)). induction l as [|a l IH]; intros K; [constructor|].
  cbn. constructor; [|apply IH; intros x I; apply K; now right]. exists v. split; [now rewrite (K a (or_introl eq_refl))|reflexivity].
Qed.

Lemma Forall2_flat {A B C} (R : A -> B -> Prop) (f : C -> list A) (h : C -> list B) l : (forall x, Forall2 R (f x) (h x)) -> Forall2 R (flat_map f l) (flat_map h l).
Proof. intros H. induction l as [|x l IH]; [constructor|]. cbn. apply Forall2_app; auto. Qed.

Lemma flat_map_split {A B} (f h : A -> list B) l : Permutation (flat_map (fun x => f x ++ h x) l) (flat_map f l ++ flat_map h l).
Proof.
  induction l as [|x l IH]; [constructor|]. cbn. rewrite <- !app_assoc. apply Permutation_app_head. eapply perm_trans; [apply Permutation_app_head, IH|].
  rewrite !app_assoc. apply Permutation_app_tail, Permutation_app_comm.
Qed.

Lemma filter_two {A} (f h k : A -> bool) l : (forall x, k x = f x || h x) -> (forall x, f x = true -> h x = true -> False) ->
  Permutation (filter f l ++ filter h l) (filter k l).
Proof.
  intros K D. induction l as [|x l IH]; [constructor|]. cbn. rewrite K. destruct (f x) eqn:F, (h x) eqn:H; cbn.
  - exfalso. eauto.
  - now constructor.
  - eapply perm_trans; [apply Permutation_sym, Permutation_middle|]. now constructor.
  - assumption.
Qed.

Lemma angle_planes b ax : Permutation (flat_map (fun p => if match view_of_axis p ax with Some _ => true | None => false end
  then filter (fun a => plane_eqb (a_plane a) p) (b_angles b) else []) all_planes) (filter (angle_on ax) (b_angles b)).
Proof.
  unfold all_planes. destruct ax; cbn; rewrite ?app_nil_r; apply filter_two; unfold angle_on; intros a; destruct (a_plane a); cbn; congruence.
Qed.

Lemma nodup_app_intro {A} (l l' : list A) : NoDup l -> NoDup l' -> (forall x, In x l -> In x l' -> False) -> NoDup (l ++ l').
Proof.
  induction 1 as [|x l N ND IH]; intros N' D; [assumption|]. cbn. constructor.
  - intros I. apply in_app_or in I. destruct I as [I|I]; [contradiction|]. apply (D x); [now left|assumption].
  - apply IH; [assumption|]. intros y I J. apply (D y); [now right|assumption].
Qed.

Lemma nodup_edges_of b p : NoDup (edges_of b p).
Proof. apply positions_nodup. Qed.

Lemma edges_of_plane b p i : In i (edges_of b p) -> exists e, edge_at b i e /\ e_plane e = p.
Proof. intros I. apply edges_of_in in I. exact I. Qed.

Lemma solos_nodup b ax planes : NoDup planes -> NoDup (flat_map (solos b ax) planes).
Proof.
  assert (K : forall p i, In i (solos b ax p) -> exists e, edge_at b i e /\ e_plane e = p).
  { intros p i I. apply filter_In in I. apply edges_of_in, I. }
  assert (N : forall p, NoDup (solos b ax p)) by (intros p; apply NoDup_filter, nodup_edges_of).
  induction 1 as [|p l Np Nl IH]; [constructor|].
  cbn. apply nodup_app_intro; [apply N|assumption|]. intros i I J. apply in_flat_map in J. destruct J as (q & Q & J).
  destruct (K p i I) as (e & E & Pe), (K q i J) as (e' & E' & Pe'). apply Np. replace p with q; [assumption|]. unfold edge_at in *. congruence.
Qed.

Lemma run_complete g fixed b0 b ax : run_result g fixed b0 b -> transitive_at b -> policies_complete g (on_axis fixed ax) b ax.
Proof.
  intros R T. destruct (rr_policies _ _ _ _ R ax) as (F & C & Ga & Gf & Pc). pose proof (run_classes g fixed b0 b ax R T) as Cl.
  destruct (rr_strong _ _ _ _ R T ax) as [Ti Ap].
  destruct (policies_reps g b ax _ _ Pc Cl Ap) as (reps & R1 & R2 & R3 & R4).
  set (sol := flat_map (solos b ax) all_planes).
  assert (Sol : forall i, In i sol -> alone_at b ax i = true).
  { intros i I. apply in_flat_map in I. destruct I as (p & _ & I). now apply filter_In in I. }
  assert (Al : forall i, alone_at b ax i = true -> In i sol).
  { intros i A. pose proof A as A'. unfold alone_at in A'. destruct (nth_error (b_edges b) i) as [e|] eqn:E; [|discriminate].
    apply in_flat_map. exists (e_plane e). split; [apply all_planes_in|]. apply filter_In. split; [|assumption]. apply edges_of_in. now exists e. }
  exists (reps ++ sol), F, (C ++ flat_map (fun p => pols g b ax (edges_of b p)) all_planes),
    (flat_map (fun p => apols g p ax (filter (fun a => plane_eqb (a_plane a) p) (b_angles b))) all_planes).
  split; [|split; [|split; [|split; [|split; [|split; [|split]]]]]].
  - destruct Ga as (-> & _). cbn [app ax_policies]. apply Permutation_app_head. rewrite <- app_assoc. apply Permutation_app_head. apply flat_map_split.
  - destruct Gf as (-> & _). reflexivity.
  - apply nodup_app_intro; [assumption| |].
    + apply solos_nodup, all_planes_nodup.
    + intros i I J. destruct (R3 i I) as (c & Ic). destruct (run_alone g fixed b0 b ax i R (Sol i J)) as (e & _ & _ & _ & _ & L & _).
      pose proof (In_nth_error _ _ Ic) as (n & Gn). destruct (rr_wf _ _ _ _ R ax n _ Gn) as (Le & _ & _ & _ & W5).
      destruct (W5 i (or_introl eq_refl)) as (y & Y & Dy & Cy). apply Dy, L, Cy.
  - assert (K : forall i, In i sol -> forall j, colinear_at b i j -> j = i).
    { intros i I. destruct (run_alone g fixed b0 b ax i R (Sol i I)) as (e & _ & _ & _ & _ & L & _). exact L. }
    intros i j I J Cij. apply in_app_or in I. apply in_app_or in J. destruct I as [I|I]; [|symmetry; now apply (K i I)].
    destruct J as [J|J]; [|apply (K j J), colinear_at_sym, Cij]. destruct (R3 i I) as (c & Ic), (R3 j J) as (d & Jd).
    pose proof (proj2 (proj2 (Cl _ Ic i (or_introl eq_refl)) j) Cij) as Jc. pose proof (In_nth_error _ _ Ic) as (n & Gn). pose proof (In_nth_error _ _ Jd) as (m & Gm).
    pose proof (Ap n m _ _ j Gn Gm Jc (or_introl eq_refl)). subst m. assert (i :: c = j :: d) by congruence. congruence.
  - intros i ((x & Ac) & e & E & M & H).
    assert (D : (exists j, j <> i /\ colinear_at b i j) \/ ~ (exists a n, In (InCE a n) (e_conflicts e))).
    { destruct (existsb is_ce (e_conflicts e)) eqn:X.
      - left. apply existsb_exists in X. destruct X as ([a n|] & X & Y); [|discriminate]. apply (rr_links _ _ _ _ R i e E) in X. destruct X as (c & Gc & Ic).
        destruct (rr_wf _ _ _ _ R a n c Gc) as (_ & _ & _ & _ & W5). destruct (W5 i Ic) as (y & _ & Dy & Cy). eauto.
      - right. intros (a & n & I). assert (existsb is_ce (e_conflicts e) = true) by (apply existsb_exists; exists (InCE a n); now split). congruence. }
    assert (Ax : axis_at b i ax) by (apply axis_at_across; eauto).
    assert (Gr : (exists j, j <> i /\ colinear_at b i j) -> exists j, In j (reps ++ sol) /\ colinear_at b i j).
    { intros (j & Dj & Cj). destruct (rr_found _ _ _ _ R i j (not_eq_sym Dj) Cj) as (ax' & n & c & A' & Gc & Ic & Jc).
      assert (ax' = ax) as ->. { destruct A' as (e' & E' & A'), Ax as (e'' & E'' & A''). unfold edge_at in *. congruence. }
      destruct (R4 c i e (nth_error_In _ _ Gc) Ic E M) as (k & K1 & K2). exists k. split; [apply in_or_app; now left|]. now apply (Cl c (nth_error_In _ _ Gc) i Ic). }
    destruct D as [D|D]; [auto|]. destruct H as [H|H]; [|auto]. exists i. split; [|now apply (colinear_at_refl b i ax)].
    apply in_or_app. right. apply Al. unfold alone_at. unfold edge_at in E. rewrite E. apply alone_spec. destruct Ac as (e' & v & E' & V & A & _).
    assert (e' = e) as -> by (unfold edge_at in E'; congruence). exists v. repeat (split; [assumption|]). split; [|assumption]. intros a n I. apply D. eauto.
  - intros j J. apply in_app_or in J. destruct J as [J|J].
    + destruct (R3 j J) as (c & Jc). pose proof (In_nth_error _ _ Jc) as (n & Gn). destruct (rr_wf _ _ _ _ R ax n _ Gn) as (_ & _ & W3 & _ & W5).
      destruct (forall2_in _ _ _ R1 j J) as (x & _ & (_ & Fi & _)).
      assert (exists n, class_faces b j n) as (m & i & e & Ei & Cij & M & _).
      { unfold class_fits in Fi. destruct (p_policy x); [exists NNONE|exists NMIN|exists (p_normal x)]; tauto. }
      exists i. split; [|assumption]. pose proof (proj2 (proj2 (Cl _ Jc j (or_introl eq_refl)) i) Cij) as Ii. split; [apply axis_at_across, W3, Ii|].
      exists e. split; [assumption|]. split; [assumption|]. right. destruct (W5 i Ii) as (y & _ & Dy & Cy). eauto.
    + destruct (run_alone g fixed b0 b ax j R (Sol j J)) as (e & E & A & M & F' & _ & _). exists j. split; [|now apply (colinear_at_refl b j ax)].
      split; [now apply axis_at_across|]. exists e. split; [assumption|]. split; [assumption|]. now left.
  - apply Forall2_app; [assumption|]. unfold sol. apply Forall2_flat. intros p. unfold solos. now apply (pols_reps g fixed b0).
  - exists (flat_map (fun p => if match view_of_axis p ax with Some _ => true | None => false end then filter (fun a => plane_eqb (a_plane a) p) (b_angles b) else []) all_planes).
    split; [apply angle_planes|]. apply Forall2_flat. intros p. apply apols_lines.
Qed.

Lemma sorted_filter {A} (R : A -> A -> Prop) (f : A -> bool) l : StronglySorted R l -> StronglySorted R (filter f l).
Proof.
  induction 1 as [|x l S IH F]; cbn; [constructor|]. destruct (f x); [|assumption]. constructor; [assumption|].
  apply Forall_forall. intros y I. apply filter_In in I. rewrite Forall_forall in F. now apply F.
Qed.

Lemma positions_sorted {A} (f : A -> bool) l : StronglySorted lt (positions f l).
Proof.
  unfold positions, view. generalize 0%nat. induction l as [|x l IH]; intros n; cbn; [constructor|].
  assert (K : forall m, (n < m)%nat -> Forall (lt n) (map fst (filter (fun x => f (snd x)) (combine (seq m (length l)) l)))).
  { intros m L. apply Forall_forall. intros i I. apply in_map_iff in I. destruct I as ([j y] & <- & I). apply filter_In in I. destruct I as [I _].
    apply in_combine_l, in_seq in I. cbn. lia. }
  destruct (f x); cbn; [constructor|]; try apply IH. apply K. lia.
Qed.

Lemma solos_sorted b ax p : StronglySorted lt (solos b ax p).
Proof. apply sorted_filter, positions_sorted. Qed.

Lemma solos_lonely b ax p i : In i (solos b ax p) <-> lonely b p ax i.
Proof.
  unfold solos, lonely. rewrite filter_In, edges_of_in. unfold alone_at, plane_at, edge_at. split.
  - intros [(e & E & P) A]. rewrite E in A. apply alone_spec in A. destruct A as (v & V & A). rewrite P in A. exists e, v. now repeat split.
  - intros (e & v & E & P & V & A). split; [now exists e|]. rewrite E. apply alone_spec. exists v. rewrite P. now split.
Qed.

Lemma solos_policies g b ax p : Forall2 (own_policy g b) (solos b ax p) (pols g b ax (edges_of b p)).
Proof.
  unfold solos. induction (edges_of b p) as [|i l IH]; cbn [filter pols flat_map]; [constructor|]. unfold alone_at at 1.
  destruct (nth_error (b_edges b) i) as [e|] eqn:E; [|assumption]. destruct (alone ax e) eqn:A; [|assumption]. constructor; [|assumption].
  apply alone_spec in A. destruct A as (v & V & _). exists e, v. split; [assumption|]. split; [assumption|]. unfold pol, lev. rewrite V. now destruct v.
Qed.

Lemma Forall2_flip {A B} (R : A -> B -> Prop) l l' : Forall2 R l l' -> Forall2 (fun y x => R x y) l' l.
Proof. induction 1; constructor; assumption. Qed.
