(** From conflicts of colinear edges to policies. *)
From Coq Require Import List Arith Bool Lia QArith Qabs.
From Verif Require Import IntervalModel IntervalSpec IntervalProofs ManagerModel ManagerSpec ManagerProofs ManagerMoreProofs.
From Verif Require Import GeomModel GeomSpec GeomProofs BoardModel BoardSpec BoardProofs BoardColinearProofs.
Import ListNotations.

Lemma collect_reads {A} (l : list A) c : forall es, collect (read l) c = Done es <-> Forall2 (fun i e => nth_error l i = Some e) c es.
Proof.
  induction c as [|i c IH]; intros es; cbn.
  - split; [intro H; injection H as <-; constructor|]. intro H. now inversion H.
  - split.
    + destruct (read l i) as [e| |] eqn:R; cbn; try discriminate. destruct (collect (read l) c) as [t| |]; cbn; try discriminate.
      intro H. injection H as <-. constructor; [now apply read_done|]. now apply IH.
    + intro H. inversion H as [|x y c' t E F]; subst. apply read_done in E. rewrite E. cbn. apply IH in F. rewrite F. reflexivity.
Qed.

Lemma policy_fits l : match colinear_policy l with
  | Some (policy, normal) => fits l policy normal
  | None => forall e, In e l -> e_to_mesh e = false
  end.
Proof.
  pose proof (colinear_policy_spec l) as H. destruct (colinear_policy l) as [[[| |] n]|]; cbn; try assumption.
  intros e I. destruct (e_to_mesh e) eqn:M; [|reflexivity]. exfalso. apply (H (faces e)). exists e. now split.
Qed.

Lemma fits_consistent l policy normal : fits l policy normal -> inconsistent policy normal = false.
Proof. destruct policy; cbn; intros [H _]; try (now subst); destruct normal; congruence || reflexivity. Qed.

Lemma fits_meshed l policy normal : fits l policy normal -> exists e, In e l /\ e_to_mesh e = true.
Proof.
  destruct policy; cbn.
  - intros (_ & e & I & M & _). eauto.
  - intros (_ & _ & (e & I & M & _) & _). eauto.
  - intros (_ & (e & I & M & _) & _). eauto.
Qed.

(** What solving one conflict does. *)
Lemma solve_colinear_spec g ax b n x es e v : nth_error (on_axis (b_ce b) ax) n = Some x -> edges_at b (ce_edges x) (e :: es) ->
  seg_axis (e_seg e) = segaxis_of_view v ->
  exists b', solve_colinear g ax b n = Done b' /\
  ((forall e', In e' (e :: es) -> e_to_mesh e' = false) /\ b' = b
   \/ exists policy normal all, fits (e :: es) policy normal
      /\ write (on_axis (b_ce b) ax) n (mk_colinear (ce_edges x) (Some (length (ax_policies (on_axis (b_axes b) ax)))) true) = Done all
      /\ b' = set_ce (set_axes b (set_axis (b_axes b) ax (set_policies (on_axis (b_axes b) ax)
           (ax_policies (on_axis (b_axes b) ax) ++ [mk_mlp (level v (s0 (e_seg e))) policy normal true (g_dmax g / 2)]))))
         (set_axis (b_ce b) ax all)).
Proof.
  intros X Es V. unfold solve_colinear. unfold read at 1. rewrite X. cbn [bind].
  assert (collect (read (b_edges b)) (ce_edges x) = Done (e :: es)) as -> by (now apply collect_reads). cbn [bind].
  assert (seg_coord (s0 (e_seg e)) (seg_axis (e_seg e)) = Some (level v (s0 (e_seg e)))) as -> by (rewrite V; now destruct v).
  pose proof (policy_fits (e :: es)) as F. destruct (colinear_policy (e :: es)) as [[policy normal]|].
  - unfold add_meshline_policy. rewrite (fits_consistent _ _ _ F).
    destruct (write_spec (mk_colinear (ce_edges x) (Some (length (ax_policies (on_axis (b_axes b) ax)))) true) _ n (nth_lt _ _ _ X)) as (all & W & _).
    rewrite W. cbn [bind]. eexists. split; [reflexivity|]. right. exists policy, normal, all. split; [assumption|]. now split.
  - exists b. split; [reflexivity|]. left. now split.
Qed.

(** A conflict whose edges exist and are straight. *)
Definition solvable (b : board) (c : list nat) : Prop := c <> [] /\ exists ax, forall x, In x c -> axis_at b x ax.

Lemma solvable_edges b c : solvable b c -> exists e es v, edges_at b c (e :: es) /\ seg_axis (e_seg e) = segaxis_of_view v.
Proof.
  intros (N & ax & A). assert (exists es, edges_at b c es) as (es & Es).
  { assert (forall x, In x c -> exists e, edge_at b x e) as K by (intros x I; destruct (A x I) as (e & E & _); eauto).
    clear - K. induction c as [|x c IH].
    - exists []. constructor.
    - destruct (K x) as (e & E); [now left|]. destruct IH as (es & F); [intros y I; apply K; now right|]. exists (e :: es). now constructor. }
  destruct c as [|x c]; [congruence|]. inversion Es as [|y e c' es' E F]; subst.
  destruct (A x (or_introl eq_refl)) as (e' & E' & Ax). assert (e' = e) as -> by (unfold edge_at in *; congruence).
  exists e, es'. unfold edge_axis in Ax. destruct (seg_axis (e_seg e)) eqn:D; cbn in Ax.
  - now exists VH.
  - now exists VV.
  - destruct (e_plane e); discriminate.
  - destruct (e_plane e); discriminate.
Qed.

(** The board but for its conflicts of colinear edges and the policies of one axis. *)
Definition same_but_one_axis (ax : Axis3) (b b' : board) : Prop :=
  b_polygons b' = b_polygons b /\ b_edges b' = b_edges b /\ b_angles b' = b_angles b /\ b_background b' = b_background b
  /\ b_eip b' = b_eip b /\ b_zones b' = b_zones b
  /\ (forall a, groups b' a = groups b a) /\ (forall a, a <> ax -> on_axis (b_axes b') a = on_axis (b_axes b) a)
  /\ ax_conflicts (on_axis (b_axes b') ax) = ax_conflicts (on_axis (b_axes b) ax)
  /\ ax_segments (on_axis (b_axes b') ax) = ax_segments (on_axis (b_axes b) ax)
  /\ ax_lines (on_axis (b_axes b') ax) = ax_lines (on_axis (b_axes b) ax).

Lemma edges_at_same b b' c es : b_edges b' = b_edges b -> edges_at b c es -> edges_at b' c es.
Proof. unfold edges_at, edge_at. now intros ->. Qed.

Lemma policies_for_same g b b' cs l : b_edges b' = b_edges b -> policies_for g b cs l -> policies_for g b' cs l.
Proof.
  intros S. induction 1.
  - constructor.
  - eapply policies_skip; eauto. eapply edges_at_same; eauto.
  - eapply policies_one; eauto. eapply edges_at_same; eauto.
Qed.

Lemma policies_for_app g b cs l cs' l' : policies_for g b cs l -> policies_for g b cs' l' -> policies_for g b (cs ++ cs') (l ++ l').
Proof.
  intros H K. induction H; cbn; [assumption|eapply policies_skip; eauto|eapply policies_one; eauto].
Qed.

Lemma nth_combine_snoc {A} (l : list A) n x : nth_error l n = Some x -> firstn (S n) l = firstn n l ++ [x].
Proof.
  revert n. induction l as [|y l IH]; intros [|n] E; cbn in *; try discriminate; [congruence|]. f_equal. now apply IH.
Qed.

Lemma auto_solve_colinear g ax b : (forall c, In c (groups b ax) -> solvable b c) ->
  exists b' l, auto_solve_all_colinear_edges g b ax = Done b' /\ same_but_one_axis ax b b'
    /\ policies_for g b (groups b ax) l
    /\ ax_policies (on_axis (b_axes b') ax) = ax_policies (on_axis (b_axes b) ax) ++ l.
Proof.
  intros Sv. unfold auto_solve_all_colinear_edges.
  set (N := length (on_axis (b_ce b) ax)).
  destruct (for_each_inv (solve_colinear g ax) (fun done b' => exists l, same_but_one_axis ax b b'
      /\ policies_for g b (firstn (length done) (groups b ax)) l
      /\ ax_policies (on_axis (b_axes b') ax) = ax_policies (on_axis (b_axes b) ax) ++ l) (seq 0 N) b) as (b' & E & l & S & P & A).
  - exists []. split; [unfold same_but_one_axis; now repeat split|]. split; [constructor|]. now rewrite app_nil_r.
  - intros done n rest b1 EL (l & S & P & A).
    assert (n = length done /\ (n < N)%nat) as [-> Lt].
    { pose proof (f_equal (fun l => nth_error l (length done)) EL) as K. cbn in K.
      rewrite nth_error_app2, Nat.sub_diag in K by lia. cbn in K. pose proof (f_equal (@length nat) EL) as Len.
      rewrite seq_length, app_length in Len. cbn in Len. assert (length done < N)%nat as L by lia.
      rewrite (nth_error_nth' _ 0%nat) in K by (rewrite seq_length; lia). rewrite seq_nth in K by lia. injection K as K. lia. }
    pose proof S as (S1 & S2 & S3 & S4 & S5 & S6 & S7 & S8 & S9 & S10 & S11).
    assert (exists c, nth_error (groups b ax) (length done) = Some c) as (c & C).
    { destruct (nth_error (groups b ax) (length done)) eqn:D; [eauto|]. apply nth_error_None in D. unfold groups in D. rewrite map_length in D. fold N in D. lia. }
    pose proof C as C1. rewrite <- S7 in C1. unfold groups in C1. rewrite nth_error_map in C1.
    destruct (nth_error (on_axis (b_ce b1) ax) (length done)) as [x|] eqn:X; [|discriminate]. cbn in C1. assert (ce_edges x = c) as Ex by congruence.
    destruct (solvable_edges b c (Sv c (nth_error_In _ _ C))) as (e & es & v & Es & V).
    destruct (solve_colinear_spec g ax b1 (length done) x es e v X) as (b2 & E2 & [(No & ->)|(policy & normal & all & F & W & ->)]).
    { rewrite Ex. now apply (edges_at_same b). }
    { assumption. }
    + exists b1. split; [assumption|]. exists l. split; [assumption|]. split; [|assumption].
      rewrite app_length, Nat.add_1_r, (nth_combine_snoc _ _ _ C). rewrite <- (app_nil_r l). apply policies_for_app; [assumption|].
      eapply policies_skip; [exact Es|exact No|constructor].
    + eexists. split; [exact E2|]. exists (l ++ [mk_mlp (level v (s0 (e_seg e))) policy normal true (g_dmax g / 2)]).
      split; [|split].
      * unfold same_but_one_axis. cbn. rewrite !on_set_axis. cbn. repeat split; try assumption.
        -- intros a. rewrite <- S7. unfold groups. cbn. destruct (axis_dec a ax) as [->|D].
           ++ rewrite on_set_axis. destruct (write_inv _ _ _ _ W) as (_ & Len & At & O).
              eapply map_write; [exact X|exact At|reflexivity|exact Len|exact O].
           ++ now rewrite on_set_other.
        -- intros a D. rewrite on_set_other by assumption. now apply S8.
      * rewrite app_length, Nat.add_1_r, (nth_combine_snoc _ _ _ C). apply policies_for_app; [assumption|].
        eapply policies_one; [exact Es|exact V|exact F|constructor].
      * cbn. rewrite on_set_axis. cbn. rewrite A. now rewrite app_assoc.
  - exists b', l. split; [assumption|]. split; [assumption|]. split; [|assumption].
    rewrite seq_length, firstn_all2 in P by (unfold groups; rewrite map_length; lia). assumption.
Qed.
