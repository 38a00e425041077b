(** Individual edges and angles. *)
From Coq Require Import List Arith Bool Lia QArith Qabs Sorting.Sorted.
From Verif Require Import IntervalModel ManagerModel ManagerProofs GeomModel GeomSpec GeomProofs.
From Verif Require Import BoardModel BoardSpec BoardProofs BoardColinearProofs BoardCoverProofs BoardDetectProofs.
Import ListNotations.

Definition axis_eqb (a b : Axis3) : bool := match a, b with AX, AX | AY, AY | AZ, AZ => true | _, _ => false end.
Lemma axis_eqb_eq a b : axis_eqb a b = true <-> a = b.
Proof. destruct a, b; cbn; split; congruence. Qed.

Definition lev (e : edge) : Q := match seg_axis (e_seg e) with SH => py (s0 (e_seg e)) | _ => px (s0 (e_seg e)) end.
Definition pol (g : params) (e : edge) : mlp := mk_mlp (lev e) THIRDS (faces e) true (g_dmax g / 2).
Definition alone (ax : Axis3) (e : edge) : bool :=
  match edge_axis e with
  | Some a => axis_eqb a ax && (negb (existsb is_ce (e_conflicts e)) && e_to_mesh e) && negb (match faces e with NNONE => true | _ => false end)
  | None => false
  end.
Definition pols (g : params) (b : board) (ax : Axis3) (l : list nat) : list mlp :=
  flat_map (fun i => match nth_error (b_edges b) i with Some e => if alone ax e then [pol g e] else [] | None => [] end) l.

Lemma gains_refl x : gains [] x x.
Proof. unfold gains. now rewrite app_nil_r. Qed.
Lemma gains_trans l l' x y z : gains l x y -> gains l' y z -> gains (l ++ l') x z.
Proof. intros (A1 & A2 & A3 & A4) (B1 & B2 & B3 & B4). unfold gains. rewrite B1, A1, app_assoc. now repeat split; congruence. Qed.

Lemma same_policies_refl b : same_but_policies b b.
Proof. now repeat split. Qed.
Lemma same_policies_trans a b c : same_but_policies a b -> same_but_policies b c -> same_but_policies a c.
Proof. unfold same_but_policies. intros (A1 & A2 & A3 & A4 & A5 & A6 & A7) (B1 & B2 & B3 & B4 & B5 & B6 & B7). repeat split; congruence. Qed.
Lemma same_policies_edge b b' i e : same_but_policies b b' -> edge_at b i e -> exists e', edge_at b' i e' /\ without_policy e' = without_policy e.
Proof. intros [M _] E. exact (map_at _ _ _ _ _ M E). Qed.
Lemma same_policies_edge' b b' i e' : same_but_policies b b' -> edge_at b' i e' -> exists e, edge_at b i e /\ without_policy e' = without_policy e.
Proof. intros [M _] E. symmetry in M. destruct (map_at _ _ _ _ _ M E) as (e & E1 & E2). exists e. split; [assumption|now symmetry]. Qed.
Lemma same_policies_angle b b' i a : same_but_policies b b' -> nth_error (b_angles b) i = Some a ->
  exists a', nth_error (b_angles b') i = Some a' /\ without_policy_a a' = without_policy_a a.
Proof. intros (_ & M & _) E. exact (map_at _ _ _ _ _ M E). Qed.

Lemma alone_same ax e e' : without_policy e' = without_policy e -> alone ax e' = alone ax e.
Proof. intros W. injection W as W1 W2 W3 W4 W5 W6 _. unfold alone, edge_axis, faces. now rewrite W1, W2, W3, W4, W5, W6. Qed.
Lemma pol_same g e e' : without_policy e' = without_policy e -> pol g e' = pol g e.
Proof. intros W. injection W as W1 W2 W3 W4 W5 W6 _. unfold pol, lev, faces. now rewrite W2, W3, W5. Qed.

Lemma alone_none ax e : (forall a, edge_axis e = Some a -> False) \/ existsb is_ce (e_conflicts e) = true \/ e_to_mesh e = false \/ faces e = NNONE -> alone ax e = false.
Proof.
  unfold alone. intros H. destruct (edge_axis e) as [a|]; [|reflexivity]. destruct H as [H|[H|[H|H]]]; rewrite ?H; cbn.
  - exfalso. now apply (H a).
  - now rewrite andb_false_r.
  - rewrite !andb_false_r. reflexivity.
  - now rewrite andb_false_r.
Qed.

(** The edge [i] when its turn comes. *)
Lemma individual_edge_spec g p b i e : edge_at b i e -> e_plane e = p ->
  exists b', individual_edge g p b i = Done b' /\ same_but_policies b b' /\ b_angles b' = b_angles b
    /\ (forall ax, gains (if alone ax e then [pol g e] else []) (on_axis (b_axes b) ax) (on_axis (b_axes b') ax))
    /\ (forall j, j <> i -> nth_error (b_edges b') j = nth_error (b_edges b) j)
    /\ (forall ax, alone ax e = true -> exists e', edge_at b' i e' /\ e_policy e' = Some (length (ax_policies (on_axis (b_axes b) ax)))).
Proof.
  intros E P. unfold individual_edge, read. pose proof E as E0. unfold edge_at in E0. rewrite E0. cbn [bind].
  assert (Same : (forall ax, alone ax e = false) -> Done b = Done b -> exists b', Done b = Done b' /\ same_but_policies b b' /\ b_angles b' = b_angles b
    /\ (forall ax, gains (if alone ax e then [pol g e] else []) (on_axis (b_axes b) ax) (on_axis (b_axes b') ax))
    /\ (forall j, j <> i -> nth_error (b_edges b') j = nth_error (b_edges b) j)
    /\ (forall ax, alone ax e = true -> exists e', edge_at b' i e' /\ e_policy e' = Some (length (ax_policies (on_axis (b_axes b) ax))))).
  { intros A _. exists b. split; [reflexivity|]. split; [apply same_policies_refl|]. split; [reflexivity|]. split; [|split; [reflexivity|]].
    - intros ax. rewrite A. apply gains_refl.
    - intros ax H. rewrite A in H. discriminate. }
  destruct (seg_coord (s0 (e_seg e)) (seg_axis (e_seg e))) as [x|] eqn:X; [destruct (axis_of_seg p (seg_axis (e_seg e))) as [a|] eqn:A|].
  2,3: apply Same; [intros ax; apply alone_none; left; intros a; unfold edge_axis; rewrite P|reflexivity].
  2: congruence. 2: unfold seg_coord in X; destruct (seg_axis (e_seg e)); try discriminate; destruct p; discriminate.
  assert (x = lev e) as Lx by (unfold lev; destruct (seg_axis (e_seg e)); cbn in X; congruence).
  destruct (negb (existsb is_ce (e_conflicts e)) && e_to_mesh e) eqn:M.
  2: { apply Same; [|reflexivity]. intros ax. apply alone_none. apply andb_false_iff in M. rewrite negb_false_iff in M. tauto. }
  rewrite <- faces_spec. unfold add_meshline_policy.
  assert (Al : forall ax, alone ax e = axis_eqb a ax && negb (match faces e with NNONE => true | _ => false end)).
  { intros ax. unfold alone, edge_axis. rewrite P, A, M, andb_true_r. reflexivity. }
  apply andb_true_iff in M. destruct M as [Mc Mm].
  destruct (faces e) eqn:F; cbn [inconsistent].
  1: { (* no side *)
    destruct (update_edge_spec (set_axes b (set_axis (b_axes b) a (on_axis (b_axes b) a))) i e (set_policy None) E) as (l & -> & Len & At & Ot).
    eexists. split; [reflexivity|]. cbn in *. split; [|split; [reflexivity|split; [|split; [assumption|]]]].
    - split; [|now repeat split]. cbn. apply (map_write without_policy (b_edges b) l i e (set_policy None e)); try assumption. reflexivity.
    - intros ax. rewrite Al, andb_false_r. cbn. destruct (axis_dec ax a) as [->|D]; [rewrite on_set_axis|rewrite on_set_other by assumption]; apply gains_refl.
    - intros ax. rewrite Al, andb_false_r. discriminate. }
  all: match goal with H : edge_at _ _ _ |- context [update_edge ?b0 ?i0 ?f] => destruct (update_edge_spec b0 i0 _ f H) as (l & -> & Len & At & Ot) end.
  all: eexists; (split; [reflexivity|]); cbn in Len, At, Ot; (split; [|split; [reflexivity|split; [|split; [assumption|]]]]).
  1,4: (split; [|now repeat split]); cbn; eapply map_write; [eassumption|eassumption|reflexivity|assumption|assumption].
  1,3: intros ax; rewrite Al, andb_true_r; cbn [set_edges b_axes set_axes]; destruct (axis_dec ax a) as [->|D];
      [rewrite on_set_axis, (proj2 (axis_eqb_eq a a) eq_refl); unfold gains, pol; cbn; rewrite F, Lx, Mm; now repeat split
      |rewrite on_set_other by assumption; destruct (axis_eqb a ax) eqn:Q; [apply axis_eqb_eq in Q; congruence|apply gains_refl]].
  all: intros ax; rewrite Al, andb_true_r; intros Q; apply axis_eqb_eq in Q; subst ax; eexists; (split; [exact At|reflexivity]).
Qed.

Record singled (g : params) (p : Plane) (b : board) (done : list nat) (b' : board) : Prop := {
  si_same : same_but_policies b b';
  si_angles : b_angles b' = b_angles b;
  si_gains : forall ax, gains (pols g b ax done) (on_axis (b_axes b) ax) (on_axis (b_axes b') ax);
  si_policy : forall i e ax, In i done -> edge_at b i e -> alone ax e = true ->
    exists e' n, edge_at b' i e' /\ e_policy e' = Some n /\ nth_error (ax_policies (on_axis (b_axes b') ax)) n = Some (pol g e);
}.

Lemma nth_app_l {A} (l l' : list A) n x : nth_error l n = Some x -> nth_error (l ++ l') n = Some x.
Proof. intros H. rewrite nth_error_app1; [assumption|]. apply nth_error_Some. congruence. Qed.

Lemma individual_edges g p b : exists b', for_each (individual_edge g p) (edges_of b p) b = Done b' /\ singled g p b (edges_of b p) b'.
Proof.
  apply (for_each_inv (individual_edge g p) (singled g p b)).
  - constructor; [apply same_policies_refl|reflexivity|intros ax; apply gains_refl|intros i e ax []].
  - intros done i rest b1 EL [S A G Po]. assert (In i (edges_of b p)) as I by (rewrite EL; apply in_or_app; right; now left).
    assert (N : ~ In i done).
    { pose proof (positions_nodup (fun e => plane_eqb (e_plane e) p) (b_edges b)) as ND. fold (edges_of b p) in ND. rewrite EL in ND.
      apply NoDup_remove_2 in ND. intros K. apply ND, in_or_app. now left. }
    apply edges_of_in in I. destruct I as (e & Ee & P). destruct (same_policies_edge _ _ _ _ S Ee) as (e1 & Ee1 & W).
    assert (e_plane e1 = p) as P1 by (injection W; congruence).
    destruct (individual_edge_spec g p b1 i e1 Ee1 P1) as (b2 & E2 & S2 & A2 & G2 & O2 & Po2). exists b2. split; [assumption|].
    assert (G3 : forall ax, gains (pols g b ax (done ++ [i])) (on_axis (b_axes b) ax) (on_axis (b_axes b2) ax)).
    { intros ax. unfold pols. rewrite flat_map_app. apply gains_trans with (on_axis (b_axes b1) ax); [apply G|]. cbn. unfold edge_at in Ee. rewrite Ee, app_nil_r.
      rewrite <- (alone_same ax e e1 W), <- (pol_same g e e1 W). apply G2. }
    constructor; [eapply same_policies_trans; eassumption|congruence|assumption|].
    intros j f ax J Ej Al. apply in_app_or in J. destruct J as [J|[<-|[]]].
    + destruct (Po j f ax J Ej Al) as (f' & n & Ef & Pf & Nf). exists f', n. split; [|split; [assumption|]].
      * unfold edge_at in *. rewrite O2; [assumption|]. intros ->. contradiction.
      * destruct (G2 ax) as (-> & _). now apply nth_app_l.
    + assert (f = e) as -> by (unfold edge_at in *; congruence).
      assert (alone ax e1 = true) as Al1 by (now rewrite (alone_same ax e e1 W)). destruct (Po2 ax Al1) as (e' & Ee' & Pe'). exists e'. eexists. split; [assumption|]. split; [exact Pe'|].
      destruct (G2 ax) as (-> & _). rewrite Al1, nth_error_app2, Nat.sub_diag by lia. cbn. now rewrite (pol_same g e e1 W).
Qed.

Definition apol (g : params) (v : ViewAxis) (a : angle) : mlp :=
  mk_mlp (along v (a_point a)) HALFS NNONE (match v with VH => a_h a | VV => a_v a end) (g_dmax g / 2).
Definition apols (g : params) (p : Plane) (ax : Axis3) (l : list angle) : list mlp :=
  match view_of_axis p ax with Some v => map (apol g v) l | None => [] end.

Lemma individual_angle_axis_spec g p i b a v : nth_error (b_angles b) i = Some a ->
  exists b' a', individual_angle_axis g p i b v = Done b' /\ same_but_policies b b' /\ b_edges b' = b_edges b
    /\ nth_error (b_angles b') i = Some a' /\ without_policy_a a' = without_policy_a a
    /\ forall ax, gains (if axis_eqb (axes_table p v) ax then [apol g v a] else []) (on_axis (b_axes b) ax) (on_axis (b_axes b') ax).
Proof.
  intros E. unfold individual_angle_axis, read. rewrite E. cbn [bind]. unfold add_meshline_policy. cbn [inconsistent].
  unfold update_angle, read. cbn. rewrite E. cbn [bind].
  destruct (write_spec (set_angle_policy (Some (length (ax_policies (on_axis (b_axes b) (axes_table p v))))) a) (b_angles b) i (nth_lt _ _ _ E)) as (l & -> & Len & At & O).
  eexists. eexists. split; [reflexivity|]. cbn. split; [|split; [reflexivity|]].
  - split; [reflexivity|]. split; [|now repeat split]. cbn. eapply (map_write without_policy_a (b_angles b) l i a); try eassumption. reflexivity.
  - split; [exact At|]. split; [reflexivity|]. intros ax. destruct (axis_dec ax (axes_table p v)) as [->|D].
    + rewrite on_set_axis, (proj2 (axis_eqb_eq _ _) eq_refl). unfold gains, apol. cbn. destruct v; now repeat split.
    + rewrite on_set_other by assumption. destruct (axis_eqb (axes_table p v) ax) eqn:Q; [apply axis_eqb_eq in Q; congruence|apply gains_refl].
Qed.

Lemma apol_same g v a a' : without_policy_a a' = without_policy_a a -> apol g v a' = apol g v a.
Proof. intros W. injection W as W1 W2 W3 W4 W5 W6 W7. unfold apol. now rewrite W2, W6, W7. Qed.

Lemma individual_angle_spec g p i b a : nth_error (b_angles b) i = Some a ->
  exists b', individual_angle g p b i = Done b' /\ same_but_policies b b' /\ b_edges b' = b_edges b
    /\ forall ax, gains (apols g p ax [a]) (on_axis (b_axes b) ax) (on_axis (b_axes b') ax).
Proof.
  intros E. unfold individual_angle. cbn [for_each].
  destruct (individual_angle_axis_spec g p i b a VH E) as (b1 & a1 & -> & S1 & Ed1 & E1 & W1 & G1). cbn [bind].
  destruct (individual_angle_axis_spec g p i b1 a1 VV E1) as (b2 & a2 & -> & S2 & Ed2 & E2 & W2 & G2). cbn [bind].
  exists b2. split; [reflexivity|]. split; [eapply same_policies_trans; eassumption|]. split; [congruence|].
  intros ax. specialize (G1 ax). specialize (G2 ax). rewrite (apol_same g VV a a1 W1) in G2. pose proof (gains_trans _ _ _ _ _ G1 G2) as G.
  unfold apols. destruct p, ax; exact G.
Qed.

Lemma angles_of_in b p i : In i (angles_of b p) <-> exists a, nth_error (b_angles b) i = Some a /\ a_plane a = p.
Proof. unfold angles_of. rewrite positions_in. split; intros (g & G & P); exists g; (split; [assumption|]); now apply plane_eqb_eq. Qed.

Definition at_angles (b : board) (l : list nat) : list angle :=
  flat_map (fun i => match nth_error (b_angles b) i with Some a => [a] | None => [] end) l.

Lemma apols_app g p ax l l' : apols g p ax (l ++ l') = apols g p ax l ++ apols g p ax l'.
Proof. unfold apols. destruct (view_of_axis p ax); [apply map_app|reflexivity]. Qed.

Lemma individual_angles g p b : exists b', for_each (individual_angle g p) (angles_of b p) b = Done b'
  /\ same_but_policies b b' /\ b_edges b' = b_edges b
  /\ forall ax, gains (apols g p ax (at_angles b (angles_of b p))) (on_axis (b_axes b) ax) (on_axis (b_axes b') ax).
Proof.
  apply (for_each_inv (individual_angle g p) (fun done b' => same_but_policies b b' /\ b_edges b' = b_edges b
    /\ forall ax, gains (apols g p ax (at_angles b done)) (on_axis (b_axes b) ax) (on_axis (b_axes b') ax))).
  - split; [apply same_policies_refl|]. split; [reflexivity|]. intros ax. unfold apols. cbn. destruct (view_of_axis p ax); apply gains_refl.
  - intros done i rest b1 EL (S & Ed & G). assert (In i (angles_of b p)) as I by (rewrite EL; apply in_or_app; right; now left).
    apply angles_of_in in I. destruct I as (a & A & P). destruct (same_policies_angle _ _ _ _ S A) as (a1 & A1 & W).
    destruct (individual_angle_spec g p i b1 a1 A1) as (b2 & E2 & S2 & Ed2 & G2). exists b2. split; [assumption|].
    split; [eapply same_policies_trans; eassumption|]. split; [congruence|]. intros ax. unfold at_angles. rewrite flat_map_app. fold (at_angles b done).
    cbn. rewrite A. cbn. rewrite apols_app. apply gains_trans with (on_axis (b_axes b1) ax); [apply G|]. specialize (G2 ax).
    unfold apols in *. destruct (view_of_axis p ax) as [v|]; [|assumption]. cbn in *. now rewrite <- (apol_same g v a a1 W).
Qed.

Lemma at_positions (b : board) p : at_angles b (angles_of b p) = filter (fun a => plane_eqb (a_plane a) p) (b_angles b).
Proof.
  unfold at_angles, angles_of, positions, view.
  assert (H : forall l k n, (forall j, nth_error (b_angles b) (n + j) = nth_error l j) -> n = k ->
    flat_map (fun i => match nth_error (b_angles b) i with Some a => [a] | None => [] end)
      (map fst (filter (fun x => plane_eqb (a_plane (snd x)) p) (combine (seq k (length l)) l))) = filter (fun a => plane_eqb (a_plane a) p) l).
  { induction l as [|a l IH]; intros k n H ->; cbn; [reflexivity|].
    assert (R : flat_map (fun i => match nth_error (b_angles b) i with Some a => [a] | None => [] end)
      (map fst (filter (fun x => plane_eqb (a_plane (snd x)) p) (combine (seq (S k) (length l)) l))) = filter (fun a => plane_eqb (a_plane a) p) l).
    { apply (IH (S k) (S k)); [|reflexivity]. intros j. specialize (H (S j)). cbn in H. rewrite <- H. f_equal. lia. }
    destruct (plane_eqb (a_plane a) p); cbn; [|exact R]. specialize (H 0%nat). rewrite Nat.add_0_r in H. cbn in H. rewrite H. cbn. now f_equal. }
  apply (H _ 0%nat 0%nat); reflexivity.
Qed.

Lemma edge_at_plane_at b p i e : edge_at b i e -> e_plane e = p -> In i (edges_of b p).
Proof. intros E P. apply edges_of_in. now exists e. Qed.

Lemma alone_spec ax e : alone ax e = true <-> exists v, seg_axis (e_seg e) = segaxis_of_view v /\ ax = axis_of_view (e_plane e) (reverse_view v)
    /\ e_to_mesh e = true /\ (forall a n, ~ In (InCE a n) (e_conflicts e)) /\ faces e <> NNONE.
Proof.
  assert (Ce : existsb is_ce (e_conflicts e) = false <-> forall a n, ~ In (InCE a n) (e_conflicts e)).
  { split.
    - intros H a n I. assert (existsb is_ce (e_conflicts e) = true) by (apply existsb_exists; exists (InCE a n); now split). congruence.
    - intros H. destruct (existsb is_ce (e_conflicts e)) eqn:X; [|reflexivity]. exfalso. apply existsb_exists in X. destruct X as ([a n|q n] & I & J); [|discriminate]. now apply (H a n). }
  unfold alone, edge_axis. split.
  - destruct (axis_of_seg (e_plane e) (seg_axis (e_seg e))) as [a|] eqn:A; [|discriminate]. rewrite !andb_true_iff, !negb_true_iff, axis_eqb_eq. intros ((-> & C & M) & F). pose proof (proj1 Ce C) as C0.
    assert (faces e <> NNONE) as F' by (destruct (faces e); discriminate).
    destruct (seg_axis (e_seg e)) eqn:X; [exists VH|exists VV|..]; try (now destruct (e_plane e)); (split; [reflexivity|]); (split; [|now repeat split]);
      destruct (e_plane e); cbn in *; congruence.
  - intros (v & -> & -> & M & C & F). rewrite (proj2 Ce C), M. cbn. destruct (e_plane e), v, (faces e); cbn; try reflexivity; congruence.
Qed.

Lemma individual_all g b p : exists b', detect_individual_edges g b p = Done b' /\ same_but_policies b b'
  /\ (forall ax, gains (pols g b ax (edges_of b p) ++ apols g p ax (filter (fun a => plane_eqb (a_plane a) p) (b_angles b))) (on_axis (b_axes b) ax) (on_axis (b_axes b') ax))
  /\ (forall i e ax, edge_at b i e -> e_plane e = p -> alone ax e = true ->
        exists e' n, edge_at b' i e' /\ e_policy e' = Some n /\ nth_error (ax_policies (on_axis (b_axes b') ax)) n = Some (pol g e)).
Proof.
  unfold detect_individual_edges. destruct (individual_edges g p b) as (b1 & -> & [S A G P]). cbn [bind].
  destruct (individual_angles g p b1) as (b2 & E2 & S2 & Ed2 & G2). exists b2. split; [assumption|].
  split; [eapply same_policies_trans; eassumption|]. split.
  - intros ax. eapply gains_trans; [apply G|]. rewrite <- A, <- at_positions. apply G2.
  - intros i e ax E Pl Al. destruct (P i e ax (edge_at_plane_at b p i e E Pl) E Al) as (e' & n & E' & Pe & Ne). exists e', n.
    split; [unfold edge_at; now rewrite Ed2|]. split; [assumption|]. destruct (G2 ax) as (-> & _). now apply nth_app_l.
Qed.
