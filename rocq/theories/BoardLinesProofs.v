(** From the policies of a board to its lines. *)
From Coq Require Import List Arith Bool Lia QArith Qabs Qminmax Lqa Sorting.Sorted Sorting.Permutation.
From Verif Require Import IntervalModel IntervalSpec IntervalProofs ManagerModel ManagerSpec ManagerProofs ManagerMeshProofs ManagerMoreProofs.
From Verif Require Import GeomModel GeomSpec GeomProofs BoardModel BoardSpec BoardProofs BoardBuiltProofs BoardIndividualProofs BoardRunProofs BoardClassProofs BoardDiagProofs.
Import ListNotations.
Open Scope Q_scope.

(** * One axis *)

Lemma zones_segments D zs : Forall (fun z => z_dmax z = D) zs -> forall ax s', In s' (ax_segments (apply_zones zs ax)) ->
  exists s, In s (ax_segments ax) /\ sg_before s' = sg_before s /\ sg_after s' = sg_after s /\ iv_m (sg_iv s') = iv_m (sg_iv s)
  /\ ((exists z, In z zs /\ in_zone z (iv_m (sg_iv s)) = true) -> iv_dmax (sg_iv s') = D)
  /\ ((forall z, In z zs -> in_zone z (iv_m (sg_iv s)) = false) -> iv_dmax (sg_iv s') = iv_dmax (sg_iv s)).
Proof.
  induction 1 as [|z zs Z _ IH]; intros ax s' I.
  - exists s'. split; [destruct ax; exact I|]. do 3 (split; [reflexivity|]). split; [intros (z & [] & _)|reflexivity].
  - rewrite apply_zones_cons in I. destruct (IH _ _ I) as (s1 & I1 & Eb & Ea & Em & H1 & H2). cbn in I1. apply in_map_iff in I1. destruct I1 as (s & <- & Is).
    exists s. split; [assumption|]. unfold apply_zone in *. destruct (in_zone z (iv_m (sg_iv s))) eqn:E; cbn in *.
    + do 3 (split; [assumption|]). split; [|intros H; specialize (H z (or_introl eq_refl)); congruence].
      intros _. destruct (existsb (fun z => in_zone z (iv_m (sg_iv s))) zs) eqn:X.
      * apply existsb_exists in X. now apply H1.
      * rewrite H2; [assumption|]. intros z' Iz. destruct (in_zone z' _) eqn:E'; [|reflexivity].
        assert (existsb (fun z => in_zone z (iv_m (sg_iv s))) zs = true) by (apply existsb_exists; eauto). congruence.
    + do 3 (split; [assumption|]). split.
      * intros (z' & [<-|Iz] & E'); [congruence|]. apply H1. eauto.
      * intros H. apply H2. intros z' Iz. apply H. now right.
Qed.

(** Neighbours are the ends of an interval. *)
Lemma neighbours_segment ax l p q : meshable ax l -> neighbours ax p q ->
  exists s, In s (ax_segments ax) /\ policy_at ax (sg_before s) p /\ policy_at ax (sg_after s) q.
Proof.
  intros M (i & j & [Pi Ei] & [Pj Ej] & L & N). destruct (me_order _ _ M) as (Nd & Me & O).
  assert (Ii : In i l) by (apply Me; exists p; now split). assert (Ij : In j l) by (apply Me; exists q; now split).
  apply In_nth_error in Ii, Ij. destruct Ii as (k & K), Ij as (m & Km).
  assert (k < m)%nat.
  { destruct (lt_eq_lt_dec k m) as [[H|H]|H]; [assumption| |].
    - subst m. assert (i = j) by congruence. subst j. unfold policy_at in *. assert (p = q) by congruence. subst q. lra.
    - pose proof (O m k j i q p H Km K Pj Pi). lra. }
  assert (m = S k).
  { destruct (Nat.eq_dec m (S k)) as [E|E]; [assumption|exfalso].
    assert (Lm : (m < length l)%nat) by (apply nth_error_Some; congruence).
    destruct (nth_error l (S k)) as [h|] eqn:Kh; [|apply nth_error_None in Kh; lia].
    destruct (proj1 (Me h) (nth_error_In _ _ Kh)) as (r & Pr & Er).
    pose proof (O k (S k) i h p r ltac:(lia) K Kh Pi Pr). pose proof (O (S k) m h j r q ltac:(lia) Kh Km Pr Pj).
    assert (h <> i) by (intros ->; assert (k = S k) by (apply (proj1 (NoDup_nth_error l) Nd); [apply nth_error_Some; congruence|congruence]); lia).
    assert (h <> j) by (intros ->; assert (m = S k) by (apply (proj1 (NoDup_nth_error l) Nd); [apply nth_error_Some; congruence|congruence]); lia).
    pose proof (me_distinct _ _ M h i r p ltac:(assumption) (conj Pr Er) (conj Pi Ei)).
    pose proof (me_distinct _ _ M h j r q ltac:(assumption) (conj Pr Er) (conj Pj Ej)).
    destruct (N h r (conj Pr Er)); [apply H2|apply H3]; lra. }
  subst m.
  assert (C : In (i, j) (combine l (tl l))).
  { clear - K Km. revert l K Km. induction k as [|k IH]; intros [|x l] K Km; try discriminate.
    - cbn in K, Km |- *. destruct l as [|y l]; [discriminate|]. injection K as ->. injection Km as ->. now left.
    - destruct l as [|y l]; [destruct k; discriminate|]. right. apply (IH (y :: l)); assumption. }
  rewrite <- (me_tiles _ _ M) in C. apply in_map_iff in C. destruct C as (s & E & Is). injection E as <- <-. exists s. now repeat split.
Qed.

Lemma next_line_fine ax lines s p q : meshed ax lines -> In s (ax_segments ax) -> policy_at ax (sg_before s) p -> policy_at ax (sg_after s) q ->
  fine (iv_dmax (sg_iv s)) lines (p_coord p) (p_coord q).
Proof.
  intros M I P Q. split; [|exact (md_reach _ _ M s p q I P Q)]. intros x y N L1 L2. now apply (md_local _ _ M s p q x y).
Qed.

(** What a run does on an axis. *)
Record axis_run (g : params) (zs : list zone) (Dz : Q) (ax ax1 ax3 : axis) : Prop := {
  ar_increasing : increasing (ax_lines ax3);
  ar_within : within (Qmax (g_dmax g) Dz) (ax_lines ax3);
  ar_policies : same_policies ax1 ax3;
  ar_oneline : forall i p, enabled_at ax3 i p -> p_policy p = ONELINE -> In (p_coord p) (ax_lines ax3);
  ar_inside : forall x, In x (ax_lines ax3) -> exists i p j q, enabled_at ax3 i p /\ enabled_at ax3 j q /\ p_coord p <= x <= p_coord q;
  ar_apart : forall i j p q, i <> j -> enabled_at ax3 i p -> enabled_at ax3 j q -> g_proximity_limit g < Qabs (p_coord p - p_coord q);
  ar_moved : forall i p, enabled_at ax i p -> exists j q, enabled_at ax3 j q /\ Qabs (p_coord p - p_coord q) <= (5 # 2) * g_proximity_limit g
    /\ (p_policy p = ONELINE -> p_policy q = ONELINE);
  ar_in : forall p q, neighbours ax3 p q -> (exists z, In z zs /\ z_min z <= (p_coord p + p_coord q) / 2 <= z_max z) ->
    fine Dz (ax_lines ax3) (p_coord p) (p_coord q);
  ar_out : forall p q, neighbours ax3 p q -> (forall z, In z zs -> ~ z_min z <= (p_coord p + p_coord q) / 2 <= z_max z) ->
    fine (g_dmax g) (ax_lines ax3) (p_coord p) (p_coord q);
}.

Lemma in_zone_iff z x : in_zone z x = true <-> z_min z <= x <= z_max z.
Proof. unfold in_zone. rewrite andb_true_iff, !Qle_bool_iff. reflexivity. Qed.

Lemma axis_lines g srt zs ax Dz : sorts srt -> 0 <= g_proximity_limit g -> 0 < g_dmax g -> 1 <= g_smoothness g -> 0 < Dz ->
  Forall (fun z => z_dmax z = Dz) zs -> all_consistent ax -> ax_conflicts ax = [] ->
  ax_segments ax = [] -> ax_lines ax = [] -> (forall i p, enabled_at ax i p -> 0 < p_d p) ->
  exists ax1 ax2 ax3, finishes (fun n => detect_and_solve_too_close n g srt ax) ax1 /\
    detect_intervals g srt ax1 = Done ax2 /\ finishes (fun n => mesh_axis n srt (apply_zones zs ax2)) ax3 /\ axis_run g zs Dz ax ax1 ax3.
Proof.
  intros S L0 D0 S1 Z0 Z C Cf E0 Li Po.
  assert (Se : settled ax) by (split; [intros i p _ (c & I & _)|intros i (c & I & _)]; rewrite Cf in I; destruct I).
  destruct (solve_loop g srt S (enabled_count ax) ax (le_n _) Se) as (ax1 & H & E).
  destruct (solving_other _ _ _ _ H) as (X1 & X2 & _).
  assert (Po1 : forall i p, enabled_at ax1 i p -> 0 < p_d p) by (eapply solving_pos; eassumption).
  pose proof (solving_apart g srt ax ax1 S H) as Ap.
  assert (Di1 : distinct ax1) by (apply (apart_distinct (g_proximity_limit g)); assumption).
  destruct (intervals_meshable g srt ax1 S D0 S1) as (ax2 & l & E2 & O2 & M2 & Sm2 & Cs2 & Dm2); try congruence; try assumption.
  assert (M3 : meshable (apply_zones zs ax2) l).
  { apply zones_meshable; [|assumption]. eapply Forall_impl; [|exact Z]. intros z Hz. cbn in *. now rewrite Hz. }
  destruct (mesh_axis_meshed srt _ l S M3) as (ax3 & F & Md & Sm3 & _).
  assert (C2 : all_consistent ax2).
  { unfold all_consistent. eapply forall2_forall; [exact same_consistent|exact Sm2|]. eapply solving_consistent; eassumption. }
  assert (At13 : forall i p, enabled_at ax1 i p -> exists q, enabled_at ax3 i q /\ same_but_d p q).
  { intros i p [P En]. destruct (same_at_l _ _ _ _ Sm2 P) as (q & Q & K). destruct (same_at_l _ _ _ _ Sm3 Q) as (r & R & K').
    exists r. split; [split; [assumption|]|]; [|eapply same_but_d_trans; eassumption]. destruct K as (_ & _ & _ & K), K' as (_ & _ & _ & K'). congruence. }
  assert (At32 : forall i p, enabled_at ax3 i p -> exists q, enabled_at (apply_zones zs ax2) i q /\ same_but_d q p).
  { intros i p [P En]. destruct (same_at _ _ _ _ Sm3 P) as (q & Q & K). exists q. split; [split; [assumption|]|assumption]. destruct K as (_ & _ & _ & K). congruence. }
  assert (At31 : forall i p, enabled_at ax3 i p -> exists q, enabled_at ax1 i q /\ same_but_d q p).
  { intros i p P3. destruct (At32 i p P3) as (q & [Q Eq] & K). destruct (same_at _ _ _ _ Sm2 Q) as (r & R & K').
    exists r. split; [split; [assumption|]|eapply same_but_d_trans; eassumption]. destruct K' as (_ & _ & _ & K'). congruence. }
  assert (At23 : forall i p, enabled_at (apply_zones zs ax2) i p -> exists q, enabled_at ax3 i q /\ same_but_d p q).
  { intros i p [P En]. destruct (same_at_l _ _ _ _ Sm3 P) as (r & R & K). exists r. split; [split; [assumption|]|assumption]. destruct K as (_ & _ & _ & K). congruence. }
  assert (Nb : forall p q, neighbours ax3 p q -> exists s b a, In s (ax_segments (apply_zones zs ax2)) /\ policy_at ax2 (sg_before s) b /\ policy_at ax2 (sg_after s) a
    /\ p_coord b = p_coord p /\ p_coord a = p_coord q /\ iv_m (sg_iv s) == (p_coord p + p_coord q) / 2).
  { intros p q (i & j & Pi & Pj & L & N). destruct (At32 i p Pi) as (b & Pb & Kb), (At32 j q Pj) as (a & Pa & Ka).
    destruct Kb as (Kb & _), Ka as (Ka & _).
    destruct (neighbours_segment _ l b a M3) as (s & Is & Ps & Qs).
    { exists i, j. split; [assumption|]. split; [assumption|]. split; [rewrite Kb, Ka; assumption|]. intros k r Pr. destruct (At23 k r Pr) as (r' & Pr' & (Kr & _)).
      rewrite Kb, Ka, Kr. now apply (N k). }
    exists s, b, a. do 3 (split; [assumption|]). split; [assumption|]. split; [assumption|].
    pose proof (ready_m _ _ _ (me_ready _ _ M3 s b a Is Ps Qs)) as Hm. rewrite Hm, Kb, Ka. field. }
  exists ax1, ax2, ax3. split; [exists (Datatypes.S (enabled_count ax)); intros m Lm; apply E; lia|]. split; [assumption|]. split; [assumption|].
  assert (Bd : forall s, In s (ax_segments (apply_zones zs ax2)) -> iv_dmax (sg_iv s) <= Qmax (g_dmax g) Dz).
  { apply zones_dmax; [|intros s Is; rewrite (Dm2 s Is); apply Q.le_max_l]. eapply Forall_impl; [|exact Z]. intros z Hz. cbn in *. rewrite Hz. apply Q.le_max_r. }
  split.
  - exact (md_increasing _ _ Md).
  - apply (md_within _ _ Md); [exact C2|exact Bd].
  - unfold same_policies in *. cbn in Sm3. eapply forall2_trans; [|exact Sm2|exact Sm3]. exact same_but_d_trans.
  - intros i p P3 Op. destruct (At32 i p P3) as (q & Q & (Cq & Pq & _)). rewrite <- Cq. apply (md_oneline _ _ Md i q Q). congruence.
  - intros x X. destruct (md_inside _ _ Md x X) as [(i & p & Ei & _ & ->)|(i & p & j & q & Ei & Ej & L)].
    + destruct (At23 i p Ei) as (p' & E' & (Cp & _)). exists i, p', i, p'. rewrite <- Cp. split; [assumption|]. split; [assumption|]. lra.
    + destruct (At23 i p Ei) as (p' & E' & (Cp & _)). destruct (At23 j q Ej) as (q' & F' & (Cq & _)).
      exists i, p', j, q'. rewrite <- Cp, <- Cq. split; [assumption|]. split; [assumption|]. lra.
  - intros i j p q N Pi Pj. destruct (At31 i p Pi) as (p' & Pi' & (Kp & _)), (At31 j q Pj) as (q' & Pj' & (Kq & _)).
    rewrite <- Kp, <- Kq. exact (Ap i j p' q' N Pi' Pj').
  - intros i p Ei. destruct (solving_moved g srt ax ax1 i p S H C Ei L0) as (j & q & Ej & R & G).
    assert (Oq : p_policy p = ONELINE -> p_policy q = ONELINE).
    { intros O. pose proof (solving_well_solved _ _ _ _ H C ltac:(rewrite Cf; constructor)) as W'.
      destruct (solving_frame _ _ _ _ H i p (proj1 Ei)) as [P|P].
      - exact (replaced_oneline ax1 i j p q W' R P (proj1 Ej) O).
      - exact (replaced_oneline ax1 i j (disable p) q W' R P (proj1 Ej) O). }
    destruct (At13 j q Ej) as (q' & Ej' & (Kc & Kp & _)). exists j, q'. split; [assumption|]. rewrite <- Kc, <- Kp. split; [assumption|]. exact Oq.
  - intros p q N (z & Iz & Hz). destruct (Nb p q N) as (s & b & a & Is & Pb & Pa & Kb & Ka & Hm).
    pose proof (next_line_fine _ _ s b a Md Is Pb Pa) as Fi. rewrite Kb, Ka in Fi.
    destruct (zones_segments Dz zs Z ax2 s Is) as (s0 & _ & _ & _ & Em & H1 & _). rewrite <- Em in H1. rewrite H1 in Fi; [assumption|].
    exists z. split; [assumption|]. apply in_zone_iff. rewrite Hm. assumption.
  - intros p q N Hz. destruct (Nb p q N) as (s & b & a & Is & Pb & Pa & Kb & Ka & Hm).
    pose proof (next_line_fine _ _ s b a Md Is Pb Pa) as Fi. rewrite Kb, Ka in Fi.
    destruct (zones_segments Dz zs Z ax2 s Is) as (s0 & I0 & _ & _ & Em & _ & H2). rewrite <- Em in H2. rewrite H2, (Dm2 s0 I0) in Fi; [assumption|].
    intros z Iz. destruct (in_zone z (iv_m (sg_iv s))) eqn:Ez; [|reflexivity]. exfalso. apply in_zone_iff in Ez. rewrite Hm in Ez. exact (Hz z Iz Ez).
Qed.

(** * The zones *)

Lemma zone_of_same b b' ax z : b_angles b' = b_angles b -> zone_of b' ax z = zone_of b ax z.
Proof. intros E. unfold zone_of. now rewrite E. Qed.

Lemma sorted_ends {A} (R : A -> A -> Prop) l first x : StronglySorted R (first :: l) -> In x (first :: l) ->
  (x = first \/ R first x) /\ (x = last (first :: l) first \/ R x (last (first :: l) first)).
Proof.
  intros S I. split.
  - destruct I as [<-|I]; [now left|right]. inversion S as [|? ? _ F]; subst. rewrite Forall_forall in F. auto.
  - revert first S I. induction l as [|y l IH]; intros first S I; [destruct I as [<-|[]]; now left|].
    inversion S as [|? ? S' F]; subst. change (last (first :: y :: l) first) with (last (y :: l) first). rewrite (last_default y l first y).
    destruct I as [<-|I]; [|now apply IH]. right. rewrite Forall_forall in F. apply F.
    destruct (exists_last (l := y :: l) ltac:(discriminate)) as (t & u & E). rewrite E, last_last. apply in_app_iff. right. now left.
Qed.

Lemma zone_of_zoned g d b0 b p v zs ax z : zoned g d (with_angles b0 (b_angles b)) p v zs -> view_of_axis p ax = Some v -> In z zs ->
  exists w, zone_of b ax z = Done w /\ z_dmax w = dp_dmax d /\ forall x, z_min w <= x <= z_max w <-> in_zone_range b ax z x.
Proof.
  intros H V I. assert (An : forall i, In i (dz_angles z) -> exists a, nth_error (b_angles b) i = Some a /\ a_plane a = p).
  { intros i J. destruct (zoned_angle _ _ _ _ _ _ _ _ H I J) as (a & N & P). cbn in N. rewrite nth_error_map in N.
    destruct (nth_error (b_angles b) i) as [a'|] eqn:N'; [|discriminate]. cbn in N. injection N as <-. exists a'. now split. }
  destruct H as (l & _ & _ & Hz & _). destruct (Hz z I) as (Dm & _ & _ & St & l1 & s & l2 & _ & L2 & Pm).
  assert (Co : forall i, In i (dz_angles z) -> exists a, nth_error (b_angles b) i = Some a /\ forall y, angle_coord b ax i y <-> y = along v (a_point a)).
  { intros i J. destruct (An i J) as (a & N & P). exists a. split; [assumption|]. intros y. split.
    - intros (a' & v' & N' & V' & ->). assert (a' = a) as -> by congruence. rewrite P in V'. congruence.
    - intros ->. exists a, v. split; [assumption|]. split; [congruence|reflexivity]. }
  assert (Le : forall i j a c, (i = j \/ exists a c, nth_error (b_angles (with_angles b0 (b_angles b))) i = Some a /\ nth_error (b_angles (with_angles b0 (b_angles b))) j = Some c
     /\ a_plane a = p /\ a_plane c = p /\ along v (a_point a) <= along v (a_point c)) -> nth_error (b_angles b) i = Some a -> nth_error (b_angles b) j = Some c ->
     along v (a_point a) <= along v (a_point c)).
  { intros i j a c [->|(a' & c' & Na & Nc & _ & _ & L)] Ha Hc; [assert (a = c) as -> by congruence; apply Qle_refl|].
    cbn in Na, Nc. rewrite nth_error_map, Ha in Na. rewrite nth_error_map, Hc in Nc. cbn in Na, Nc. injection Na as <-. injection Nc as <-. exact L. }
  unfold zone_of. destruct (dz_angles z) as [|f r] eqn:Ez.
  { apply Permutation_length in Pm. rewrite map_length in Pm. cbn in Pm. lia. }
  assert (Lin : In (last (f :: r) f) (f :: r)).
  { destruct (exists_last (l := f :: r) ltac:(discriminate)) as (t & u & E). rewrite E, last_last. apply in_app_iff. right. now left. }
  destruct (An f (or_introl eq_refl)) as (a & Na & Pa). destruct (An _ Lin) as (c & Nc & Pc).
  unfold read. rewrite Na. cbn [bind]. rewrite Nc. cbn [bind]. rewrite Pa, Pc, V. eexists. split; [reflexivity|]. cbn [z_dmax z_min z_max]. split; [assumption|].
  intros x. split.
  - intros [L1 L2']. exists f, (last (f :: r) f), (along v (a_point a)), (along v (a_point c)). rewrite Ez. split; [now left|]. split; [assumption|].
    split; [exists a, v; split; [assumption|]; split; [congruence|reflexivity]|]. split; [exists c, v; split; [assumption|]; split; [congruence|reflexivity]|].
    destruct v; now split.
  - intros (i & j & y & y' & Ii & Ij & Ci & Cj & X). rewrite Ez in Ii, Ij. destruct (Co i Ii) as (ai & Ni & Ei). destruct (Co j Ij) as (aj & Nj & Ej).
    apply Ei in Ci. apply Ej in Cj. subst y y'. destruct (sorted_ends _ r f i St Ii) as [H1 _]. destruct (sorted_ends _ r f j St Ij) as [_ H2].
    assert (K1 : along v (a_point a) <= along v (a_point ai)) by (apply (Le f i); [destruct H1 as [->|H1]; [now left|now right]|assumption..]).
    assert (K2 : along v (a_point aj) <= along v (a_point c)) by (apply (Le j (last (f :: r) f)); [assumption..]).
    destruct v; cbn [pt_coord along] in *; lra.
Qed.

Lemma zones_of_run g d ang b0 b ax : built b0 -> diagonals g d ang b0 b -> exists zs, collect (zone_of b ax) (on_axis (b_zones b) ax) = Done zs
  /\ Forall (fun z => z_dmax z = dp_dmax d) zs
  /\ forall x, (exists z, In z zs /\ z_min z <= x <= z_max z) <-> exists p v, view_of_axis p ax = Some v /\ diagonal_over b0 p v x.
Proof.
  intros Bu Dg. pose proof Dg as [_ (zf & Z & E) _].
  assert (K : forall z, In z (on_axis (b_zones b) ax) -> exists w, zone_of b ax z = Done w /\ z_dmax w = dp_dmax d /\ forall x, z_min w <= x <= z_max w <-> in_zone_range b ax z x).
  { intros z I. rewrite E in I. apply in_flat_map in I. destruct I as (p & _ & I). destruct (view_of_axis p ax) as [v|] eqn:V; [|destruct I].
    exact (zone_of_zoned g d b0 b p v (zf p v) ax z (Z p v) V I). }
  destruct (collect_ends (zone_of b ax) (on_axis (b_zones b) ax)) as (zs & C); [intros z I; destruct (K z I) as (w & W & _); eauto|].
  exists zs. split; [assumption|]. apply collect_done in C. split.
  - apply Forall_forall. intros w I. apply Forall2_flip in C. destruct (forall2_in _ _ _ C w I) as (z & Iz & W). destruct (K z Iz) as (w' & W' & Dm & _). congruence.
  - intros x. rewrite <- (diagonals_cover g d ang b0 b Bu Dg ax x). split.
    + intros (w & I & X). apply Forall2_flip in C. destruct (forall2_in _ _ _ C w I) as (z & Iz & W). destruct (K z Iz) as (w' & W' & _ & R).
      assert (w' = w) as -> by congruence. exists z. split; [assumption|]. now apply R.
    + intros (z & Iz & X). destruct (forall2_in _ _ _ C z Iz) as (w & I & W). destruct (K z Iz) as (w' & W' & _ & R). assert (w' = w) as -> by congruence.
      exists w. split; [assumption|]. now apply R.
Qed.

(** * The policies of a run *)

Definition proper_policy (g : params) (p : mlp) : Prop := consistent p /\ p_d p = g_dmax g / 2.

Lemma policies_for_proper g b cs l : policies_for g b cs l -> Forall (proper_policy g) l.
Proof.
  induction 1 as [|c cs l es _ _ _ IH|c cs l e es v policy normal _ _ F _ IH]; [constructor|assumption|]. constructor; [|assumption].
  split; [|reflexivity]. unfold consistent. cbn. unfold BoardSpec.fits in F. destruct policy; destruct F as [F _]; split; congruence.
Qed.

Lemma run_policies_proper g fixed b0 b ax : run_result g fixed b0 b -> Forall (proper_policy g) (ax_policies (on_axis (b_axes b) ax))
  /\ ax_conflicts (on_axis (b_axes b) ax) = [] /\ ax_segments (on_axis (b_axes b) ax) = [] /\ ax_lines (on_axis (b_axes b) ax) = [].
Proof.
  intros R. destruct (rr_policies _ _ _ _ R ax) as (F & C & (G & Gr) & Gf & Pf). split; [|exact Gr]. rewrite G. cbn [ax_policies app].
  apply Forall_app. split; [|apply Forall_app; split].
  - destruct Gf as (Gf & _). cbn in Gf. destruct (fixed_appends g (on_axis fixed ax) (mk_axis [] [] [] [])) as (l & El & Fl). rewrite El in Gf. cbn in Gf. subst l.
    eapply Forall_impl; [|exact Fl]. intros p (x & _ & ->). split; [|reflexivity]. unfold consistent. cbn. split; congruence.
  - eapply policies_for_proper; eassumption.
  - apply Forall_forall. intros x I. apply in_flat_map in I. destruct I as (p & _ & I). unfold individuals in I. apply in_app_iff in I. destruct I as [I|I].
    + unfold pols in I. apply in_flat_map in I. destruct I as (i & _ & I). destruct (nth_error (b_edges b) i) as [e|]; [|destruct I].
      destruct (alone ax e) eqn:A; [|destruct I]. destruct I as [<-|[]]. split; [|reflexivity]. unfold consistent, pol. cbn.
      unfold alone in A. destruct (BoardColinearProofs.edge_axis e); [|discriminate]. destruct (faces e); [rewrite andb_false_r in A; discriminate|split; congruence..].
    + unfold apols in I. destruct (view_of_axis p ax) as [v|]; [|destruct I]. apply in_map_iff in I. destruct I as (a & <- & _).
      split; [|reflexivity]. unfold consistent. cbn. split; congruence.
Qed.

(** * The board *)

Lemma finishes_each f (b : board) x : (forall ax, finishes (fun n => f n ax (on_axis (b_axes b) ax)) (on_axis x ax)) ->
  finishes (fun n => on_each_axis (f n) b) (set_axes b x).
Proof.
  intros H. destruct (H AX) as (n1 & H1), (H AY) as (n2 & H2), (H AZ) as (n3 & H3). exists (Nat.max n1 (Nat.max n2 n3)). intros m L.
  specialize (H1 m ltac:(lia)). specialize (H2 m ltac:(lia)). specialize (H3 m ltac:(lia)). unfold on_each_axis, all_axes. cbn [for_each].
  destruct b as [? ? ? ? ? ? ? [a1 a2 a3]], x as [x1 x2 x3]. cbn in *. rewrite H1. cbn. rewrite H2. cbn. rewrite H3. reflexivity.
Qed.

Lemma finishes_bind {A B} (f : nat -> run A) (h : nat -> A -> run B) a r : finishes f a -> finishes (fun n => h n a) r -> finishes (fun n => let! x := f n in h n x) r.
Proof. intros (n & N) (m & M). exists (Nat.max n m). intros k L. rewrite N by lia. cbn [bind]. apply M. lia. Qed.

Lemma finishes_unique {A} (f : nat -> run A) a b : finishes f a -> finishes f b -> a = b.
Proof. intros (n & N) (m & M). specialize (N (Nat.max n m) ltac:(lia)). specialize (M (Nat.max n m) ltac:(lia)). congruence. Qed.

Lemma on_axis_choice {A} (P : Axis3 -> A -> Prop) : (forall ax, exists x, P ax x) -> exists s : space A, forall ax, P ax (on_axis s ax).
Proof. intros H. destruct (H AX) as (x & X), (H AY) as (y & Y), (H AZ) as (z & Z). exists (mk_space x y z). now intros []. Qed.

Record board_lines (g : params) (d : diag_params) (srt : sorter) (b0 b b' : board) : Prop := {
  bl_rest : b' = set_axes b (b_axes b');
  bl_axes : forall ax, exists zs ax1, axis_run g zs (dp_dmax d) (on_axis (b_axes b) ax) ax1 (on_axis (b_axes b') ax)
    /\ finishes (fun n => detect_and_solve_too_close n g srt (on_axis (b_axes b) ax)) ax1
    /\ forall x, (exists z, In z zs /\ z_min z <= x <= z_max z) <-> exists p v, view_of_axis p ax = Some v /\ diagonal_over b0 p v x;
}.

Lemma run_lines fuel g d srt srt' ang fixed b0 b : sorts_by srt -> sorts srt' -> built b0 -> policies_of_board fuel g d srt ang fixed b0 = Done b ->
  0 <= g_proximity_limit g -> 0 < g_dmax g -> 1 <= g_smoothness g -> 0 < dp_dmax d ->
  exists b', finishes (fun n => lines_of_board n g srt' b) b' /\ board_lines g d srt' b0 b b'.
Proof.
  intros So So' Bu E P0 D0 S1 Z0. pose proof (run_diagonals _ _ _ _ _ _ _ _ So Bu E) as Dg.
  destruct (run_steps _ _ _ _ _ _ _ _ E) as (b1 & b4 & b5 & b6 & b7 & b8 & b9 & H).
  destruct (run_result_of _ _ _ _ _ _ _ _ _ _ _ _ _ _ _ So Bu H) as [R _]. clear H.
  assert (K : forall ax, exists q : axis * axis * axis * list zone, let '(ax1, ax2, ax3, zs) := q in
    collect (zone_of b ax) (on_axis (b_zones b) ax) = Done zs
    /\ finishes (fun n => detect_and_solve_too_close n g srt' (on_axis (b_axes b) ax)) ax1 /\ detect_intervals g srt' ax1 = Done ax2
    /\ finishes (fun n => mesh_axis n srt' (apply_zones zs ax2)) ax3 /\ axis_run g zs (dp_dmax d) (on_axis (b_axes b) ax) ax1 ax3
    /\ forall x, (exists z, In z zs /\ z_min z <= x <= z_max z) <-> exists p v, view_of_axis p ax = Some v /\ diagonal_over b0 p v x).
  { intros ax. destruct (zones_of_run g d ang b0 b ax Bu Dg) as (zs & Cz & Dz & Rz). destruct (run_policies_proper _ _ _ _ ax R) as (Pr & Cf & Sg & Li).
    assert (HD : 0 < g_dmax g / 2) by (assert (g_dmax g / 2 == g_dmax g * (1 # 2)) as -> by field; lra).
    destruct (axis_lines g srt' zs (on_axis (b_axes b) ax) (dp_dmax d)) as (ax1 & ax2 & ax3 & F1 & F2 & F3 & Ar); try assumption.
    - unfold all_consistent. eapply Forall_impl; [|exact Pr]. now intros p [Hp _].
    - intros i p [Pi _]. rewrite Forall_forall in Pr. destruct (Pr p (nth_error_In _ _ Pi)) as [_ ->]. assumption.
    - exists (ax1, ax2, ax3, zs). do 5 (split; [assumption|]). assumption. }
  destruct (on_axis_choice _ K) as (q & Q). clear K.
  set (pick := fun {A} (f : axis * axis * axis * list zone -> A) => mk_space (f (on_axis q AX)) (f (on_axis q AY)) (f (on_axis q AZ))).
  assert (Pk : forall A (f : _ -> A) ax, on_axis (pick A f) ax = f (on_axis q ax)) by (intros A f []; reflexivity).
  exists (set_axes b (pick _ (fun q => snd (fst q)))). split.
  - unfold lines_of_board.
    apply (finishes_bind _ _ (set_axes b (pick _ (fun q => fst (fst (fst q)))))).
    { apply (finishes_each (fun n _ => detect_and_solve_too_close n g srt')). intros ax. rewrite Pk. specialize (Q ax). destruct (on_axis q ax) as [[[ax1 ax2] ax3] zs]. apply Q. }
    apply (finishes_bind _ _ (set_axes b (pick _ (fun q => snd (fst (fst q)))))).
    { apply (finishes_each (fun _ _ => detect_intervals g srt') (set_axes b _)). intros ax. cbn [b_axes set_axes]. rewrite !Pk. specialize (Q ax).
      destruct (on_axis q ax) as [[[ax1 ax2] ax3] zs]. exists 0%nat. intros _ _. apply Q. }
    apply (finishes_bind _ _ (set_axes b (pick _ (fun q => apply_zones (snd q) (snd (fst (fst q))))))).
    { eapply (finishes_each (fun _ ax x => let! zs := collect (zone_of (set_axes b (pick axis (fun q => snd (fst (fst q))))) ax) (on_axis (b_zones b) ax) in Done (apply_zones zs x)) (set_axes b _)).
      intros ax. cbn [b_axes set_axes b_zones]. rewrite !Pk. specialize (Q ax).
      destruct (on_axis q ax) as [[[ax1 ax2] ax3] zs]. exists 0%nat. intros _ _. destruct Q as (Cz & _).
      change (collect (zone_of (set_axes b (pick axis (fun q0 => snd (fst (fst q0))))) ax)) with (collect (zone_of b ax)). rewrite Cz. reflexivity. }
    apply (finishes_each (fun n _ => mesh_axis n srt') (set_axes b _)). intros ax. cbn [b_axes set_axes]. rewrite !Pk. specialize (Q ax).
    destruct (on_axis q ax) as [[[ax1 ax2] ax3] zs]. apply Q.
  - split; [reflexivity|]. intros ax. specialize (Q ax). cbn [b_axes set_axes]. rewrite Pk. destruct (on_axis q ax) as [[[ax1 ax2] ax3] zs].
    destruct Q as (_ & F & _ & _ & Ar & Rz). exists zs, ax1. split; [assumption|]. now split.
Qed.

(** * Consequences *)

Lemma least_above (l : list mlp) c : (exists p, In p l /\ c < p_coord p) ->
  exists p, In p l /\ c < p_coord p /\ forall r, In r l -> p_coord r <= c \/ p_coord p <= p_coord r.
Proof.
  induction l as [|x l IH]; intros (p & I & L); [destruct I|].
  assert (D : (exists p, In p l /\ c < p_coord p) \/ forall r, In r l -> p_coord r <= c).
  { clear. induction l as [|y l [H|H]]; [right; intros r []|left; destruct H as (p & I & L); exists p; split; [now right|assumption]|].
    destruct (Qlt_le_dec c (p_coord y)) as [K|K]; [left; exists y; split; [now left|assumption]|right; intros r [<-|I]; [assumption|auto]]. }
  destruct D as [D|D].
  - destruct (IH D) as (m & Im & Lm & Hm). destruct (Qlt_le_dec c (p_coord x)) as [K|K].
    + destruct (Qlt_le_dec (p_coord x) (p_coord m)) as [J|J].
      * exists x. split; [now left|]. split; [assumption|]. intros r [<-|Ir]; [right; apply Qle_refl|]. destruct (Hm r Ir); [now left|right; lra].
      * exists m. split; [now right|]. split; [assumption|]. intros r [<-|Ir]; [now right|auto].
    + exists m. split; [now right|]. split; [assumption|]. intros r [<-|Ir]; [now left|auto].
  - destruct I as [->|I]; [|specialize (D p I); lra]. exists p. split; [now left|]. split; [assumption|]. intros r [<-|Ir]; [right; apply Qle_refl|left; auto].
Qed.

Definition mirror (p : mlp) : mlp := mk_mlp (- p_coord p) (p_policy p) (p_normal p) (p_enabled p) (p_d p).
Lemma most_below (l : list mlp) c : (exists p, In p l /\ p_coord p < c) ->
  exists p, In p l /\ p_coord p < c /\ forall r, In r l -> p_coord r <= p_coord p \/ c <= p_coord r.
Proof.
  intros (p & I & L). destruct (least_above (map mirror l) (- c)) as (m & Im & Lm & Hm).
  - exists (mirror p). split; [now apply in_map|]. cbn. lra.
  - apply in_map_iff in Im. destruct Im as (q & <- & Iq). cbn in *. exists q. split; [assumption|]. split; [lra|].
    intros r Ir. destruct (Hm (mirror r) (in_map _ _ _ Ir)) as [H|H]; cbn in H; [right|left]; lra.
Qed.

Lemma enabled_in ax p : In p (filter p_enabled (ax_policies ax)) <-> exists i, enabled_at ax i p.
Proof.
  rewrite filter_In. split.
  - intros [I E]. apply In_nth_error in I. destruct I as (i & I). exists i. now split.
  - intros (i & P & E). split; [eapply nth_error_In; eassumption|assumption].
Qed.

(** A policy that is not alone has a neighbour. *)
Lemma has_neighbour ax i p j q : enabled_at ax i p -> enabled_at ax j q -> ~ p_coord q == p_coord p -> exists r, neighbours ax p r \/ neighbours ax r p.
Proof.
  intros Pi Pj N. destruct (Qlt_le_dec (p_coord p) (p_coord q)) as [L|L].
  - destruct (least_above (filter p_enabled (ax_policies ax)) (p_coord p)) as (r & Ir & Lr & Hr); [exists q; split; [apply enabled_in; eauto|assumption]|].
    apply enabled_in in Ir. destruct Ir as (k & Pk). exists r. left. exists i, k. do 3 (split; [assumption|]). intros m t Pm. apply Hr. apply enabled_in. eauto.
  - destruct (most_below (filter p_enabled (ax_policies ax)) (p_coord p)) as (r & Ir & Lr & Hr); [exists q; split; [apply enabled_in; eauto|]|].
    { destruct (Qlt_le_dec (p_coord q) (p_coord p)); [assumption|]. exfalso. apply N. lra. }
    apply enabled_in in Ir. destruct Ir as (k & Pk). exists r. right. exists k, i. do 3 (split; [assumption|]). intros m t Pm. apply Hr. apply enabled_in. eauto.
Qed.

Lemma fine_weaken D D' l a b : D <= D' -> fine D l a b -> fine D' l a b.
Proof.
  intros H (F1 & (x & X & Lx) & (y & Y & Ly)). split; [|split].
  - intros u w N L1 L2. specialize (F1 u w N L1 L2). lra.
  - exists x. split; [assumption|]. lra.
  - exists y. split; [assumption|]. lra.
Qed.

Lemma zones_cases zs x : (exists z, In z zs /\ z_min z <= x <= z_max z) \/ forall z, In z zs -> ~ z_min z <= x <= z_max z.
Proof.
  destruct (existsb (fun z => in_zone z x) zs) eqn:E.
  - left. apply existsb_exists in E. destruct E as (z & I & H). exists z. split; [assumption|]. now apply in_zone_iff.
  - right. intros z I H. apply in_zone_iff in H. assert (existsb (fun z => in_zone z x) zs = true) by (apply existsb_exists; eauto). congruence.
Qed.

Lemma neighbours_fine g zs Dz ax ax1 ax3 p q : axis_run g zs Dz ax ax1 ax3 -> neighbours ax3 p q ->
  fine (Qmax (g_dmax g) Dz) (ax_lines ax3) (p_coord p) (p_coord q).
Proof.
  intros R N. destruct (zones_cases zs ((p_coord p + p_coord q) / 2)) as [H|H].
  - apply (fine_weaken Dz); [apply Q.le_max_r|]. now apply (ar_in _ _ _ _ _ _ R).
  - apply (fine_weaken (g_dmax g)); [apply Q.le_max_l|]. now apply (ar_out _ _ _ _ _ _ R).
Qed.

(** A policy that is not alone has a line nearby. *)
Lemma line_near g zs Dz ax ax1 ax3 i p : axis_run g zs Dz ax ax1 ax3 -> enabled_at ax3 i p ->
  (forall j q, enabled_at ax3 j q -> p_coord q == p_coord p) \/ exists y, In y (ax_lines ax3) /\ Qabs (p_coord p - y) <= Qmax (g_dmax g) Dz.
Proof.
  intros R Pi.
  destruct (forallb (fun q => Qeq_bool (p_coord q) (p_coord p)) (filter p_enabled (ax_policies ax3))) eqn:E.
  - left. intros j q Pj. rewrite forallb_forall in E. apply Qeq_bool_iff, E, enabled_in. eauto.
  - right. assert (exists q, In q (filter p_enabled (ax_policies ax3)) /\ Qeq_bool (p_coord q) (p_coord p) = false) as (q & Iq & Nq).
    { clear - E. induction (filter _ _) as [|x l IH]; [discriminate|]. cbn in E. destruct (Qeq_bool (p_coord x) (p_coord p)) eqn:X; [|exists x; split; [now left|assumption]].
      destruct (IH E) as (q & I & H). exists q. split; [now right|assumption]. }
    apply enabled_in in Iq. destruct Iq as (j & Pj). apply Qeq_bool_neq in Nq.
    destruct (has_neighbour ax3 i p j q Pi Pj Nq) as (r & [N|N]); destruct (neighbours_fine _ _ _ _ _ _ _ _ R N) as (_ & (x & X & Lx) & (y & Y & Ly)).
    + exists x. split; [assumption|]. apply Qabs_case; intros; lra.
    + exists y. split; [assumption|]. apply Qabs_case; intros; lra.
Qed.
