(** Every angle is in a zone of each axis of its plane. *)
From Coq Require Import List Arith Bool Lia QArith Qabs Lqa Sorting.Sorted Sorting.Permutation.
From Verif Require Import IntervalModel IntervalProofs ManagerModel ManagerSpec GeomModel GeomSpec GeomProofs.
From Verif Require Import BoardModel BoardSpec BoardProofs BoardBuiltProofs BoardRunProofs BoardDiagProofs.
Import ListNotations.
Open Scope Q_scope.

Lemma angle_zoned g d b p v zs i a k e : zoned g d b p v zs -> ends_known b p -> nth_error (b_angles b) i = Some a -> a_plane a = p ->
  edge_at b k e -> e_plane e = p -> e_to_mesh e = true -> diagonal e -> passes v (e_seg e) (along v (a_point a)) -> exists z, In z zs /\ In i (dz_angles z).
Proof.
  intros (l & (Nl & Hl & Sl) & _ & _ & Hc) En A Pa E Pe M D X. set (key := fun w : nat * angle => along v (a_point (snd w))) in *.
  assert (I : In (i, a) l) by now apply Hl. apply in_split in I. destruct I as (l1 & l2 & El).
  destruct (En k e (s0 (e_seg e)) E Pe D (or_introl eq_refl)) as (j0 & a0 & A0 & P0 & Q0). destruct (En k e (s1 (e_seg e)) E Pe D (or_intror eq_refl)) as (j1 & a1 & A1 & P1 & Q1).
  assert (I0 : In (j0, a0) l) by now apply Hl. assert (I1 : In (j1, a1) l) by now apply Hl. pose proof (diagonal_wide e v D) as Wd.
  assert (K0 : key (j0, a0) = along v (s0 (e_seg e))) by (unfold key; cbn; now rewrite Q0). assert (K1 : key (j1, a1) = along v (s1 (e_seg e))) by (unfold key; cbn; now rewrite Q1).
  assert (Over : forall x, passes v (e_seg e) x -> diagonal_over b p v x) by (intros x Px; exists k, e; auto).
  assert (Right : forall y, In y l -> key (i, a) < key y -> exists r t, l2 = r :: t /\ key (i, a) <= key r <= key y).
  { intros y Iy Ly. rewrite El in Iy, Sl. apply in_app_or in Iy. destruct Iy as [Iy|[<-|Iy]]; [|lra|].
    - destruct (sorted_split _ _ _ _ y Sl) as [H _]. specialize (H Iy). fold (key y) in H. change (key y <= key (i, a)) in H. lra.
    - destruct l2 as [|r t]; [destruct Iy|]. exists r, t. split; [reflexivity|]. destruct (sorted_split _ _ _ _ r Sl) as [_ H]. specialize (H (or_introl eq_refl)). split; [exact H|].
      destruct Iy as [<-|Iy]; [lra|]. replace (l1 ++ (i, a) :: r :: t) with ((l1 ++ [(i, a)]) ++ r :: t) in Sl by (rewrite <- app_assoc; reflexivity).
      destruct (sorted_split _ _ _ _ y Sl) as [_ H']. exact (H' Iy). }
  assert (Left : forall y, In y l -> key y < key (i, a) -> exists r t, l1 = t ++ [r] /\ key y <= key r <= key (i, a)).
  { intros y Iy Ly. rewrite El in Iy, Sl. apply in_app_or in Iy. destruct Iy as [Iy|[<-|Iy]]; [|lra|].
    - destruct (exists_last (l := l1)) as (t & r & E1); [intros ->; destruct Iy|]. exists r, t. split; [assumption|]. subst l1. destruct (sorted_split _ _ _ _ r Sl) as [H _].
      split; [|apply H; apply in_or_app; right; now left]. apply in_app_or in Iy. destruct Iy as [Iy|[<-|[]]]; [|lra]. rewrite <- app_assoc in Sl. cbn [app] in Sl.
      destruct (sorted_split _ _ _ _ y Sl) as [H' _]. exact (H' Iy).
    - destruct (sorted_split _ _ _ _ y Sl) as [_ H]. specialize (H Iy). change (key (i, a) <= key y) in H. lra. }
  assert (Kx : key (i, a) = along v (a_point a)) by reflexivity.
  assert (Side : (exists y, In y l /\ key (i, a) < key y /\ forall x, key (i, a) <= x <= key y -> passes v (e_seg e) x)
    \/ exists y, In y l /\ key y < key (i, a) /\ forall x, key y <= x <= key (i, a) -> passes v (e_seg e) x).
  { unfold passes in X. rewrite <- Kx, <- K0, <- K1 in X. rewrite <- K0, <- K1 in Wd. unfold passes. rewrite <- K0, <- K1.
    destruct (Qlt_le_dec (key (i, a)) (key (j0, a0))) as [L0|L0]; [left; exists (j0, a0); split; [assumption|]; split; [assumption|]; intros x Hx; lra|].
    destruct (Qlt_le_dec (key (i, a)) (key (j1, a1))) as [L1|L1]; [left; exists (j1, a1); split; [assumption|]; split; [assumption|]; intros x Hx; lra|].
    destruct (Qlt_le_dec (key (j0, a0)) (key (i, a))) as [M0|M0]; [right; exists (j0, a0); split; [assumption|]; split; [assumption|]; intros x Hx; lra|].
    right. exists (j1, a1). split; [assumption|]. split; [|intros x Hx; lra]. destruct (Qlt_le_dec (key (j1, a1)) (key (i, a))) as [|M1]; [assumption|]. exfalso. apply Wd. lra. }
  destruct Side as [(y & Iy & Ly & Py)|(y & Iy & Ly & Py)].
  - destruct (Right y Iy Ly) as (r & t & E2 & K). destruct (Hc (i, a) r) as [_ H]; [exists l1, t; now rewrite El, E2|].
    destruct H as (z & Iz & Hi & _); [|now exists z]. apply Over, Py. change (along v (a_point (snd (i, a)))) with (key (i, a)). change (along v (a_point (snd r))) with (key r).
    split; [apply Qle_shift_div_l; lra|apply Qle_shift_div_r; lra].
  - destruct (Left y Iy Ly) as (r & t & E2 & K). destruct (Hc r (i, a)) as [_ H]; [exists t, l2; rewrite El, E2, <- app_assoc; reflexivity|].
    destruct H as (z & Iz & _ & Hi); [|now exists z]. apply Over, Py. change (along v (a_point (snd (i, a)))) with (key (i, a)). change (along v (a_point (snd r))) with (key r).
    split; [apply Qle_shift_div_l; lra|apply Qle_shift_div_r; lra].
Qed.

(** The crossing of two edges is on the second one. *)
Lemma intersection_passes a b q v : seg_axis b = SDIAG -> intersection a b = Some q -> passes v b (along v q).
Proof.
  intros D H. unfold intersection in H. rewrite D in H.
  assert (exists m, 0 <= m <= 1 /\ q = pt_add (s0 b) (mk_pt (m * px (seg_vec b)) (m * py (seg_vec b)))) as (m & [M0 M1] & ->).
  { destruct (seg_axis a); try discriminate; (destruct (Qeq_bool _ 0); [discriminate|]; match type of H with (if Qle_bool 0 ?m && _ then _ else _) = _ => exists m end;
      destruct (Qle_bool 0 _ && Qle_bool _ 1) eqn:B; [|discriminate]; apply andb_true_iff in B; destruct B as [B0 B1]; apply Qle_bool_iff in B0, B1; injection H as <-; split; [now split|reflexivity]). }
  unfold passes, along, pt_add, seg_vec, pt_sub. cbn [px py]. destruct v.
  - destruct (Qlt_le_dec (px (s1 b)) (px (s0 b))); [right|left]; nra.
  - destruct (Qlt_le_dec (py (s1 b)) (py (s0 b))); [right|left]; nra.
Qed.

Lemma diagonals_zoned g d ang b0 b : built b0 -> sides_plain b0 -> diagonals g d ang b0 b -> forall i a ax v, nth_error (b_angles b) i = Some a -> view_of_axis (a_plane a) ax = Some v ->
  exists z, In z (on_axis (b_zones b) ax) /\ In i (dz_angles z).
Proof.
  intros Bu Sp [Ha (zs & Z & E) _] i a ax v A V. set (bb := with_angles b0 (b_angles b)) in *.
  assert (Ab : nth_error (b_angles bb) i = Some (bare a)) by (cbn; rewrite nth_error_map, A; reflexivity).
  assert (Over : exists k e, edge_at b0 k e /\ e_plane e = a_plane a /\ diagonal e /\ passes v (e_seg e) (along v (a_point a))).
  { destruct (proj1 (Ha (bare a))) as (p & H); [apply (nth_error_In _ i); exact Ab|]. pose proof (built_in_place b0 Bu) as Pl. destruct H as [H|H].
    - destruct H as (k & gp & i' & j' & ei & G & Gp & F & Ei & (e1 & e2 & E1 & E2 & Dg & Eq)). assert (e1 = ei) as -> by (unfold edge_at in *; congruence). injection Eq as Q1 Q2 Q3 Q4 Q5.
      destruct (follows_in _ _ _ F) as [Ii Ij]. destruct (Pl k gp G i' Ii) as (x1 & X1 & Y1). destruct (Pl k gp G j' Ij) as (x2 & X2 & Y2).
      assert (x1 = ei) as -> by (unfold edge_at in *; congruence). assert (x2 = e2) as -> by (unfold edge_at in *; congruence). destruct Dg as [Dg|Dg].
      + exists i', ei. repeat split; try assumption; [congruence|]. rewrite Q2. unfold passes. destruct (Qlt_le_dec (along v (s0 (e_seg ei))) (along v (s1 (e_seg ei)))); [left|right]; lra.
      + exists j', e2. split; [assumption|]. split; [congruence|]. split; [assumption|]. destruct (built_sound b0 Bu) as [_ Pr _ _ _].
        rewrite Q2, (follows_joined b0 gp i' j' ei e2 (Pr k gp G) F Ei E2). unfold passes. destruct (Qlt_le_dec (along v (s0 (e_seg e2))) (along v (s1 (e_seg e2)))); [left|right]; lra.
    - destruct H as (k & k' & gp & gp' & i' & j' & ei & ej & q & Lt & G & G' & Gp & Gp' & Ii & Ij & Ei & Ej & O & R & Is & (e1 & e2 & E1 & E2 & Dg & Eq)).
      assert (e1 = ei) as -> by (unfold edge_at in *; congruence). assert (e2 = ej) as -> by (unfold edge_at in *; congruence). injection Eq as Q1 Q2 Q3 Q4 Q5.
      destruct (Pl k gp G i' Ii) as (x1 & X1 & Y1). destruct (Pl k' gp' G' j' Ij) as (x2 & X2 & Y2). assert (x1 = ei) as -> by (unfold edge_at in *; congruence). assert (x2 = ej) as -> by (unfold edge_at in *; congruence).
      assert (Dj : diagonal ej).
      { destruct (Sp j' ej Ej) as [Dj|(w & Ew)]; [assumption|]. exfalso. unfold overlap2_strict in O. apply andb_true_iff in O. destruct O as [Ox Oy]. apply Qltb_lt in Ox, Oy.
        unfold qmax, qmin, seg_bounding in Ox, Oy. cbn [xmin xmax ymin ymax] in Ox, Oy. destruct w; cbn [along] in Ew; [clear Oy|clear Ox];
        repeat match goal with H : context [if Qltb ?x ?y then _ else _] |- _ => destruct (Qltb_spec x y) end; lra. }
      exists j', ej. split; [assumption|]. split; [congruence|]. split; [assumption|]. rewrite Q2. exact (intersection_passes _ _ _ v Dj Is). }
  destruct Over as (k & e & Ee & Pe & De & Pv). destruct (built_sound b0 Bu) as [Fr _ _ _ _]. destruct (Fr k e Ee) as [Tm _].
  destruct (angle_zoned g d bb (a_plane a) v (zs (a_plane a) v) i (bare a) k e (Z _ _) (built_ends ang b0 (b_angles b) (a_plane a) Bu Ha) Ab eq_refl Ee Pe Tm De Pv) as (z & Iz & Hi).
  exists z. split; [|assumption]. rewrite E. apply in_flat_map. exists (a_plane a). split; [destruct (a_plane a); cbn; tauto|]. now rewrite V.
Qed.
