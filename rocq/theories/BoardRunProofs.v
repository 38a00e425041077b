(** From polygons to policies: all the steps of a run, one after the other. *)
From Coq Require Import List Arith Bool Lia QArith Qabs Sorting.Sorted.
From Verif Require Import IntervalModel ManagerModel ManagerSpec ManagerProofs ManagerMoreProofs GeomModel GeomSpec GeomProofs.
From Verif Require Import BoardModel BoardSpec BoardProofs BoardColinearProofs BoardSolveProofs BoardCoverProofs BoardDetectProofs.
From Verif Require Import BoardBuiltProofs BoardAdjustProofs BoardIndividualProofs.
Import ListNotations.

Lemma for_each_rel {A B} (R : B -> B -> Prop) (f : B -> A -> run B) l : (forall b, R b b) -> (forall a b c, R a b -> R b c -> R a c) ->
  (forall x b b', In x l -> f b x = Done b' -> R b b') -> forall b b', for_each f l b = Done b' -> R b b'.
Proof.
  intros Refl Trans. induction l as [|x l IH]; intros S b b' E; cbn in E; [injection E as <-; apply Refl|].
  destruct (f b x) as [b1| |] eqn:E1; try discriminate. cbn in E. eapply Trans; [apply (S x b b1 (or_introl eq_refl) E1)|].
  apply IH; [|assumption]. intros y c c' I. apply S. now right.
Qed.

(** * Materials, all planes *)

Lemma same_reverse_refl b : same_but_reverse b b.
Proof. now repeat split. Qed.
Lemma same_reverse_trans a b c : same_but_reverse a b -> same_but_reverse b c -> same_but_reverse a c.
Proof. unfold same_but_reverse. intros (A1 & A2 & A3 & A4 & A5 & A6 & A7 & A8) (B1 & B2 & B3 & B4 & B5 & B6 & B7 & B8). repeat split; congruence. Qed.

Lemma in_place_reverse b b' : same_but_reverse b b' -> edges_in_place b -> edges_in_place b'.
Proof.
  intros S Pl k g G i I. pose proof S as (_ & P & _). rewrite P in G. destruct (Pl k g G i I) as (e & E & Pe).
  destruct (same_reverse_edge _ _ _ _ S E) as (e' & E' & W). exists e'. split; [assumption|]. injection W; congruence.
Qed.

Lemma outranked_same b b' p i e e' : b_polygons b' = b_polygons b -> b_background b' = b_background b -> without_reverse e' = without_reverse e ->
  outranked b' p i e' <-> outranked b p i e.
Proof.
  intros P B W. assert (W2 : e_seg e' = e_seg e) by (injection W; congruence). assert (W3 : e_normal e' = e_normal e) by (injection W; congruence).
  unfold outranked, material_beyond, ambient, beyond. rewrite P, B, W2, W3. reflexivity.
Qed.

Lemma adjust_all srt planes : sorts_by srt -> forall b b', edges_in_place b -> for_each (adjust_edges_to_materials srt) planes b = Done b' ->
  same_but_reverse b b' /\ forall i e e', edge_at b i e -> edge_at b' i e' ->
    (e_to_reverse e' = true <-> e_to_reverse e = true \/ exists p, In p planes /\ outranked b p i e).
Proof.
  intros So. induction planes as [|p planes IH]; intros b b' Pl E; cbn in E.
  - injection E as <-. split; [apply same_reverse_refl|]. intros i e e' E E'. assert (e' = e) as -> by (unfold edge_at in *; congruence).
    split; [now left|]. intros [H|(p & [] & _)]. assumption.
  - destruct (adjust_edges_to_materials srt b p) as [b1| |] eqn:E1; try discriminate. cbn in E.
    destruct (adjust_outranked srt p b b1 So Pl E1) as [S1 T1]. destruct (IH b1 b' (in_place_reverse _ _ S1 Pl) E) as [S2 T2].
    split; [eapply same_reverse_trans; eassumption|]. intros i e e' Ei Ei'. destruct (same_reverse_edge _ _ _ _ S1 Ei) as (e1 & Ei1 & W).
    rewrite (T2 i e1 e' Ei1 Ei'), (T1 i e e1 Ei Ei1). pose proof S1 as (_ & P1 & _ & B1 & _).
    assert (O : forall q, outranked b1 q i e1 <-> outranked b q i e) by (intros q; now apply outranked_same).
    split.
    + intros [[H|H]|(q & I & H)]; [now left|right; exists p; split; [now left|assumption]|right; exists q; split; [now right|now apply O]].
    + intros [H|(q & [<-|I] & H)]; [left; now left|left; now right|right; exists q; split; [assumption|now apply O]].
Qed.

(** * Diagonals: edges and polygons stay *)

Definition same_but_angles (b b' : board) : Prop :=
  b_polygons b' = b_polygons b /\ b_edges b' = b_edges b /\ b_background b' = b_background b
  /\ b_ce b' = b_ce b /\ b_eip b' = b_eip b /\ b_axes b' = b_axes b.
Lemma same_angles_refl b : same_but_angles b b.
Proof. now repeat split. Qed.
Lemma same_angles_trans a b c : same_but_angles a b -> same_but_angles b c -> same_but_angles a c.
Proof. unfold same_but_angles. intros (A1 & A2 & A3 & A4 & A5 & A6) (B1 & B2 & B3 & B4 & B5 & B6). repeat split; congruence. Qed.

Ltac break E := repeat match type of E with
  | bind ?m _ = Done _ => let x := fresh "x" in let H := fresh "H" in destruct m as [x| |] eqn:H; cbn [bind] in E; try discriminate
  | (if ?c then _ else _) = Done _ => destruct c; try discriminate
  | (match ?m with _ => _ end) = Done _ => destruct m; try discriminate
  | Done _ = Done _ => injection E as <-
  end.

Lemma diagonal_angles_frame ang b p b' : detect_diagonal_angles ang b p = Done b' -> same_but_angles b b'.
Proof. intros E. unfold detect_diagonal_angles in E. break E. now repeat split. Qed.
Lemma add_zone_frame g d srt ax b l b' : add_diagonal_zone g d srt ax b l = Done b' -> same_but_angles b b' /\ b_angles b' = b_angles b.
Proof. intros E. unfold add_diagonal_zone in E. break E; now repeat split. Qed.
Lemma diagonal_zones_frame g d srt b p b' : detect_diagonal_zones g d srt b p = Done b' -> same_but_angles b b' /\ b_angles b' = b_angles b.
Proof.
  intros E. unfold detect_diagonal_zones in E.
  destruct (for_each (detect_zones_view g d srt p) [VH; VV] _) as [[b1 l]| |] eqn:F; try discriminate. cbn [bind] in E. injection E as <-.
  apply (for_each_rel (fun x y => same_but_angles (fst x) (fst y) /\ b_angles (fst y) = b_angles (fst x))) in F; [exact F|..].
  - intros x. split; [apply same_angles_refl|reflexivity].
  - intros x y z [H1 H2] [K1 K2]. split; [eapply same_angles_trans; eassumption|congruence].
  - intros v [c k] [c' k'] _ V. unfold detect_zones_view in V.
    destruct (for_each (add_diagonal_zone g d srt (axes_table p v)) _ c) as [c1| |] eqn:W; try discriminate. cbn [bind] in V. injection V as <- <-. cbn [fst].
    apply (for_each_rel (fun x y => same_but_angles x y /\ b_angles y = b_angles x)) in W; [exact W|..].
    + intros x. split; [apply same_angles_refl|reflexivity].
    + intros x y z [H1 H2] [K1 K2]. split; [eapply same_angles_trans; eassumption|congruence].
    + intros x y y' _ Z. exact (add_zone_frame _ _ _ _ _ _ _ Z).
Qed.
Lemma solve_angle_frame ax f b i b' : solve_angle ax f b i = Done b' -> same_but_angles b b' /\ b_zones b' = b_zones b.
Proof. intros E. unfold solve_angle, update_angle in E. break E; now repeat split. Qed.
Lemma diagonal_solve_frame d b ax b' : solve_diagonal_angles d b ax = Done b' -> same_but_angles b b' /\ b_zones b' = b_zones b.
Proof.
  unfold solve_diagonal_angles. revert b b'.
  assert (T : forall x y z, same_but_angles x y /\ b_zones y = b_zones x -> same_but_angles y z /\ b_zones z = b_zones y -> same_but_angles x z /\ b_zones z = b_zones x).
  { intros x y z [H1 H2] [K1 K2]. split; [eapply same_angles_trans; eassumption|congruence]. }
  intros b b'. apply (for_each_rel (fun x y => same_but_angles x y /\ b_zones y = b_zones x)); [split; [apply same_angles_refl|reflexivity]|exact T|].
  intros z c c' _ Z. unfold solve_zone_angles in Z. destruct (dz_angles z) as [|first r]; [discriminate|].
  destruct (for_each (solve_angle ax (fun _ => true)) [first; last (first :: r) first] c) as [c1| |] eqn:F; try discriminate. cbn [bind] in Z.
  apply (T c c1 c').
  - revert F. apply (for_each_rel (fun x y => same_but_angles x y /\ b_zones y = b_zones x)); [split; [apply same_angles_refl|reflexivity]|exact T|].
    intros i x y _. apply solve_angle_frame.
  - revert Z. apply (for_each_rel (fun x y => same_but_angles x y /\ b_zones y = b_zones x)); [split; [apply same_angles_refl|reflexivity]|exact T|].
    intros i x y _. apply solve_angle_frame.
Qed.

(** * Edges in polygons, all planes *)

(** Edges and polygons but for their conflicts of edges in polygons. *)
Definition only_ce (l : list cref) : list cref := filter is_ce l.
Definition less_eip (e : edge) : edge :=
  mk_edge (e_plane e) (e_seg e) (e_normal e) (e_to_mesh e) (e_to_reverse e) (only_ce (e_conflicts e)) (e_solves e) (e_policy e).
Definition less_eip_g (g : polygon) : polygon :=
  mk_polygon (g_plane g) (g_material g) (g_priority g) (g_z g) (g_points g) (g_bounding g) (g_edges g) (only_ce (g_conflicts g)).
Definition same_but_all_eip (b b' : board) : Prop :=
  map less_eip_g (b_polygons b') = map less_eip_g (b_polygons b) /\ map less_eip (b_edges b') = map less_eip (b_edges b)
  /\ b_angles b' = b_angles b /\ b_background b' = b_background b /\ b_ce b' = b_ce b /\ b_zones b' = b_zones b /\ b_axes b' = b_axes b.

Lemma only_ce_other p l : only_ce (other_conflicts p l) = only_ce l.
Proof. unfold only_ce, other_conflicts. induction l as [|[a n|q n] l IH]; cbn; [reflexivity|now rewrite IH|]. destruct (negb (plane_eqb q p)); cbn; apply IH. Qed.
Lemma less_without p e : less_eip (without_eip p e) = less_eip e.
Proof. unfold less_eip, without_eip. cbn [e_plane e_seg e_normal e_to_mesh e_to_reverse e_conflicts e_solves e_policy]. now rewrite only_ce_other. Qed.
Lemma less_without_g p g : less_eip_g (without_eip_g p g) = less_eip_g g.
Proof. unfold less_eip_g, without_eip_g. cbn [g_plane g_material g_priority g_z g_points g_bounding g_edges g_conflicts]. now rewrite only_ce_other. Qed.

Lemma map_less {A} (f h : A -> A) l l' : (forall x, f (h x) = f x) -> map h l' = map h l -> map f l' = map f l.
Proof.
  intros H E. assert (forall k, map f k = map f (map h k)) as K by (intros k; rewrite map_map; apply map_ext; intros x; now rewrite H).
  rewrite K, E, <- K. reflexivity.
Qed.

Lemma same_eip_all p b b' : same_but_eip p b b' -> same_but_all_eip b b'.
Proof.
  intros (P & E & A & B & C & Z & X & _). split; [|split; [|now repeat split]].
  - exact (map_less less_eip_g (without_eip_g p) _ _ (less_without_g p) P).
  - exact (map_less less_eip (without_eip p) _ _ (less_without p) E).
Qed.
Lemma same_all_eip_refl b : same_but_all_eip b b.
Proof. now repeat split. Qed.
Lemma same_all_eip_trans a b c : same_but_all_eip a b -> same_but_all_eip b c -> same_but_all_eip a c.
Proof. unfold same_but_all_eip. intros (A1 & A2 & A3 & A4 & A5 & A6 & A7) (B1 & B2 & B3 & B4 & B5 & B6 & B7). repeat split; congruence. Qed.

Lemma other_in p q n l : p <> q -> (In (InEIP q n) (other_conflicts p l) <-> In (InEIP q n) l).
Proof.
  intros D. unfold other_conflicts. rewrite filter_In. split; [tauto|]. intros H. split; [assumption|].
  destruct (plane_eqb q p) eqn:Q; [apply plane_eqb_eq in Q; congruence|reflexivity].
Qed.

Lemma no_eip_other p q b b' : p <> q -> same_but_eip p b b' -> no_eip b q -> no_eip b' q.
Proof.
  intros D S (N & E & G). pose proof S as (_ & _ & _ & _ & _ & _ & _ & O). split; [rewrite O by congruence; assumption|]. split.
  - intros i e n Ei I. destruct (same_eip_edge' p b b' i e S Ei) as (e0 & E0 & W). apply (E i e0 n E0). apply (other_in p q n _ D).
    apply (other_in p q n _ D) in I. injection W as _ _ _ _ _ W _ _. now rewrite <- W.
  - intros i g n Gi I. destruct (same_eip_polygon' p b b' i g S Gi) as (g0 & G0 & W). apply (G i g0 n G0). apply (other_in p q n _ D).
    apply (other_in p q n _ D) in I. injection W as _ _ _ _ _ _ _ W. now rewrite <- W.
Qed.

Lemma in_place_all_eip b b' : same_but_all_eip b b' -> edges_in_place b -> edges_in_place b'.
Proof.
  intros (P & E & _) Pl k g G i I. symmetry in P. destruct (map_at _ _ _ _ _ P G) as (g0 & G0 & W).
  assert (g_edges g0 = g_edges g /\ g_plane g0 = g_plane g) as [We Wp] by (injection W; intros; now split). rewrite <- We in I.
  destruct (Pl k g0 G0 i I) as (e & Ee & Pe). destruct (map_at _ _ _ _ _ E Ee) as (e' & Ee' & W'). exists e'. split; [assumption|]. injection W'. congruence.
Qed.

(** What detection has found on the planes done so far; [bp] is the board it found it on. *)
Record detected_all (fuel : nat) (srt : sort_by) (b0 : board) (done : list Plane) (b : board) : Prop := {
  da_same : same_but_all_eip b0 b;
  da_done : forall p, In p done -> exists b1 b2, same_but_all_eip b0 b1 /\ edges_in_place b1 /\ no_eip b1 p
    /\ detect_edges_in_polygons fuel srt b1 p = Done b2 /\ same_but_all_eip b2 b /\ on_plane (b_eip b) p = on_plane (b_eip b2) p;
  da_rest : forall p, ~ In p done -> no_eip b p;
}.

Lemma plane_dec (p q : Plane) : {p = q} + {p <> q}.
Proof. decide equality. Qed.

Lemma detect_all fuel srt b b' : edges_in_place b -> (forall p, no_eip b p) -> for_each (detect_edges_in_polygons fuel srt) all_planes b = Done b' ->
  detected_all fuel srt b all_planes b'.
Proof.
  intros Pl No. apply (for_each_done (detect_edges_in_polygons fuel srt) (fun done b1 => detected_all fuel srt b done b1)).
  - constructor; [apply same_all_eip_refl|intros p []|intros p _; apply No].
  - intros done p rest b1 b2 EL [S D R] E.
    assert (N : ~ In p done).
    { pose proof all_planes_nodup as ND. rewrite EL in ND. apply NoDup_remove_2 in ND. intros K. apply ND, in_or_app. now left. }
    pose proof (in_place_all_eip _ _ S Pl) as Pl1. destruct (detect_in_polygons_spec fuel srt b1 p b2 Pl1 (R p N) E) as ([S2 _ _ _] & _).
    pose proof (same_eip_all _ _ _ S2) as S3. pose proof S2 as (_ & _ & _ & _ & _ & _ & _ & O). constructor.
    + eapply same_all_eip_trans; eassumption.
    + intros q I. apply in_app_or in I. destruct I as [I|[<-|[]]].
      * destruct (D q I) as (c1 & c2 & H1 & H2 & H3 & H4 & H5 & H6). exists c1, c2. do 4 (split; [assumption|]).
        split; [eapply same_all_eip_trans; eassumption|]. rewrite O; [assumption|]. intros ->. contradiction.
      * pose proof (R p N) as Np. exists b1, b2. do 4 (split; [assumption|]). split; [apply same_all_eip_refl|reflexivity].
    + intros q I. apply (no_eip_other p q b1 b2); [|assumption|].
      * intros ->. apply I, in_or_app. right. now left.
      * apply R. intros K. apply I, in_or_app. now left.
Qed.

Lemma detected_one fuel srt b b' p : detected_all fuel srt b all_planes b' -> one_each b' p.
Proof.
  intros [_ D _]. destruct (D p (all_planes_in p)) as (b1 & b2 & _ & Pl & No & E & _ & O).
  destruct (detect_in_polygons_spec fuel srt b1 p b2 Pl No E) as ([_ One _ _] & _). unfold one_each, eip_at in *. rewrite O. exact One.
Qed.

(** * The solution of edges in polygons, all planes *)

Definition same_but_all_solutions (b b' : board) : Prop :=
  b_polygons b' = b_polygons b /\ map without_solution (b_edges b') = map without_solution (b_edges b) /\ b_angles b' = b_angles b
  /\ b_background b' = b_background b /\ b_ce b' = b_ce b /\ b_zones b' = b_zones b /\ b_axes b' = b_axes b.
Lemma same_all_solutions_refl b : same_but_all_solutions b b.
Proof. now repeat split. Qed.
Lemma same_all_solutions_trans a b c : same_but_all_solutions a b -> same_but_all_solutions b c -> same_but_all_solutions a c.
Proof. unfold same_but_all_solutions. intros (A1 & A2 & A3 & A4 & A5 & A6 & A7) (B1 & B2 & B3 & B4 & B5 & B6 & B7). repeat split; congruence. Qed.

Lemma solve_all srt b b' : (forall p, one_each b p) -> for_each (auto_solve_all_edge_in_polygon srt) all_planes b = Done b' ->
  same_but_all_solutions b b'.
Proof.
  intros One E. destruct (for_each_done (auto_solve_all_edge_in_polygon srt) (fun done b1 => same_but_all_solutions b b1 /\ forall p, ~ In p done -> one_each b1 p) all_planes b b') as [S _]; [..|exact E|exact S].
  - split; [apply same_all_solutions_refl|]. intros p _. apply One.
  - intros done p rest b1 b2 EL [S O] E2.
    assert (N : ~ In p done).
    { pose proof all_planes_nodup as ND. rewrite EL in ND. apply NoDup_remove_2 in ND. intros K. apply ND, in_or_app. now left. }
    destruct (auto_solve_in_polygon srt p b1 b2 (O p N) E2) as [(S1 & S2 & S3 & S4 & S5 & S6 & S7 & S8) _ _ _]. split.
    + eapply same_all_solutions_trans; [eassumption|]. now repeat split.
    + intros q I. unfold one_each, eip_at. rewrite S8; [apply O|]; intros K; [apply I, in_or_app; now left|]. subst q. apply I, in_or_app. right. now left.
Qed.

(** * The other steps, all axes or planes *)

Lemma on_each_axis_done f b b' : on_each_axis f b = Done b' ->
  b' = set_axes b (b_axes b') /\ forall ax, f ax (on_axis (b_axes b) ax) = Done (on_axis (b_axes b') ax).
Proof.
  intros E. unfold on_each_axis, all_axes in E. cbn [for_each] in E. break E. destruct b as [? ? ? ? ? ? ? [ax1 ax2 ax3]]. cbn in *.
  break H. cbn in *. break H0. cbn in *. break H1. cbn in *.
  split; [reflexivity|]. intros []; cbn; assumption.
Qed.

Lemma on_each_axis_ends f b : (forall ax, exists x, f ax (on_axis (b_axes b) ax) = Done x) -> exists b', on_each_axis f b = Done b'.
Proof.
  intros H. unfold on_each_axis, all_axes. cbn [for_each]. destruct b as [? ? ? ? ? ? ? [x y z]]. cbn in *.
  destruct (H AX) as (x1 & X), (H AY) as (y1 & Y), (H AZ) as (z1 & Z). cbn in *. rewrite X. cbn. rewrite Y. cbn. rewrite Z. cbn. eauto.
Qed.

Lemma colinear_all g axes : NoDup axes -> forall b, (forall ax c, In c (groups b ax) -> solvable b c) ->
  exists b', for_each (auto_solve_all_colinear_edges g) axes b = Done b'
    /\ b_edges b' = b_edges b /\ b_polygons b' = b_polygons b /\ b_angles b' = b_angles b /\ b_background b' = b_background b
    /\ b_eip b' = b_eip b /\ b_zones b' = b_zones b /\ (forall ax, groups b' ax = groups b ax)
    /\ (forall ax, In ax axes -> exists l, policies_for g b (groups b ax) l /\ gains l (on_axis (b_axes b) ax) (on_axis (b_axes b') ax))
    /\ (forall ax, ~ In ax axes -> on_axis (b_axes b') ax = on_axis (b_axes b) ax).
Proof.
  induction 1 as [|a axes Na ND IH]; intros b Sv; cbn.
  - exists b. repeat (split; [reflexivity|]). split; [intros ax []|reflexivity].
  - destruct (auto_solve_colinear g a b (Sv a)) as (b1 & l & -> & S & P & A). cbn [bind].
    destruct S as (S1 & S2 & S3 & S4 & S5 & S6 & S7 & S8 & S9 & S10 & S11).
    destruct (IH b1) as (b2 & -> & T1 & T2 & T3 & T4 & T5 & T6 & T7 & T8 & T9).
    { intros ax c. rewrite S7. intros I. destruct (Sv ax c I) as (Ne & ax' & K). split; [assumption|]. exists ax'. unfold axis_at, edge_at in *. now rewrite S2. }
    exists b2. split; [reflexivity|]. do 6 (split; [congruence|]). split; [intros ax; now rewrite T7|]. split.
    + intros ax [<-|I].
      * exists l. split; [assumption|]. rewrite T9 by assumption. unfold gains. now repeat split.
      * destruct (T8 ax I) as (l' & P' & G'). exists l'. split; [rewrite S7 in P'; eapply policies_for_same; [|exact P']; congruence|].
        rewrite <- S8; [assumption|]. intros ->. contradiction.
    + intros ax N. rewrite T9, S8; [reflexivity|..]; intros K; apply N; [now left|now right].
Qed.

Definition individuals (g : params) (b : board) (ax : Axis3) (p : Plane) : list mlp :=
  pols g b ax (edges_of b p) ++ apols g p ax (filter (fun a => plane_eqb (a_plane a) p) (b_angles b)).

Lemma positions_same {A} (f h : A -> A) (t : A -> bool) l l' : (forall x, t (h x) = t x) -> map h l' = map h l -> positions t l' = positions t l.
Proof.
  intros H. unfold positions, view. generalize 0%nat. revert l'.
  induction l as [|x l IH]; intros [|y l'] n E; cbn [map] in E; try discriminate; [reflexivity|].
  assert (E1 : map h l' = map h l) by congruence. assert (E2 : h y = h x) by congruence. cbn.
  rewrite <- (H y), E2, (H x). destruct (t x); cbn; [f_equal|]; apply (IH l' (S n) E1).
Qed.

Lemma edges_of_same b b' p : same_but_policies b b' -> edges_of b' p = edges_of b p.
Proof. intros [M _]. unfold edges_of. apply (positions_same without_policy without_policy); [reflexivity|assumption]. Qed.

Lemma individuals_same g b b' ax p : same_but_policies b b' -> individuals g b' ax p = individuals g b ax p.
Proof.
  intros S. unfold individuals. rewrite (edges_of_same b b' p S). f_equal.
  - unfold pols. induction (edges_of b p) as [|i l IH]; [reflexivity|]. cbn. rewrite IH. f_equal. destruct S as [M _].
    destruct (nth_error (b_edges b') i) as [e'|] eqn:E'.
    + symmetry in M. destruct (map_at _ _ _ _ _ M E') as (e & E & W). rewrite E, (alone_same ax e e'), (pol_same g e e') by (now symmetry). reflexivity.
    + destruct (nth_error (b_edges b) i) as [e|] eqn:E; [|reflexivity]. destruct (map_at _ _ _ _ _ M E) as (e' & E2 & _). congruence.
  - unfold apols. destruct (view_of_axis p ax) as [v|]; [|reflexivity]. destruct S as (_ & M & _). revert M. generalize (b_angles b).
    induction (b_angles b') as [|x l IH]; intros [|y l'] M; cbn [map] in M; try discriminate; [reflexivity|].
    assert (W : without_policy_a x = without_policy_a y) by congruence. assert (M' : map without_policy_a l = map without_policy_a l') by congruence.
    cbn. assert (a_plane x = a_plane y) as -> by (injection W; congruence). destruct (plane_eqb (a_plane y) p); cbn; [|now apply IH].
    rewrite (apol_same g v y x W), (IH l' M'). reflexivity.
Qed.

Lemma individual_planes g planes : forall b, exists b', for_each (detect_individual_edges g) planes b = Done b' /\ same_but_policies b b'
  /\ forall ax, gains (flat_map (individuals g b ax) planes) (on_axis (b_axes b) ax) (on_axis (b_axes b') ax).
Proof.
  induction planes as [|p planes IH]; intros b; cbn.
  - exists b. split; [reflexivity|]. split; [apply same_policies_refl|]. intros ax. apply gains_refl.
  - destruct (individual_all g b p) as (b1 & -> & S1 & G1 & _). cbn [bind]. destruct (IH b1) as (b2 & -> & S2 & G2).
    exists b2. split; [reflexivity|]. split; [eapply same_policies_trans; eassumption|]. intros ax. eapply gains_trans; [apply G1|].
    assert (flat_map (individuals g b ax) planes = flat_map (individuals g b1 ax) planes) as -> by (apply flat_map_ext; intros q; symmetry; now apply individuals_same).
    apply G2.
Qed.

(** * The whole run *)

Record steps (fuel : nat) (g : params) (d : diag_params) (srt : sort_by) (ang : point -> point -> Q) (fixed : space (list Q))
    (b0 b1 b4 b5 b6 b7 b8 b9 b : board) : Prop := {
  sp_adjust : for_each (adjust_edges_to_materials srt) all_planes b0 = Done b1;
  sp_diagonals : same_but_angles b1 b4;
  sp_detect : for_each (detect_edges_in_polygons fuel srt) all_planes b4 = Done b5;
  sp_colinear : for_each detect_colinear_edges all_planes b5 = Done b6;
  sp_fixed : on_each_axis (fun ax x => Done (add_fixed_policies g x (on_axis fixed ax))) b6 = Done b7;
  sp_solve : for_each (auto_solve_all_edge_in_polygon srt) all_planes b7 = Done b8;
  sp_solve_ce : for_each (auto_solve_all_colinear_edges g) all_axes b8 = Done b9;
  sp_individual : for_each (detect_individual_edges g) all_planes b9 = Done b;
  sp_zones : exists b2 b3, for_each (detect_diagonal_angles ang) all_planes b1 = Done b2 /\ for_each (detect_diagonal_zones g d srt) all_planes b2 = Done b3
    /\ for_each (solve_diagonal_angles d) all_axes b3 = Done b4;
}.

Lemma run_steps fuel g d srt ang fixed b0 b : policies_of_board fuel g d srt ang fixed b0 = Done b ->
  exists b1 b4 b5 b6 b7 b8 b9, steps fuel g d srt ang fixed b0 b1 b4 b5 b6 b7 b8 b9 b.
Proof.
  intros E. unfold policies_of_board in E. unfold bind at 1 in E.
  destruct (for_each (adjust_edges_to_materials srt) all_planes b0) as [b1| |] eqn:E1; try discriminate. cbn [bind] in E.
  destruct (for_each (detect_diagonal_angles ang) all_planes b1) as [b2| |] eqn:E2; try discriminate. cbn [bind] in E.
  destruct (for_each (detect_diagonal_zones g d srt) all_planes b2) as [b3| |] eqn:E3; try discriminate. cbn [bind] in E.
  destruct (for_each (solve_diagonal_angles d) all_axes b3) as [b4| |] eqn:E4; try discriminate. cbn [bind] in E.
  destruct (for_each (detect_edges_in_polygons fuel srt) all_planes b4) as [b5| |] eqn:E5; try discriminate. cbn [bind] in E.
  destruct (for_each detect_colinear_edges all_planes b5) as [b6| |] eqn:E6; try discriminate. cbn [bind] in E.
  destruct (on_each_axis (fun ax x => Done (add_fixed_policies g x (on_axis fixed ax))) b6) as [b7| |] eqn:E7; try discriminate. cbn [bind] in E.
  destruct (for_each (auto_solve_all_edge_in_polygon srt) all_planes b7) as [b8| |] eqn:E8; try discriminate. cbn [bind] in E.
  destruct (for_each (auto_solve_all_colinear_edges g) all_axes b8) as [b9| |] eqn:E9; try discriminate. cbn [bind] in E.
  exists b1, b4, b5, b6, b7, b8, b9. constructor; try assumption; [|now exists b2, b3].
  apply (same_angles_trans b1 b2 b4); [|apply (same_angles_trans b2 b3 b4)].
  - revert E2. apply for_each_rel; [apply same_angles_refl|apply same_angles_trans|]. intros p x y _. apply diagonal_angles_frame.
  - revert E3. apply for_each_rel; [apply same_angles_refl|apply same_angles_trans|]. intros p x y _ H. now apply diagonal_zones_frame in H.
  - revert E4. apply for_each_rel; [apply same_angles_refl|apply same_angles_trans|]. intros p x y _ H. now apply diagonal_solve_frame in H.
Qed.

Definition geo (e : edge) : Plane * seg * Normal := (e_plane e, e_seg e, e_normal e).
Definition same_geo (b b' : board) : Prop := map geo (b_edges b') = map geo (b_edges b).

Lemma map_geo (f : edge -> edge) l l' : (forall e, geo (f e) = geo e) -> map f l' = map f l -> map geo l' = map geo l.
Proof.
  intros H E. assert (forall k, map geo k = map geo (map f k)) as K by (intros k; rewrite map_map; apply map_ext; intros x; now rewrite H).
  rewrite K, E, <- K. reflexivity.
Qed.

Definition keep (e : edge) : bool := e_to_reverse e.
Lemma map_keep (f : edge -> edge) l l' : (forall e, keep (f e) = keep e) -> map f l' = map f l -> map keep l' = map keep l.
Proof.
  intros H E. assert (forall k, map keep k = map keep (map f k)) as K by (intros k; rewrite map_map; apply map_ext; intros x; now rewrite H).
  rewrite K, E, <- K. reflexivity.
Qed.

Lemma geo_at b b' i e : same_geo b b' -> edge_at b i e -> exists e', edge_at b' i e' /\ geo e' = geo e.
Proof. intros M E. exact (map_at _ _ _ _ _ M E). Qed.

Lemma colinear_geo b b' i j : same_geo b b' -> colinear_at b i j -> colinear_at b' i j.
Proof.
  intros S (e & f & E & F & P & v & A & B & C). destruct (geo_at _ _ _ _ S E) as (e' & E' & G), (geo_at _ _ _ _ S F) as (f' & F' & G').
  injection G as G1 G2 G3. injection G' as G1' G2' G3'. exists e', f'. split; [assumption|]. split; [assumption|]. split; [congruence|].
  exists v. rewrite G2, G2'. now repeat split.
Qed.
Lemma same_geo_sym b b' : same_geo b b' -> same_geo b' b.
Proof. unfold same_geo. congruence. Qed.
Lemma transitive_geo b b' : same_geo b b' -> transitive_at b -> transitive_at b'.
Proof. intros S T i j k A B. apply (colinear_geo b); [assumption|]. apply (T i j k); apply (colinear_geo b'); try assumption; now apply same_geo_sym. Qed.

(** Edges, but for the policy they lead to. *)
Lemma fits_same g b b' cs l : map without_policy (b_edges b') = map without_policy (b_edges b) -> policies_for g b cs l -> policies_for g b' cs l.
Proof.
  intros M.
  assert (Es : forall c es, edges_at b c es -> exists es', edges_at b' c es' /\ Forall2 (fun e e' => without_policy e' = without_policy e) es es').
  { intros c es H. induction H as [|i e c es E F IH]; [exists []; split; constructor|]. destruct IH as (es' & A & B).
    destruct (map_at _ _ _ _ _ M E) as (e' & E' & W). exists (e' :: es'). split; constructor; assumption. }
  assert (In2 : forall es es', Forall2 (fun e e' => without_policy e' = without_policy e) es es' ->
    (forall e', In e' es' -> exists e, In e es /\ without_policy e' = without_policy e) /\ (forall e, In e es -> exists e', In e' es' /\ without_policy e' = without_policy e)).
  { intros es es' H. induction H as [|e e' es es' W F [I1 I2]]; [split; intros ? []|]. split.
    - intros x [<-|I]; [exists e; split; [now left|assumption]|]. destruct (I1 x I) as (y & Y & Z). exists y. split; [now right|assumption].
    - intros x [<-|I]; [exists e'; split; [now left|assumption]|]. destruct (I2 x I) as (y & Y & Z). exists y. split; [now right|assumption]. }
  assert (Fa : forall e e', without_policy e' = without_policy e -> faces e' = faces e /\ e_to_mesh e' = e_to_mesh e /\ e_seg e' = e_seg e).
  { intros e e' W. injection W as W1 W2 W3 W4 W5 W6 W7. unfold faces. rewrite W3, W5. now repeat split. }
  induction 1 as [|c cs l es E No P IH|c cs l e es v policy normal E V F P IH].
  - constructor.
  - destruct (Es c es E) as (es' & E' & W). eapply policies_skip; [exact E'| |exact IH]. intros e' I. destruct (proj1 (In2 _ _ W) e' I) as (e & Ie & We).
    destruct (Fa _ _ We) as (_ & -> & _). now apply No.
  - destruct (Es c (e :: es) E) as (es' & E' & W). inversion W as [|x y xs ys Wy Ws X1 X2]; subst. destruct (Fa _ _ Wy) as (_ & _ & Sy).
    rewrite <- Sy. eapply policies_one; [exact E'|now rewrite Sy| |exact IH].
    assert (Sf : forall n, some_faces (y :: ys) n <-> some_faces (e :: es) n).
    { intros n. destruct (In2 _ _ W) as [I1 I2]. split; intros (z & Iz & Mz & Fz).
      - destruct (I1 z Iz) as (u & Iu & Wu). destruct (Fa _ _ Wu) as (A & B & _). exists u. split; [assumption|]. split; congruence.
      - destruct (I2 z Iz) as (u & Iu & Wu). destruct (Fa _ _ Wu) as (A & B & _). exists u. split; [assumption|]. split; congruence. }
    unfold fits in *. destruct policy; rewrite ?Sf; exact F.
Qed.

Record run_result (g : params) (fixed : space (list Q)) (b0 b : board) : Prop := {
  rr_geo : same_geo b0 b;
  rr_found : forall i j, i <> j -> colinear_at b i j -> exists ax n c, axis_at b i ax /\ nth_error (groups b ax) n = Some c /\ In i c /\ In j c;
  rr_wf : wf b;
  rr_links : links b;
  rr_reversed : forall i e e', edge_at b0 i e -> edge_at b i e' -> (e_to_reverse e' = true <-> exists p, outranked b0 p i e);
  rr_strong : transitive_at b -> forall ax, BoardColinearProofs.tight (colinear_at b) (groups b ax) /\ apart (groups b ax);
  rr_policies : forall ax, exists F C, gains (F ++ C ++ flat_map (individuals g b ax) all_planes) (mk_axis [] [] [] []) (on_axis (b_axes b) ax)
    /\ gains F (mk_axis [] [] [] []) (add_fixed_policies g (mk_axis [] [] [] []) (on_axis fixed ax)) /\ policies_for g b (groups b ax) C;
}.

Lemma wf_solvable b ax c : wf b -> In c (groups b ax) -> solvable b c.
Proof.
  intros W I. apply In_nth_error in I. destruct I as (n & I). destruct (W ax n c I) as (L & _ & A & _). split; [intros ->; cbn in L; lia|]. now exists ax.
Qed.

Lemma axis_at_geo b b' i ax : same_geo b b' -> axis_at b i ax -> axis_at b' i ax.
Proof.
  intros S (e & E & A). destruct (geo_at _ _ _ _ S E) as (e' & E' & G). exists e'. split; [assumption|]. injection G as G1 G2 _. unfold edge_axis in *. now rewrite G1, G2.
Qed.
Lemma plane_at_geo b b' i p : same_geo b b' -> plane_at b i p -> plane_at b' i p.
Proof. intros S (e & E & A). destruct (geo_at _ _ _ _ S E) as (e' & E' & G). exists e'. split; [assumption|]. injection G as G1 _ _. congruence. Qed.

Lemma wf_geo b b' : same_geo b b' -> (forall ax, groups b' ax = groups b ax) -> wf b -> wf b'.
Proof.
  intros S G W ax n c E. rewrite G in E. destruct (W ax n c E) as (W1 & W2 & W3 & W4 & W5). split; [assumption|]. split; [assumption|]. split; [|split].
  - intros x I. apply (axis_at_geo b); auto.
  - intros x y p I J P. apply (plane_at_geo b); [assumption|]. apply (W4 x y p I J). apply (plane_at_geo b'); [now apply same_geo_sym|assumption].
  - intros x I. destruct (W5 x I) as (y & J & D & C). exists y. split; [assumption|]. split; [assumption|]. now apply (colinear_geo b).
Qed.

Lemma run_result_of fuel g d srt ang fixed b0 b1 b4 b5 b6 b7 b8 b9 b : sorts_by srt -> built b0 -> steps fuel g d srt ang fixed b0 b1 b4 b5 b6 b7 b8 b9 b ->
  run_result g fixed b0 b /\ same_but_reverse b0 b1 /\ detected_all fuel srt b4 all_planes b5
  /\ same_but_ce b5 b6 /\ same_but_all_solutions b7 b8 /\ b_edges b7 = b_edges b6 /\ b_eip b7 = b_eip b6 /\ b_polygons b7 = b_polygons b6
  /\ map without_policy (b_edges b) = map without_policy (b_edges b8)
  /\ b_zones b = b_zones b4 /\ map without_policy_a (b_angles b) = map without_policy_a (b_angles b4).
Proof.
  intros So Bu [E1 S4 E5 E6 E7 E8 E9 E10 _]. pose proof (built_sound b0 Bu) as [Fr Pr Ow Ra (An & Ce & Eip & Zo & Ax)].
  pose proof (built_in_place b0 Bu) as Pl0. destruct (adjust_all srt all_planes So b0 b1 Pl0 E1) as [S1 T1].
  pose proof S4 as (P4 & D4 & B4 & C4 & I4 & A4). pose proof S1 as (D1 & P1 & G1 & B1 & C1 & I1 & Z1 & A1).
  assert (Pl4 : edges_in_place b4).
  { intros k h H. rewrite P4 in H. unfold edge_at. rewrite D4. exact (in_place_reverse _ _ S1 Pl0 k h H). }
  assert (No4 : forall p, no_eip b4 p).
  { intros p. destruct (built_no_eip b0 p Bu) as (N & NE & NG). split; [rewrite I4, I1; assumption|]. split.
    - intros i e n Ei. unfold edge_at in Ei. rewrite D4 in Ei. destruct (same_reverse_edge' _ _ _ _ S1 Ei) as (e0 & E0 & W).
      assert (e_conflicts e = e_conflicts e0) as -> by (injection W; congruence). now apply (NE i e0).
    - rewrite P4, P1. exact NG. }
  pose proof (detect_all fuel srt b4 b5 Pl4 No4 E5) as Da. pose proof (da_same _ _ _ _ _ Da) as S5.
  pose proof S5 as (P5 & D5 & G5 & B5 & C5 & Z5 & A5).
  assert (No5 : no_ce b5).
  { split; [intros ax; rewrite C5, C4, C1, Ce; now destruct ax|]. intros i e Ei ax n I. symmetry in D5. destruct (map_at _ _ _ _ _ D5 Ei) as (e4 & E4 & W).
    rewrite D4 in E4. destruct (same_reverse_edge' _ _ _ _ S1 E4) as (e0 & E0 & W0). destruct (Fr i e0 E0) as (_ & _ & K & _).
    assert (e_conflicts e4 = []) as K4 by (injection W0; congruence). assert (only_ce (e_conflicts e) = only_ce (e_conflicts e4)) as K5 by (injection W; congruence).
    rewrite K4 in K5. cbn in K5. assert (In (InCE ax n) (only_ce (e_conflicts e))) as J by (unfold only_ce; apply filter_In; now split). rewrite K5 in J. destruct J. }
  destruct (planes_done all_planes b5 all_planes_nodup No5) as (b6' & E6' & [S6 L6 W6 F6 In6 St6]). assert (b6' = b6) as -> by congruence. clear E6'.
  pose proof S6 as (P6 & D6 & G6 & B6 & I6 & Z6 & A6).
  destruct (on_each_axis_done _ _ _ E7) as [X7 Y7]. cbn beta in Y7. set (s7 := b_axes b7) in *.
  assert (D7 : b_edges b7 = b_edges b6) by now rewrite X7. assert (C7 : b_ce b7 = b_ce b6) by now rewrite X7. assert (I7 : b_eip b7 = b_eip b6) by now rewrite X7.
  assert (P7 : b_polygons b7 = b_polygons b6) by now rewrite X7. assert (Z7 : b_zones b7 = b_zones b6) by now rewrite X7. assert (G7 : b_angles b7 = b_angles b6) by now rewrite X7.
  assert (One7 : forall p, one_each b7 p).
  { intros p. pose proof (detected_one fuel srt b4 b5 p Da) as H. unfold one_each, eip_at in *. rewrite I7, I6. exact H. }
  pose proof (solve_all srt b7 b8 One7 E8) as S8. pose proof S8 as (P8 & D8 & G8 & B8 & C8 & Z8 & A8).
  assert (Gr8 : forall ax, groups b8 ax = groups b6 ax) by (intros ax; unfold groups; now rewrite C8, C7).
  assert (Geo65 : same_geo b5 b6) by (apply (map_geo without_ce); [reflexivity|assumption]).
  assert (Geo86 : same_geo b6 b8).
  { unfold same_geo. transitivity (map geo (b_edges b7)); [apply (map_geo without_solution); [reflexivity|assumption]|now rewrite D7]. }
  assert (W8 : wf b8) by (apply (wf_geo b6); assumption).
  assert (ND : NoDup all_axes) by (unfold all_axes; repeat constructor; cbn; intuition discriminate).
  destruct (colinear_all g all_axes ND b8) as (b9' & E9' & D9 & P9 & G9 & B9 & I9 & Z9 & Gr9 & Po9 & _).
  { intros ax c. now apply wf_solvable. } assert (b9' = b9) as -> by congruence. clear E9'.
  destruct (individual_planes g all_planes b9) as (b' & E' & S10 & G10). assert (b' = b) as -> by congruence. clear E'.
  pose proof S10 as (D10 & An10 & P10 & B10 & C10 & I10 & Z10).
  assert (Geo10 : same_geo b8 b).
  { unfold same_geo. transitivity (map geo (b_edges b9)); [apply (map_geo without_policy); [reflexivity|assumption]|now rewrite D9]. }
  assert (Geo05 : same_geo b0 b5).
  { unfold same_geo. transitivity (map geo (b_edges b4)); [apply (map_geo less_eip); [reflexivity|assumption]|]. rewrite D4.
    apply (map_geo without_reverse); [reflexivity|assumption]. }
  assert (Geo6 : same_geo b6 b) by (unfold same_geo in *; congruence). assert (Geo5 : same_geo b5 b) by (unfold same_geo in *; congruence).
  assert (Gr : forall ax, groups b ax = groups b6 ax).
  { intros ax. rewrite <- Gr8, <- Gr9. unfold groups. now rewrite C10. }
  split; [|].
  - constructor.
    + unfold same_geo in *. congruence.
    + intros i j N C. assert (C5' : colinear_at b5 i j) by (apply (colinear_geo b); [now apply same_geo_sym|assumption]).
      destruct (colinear_at_axis _ _ _ C5') as (ax & A & _). pose proof C5' as (e & f & Ee & _).
      destruct (F6 (e_plane e) i j (all_planes_in _) (ex_intro _ e (conj Ee eq_refl)) N ax C5' A) as (n & c & Gc & Gi & Gj).
      exists ax, n, c. split; [now apply (axis_at_geo b5)|]. rewrite Gr. now repeat split.
    + apply (wf_geo b6); assumption.
    + intros i e Ei ax n. rewrite Gr. destruct (same_policies_edge' _ _ _ _ S10 Ei) as (e9 & E9' & W9). unfold edge_at in E9'. rewrite D9 in E9'.
      symmetry in D8. destruct (map_at _ _ _ _ _ D8 E9') as (e7 & E7' & W7). rewrite D7 in E7'.
      assert (e_conflicts e = e_conflicts e7) as -> by (injection W9; injection W7; congruence). now apply L6.
    + assert (Kr : map keep (b_edges b) = map keep (b_edges b1)).
      { transitivity (map keep (b_edges b9)); [apply (map_keep without_policy); [reflexivity|assumption]|]. rewrite D9.
        transitivity (map keep (b_edges b7)); [apply (map_keep without_solution); [reflexivity|assumption]|]. rewrite D7.
        transitivity (map keep (b_edges b5)); [apply (map_keep without_ce); [reflexivity|assumption]|].
        transitivity (map keep (b_edges b4)); [apply (map_keep less_eip); [reflexivity|assumption]|]. now rewrite D4. }
      intros i e e' Ei Ei'. symmetry in Kr. destruct (map_at _ _ _ _ _ Kr Ei') as (e1 & Ei1 & W1). unfold keep in W1. rewrite <- W1.
      destruct (Fr i e Ei) as (_ & Fre & _). rewrite (T1 i e e1 Ei Ei1), Fre. split.
      * intros [X|(p & _ & O)]; [discriminate|eauto].
      * intros (p & O). right. exists p. split; [apply all_planes_in|assumption].
    + intros T ax. rewrite Gr. assert (T5 : transitive_at b5) by (apply (transitive_geo b); [now apply same_geo_sym|assumption]). destruct (St6 T5 ax) as [Ti Ap].
      split; [|assumption]. intros n c Gc x y X Y D. apply (colinear_geo b5); [assumption|]. now apply (Ti n c Gc).
    + intros ax. destruct (Po9 ax) as (C & Pc & Gc); [destruct ax; cbn; tauto|]. specialize (G10 ax).
      assert (Ax6 : on_axis (b_axes b6) ax = mk_axis [] [] [] []) by (rewrite A6, A5, A4, A1, Ax; now destruct ax).
      specialize (Y7 ax). rewrite Ax6 in Y7. injection Y7 as Y7. rewrite A8 in Gc.
      assert (exists F, gains F (mk_axis [] [] [] []) (on_axis s7 ax)) as (F & GF).
      { rewrite <- Y7. destruct (fixed_appends g (on_axis fixed ax) (mk_axis [] [] [] [])) as (new & -> & _). exists new. unfold gains. now repeat split. }
      exists F, C. split; [|split].
      * eapply gains_trans; [exact GF|]. eapply gains_trans; [exact Gc|].
        assert (flat_map (individuals g b ax) all_planes = flat_map (individuals g b9 ax) all_planes) as -> by (apply flat_map_ext; intros q; now apply individuals_same).
        exact G10.
      * now rewrite Y7.
      * rewrite Gr, <- Gr8. apply (fits_same g b8); [now rewrite D10, D9|assumption].
  - do 2 (split; [assumption|]). split; [assumption|]. split; [assumption|]. do 3 (split; [assumption|]). split; [now rewrite D10, D9|].
    split; [congruence|]. rewrite An10. congruence.
Qed.
