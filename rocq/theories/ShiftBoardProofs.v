(** Moving the shapes of a board moves all that is made from them. *)
From Coq Require Import List Arith Bool Lia QArith Qabs Lqa.
From Verif Require Import IntervalModel ManagerModel GeomModel BoardModel OrderSpec OrderValueProofs ShiftSpec ShiftProofs ShiftGeomProofs.
Import ListNotations.
Local Open Scope Q_scope.

Lemma plane_eqb_true p q : plane_eqb p q = true -> p = q.
Proof. destruct p, q; cbn; congruence. Qed.
Lemma axis_get_same {A} (s : space A) ax x : on_axis (set_axis s ax x) ax = x.
Proof. now destruct ax. Qed.
Lemma axis_get_other {A} (s : space A) ax ay x : ay <> ax -> on_axis (set_axis s ax x) ay = on_axis s ay.
Proof. destruct ax, ay; intros H; try reflexivity; now elim H. Qed.
Lemma plane_get_same {A} (s : space A) p x : on_plane (set_plane s p x) p = x.
Proof. now destruct p. Qed.
Lemma plane_get_other {A} (s : space A) p q x : q <> p -> on_plane (set_plane s p x) q = on_plane s q.
Proof. destruct p, q; intros H; try reflexivity; now elim H. Qed.
Definition axis_dec (a b : Axis3) : {a = b} + {a <> b}. Proof. decide equality. Defined.
Definition plane_dec (a b : Plane) : {a = b} + {a <> b}. Proof. decide equality. Defined.

Lemma positions_rel {A B} (R : A -> B -> Prop) f f' l l' : Forall2 R l l' -> (forall x y, R x y -> f x = f' y) -> positions f l = positions f' l'.
Proof.
  intros F H. unfold positions. apply list_same. apply (map_rel (at_same R)); [|now intros x y [? _]]. apply filter_rel; [now apply view_rel|]. intros x y [_ E]. now apply H.
Qed.
Lemma view_get {A} (l : list A) i x : In (i, x) (view l) -> nth_error l i = Some x.
Proof.
  unfold view. intros H. assert (K : forall n, In (i, x) (combine (seq n (length l)) l) -> (n <= i)%nat /\ nth_error l (i - n) = Some x).
  { clear H. induction l as [|y l IH]; intros n H; [destruct H|]. cbn in H. destruct H as [E|H]; [injection E as -> ->; rewrite Nat.sub_diag; now split; [lia|]|].
    destruct (IH _ H) as [L N]. split; [lia|]. replace (i - n)%nat with (S (i - S n)) by lia. exact N. }
  destruct (K 0%nat H) as [_ N]. now rewrite Nat.sub_0_r in N.
Qed.
Lemma positions_get {A} (f : A -> bool) l i : In i (positions f l) -> exists x, nth_error l i = Some x /\ f x = true.
Proof. unfold positions. intros H. apply in_map_iff in H. destruct H as ([j x] & <- & H). apply filter_In in H. destruct H as [H E]. exists x. split; [now apply view_get|exact E]. Qed.

(** The same list, with what is known of its elements. *)
Lemma same_with {A} (P : A -> Prop) l : (forall x, In x l -> P x) -> Forall2 (fun x y => x = y /\ P x) l l.
Proof. induction l as [|x l IH]; intros H; constructor; [split; [reflexivity|apply H; now left]|]. apply IH. intros y Y. apply H. now right. Qed.

Lemma write_keys {A B} (f : A -> B) l i x l' : write l i x = Done l' -> (forall y, nth_error l i = Some y -> f x = f y) -> map f l' = map f l.
Proof.
  revert i l'. induction l as [|y l IH]; intros [|i] l' W H; cbn in *; try discriminate; [injection W as <-; cbn; now rewrite (H y eq_refl)|].
  destruct (write l i x) as [m| |] eqn:E; try discriminate. cbn in W. injection W as <-. cbn. f_equal. now apply (IH i).
Qed.

Section Board.
Context (d : displacement).
Definition vec (p : Plane) : point := mk_pt (d (axes_table p VH)) (d (axes_table p VV)).

Record me (e e' : edge) : Prop := mk_me
  { me_plane : e_plane e = e_plane e'; me_seg : mseg (vec (e_plane e)) (e_seg e) (e_seg e'); me_normal : e_normal e = e_normal e';
    me_mesh : e_to_mesh e = e_to_mesh e'; me_reverse : e_to_reverse e = e_to_reverse e'; me_conflicts : e_conflicts e = e_conflicts e';
    me_solves : e_solves e = e_solves e'; me_policy : e_policy e = e_policy e' }.
Record mg (g g' : polygon) : Prop := mk_mg
  { mg_plane : g_plane g = g_plane g'; mg_material : g_material g = g_material g'; mg_priority : g_priority g = g_priority g';
    mg_lo : lo (g_z g') == lo (g_z g) + d (flat_along (g_plane g)); mg_hi : hi (g_z g') == hi (g_z g) + d (flat_along (g_plane g));
    mg_points : Forall2 (mpt (vec (g_plane g))) (g_points g) (g_points g'); mg_bounding : mbox (vec (g_plane g)) (g_bounding g) (g_bounding g');
    mg_edges : g_edges g = g_edges g'; mg_conflicts : g_conflicts g = g_conflicts g' }.
Record man (a a' : angle) : Prop := mk_man
  { man_plane : a_plane a = a_plane a'; man_point : mpt (vec (a_plane a)) (a_point a) (a_point a'); man_e0 : a_e0 a = a_e0 a'; man_e1 : a_e1 a = a_e1 a';
    man_value : a_value a == a_value a'; man_h : a_h a = a_h a'; man_v : a_v a = a_v a'; man_policy : a_policy a = a_policy a' }.
Definition mov (p : Plane) (o o' : Overlap) : Prop := ov_polygon o = ov_polygon o' /\ mseg (vec p) (ov_range o) (ov_range o') /\ ov_edge o = ov_edge o'.
Definition meip (p : Plane) (c c' : in_polygon) : Prop := ei_edge c = ei_edge c' /\ Forall2 (mov p) (ei_overlaps c) (ei_overlaps c') /\ ei_solved c = ei_solved c'.

Definition gkey (g : polygon) : Plane * list nat := (g_plane g, g_edges g).
Definition ekey (e : edge) : Plane * SegAxis := (e_plane e, seg_axis (e_seg e)).

Lemma axis_seg_eq e e' : me e e' -> seg_axis (e_seg e) = seg_axis (e_seg e').
Proof. intros M. apply (seg_axis_eq _ _ _ (me_seg _ _ M)). Qed.

(** What is along an axis moves with it. *)
Lemma along_axis p ax v : view_of_axis p ax = Some v -> along (vec p) v = d ax.
Proof. destruct p, ax; cbn; intros E; try discriminate; injection E as <-; reflexivity. Qed.
Lemma along_table p v : along (vec p) v = d (axes_table p v).
Proof. now destruct v. Qed.
Lemma seg_coord_moved p a ax q q' : axis_of_seg p a = Some ax -> mpt (vec p) q q' -> orel (fun x y => y == x + d ax) (seg_coord q a) (seg_coord q' a).
Proof. intros E M. unfold seg_coord. destruct M as [X Y]. destruct a, p; cbn in *; try discriminate; injection E as <-; assumption. Qed.

Context (G : list (Plane * list nat)) (E : list (Plane * SegAxis)).
Context (HG : forall j p l i q a, nth_error G j = Some (p, l) -> In i l -> nth_error E i = Some (q, a) -> q = p).

Definition ce_on_axis (s : space (list colinear)) : Prop :=
  forall ax c i p a, In c (on_axis s ax) -> In i (ce_edges c) -> nth_error E i = Some (p, a) -> axis_of_seg p a = Some ax.
Definition eip_in_plane (s : space (list in_polygon)) : Prop :=
  forall p c q a, In c (on_plane s p) -> nth_error E (ei_edge c) = Some (q, a) -> q = p.

Record mb (b b' : board) : Prop := mk_mb
  { mb_polygons : Forall2 mg (b_polygons b) (b_polygons b'); mb_edges : Forall2 me (b_edges b) (b_edges b'); mb_angles : Forall2 man (b_angles b) (b_angles b');
    mb_background : b_background b = b_background b'; mb_ce : b_ce b = b_ce b'; mb_eip : forall p, Forall2 (meip p) (on_plane (b_eip b) p) (on_plane (b_eip b') p);
    mb_zones : b_zones b = b_zones b'; mb_axes : forall ax, ma (d ax) (on_axis (b_axes b) ax) (on_axis (b_axes b') ax);
    mb_G : map gkey (b_polygons b) = G; mb_E : map ekey (b_edges b) = E; mb_cei : ce_on_axis (b_ce b); mb_eipi : eip_in_plane (b_eip b) }.

Lemma mb_set_edges b b' l l' : mb b b' -> Forall2 me l l' -> map ekey l = E -> mb (set_edges b l) (set_edges b' l').
Proof. intros [] F K. now split. Qed.
Lemma mb_set_polygons b b' l l' : mb b b' -> Forall2 mg l l' -> map gkey l = G -> mb (set_polygons b l) (set_polygons b' l').
Proof. intros [] F K. now split. Qed.
Lemma mb_set_angles b b' l l' : mb b b' -> Forall2 man l l' -> mb (set_angles b l) (set_angles b' l').
Proof. intros [] F. now split. Qed.
Lemma mb_set_zones b b' s : mb b b' -> mb (set_zones b s) (set_zones b' s).
Proof. intros []. now split. Qed.
Lemma mb_set_ce b b' s : mb b b' -> ce_on_axis s -> mb (set_ce b s) (set_ce b' s).
Proof. intros [] F. now split. Qed.
Lemma mb_set_eip b b' s s' : mb b b' -> (forall p, Forall2 (meip p) (on_plane s p) (on_plane s' p)) -> eip_in_plane s -> mb (set_eip b s) (set_eip b' s').
Proof. intros [] F K. now split. Qed.
Lemma mb_set_axis b b' ax x x' : mb b b' -> ma (d ax) x x' -> mb (set_axes b (set_axis (b_axes b) ax x)) (set_axes b' (set_axis (b_axes b') ax x')).
Proof.
  intros [] F. split; try assumption. intros ay. cbn. destruct (axis_dec ay ax) as [->|N]; [now rewrite !axis_get_same|now rewrite !axis_get_other by exact N].
Qed.

Lemma read_edge b b' i : mb b b' -> same_end (fun e e' => me e e' /\ nth_error E i = Some (ekey e)) (read (b_edges b) i) (read (b_edges b') i).
Proof.
  intros M. pose proof (end_read _ _ _ i (mb_edges _ _ M)) as H. unfold read in *. destruct (nth_error (b_edges b) i) as [e|] eqn:N, (nth_error (b_edges b') i) as [e'|]; cbn in *; try contradiction; [|exact I].
  split; [exact H|]. rewrite <- (mb_E _ _ M), nth_error_map, N. reflexivity.
Qed.
Lemma read_polygon b b' i : mb b b' -> same_end (fun g g' => mg g g' /\ nth_error G i = Some (gkey g)) (read (b_polygons b) i) (read (b_polygons b') i).
Proof.
  intros M. pose proof (end_read _ _ _ i (mb_polygons _ _ M)) as H. unfold read in *. destruct (nth_error (b_polygons b) i) as [e|] eqn:N, (nth_error (b_polygons b') i) as [e'|]; cbn in *; try contradiction; [|exact I].
  split; [exact H|]. rewrite <- (mb_G _ _ M), nth_error_map, N. reflexivity.
Qed.

Lemma update_edge_moved b b' i f f' : mb b b' -> (forall e e', me e e' -> nth_error E i = Some (ekey e) -> me (f e) (f' e') /\ ekey (f e) = ekey e) -> same_end mb (update_edge b i f) (update_edge b' i f').
Proof.
  intros M H. unfold update_edge. pose proof (read_edge b b' i M) as R. unfold read in R |- *. destruct (nth_error (b_edges b) i) as [e|] eqn:N, (nth_error (b_edges b') i) as [e'|]; cbn [same_end bind] in *; try contradiction; [|exact I].
  destruct R as [R K]. destruct (H _ _ R K) as [H1 H2]. pose proof (end_write _ _ _ i _ _ (mb_edges _ _ M) H1) as W. destruct (write (b_edges b) i (f e)) as [l| |] eqn:Wl, (write (b_edges b') i (f' e')) as [l'| |]; cbn in *; try contradiction; [|exact I|exact I].
  apply mb_set_edges; [exact M|exact W|]. rewrite <- (mb_E _ _ M). apply (write_keys _ _ _ _ _ Wl). intros y Y. rewrite N in Y. injection Y as <-. exact H2.
Qed.
Lemma update_polygon_moved b b' i c : mb b b' -> same_end mb (update_polygon b i (push_conflict_g c)) (update_polygon b' i (push_conflict_g c)).
Proof.
  intros M. unfold update_polygon. pose proof (read_polygon b b' i M) as R. unfold read in R |- *. destruct (nth_error (b_polygons b) i) as [g|] eqn:N, (nth_error (b_polygons b') i) as [g'|]; cbn [same_end bind] in *; try contradiction; [|exact I].
  destruct R as [R K]. assert (H1 : mg (push_conflict_g c g) (push_conflict_g c g')) by (destruct R; split; cbn; try assumption; congruence).
  pose proof (end_write _ _ _ i _ _ (mb_polygons _ _ M) H1) as W. destruct (write (b_polygons b) i (push_conflict_g c g)) as [l| |] eqn:Wl, (write (b_polygons b') i (push_conflict_g c g')) as [l'| |]; cbn in *; try contradiction; [|exact I|exact I].
  apply mb_set_polygons; [exact M|exact W|]. rewrite <- (mb_G _ _ M). apply (write_keys _ _ _ _ _ Wl). intros y Y. rewrite N in Y. injection Y as <-. reflexivity.
Qed.
Lemma push_moved c e e' : me e e' -> me (push_conflict c e) (push_conflict c e') /\ ekey (push_conflict c e) = ekey e.
Proof. intros []. split; [|reflexivity]. split; cbn; try assumption; congruence. Qed.

(** ** The objects of a plane *)

Definition edge_in (p : Plane) (i : nat) : Prop := exists a, nth_error E i = Some (p, a).
Definition polygon_in (p : Plane) (j : nat) : Prop := exists l, nth_error G j = Some (p, l).
Lemma edges_of_moved b b' p : mb b b' -> Forall2 (fun i i' => i = i' /\ edge_in p i) (edges_of b p) (edges_of b' p).
Proof.
  intros M. unfold edges_of. rewrite <- (positions_rel me (fun e => plane_eqb (e_plane e) p) (fun e => plane_eqb (e_plane e) p) _ _ (mb_edges _ _ M)) by (intros x y Z; now rewrite (me_plane _ _ Z)).
  apply same_with. intros i I. apply positions_get in I. destruct I as (e & N & P). apply plane_eqb_true in P. subst p. exists (seg_axis (e_seg e)). rewrite <- (mb_E _ _ M), nth_error_map, N. reflexivity.
Qed.
Lemma polygons_of_moved b b' p : mb b b' -> Forall2 (fun i i' => i = i' /\ polygon_in p i) (polygons_of b p) (polygons_of b' p).
Proof.
  intros M. unfold polygons_of. rewrite <- (positions_rel mg (fun e => plane_eqb (g_plane e) p) (fun e => plane_eqb (g_plane e) p) _ _ (mb_polygons _ _ M)) by (intros x y Z; now rewrite (mg_plane _ _ Z)).
  apply same_with. intros i I. apply positions_get in I. destruct I as (e & N & P). apply plane_eqb_true in P. subst p. exists (g_edges e). rewrite <- (mb_G _ _ M), nth_error_map, N. reflexivity.
Qed.
(** The edges of a polygon of a plane. *)
Lemma sides_moved p j g g' : mg g g' -> nth_error G j = Some (gkey g) -> g_plane g = p -> Forall2 (fun i i' => i = i' /\ forall q a, nth_error E i = Some (q, a) -> q = p) (g_edges g) (g_edges g').
Proof. intros M N P. rewrite <- (mg_edges _ _ M). apply same_with. intros i I q a K. subst p. exact (HG _ _ _ _ _ _ N I K). Qed.

(** ** Materials *)

Context (srt : sort_by) (Oc : only_compares srt).

Lemma ambient_candidates_eq p cur cur' bb bb' l l' : mbox (vec p) bb bb' -> orel (at_same (fun g g' => mg g g' /\ g_plane g = p)) cur cur' -> Forall2 (at_same (fun g g' => mg g g' /\ g_plane g = p)) l l' ->
  ambient_candidates cur bb l = ambient_candidates cur' bb' l'.
Proof.
  intros B C F. induction F as [|[i g] [i' g'] l l' [Ei [M P]] F IH]; [reflexivity|]. cbn in Ei, M, P. subst i'. cbn [ambient_candidates]. rewrite IH, <- (mg_material _ _ M), <- (mg_priority _ _ M). destruct (g_material g); [|reflexivity].
  pose proof (mg_bounding _ _ M) as Bg. rewrite P in Bg. rewrite (overlap2_eq _ _ _ _ _ Bg B).
  destruct cur as [[j c]|], cur' as [[j' c']|]; cbn in C; try contradiction; [|reflexivity]. destruct C as [Ej [Mc Pc]]. cbn in Ej, Mc, Pc. subst j'.
  pose proof (mg_lo _ _ M) as L1. pose proof (mg_hi _ _ M) as L2. pose proof (mg_lo _ _ Mc) as L3. pose proof (mg_hi _ _ Mc) as L4. rewrite P in L1, L2. rewrite Pc in L3, L4.
  unfold overlap_z. rewrite (shift_leb _ _ _ _ _ (qmax_moved _ _ _ _ _ L1 L3) (qmin_moved _ _ _ _ _ L2 L4)). reflexivity.
Qed.
Lemma find_ambient_eq b b' p s s' cur cur' : mb b b' -> mseg (vec p) s s' -> orel (at_same (fun g g' => mg g g' /\ g_plane g = p)) cur cur' -> find_ambient srt b p s cur = find_ambient srt b' p s' cur'.
Proof.
  intros M S C. unfold find_ambient. rewrite (mb_background _ _ M).
  rewrite (ambient_candidates_eq p cur cur' (seg_bounding s) (seg_bounding s') (filter (fun x => plane_eqb (g_plane (snd x)) p) (view (b_polygons b))) (filter (fun x => plane_eqb (g_plane (snd x)) p) (view (b_polygons b')))); [reflexivity|now apply bounding_moved|exact C|].
  pose proof (filter_rel (at_same mg) (fun x => plane_eqb (g_plane (snd x)) p) (fun x => plane_eqb (g_plane (snd x)) p) _ _ (view_rel _ _ _ (mb_polygons _ _ M))) as H.
  specialize (H ltac:(intros x y [_ Z]; now rewrite (mg_plane _ _ Z))).
  assert (K : forall x, In x (filter (fun x => plane_eqb (g_plane (snd x)) p) (view (b_polygons b))) -> g_plane (snd x) = p) by (intros x I; apply filter_In in I; now apply plane_eqb_true).
  revert H K. generalize (filter (fun x => plane_eqb (g_plane (snd x)) p) (view (b_polygons b))) (filter (fun x => plane_eqb (g_plane (snd x)) p) (view (b_polygons b'))). clear.
  intros l l' F. induction F as [|x y l l' [A B] F IH]; intros K; constructor; [|apply IH; intros z Z; apply K; now right]. split; [exact A|]. split; [exact B|apply K; now left].
Qed.
Lemma outer_eq b b' p j g g' e e' : mb b b' -> mg g g' -> g_plane g = p -> me e e' -> e_plane e = p -> outer_material srt b p (j, g) e = outer_material srt b' p (j, g') e'.
Proof.
  intros M Mg P Me Pe. unfold outer_material. cbn zeta. rewrite <- (me_normal _ _ Me).
  assert (K : forall f w, f = pt_sub \/ f = pt_add -> find_ambient srt b p (mk_seg (f (s0 (e_seg e)) w) (f (s1 (e_seg e)) w)) (Some (j, g)) = find_ambient srt b' p (mk_seg (f (s0 (e_seg e')) w) (f (s1 (e_seg e')) w)) (Some (j, g'))).
  { intros f w F. apply find_ambient_eq; [exact M| |split; [reflexivity|split; assumption]].
    pose proof (me_seg _ _ Me) as [[A B] [C D]]. rewrite Pe in *. destruct F as [->| ->]; split; split; cbn [s0 s1 px py pt_add pt_sub]; rewrite ?A, ?B, ?C, ?D; ring. }
  destruct (e_normal e); try reflexivity; f_equal; apply K; auto.
Qed.

Lemma adjust_edge_moved p j g g' b b' i : mb b b' -> mg g g' -> g_plane g = p -> (forall q a, nth_error E i = Some (q, a) -> q = p) -> same_end mb (adjust_edge srt p (j, g) b i) (adjust_edge srt p (j, g') b' i).
Proof.
  intros M Mg P K. unfold adjust_edge. apply (end_bind _ _ _ _ _ _ (read_edge b b' i M)). intros e e' [Me N].
  rewrite <- (outer_eq b b' p j g g' e e' M Mg P Me (K _ _ N)). apply (end_bind eq); [now apply end_eq|]. intros o o' <-. destruct (fst o); [|exact M]. cbn [snd]. rewrite <- (mg_material _ _ Mg). destruct (g_material g); [|exact I].
  destruct (mat_gtb _ _); [|exact M]. apply update_edge_moved; [exact M|]. intros x x' [] _. split; [|reflexivity]. now split.
Qed.
Lemma adjust_moved b b' p : mb b b' -> same_end mb (adjust_edges_to_materials srt b p) (adjust_edges_to_materials srt b' p).
Proof.
  intros M. unfold adjust_edges_to_materials. apply (end_each _ mb _ _ _ _ (polygons_of_moved b b' p M)); [|exact M]. clear b b' M. intros b b' j j' M [<- (l & Kj)].
  apply (end_bind _ _ _ _ _ _ (read_polygon b b' j M)). intros g g' [Mg N]. assert (P : g_plane g = p) by (rewrite Kj in N; now injection N).
  apply (end_each _ mb _ _ _ _ (sides_moved p j g g' Mg N P)); [|exact M]. intros c c' i i' Mc [<- K]. now apply adjust_edge_moved.
Qed.

(** ** Colinear edges *)

Lemma add_colinear_moved b b' i j : mb b b' -> same_end mb (add_colinear_edges b i j) (add_colinear_edges b' i j).
Proof.
  intros M. unfold add_colinear_edges. apply (end_bind _ _ _ _ _ _ (read_edge b b' i M)). intros ei ei' [Mi Ni]. apply (end_bind _ _ _ _ _ _ (read_edge b b' j M)). intros ej ej' [Mj Nj].
  rewrite <- (me_plane _ _ Mi), <- (me_plane _ _ Mj), <- (axis_seg_eq _ _ Mi), <- (axis_seg_eq _ _ Mj). destruct (_ && _) eqn:Same; [|exact M].
  destruct (axis_of_seg (e_plane ei) (seg_axis (e_seg ei))) as [ax|] eqn:Ax; [|exact M]. cbn zeta. rewrite <- (mb_ce _ _ M).
  apply andb_true_iff in Same. destruct Same as [S1 S2]. apply plane_eqb_true in S1. assert (S3 : seg_axis (e_seg ei) = seg_axis (e_seg ej)) by (destruct (seg_axis (e_seg ei)), (seg_axis (e_seg ej)); cbn in S2; congruence).
  assert (Ai : forall p a, nth_error E i = Some (p, a) -> axis_of_seg p a = Some ax) by (intros p a H; rewrite Ni in H; unfold ekey in H; congruence).
  assert (Aj : forall p a, nth_error E j = Some (p, a) -> axis_of_seg p a = Some ax) by (intros p a H; rewrite Nj in H; unfold ekey in H; congruence).
  assert (Set_ : forall all, (forall c k p a, In c all -> In k (ce_edges c) -> nth_error E k = Some (p, a) -> axis_of_seg p a = Some ax) -> mb (set_ce b (set_axis (b_ce b) ax all)) (set_ce b' (set_axis (b_ce b) ax all))).
  { intros all H. apply mb_set_ce; [exact M|]. intros ay c k p a. destruct (axis_dec ay ax) as [->|Ny]; [rewrite axis_get_same; apply H|rewrite axis_get_other by exact Ny; apply (mb_cei _ _ M)]. }
  assert (Find : forall n c, find_colinear i j (on_axis (b_ce b) ax) 0 = Some (n, c) -> In c (on_axis (b_ce b) ax)).
  { generalize 0%nat. generalize (on_axis (b_ce b) ax). induction l as [|c0 l IH]; intros k n c F; [discriminate|]. cbn in F. destruct (_ || _); [injection F as _ <-; now left|]. right. exact (IH _ _ _ F). }
  assert (Wr : forall n c x all, write (on_axis (b_ce b) ax) n (ce_append c x) = Done all -> In c (on_axis (b_ce b) ax) -> (forall p a, nth_error E x = Some (p, a) -> axis_of_seg p a = Some ax) ->
     forall c0 k p a, In c0 all -> In k (ce_edges c0) -> nth_error E k = Some (p, a) -> axis_of_seg p a = Some ax).
  { intros n c x all W Ic Hx c0 k p a I0 Ik Hk. assert (C : c0 = ce_append c x \/ In c0 (on_axis (b_ce b) ax)).
    { clear -W I0. revert n all W I0. induction (on_axis (b_ce b) ax) as [|y l IH]; intros [|n] all W I0; cbn in W; try discriminate; [injection W as <-; destruct I0 as [<-|I0]; [now left|right; now right]|].
      destruct (write l n _) as [m| |] eqn:Wm; try discriminate. injection W as <-. destruct I0 as [<-|I0]; [right; now left|]. destruct (IH _ _ Wm I0); [now left|right; now right]. }
    destruct C as [->|C]; [|exact (mb_cei _ _ M _ _ _ _ _ C Ik Hk)]. cbn in Ik. apply in_app_iff in Ik. destruct Ik as [Ik|[<-|[]]]; [exact (mb_cei _ _ M _ _ _ _ _ Ic Ik Hk)|exact (Hx _ _ Hk)]. }
  destruct (find_colinear i j (on_axis (b_ce b) ax) 0) as [[n c]|] eqn:F.
  - specialize (Find n c eq_refl). destruct (memb i (ce_edges c)).
    + destruct (memb j (ce_edges c)); [exact M|]. destruct (write (on_axis (b_ce b) ax) n (ce_append c j)) as [all| |] eqn:W; cbn [bind]; [|exact I|exact I].
      apply update_edge_moved; [apply Set_, (Wr _ _ _ _ W Find Aj)|]. intros e e' Me _. now apply push_moved.
    + destruct (write (on_axis (b_ce b) ax) n (ce_append c i)) as [all| |] eqn:W; cbn [bind]; [|exact I|exact I].
      apply update_edge_moved; [apply Set_, (Wr _ _ _ _ W Find Ai)|]. intros e e' Me _. now apply push_moved.
  - apply (end_bind mb).
    + apply update_edge_moved; [apply Set_|intros e e' Me _; now apply push_moved]. intros c k p a Ic Ik Hk. apply in_app_iff in Ic. destruct Ic as [Ic|[<-|[]]]; [exact (mb_cei _ _ M _ _ _ _ _ Ic Ik Hk)|]. cbn in Ik. destruct Ik as [<-|[<-|[]]]; [now apply Ai|now apply Aj].
    + intros x x' X. apply update_edge_moved; [exact X|]. intros e e' Me _. now apply push_moved.
Qed.

Lemma colinear_pair_moved p i b b' j : mb b b' -> edge_in p i -> edge_in p j -> same_end mb (detect_colinear_pair p i b j) (detect_colinear_pair p i b' j).
Proof.
  intros M (ai & Ki) (aj & Kj). unfold detect_colinear_pair. apply (end_bind _ _ _ _ _ _ (read_edge b b' i M)). intros ei ei' [Mi Ni]. apply (end_bind _ _ _ _ _ _ (read_edge b b' j M)). intros ej ej' [Mj Nj].
  rewrite <- (axis_seg_eq _ _ Mi), <- (axis_seg_eq _ _ Mj). destruct (segaxis_eqb _ _); [|exact M]. destruct (axis_of_seg _ _); [|exact M].
  assert (Pi : e_plane ei = p) by (rewrite Ki in Ni; unfold ekey in Ni; congruence). assert (Pj : e_plane ej = p) by (rewrite Kj in Nj; unfold ekey in Nj; congruence).
  pose proof (me_seg _ _ Mi) as [[X Y] _]. pose proof (me_seg _ _ Mj) as [[X' Y'] _]. rewrite Pi in X, Y. rewrite Pj in X', Y'. rewrite (shift_eqb _ _ _ _ _ X X'), (shift_eqb _ _ _ _ _ Y Y').
  destruct (_ && _); [now apply add_colinear_moved|]. destruct (_ && _); [now apply add_colinear_moved|exact M].
Qed.
Lemma colinear_loop_moved p l l' : Forall2 (fun i i' => i = i' /\ edge_in p i) l l' -> forall b b', mb b b' -> same_end mb (detect_colinear_loop p l b) (detect_colinear_loop p l' b').
Proof.
  intros F. induction F as [|i i' l l' [<- Hi] F IH]; intros b b' M; [exact M|]. cbn [detect_colinear_loop]. apply (end_bind _ _ _ _ _ _ (read_edge b b' i M)). intros e e' [Me N]. rewrite <- (axis_seg_eq _ _ Me).
  apply (end_bind mb); [|exact IH]. destruct (segaxis_eqb _ SDIAG); [exact M|]. apply (end_each _ mb _ _ _ _ F); [|exact M]. intros c c' j j' Mc [<- Hj]. now apply colinear_pair_moved.
Qed.
Lemma colinear_moved b b' p : mb b b' -> same_end mb (detect_colinear_edges b p) (detect_colinear_edges b' p).
Proof. intros M. unfold detect_colinear_edges. apply colinear_loop_moved; [now apply edges_of_moved|exact M]. Qed.

Lemma count_eq l l' : Forall2 me l l' -> forall m n, count_normals l m n = count_normals l' m n.
Proof.
  intros F. induction F as [|e e' l l' Me F IH]; intros m n; [reflexivity|]. cbn [count_normals]. unfold effective_normal. rewrite <- (me_mesh _ _ Me), <- (me_reverse _ _ Me), <- (me_normal _ _ Me), !IH. reflexivity.
Qed.

Lemma write_same {A} (l : list A) i x : same_end eq (write l i x) (write l i x).
Proof. now apply end_eq. Qed.

Lemma solve_colinear_moved g ax b b' n : mb b b' -> same_end mb (solve_colinear g ax b n) (solve_colinear g ax b' n).
Proof.
  intros M. unfold solve_colinear. rewrite <- (mb_ce _ _ M). destruct (read (on_axis (b_ce b) ax) n) as [c| |] eqn:R; cbn [bind]; [|exact I|exact I].
  assert (Ic : In c (on_axis (b_ce b) ax)) by (unfold read in R; destruct (nth_error _ n) eqn:N; [|discriminate]; injection R as <-; now apply nth_error_In in N).
  apply (end_bind (Forall2 (fun e e' => me e e' /\ axis_of_seg (e_plane e) (seg_axis (e_seg e)) = Some ax))).
  { apply (end_collect (fun i i' => i = i' /\ In i (ce_edges c))); [now apply same_with|]. intros i i' [<- Ii]. apply (end_mono _ _ _ _ (read_edge b b' i M)). intros e e' [Me N]. split; [exact Me|]. exact (mb_cei _ _ M _ _ _ _ _ Ic Ii N). }
  intros es es' F. destruct F as [|e e' es es' [Me Ax] F]; [exact I|]. rewrite <- (axis_seg_eq _ _ Me).
  pose proof (seg_coord_moved _ _ _ _ _ Ax (proj1 (me_seg _ _ Me))) as H.
  assert (Pol : colinear_policy (e :: es) = colinear_policy (e' :: es')) by (unfold colinear_policy; rewrite (count_eq (e :: es) (e' :: es')); [reflexivity|]; constructor; [exact Me|]; apply (rel_mono _ _ _ _ F); now intros ? ? []).
  rewrite <- Pol. destruct (seg_coord (s0 (e_seg e)) _) as [x|], (seg_coord (s0 (e_seg e')) _) as [x'|]; cbn in H; try contradiction; [|exact M]. destruct (colinear_policy (e :: es)) as [[policy normal]|]; [|exact M].
  destruct (add_moved _ g _ _ policy normal x x' true (mb_axes _ _ M ax) H) as [A1 A2]. destruct (add_meshline_policy g (on_axis (b_axes b) ax) policy normal x true) as [y s], (add_meshline_policy g (on_axis (b_axes b') ax) policy normal x' true) as [y' s']. cbn in A1, A2. subst s'.
  destruct (write (on_axis (b_ce b) ax) n (mk_colinear (ce_edges c) s true)) as [all| |] eqn:W; cbn [bind]; [|exact I|exact I].
  cbn. apply mb_set_ce; [now apply mb_set_axis|]. intros ay c0 k p a. destruct (axis_dec ay ax) as [->|Ny]; [rewrite axis_get_same|rewrite axis_get_other by exact Ny; apply (mb_cei _ _ M)].
  intros I0. assert (C : c0 = mk_colinear (ce_edges c) s true \/ In c0 (on_axis (b_ce b) ax)).
  { clear -W I0. revert n all W I0. induction (on_axis (b_ce b) ax) as [|y l IH]; intros [|n] all W I0; cbn in W; try discriminate; [injection W as <-; destruct I0 as [<-|I0]; [now left|right; now right]|].
    destruct (write l n _) as [m| |] eqn:Wm; try discriminate. injection W as <-. destruct I0 as [<-|I0]; [right; now left|]. destruct (IH _ _ Wm I0); [now left|right; now right]. }
  destruct C as [->|C]; [apply (mb_cei _ _ M _ _ _ _ _ Ic)|apply (mb_cei _ _ M _ _ _ _ _ C)].
Qed.
Lemma solve_all_colinear_moved g b b' ax : mb b b' -> same_end mb (auto_solve_all_colinear_edges g b ax) (auto_solve_all_colinear_edges g b' ax).
Proof. intros M. unfold auto_solve_all_colinear_edges. rewrite <- (mb_ce _ _ M). apply (end_each _ mb _ _ _ _ (same_list _)); [|exact M]. intros c c' n n' Mc <-. now apply solve_colinear_moved. Qed.

(** ** Edges in polygons *)

Lemma find_in_polygon_moved p a l l' : Forall2 (meip p) l l' -> forall n, orel (fun x y => fst x = fst y /\ meip p (snd x) (snd y) /\ In (snd x) l) (find_in_polygon a l n) (find_in_polygon a l' n).
Proof.
  intros F. induction F as [|c c' l l' Mc F IH]; intros n; [exact I|]. cbn [find_in_polygon]. rewrite <- (proj1 Mc). destruct (_ =? _)%nat; [cbn; split; [reflexivity|]; split; [exact Mc|now left]|].
  specialize (IH (S n)). destruct (find_in_polygon a l (S n)), (find_in_polygon a l' (S n)); cbn in *; try contradiction; [|exact I]. destruct IH as (A & B & C). split; [exact A|]. split; [exact B|now right].
Qed.
Lemma set_plane_moved b b' p l l' : mb b b' -> Forall2 (meip p) l l' -> (forall c q a, In c l -> nth_error E (ei_edge c) = Some (q, a) -> q = p) -> mb (set_eip b (set_plane (b_eip b) p l)) (set_eip b' (set_plane (b_eip b') p l')).
Proof.
  intros M F H. apply mb_set_eip; [exact M| |].
  - intros q. destruct (plane_dec q p) as [->|N]; [now rewrite !plane_get_same|rewrite !plane_get_other by exact N; apply (mb_eip _ _ M)].
  - intros q c r a. destruct (plane_dec q p) as [->|N]; [rewrite plane_get_same; apply H|rewrite plane_get_other by exact N; apply (mb_eipi _ _ M)].
Qed.
Lemma write_in {A} (l : list A) n x l' y : write l n x = Done l' -> In y l' -> y = x \/ In y l.
Proof.
  revert n l'. induction l as [|z l IH]; intros [|n] l' W I0; cbn in W; try discriminate; [injection W as <-; destruct I0 as [<-|I0]; [now left|right; now right]|].
  destruct (write l n x) as [m| |] eqn:Wm; try discriminate. injection W as <-. destruct I0 as [<-|I0]; [right; now left|]. destruct (IH _ _ Wm I0); [now left|right; now right].
Qed.

Lemma add_eip_moved b b' p a g r r' other : mb b b' -> (forall q x, nth_error E a = Some (q, x) -> q = p) -> mseg (vec p) r r' -> same_end mb (add_edge_in_polygon b a g r other) (add_edge_in_polygon b' a g r' other).
Proof.
  intros M K R. unfold add_edge_in_polygon. apply (end_bind _ _ _ _ _ _ (read_edge b b' a M)). intros ea ea' [Ma Na]. apply (end_bind _ _ _ _ _ _ (read_polygon b b' g M)). intros poly poly' [Mg Ng].
  rewrite <- (me_plane _ _ Ma), <- (mg_plane _ _ Mg). rewrite (K _ _ Na) in *.
  apply (end_bind eq). { destruct (plane_eqb _ _); [reflexivity|]. destruct other as [j|]; [|reflexivity]. apply (end_bind _ _ _ _ _ _ (read_edge b b' j M)). intros ej ej' [Mj _]. cbn. now rewrite (me_plane _ _ Mj). }
  intros w w' <-. destruct w; [exact M|]. cbn zeta.
  pose proof (find_in_polygon_moved p a _ _ (mb_eip _ _ M p) 0) as Fi. rewrite <- (rel_length _ _ _ (mb_eip _ _ M p)).
  destruct (find_in_polygon a (on_plane (b_eip b) p) 0) as [[n c]|], (find_in_polygon a (on_plane (b_eip b') p) 0) as [[n' c']|]; cbn in Fi; try contradiction.
  - destruct Fi as (<- & (C1 & C2 & C3) & Ic).
    rewrite <- (exists_rel (mov p) (fun o => (ov_polygon o =? g)%nat && seg_eqb (ov_range o) r && same_overlap_edge (ov_edge o) other) (fun o => (ov_polygon o =? g)%nat && seg_eqb (ov_range o) r' && same_overlap_edge (ov_edge o) other) _ _ C2) by (intros o o' (O1 & O2 & O3); now rewrite O1, O3, (seg_eqb_eq _ _ _ _ _ O2 R)).
    destruct (existsb _ _); [exact M|]. rewrite <- (exists_rel (mov p) (fun o => (ov_polygon o =? g)%nat) (fun o => (ov_polygon o =? g)%nat) _ _ C2) by (intros o o' (O1 & _); now rewrite O1).
    assert (Ma' : meip p (ei_append c (g, r, other)) (ei_append c' (g, r', other))) by (split; [exact C1|]; split; [|exact C3]; cbn; apply Forall2_app; [exact C2|]; constructor; [now split|constructor]).
    pose proof (end_write _ _ _ n _ _ (mb_eip _ _ M p) Ma') as W. destruct (write (on_plane (b_eip b) p) n _) as [l| |] eqn:Wl, (write (on_plane (b_eip b') p) n _) as [l'| |]; cbn [same_end bind] in *; try contradiction; [|exact I|exact I].
    assert (Mx : mb (set_eip b (set_plane (b_eip b) p l)) (set_eip b' (set_plane (b_eip b') p l'))).
    { apply set_plane_moved; [exact M|exact W|]. intros c0 q x I0 H. destruct (write_in _ _ _ _ _ Wl I0) as [->|I1]; [exact (mb_eipi _ _ M _ _ _ _ Ic H)|exact (mb_eipi _ _ M _ _ _ _ I1 H)]. }
    destruct (existsb _ _); [exact Mx|]. now apply update_polygon_moved.
  - apply (end_bind mb).
    + apply update_edge_moved; [|intros e e' Me _; now apply push_moved]. apply set_plane_moved; [exact M| |].
      * apply Forall2_app; [apply (mb_eip _ _ M)|]. constructor; [|constructor]. split; [reflexivity|]. split; [|reflexivity]. constructor; [now split|constructor].
      * intros c q x I0 H. apply in_app_iff in I0. destruct I0 as [I0|[<-|[]]]; [exact (mb_eipi _ _ M _ _ _ _ I0 H)|exact (K _ _ H)].
    + intros x x' X. now apply update_polygon_moved.
Qed.

Definition mbt (p : Plane) (x y : between) : Prop := mseg (vec p) (fst (fst x)) (fst (fst y)) /\ snd (fst x) = snd (fst y) /\ orel (mpt (vec p)) (snd x) (snd y).
Definition macc (p : Plane) (x y : board * list point * list between) : Prop := mb (fst (fst x)) (fst (fst y)) /\ Forall2 (mpt (vec p)) (snd (fst x)) (snd (fst y)) /\ Forall2 (mbt p) (snd x) (snd y).
Definition here (p : Plane) (i : nat) : Prop := forall q a, nth_error E i = Some (q, a) -> q = p.

Lemma meet_moved p i g acc acc' j : macc p acc acc' -> here p i -> here p j -> same_end (macc p) (meet_edge i g acc j) (meet_edge i g acc' j).
Proof.
  destruct acc as [[b inter] ranges], acc' as [[b' inter'] ranges']. intros Hacc Hi Hj. pose proof Hacc as (M & I1 & R1). cbn [fst snd] in *. unfold meet_edge.
  apply (end_bind _ _ _ _ _ _ (read_edge b b' i M)). intros ea ea' [Ma Na]. apply (end_bind _ _ _ _ _ _ (read_edge b b' j M)). intros eb eb' [Mb Nb].
  pose proof (me_seg _ _ Ma) as Sa. pose proof (me_seg _ _ Mb) as Sb. rewrite (Hi _ _ Na) in Sa. rewrite (Hj _ _ Nb) in Sb. rewrite <- (relation_seg_eq _ _ _ _ _ Sa Sb).
  destruct (relation_seg (e_seg ea) (e_seg eb)); try exact Hacc.
  - pose proof (intersection_moved _ _ _ _ _ Sa Sb) as H. destruct (intersection (e_seg ea) (e_seg eb)) as [q|], (intersection (e_seg ea') (e_seg eb')) as [q'|]; cbn in H; try contradiction; [|exact Hacc].
    split; [exact M|]. split; [|exact R1]. cbn. apply Forall2_app; [exact I1|]. constructor; [exact H|constructor].
  - pose proof (combine_moved _ overlap_side _ _ _ _ overlap_side_moved Sa Sb) as H. unfold overlap. destruct (combine_segs overlap_side (e_seg ea) (e_seg eb)) as [r|], (combine_segs overlap_side (e_seg ea') (e_seg eb')) as [r'|]; cbn in H; try contradiction; [|exact Hacc].
    rewrite <- (seg_axis_eq _ _ _ H). assert (I2 : Forall2 (mpt (vec p)) (inter ++ [s0 r; s1 r]) (inter' ++ [s0 r'; s1 r'])) by (apply Forall2_app; [exact I1|]; destruct H; constructor; [assumption|constructor; [assumption|constructor]]).
    assert (Add : same_end (macc p) (let! b0 := add_edge_in_polygon b i g r (Some j) in Done (b0, inter ++ [s0 r; s1 r], ranges ++ [with_rel r PP_ON])) (let! b0 := add_edge_in_polygon b' i g r' (Some j) in Done (b0, inter' ++ [s0 r'; s1 r'], ranges' ++ [with_rel r' PP_ON]))).
    { apply (end_bind _ _ _ _ _ _ (add_eip_moved b b' p i g r r' (Some j) M Hi H)). intros x x' X. split; [exact X|]. split; [exact I2|]. cbn. apply Forall2_app; [exact R1|]. constructor; [|constructor]. split; [exact H|]. now split. }
    destruct (seg_axis r); try exact Add. split; [exact M|]. now split.
Qed.

Lemma pieces_moved p known known' l l' : Forall2 (mbt p) known known' -> Forall2 (mpt (vec p)) l l' -> Forall2 (mbt p) (pieces known l) (pieces known' l').
Proof.
  intros K F. induction F as [|x x' l l' X F IH]; [constructor|]. destruct F as [|y y' l l' Y F]; [constructor|]. cbn [pieces] in *. cbn zeta.
  assert (Sg : mseg (vec p) (mk_seg x y) (mk_seg x' y')) by now split.
  assert (Ex : existsb (fun k : seg * option PolyPoint * option point => seg_eqb (fst (fst k)) (mk_seg x y)) known = existsb (fun k : seg * option PolyPoint * option point => seg_eqb (fst (fst k)) (mk_seg x' y')) known').
  { apply (exists_rel (mbt p)); [exact K|]. intros k k' (A & _). now apply (seg_eqb_eq (vec p)). }
  destruct (existsb (fun k : seg * option PolyPoint * option point => seg_eqb (fst (fst k)) (mk_seg x y)) known); rewrite <- Ex; [exact IH|]. constructor; [|exact IH]. split; [exact Sg|]. split; [reflexivity|]. cbn. exact (mid_moved _ _ _ Sg).
Qed.

Lemma register_moved p n i g b b' r r' : mb b b' -> here p i -> polygon_in p g -> mbt p r r' -> same_end mb (register_range n i g b r) (register_range n i g b' r').
Proof.
  intros M Hi (l & Kg) (R1 & R2 & R3). unfold register_range. apply (end_bind _ _ _ _ _ _ (read_polygon b b' g M)). intros poly poly' [Mg Ng].
  assert (P : g_plane poly = p) by (rewrite Kg in Ng; unfold gkey in Ng; congruence).
  destruct r as [[range rel] mid], r' as [[range' rel'] mid']. cbn [fst snd] in *. subst rel'.
  apply (end_bind eq).
  { destruct mid as [m|], mid' as [m'|]; cbn in R3; try contradiction; [|reflexivity]. pose proof (mg_points _ _ Mg) as Pt. rewrite P in Pt. apply (end_bind _ _ _ _ _ _ (relation_polygon_eq _ n _ _ _ _ Pt R3)). intros x x' <-. reflexivity. }
  intros x x' <-. destruct (_ || _); [now apply (add_eip_moved b b' p)|exact M].
Qed.

Lemma read_moved_pt p l l' i : Forall2 (mpt (vec p)) l l' -> same_end (mpt (vec p)) (read l i) (read l' i).
Proof. apply end_read. Qed.

Lemma edge_in_polygon_moved p n g b b' i : mb b b' -> here p i -> polygon_in p g -> same_end mb (edge_in_polygon n srt g b i) (edge_in_polygon n srt g b' i).
Proof.
  intros M Hi Hg. pose proof Hg as (l0 & Kg). unfold edge_in_polygon. apply (end_bind _ _ _ _ _ _ (read_polygon b b' g M)). intros poly poly' [Mg Ng]. apply (end_bind _ _ _ _ _ _ (read_edge b b' i M)). intros ea ea' [Ma Na].
  assert (P : g_plane poly = p) by (rewrite Kg in Ng; unfold gkey in Ng; congruence). pose proof (me_seg _ _ Ma) as Sa. rewrite (Hi _ _ Na) in Sa. pose proof (mg_points _ _ Mg) as Pt. rewrite P in Pt.
  apply (end_bind (macc p)).
  { apply (end_each _ (macc p) _ _ _ _ (sides_moved p g poly poly' Mg Ng P)); [|split; [exact M|]; split; constructor]. intros a a' j j' Ha [<- Hj]. now apply meet_moved. }
  intros [[c inter] ranges] [[c' inter'] ranges'] (Mc & I1 & R1). cbn [fst snd] in *.
  apply (end_bind _ _ _ _ _ _ (relation_polygon_eq _ n _ _ _ _ Pt (proj1 Sa))). intros rel0 rel0' <-. apply (end_bind _ _ _ _ _ _ (relation_polygon_eq _ n _ _ _ _ Pt (proj2 Sa))). intros rel1 rel1' <-.
  assert (L : Forall2 (mpt (vec p)) (unique (sort_points srt (seg_vec (e_seg ea)) (inter ++ [s0 (e_seg ea); s1 (e_seg ea)]))) (unique (sort_points srt (seg_vec (e_seg ea')) (inter' ++ [s0 (e_seg ea'); s1 (e_seg ea')])))).
  { apply unique_moved, (sort_points_moved _ srt Oc); [now apply (vec_eq (vec p))|]. apply Forall2_app; [exact I1|]. destruct Sa. constructor; [assumption|]. constructor; [assumption|constructor]. }
  assert (Rest : forall u u', Forall2 (mpt (vec p)) u u' -> same_end mb
     (let inside x := pp_eqb x PP_IN || pp_eqb x PP_OUT in
      let! first := if inside rel0 then let! p := read u 0 in let! q := read u 1 in Done [with_rel (mk_seg p q) rel0] else Done [] in
      let! final := if inside rel1 then match rev u with q :: p :: _ => Done [with_rel (mk_seg p q) rel1] | _ => Dangling end else Done [] in
      let known := ranges ++ first ++ final in for_each (register_range n i g) (known ++ pieces known u) c)
     (let inside x := pp_eqb x PP_IN || pp_eqb x PP_OUT in
      let! first := if inside rel0 then let! p := read u' 0 in let! q := read u' 1 in Done [with_rel (mk_seg p q) rel0] else Done [] in
      let! final := if inside rel1 then match rev u' with q :: p :: _ => Done [with_rel (mk_seg p q) rel1] | _ => Dangling end else Done [] in
      let known := ranges' ++ first ++ final in for_each (register_range n i g) (known ++ pieces known u') c')).
  { intros u u' U. cbn zeta. apply (end_bind (Forall2 (mbt p))).
    { destruct (_ || _); [|constructor]. apply (end_bind _ _ _ _ _ _ (read_moved_pt p _ _ 0 U)). intros x x' X. apply (end_bind _ _ _ _ _ _ (read_moved_pt p _ _ 1 U)). intros y y' Y. constructor; [|constructor]. split; [now split|]. now split. }
    intros first first' Ff. apply (end_bind (Forall2 (mbt p))).
    { destruct (_ || _); [|constructor]. pose proof (rev_rel _ _ _ U) as V. destruct V as [|x x' v v' X V]; [exact I|]. destruct V as [|y y' v v' Y V]; [exact I|]. constructor; [|constructor]. split; [now split|]. now split. }
    intros final final' Fl. assert (Kn : Forall2 (mbt p) (ranges ++ first ++ final) (ranges' ++ first' ++ final')) by (apply Forall2_app; [exact R1|now apply Forall2_app]).
    apply (end_each (mbt p) mb); [apply Forall2_app; [exact Kn|now apply pieces_moved]| |exact Mc]. intros x x' r r' X R. now apply (register_moved p). }
  destruct I1 as [|q q' inter inter' Hq I1].
  - destruct (_ && _); [|exact Mc]. apply (add_eip_moved c c' p); [exact Mc|exact Hi|]. now destruct Sa.
  - exact (Rest _ _ L).
Qed.

Lemma polygon_in_polygon_moved p n i b b' j : mb b b' -> polygon_in p i -> polygon_in p j -> same_end mb (polygon_in_polygon n srt i b j) (polygon_in_polygon n srt i b' j).
Proof.
  intros M Hi Hj. pose proof Hi as (li & Ki). pose proof Hj as (lj & Kj). unfold polygon_in_polygon. apply (end_bind _ _ _ _ _ _ (read_polygon b b' i M)). intros pa pa' [Ma Na]. apply (end_bind _ _ _ _ _ _ (read_polygon b b' j M)). intros pb pb' [Mb Nb].
  assert (Pa : g_plane pa = p) by (rewrite Ki in Na; unfold gkey in Na; congruence). assert (Pb : g_plane pb = p) by (rewrite Kj in Nb; unfold gkey in Nb; congruence).
  destruct (j =? i)%nat; [exact M|]. rewrite <- (mg_priority _ _ Ma), <- (mg_priority _ _ Mb). destruct (_ <? _)%nat; [exact M|].
  pose proof (mg_lo _ _ Ma) as L1. pose proof (mg_hi _ _ Ma) as L2. pose proof (mg_lo _ _ Mb) as L3. pose proof (mg_hi _ _ Mb) as L4. rewrite Pa in L1, L2. rewrite Pb in L3, L4.
  unfold overlap_z. rewrite (shift_leb _ _ _ _ _ (qmax_moved _ _ _ _ _ L3 L1) (qmin_moved _ _ _ _ _ L4 L2)). destruct (negb _); [exact M|].
  apply (end_each _ mb _ _ _ _ (sides_moved p i pa pa' Ma Na Pa)); [|exact M]. intros c c' k k' Mc [<- Hk]. now apply (edge_in_polygon_moved p).
Qed.
Lemma in_polygons_moved n b b' p : mb b b' -> same_end mb (detect_edges_in_polygons n srt b p) (detect_edges_in_polygons n srt b' p).
Proof.
  intros M. unfold detect_edges_in_polygons. apply (end_each _ mb _ _ _ _ (polygons_of_moved b b' p M)); [|exact M]. clear b b' M. intros b b' i i' M [<- Hi].
  apply (end_each _ mb _ _ _ _ (polygons_of_moved b b' p M)); [|exact M]. intros c c' j j' Mc [<- Hj]. now apply (polygon_in_polygon_moved p).
Qed.

Lemma merge_moved p b b' normal l l' : mb b b' -> Forall2 (mov p) l l' -> forall s s', mseg (vec p) s s' -> same_end (mseg (vec p)) (merge_overlaps (b_edges b) normal l s) (merge_overlaps (b_edges b') normal l' s').
Proof.
  intros M F. induction F as [|o o' l l' (O1 & O2 & O3) F IH]; intros s s' Ms; [exact Ms|]. cbn [merge_overlaps]. rewrite <- O3. apply (end_bind eq).
  { destruct (ov_edge o) as [j|]; [|reflexivity]. apply (end_bind _ _ _ _ _ _ (read_edge b b' j M)). intros e e' [Me _]. cbn. now rewrite (me_normal _ _ Me). }
  intros x x' <-. destruct x; [|exact Ms]. pose proof (combine_moved _ merge_side _ _ _ _ merge_side_moved O2 Ms) as H. unfold merge. destruct (combine_segs merge_side (ov_range o) s), (combine_segs merge_side (ov_range o') s'); cbn in H; try contradiction; [now apply IH|exact Ms].
Qed.
Lemma sort_overlaps_moved p u u' l l' : eqpt u u' -> Forall2 (mov p) l l' -> Forall2 (mov p) (sort_overlaps srt u l) (sort_overlaps srt u' l').
Proof.
  intros U F. unfold sort_overlaps. pose proof (before_eq (vec p) _ _ U) as H. destruct (before u), (before u'); cbn in H; try contradiction; [|exact F]. apply Oc; [exact F|]. intros x x' y y' (_ & [X _] & _) (_ & [Y _] & _). now apply H.
Qed.
Lemma solve_in_polygon_moved p b b' n : mb b b' -> same_end mb (solve_in_polygon srt p b n) (solve_in_polygon srt p b' n).
Proof.
  intros M. unfold solve_in_polygon. pose proof (end_read _ _ _ n (mb_eip _ _ M p)) as R. unfold read at 1 3. unfold read in R. destruct (nth_error (on_plane (b_eip b) p) n) as [c|] eqn:Nc, (nth_error (on_plane (b_eip b') p) n) as [c'|]; cbn [same_end bind] in *; try contradiction; [|exact I].
  destruct R as (C1 & C2 & C3). rewrite <- C1. apply nth_error_In in Nc. apply (end_bind _ _ _ _ _ _ (read_edge b b' (ei_edge c) M)). intros e e' [Me Ne].
  pose proof (me_seg _ _ Me) as Se. rewrite (mb_eipi _ _ M _ _ _ _ Nc Ne) in Se. cbn zeta. rewrite <- (me_normal _ _ Me).
  pose proof (sort_overlaps_moved p _ _ _ _ (vec_eq _ _ _ Se) C2) as So.
  assert (Gen : forall u u', Forall2 (mov p) u u' -> same_end mb
    match u with [] => Dangling | o :: _ => let! merged := merge_overlaps (b_edges b) (e_normal e) u (ov_range o) in let! all := write (on_plane (b_eip b) p) n (mk_in_polygon (ei_edge c) u true) in
      update_edge (set_eip b (set_plane (b_eip b) p all)) (ei_edge c) (set_to_mesh (negb (seg_eqb (e_seg e) merged)) (InEIP p n)) end
    match u' with [] => Dangling | o :: _ => let! merged := merge_overlaps (b_edges b') (e_normal e) u' (ov_range o) in let! all := write (on_plane (b_eip b') p) n (mk_in_polygon (ei_edge c) u' true) in
      update_edge (set_eip b' (set_plane (b_eip b') p all)) (ei_edge c) (set_to_mesh (negb (seg_eqb (e_seg e') merged)) (InEIP p n)) end).
  { intros u u' U. pose proof U as U'. destruct U as [|o o' v v' (O1 & O2 & O3) U]; [exact I|]. apply (end_bind _ _ _ _ _ _ (merge_moved p b b' (e_normal e) _ _ M U' _ _ O2)). intros m m' Mm.
    assert (Mx : meip p (mk_in_polygon (ei_edge c) (o :: v) true) (mk_in_polygon (ei_edge c) (o' :: v') true)) by (split; [reflexivity|]; now split).
    pose proof (end_write _ _ _ n _ _ (mb_eip _ _ M p) Mx) as W. destruct (write (on_plane (b_eip b) p) n _) as [l| |] eqn:Wl, (write (on_plane (b_eip b') p) n _) as [l'| |]; cbn [same_end bind] in *; try contradiction; [|exact I|exact I].
    apply update_edge_moved.
    - apply set_plane_moved; [exact M|exact W|]. intros c0 q x I0 H. destruct (write_in _ _ _ _ _ Wl I0) as [->|I1]; [exact (mb_eipi _ _ M _ _ _ _ Nc H)|exact (mb_eipi _ _ M _ _ _ _ I1 H)].
    - intros x x' Mx' _. rewrite (seg_eqb_eq _ _ _ _ _ Se Mm). destruct Mx'. split; [|reflexivity]. now split. }
  exact (Gen _ _ So).
Qed.
Lemma solve_all_eip_moved b b' p : mb b b' -> same_end mb (auto_solve_all_edge_in_polygon srt b p) (auto_solve_all_edge_in_polygon srt b' p).
Proof.
  intros M. unfold auto_solve_all_edge_in_polygon. rewrite <- (rel_length _ _ _ (mb_eip _ _ M p)). apply (end_each _ mb _ _ _ _ (same_list _)); [|exact M]. intros c c' n n' Mc <-. now apply solve_in_polygon_moved.
Qed.

(** ** Individual edges and angles *)

Lemma set_policy_moved x e e' : me e e' -> me (set_policy x e) (set_policy x e') /\ ekey (set_policy x e) = ekey e.
Proof. intros []. split; [|reflexivity]. now split. Qed.
Lemma individual_edge_moved g p b b' i : mb b b' -> edge_in p i -> same_end mb (individual_edge g p b i) (individual_edge g p b' i).
Proof.
  intros M (a & K). unfold individual_edge. apply (end_bind _ _ _ _ _ _ (read_edge b b' i M)). intros e e' [Me N]. rewrite <- (axis_seg_eq _ _ Me). assert (P : e_plane e = p) by (rewrite K in N; unfold ekey in N; congruence).
  destruct (axis_of_seg p (seg_axis (e_seg e))) as [ax|] eqn:Ax; [|destruct (seg_coord (s0 (e_seg e)) _), (seg_coord (s0 (e_seg e')) _); exact M].
  pose proof (me_seg _ _ Me) as [S0 _]. rewrite P in S0. pose proof (seg_coord_moved _ _ _ _ _ Ax S0) as H.
  destruct (seg_coord (s0 (e_seg e)) _) as [x|], (seg_coord (s0 (e_seg e')) _) as [x'|]; cbn in H; try contradiction; [|exact M].
  rewrite <- (me_conflicts _ _ Me), <- (me_mesh _ _ Me). assert (En : effective_normal e = effective_normal e') by (unfold effective_normal; now rewrite (me_reverse _ _ Me), (me_normal _ _ Me)). rewrite <- En. destruct (_ && _); [|exact M].
  destruct (add_moved _ g _ _ THIRDS (cast_normal (effective_normal e)) x x' (e_to_mesh e) (mb_axes _ _ M ax) H) as [A1 A2].
  destruct (add_meshline_policy g (on_axis (b_axes b) ax) _ _ x _) as [y s], (add_meshline_policy g (on_axis (b_axes b') ax) _ _ x' _) as [y' s']. cbn in A1, A2. subst s'.
  apply update_edge_moved; [now apply mb_set_axis|]. intros u u' U _. now apply set_policy_moved.
Qed.
Lemma update_angle_moved b b' i f f' : mb b b' -> (forall a a', man a a' -> man (f a) (f' a')) -> same_end mb (update_angle b i f) (update_angle b' i f').
Proof.
  intros M H. unfold update_angle. apply (end_bind man); [apply end_read, (mb_angles _ _ M)|]. intros a a' A. apply (end_bind (Forall2 man)); [apply end_write; [apply (mb_angles _ _ M)|now apply H]|]. intros l l' L. now apply mb_set_angles.
Qed.
Lemma individual_axis_moved g p i b b' v : mb b b' -> (forall a, nth_error (b_angles b) i = Some a -> a_plane a = p) -> same_end mb (individual_angle_axis g p i b v) (individual_angle_axis g p i b' v).
Proof.
  intros M K. unfold individual_angle_axis. pose proof (end_read _ _ _ i (mb_angles _ _ M)) as R. unfold read in R |- *. destruct (nth_error (b_angles b) i) as [a|] eqn:N, (nth_error (b_angles b') i) as [a'|]; cbn [same_end bind] in *; try contradiction; [|exact I].
  pose proof (man_point _ _ R) as Pt. rewrite (K a eq_refl) in Pt. pose proof (coord_moved _ _ _ v Pt) as H. rewrite along_table in H. assert (Tm : a_to_mesh a v = a_to_mesh a' v) by (destruct v; cbn; [apply (man_h _ _ R)|apply (man_v _ _ R)]). rewrite <- Tm.
  destruct (add_moved _ g _ _ HALFS NNONE _ _ (a_to_mesh a v) (mb_axes _ _ M (axes_table p v)) H) as [A1 A2].
  destruct (add_meshline_policy g (on_axis (b_axes b) _) _ _ _ _) as [y s], (add_meshline_policy g (on_axis (b_axes b') _) _ _ _ _) as [y' s']. cbn in A1, A2. subst s'.
  apply update_angle_moved; [now apply mb_set_axis|]. intros u u' []. now split.
Qed.
Lemma angles_kept b i f b' : update_angle b i f = Done b' -> (forall a, a_plane (f a) = a_plane a) -> map a_plane (b_angles b') = map a_plane (b_angles b).
Proof.
  unfold update_angle, read. intros H K. destruct (nth_error (b_angles b) i) as [a|] eqn:N; [|discriminate]. cbn [bind] in H. destruct (write (b_angles b) i (f a)) as [l| |] eqn:W; try discriminate. cbn in H. injection H as <-. cbn.
  apply (write_keys _ _ _ _ _ W). intros y Y. rewrite N in Y. injection Y as <-. apply K.
Qed.
Lemma individual_axis_kept g p i b v b' : individual_angle_axis g p i b v = Done b' -> map a_plane (b_angles b') = map a_plane (b_angles b).
Proof.
  unfold individual_angle_axis. destruct (read (b_angles b) i) as [a| |]; cbn [bind]; try discriminate. destruct (add_meshline_policy _ _ _ _ _ _) as [y s]. intros H. apply angles_kept in H; [exact H|reflexivity].
Qed.

(** Runs that end alike and keep something of the first. *)
Lemma end_keep {A B C} (R : A -> B -> Prop) (f : A -> C) k (m : run A) (m' : run B) : same_end R m m' -> (forall x, m = Done x -> f x = k) -> same_end (fun x y => R x y /\ f x = k) m m'.
Proof. destruct m, m'; cbn; auto. Qed.

Lemma individual_moved g b b' p : mb b b' -> same_end mb (detect_individual_edges g b p) (detect_individual_edges g b' p).
Proof.
  intros M. unfold detect_individual_edges. apply (end_bind mb).
  { apply (end_each _ mb _ _ _ _ (edges_of_moved b b' p M)); [|exact M]. intros c c' i i' Mc [<- Hi]. now apply individual_edge_moved. }
  clear b b' M. intros b b' M. unfold angles_of. rewrite <- (positions_rel man (fun e => plane_eqb (a_plane e) p) (fun e => plane_eqb (a_plane e) p) _ _ (mb_angles _ _ M)) by (intros x y Z; now rewrite (man_plane _ _ Z)).
  set (planes := map a_plane (b_angles b)).
  assert (K : forall i, In i (positions (fun e => plane_eqb (a_plane e) p) (b_angles b)) -> nth_error planes i = Some p).
  { intros i I. apply positions_get in I. destruct I as (a & N & P). apply plane_eqb_true in P. unfold planes. rewrite nth_error_map, N. cbn. now rewrite P. }
  apply (end_mono (fun x y => mb x y /\ map a_plane (b_angles x) = planes)); [|now intros ? ? []].
  apply (end_each _ (fun x y => mb x y /\ map a_plane (b_angles x) = planes) _ _ _ _ (same_with _ _ K)); [|now split].
  intros c c' i i' [Mc Kc] [<- Ki]. unfold individual_angle. apply (end_each _ (fun x y => mb x y /\ map a_plane (b_angles x) = planes) _ _ _ _ (same_list _)); [|now split].
  intros u u' v v' [Mu Ku] <-. apply end_keep.
  - apply individual_axis_moved; [exact Mu|]. intros a N. rewrite <- Ku, nth_error_map, N in Ki. cbn in Ki. congruence.
  - intros x X. apply individual_axis_kept in X. congruence.
Qed.

(** ** Diagonals *)

Context (ang : point -> point -> Q) (Ov : of_values ang).

Lemma new_angle_moved b b' q q' i j : mb b b' -> (forall p a, nth_error E i = Some (p, a) -> mpt (vec p) q q') -> same_end man (new_angle ang b q i j) (new_angle ang b' q' i j).
Proof.
  intros M H. unfold new_angle. apply (end_bind _ _ _ _ _ _ (read_edge b b' i M)). intros ei ei' [Mi Ni]. apply (end_bind _ _ _ _ _ _ (read_edge b b' j M)). intros ej ej' [Mj Nj].
  destruct (vec_eq _ _ _ (me_seg _ _ Mi)) as [A B], (vec_eq _ _ _ (me_seg _ _ Mj)) as [C D]. split; cbn; try reflexivity; [apply (me_plane _ _ Mi)|exact (H _ _ Ni)|now apply Ov].
Qed.
Lemma is_diagonal_eq e e' : me e e' -> is_diagonal e = is_diagonal e'.
Proof. intros M. unfold is_diagonal. now rewrite (axis_seg_eq _ _ M). Qed.
Lemma polygon_angles_moved p b b' l l' : mb b b' -> Forall2 (fun i i' => i = i' /\ here p i) l l' -> forall k, here p k -> same_end (Forall2 man) (polygon_angles ang b k l) (polygon_angles ang b' k l').
Proof.
  intros M F. induction F as [|i i' l l' [<- Hi] F IH]; intros k Hk; [constructor|]. cbn [polygon_angles].
  apply (end_bind _ _ _ _ _ _ (read_edge b b' k M)). intros ep ep' [Mp Np]. apply (end_bind _ _ _ _ _ _ (read_edge b b' i M)). intros ei ei' [Mi Ni]. apply (end_bind _ _ _ _ _ _ (IH i Hi)). intros r r' R.
  rewrite <- (is_diagonal_eq _ _ Mp), <- (is_diagonal_eq _ _ Mi). destruct (_ || _); [|exact R]. apply (end_bind man); [|intros a a' A; now constructor].
  apply new_angle_moved; [exact M|]. intros q a Hq. pose proof (me_seg _ _ Mp) as [_ S1]. rewrite (Hk _ _ Np) in S1. rewrite (Hk _ _ Hq). exact S1.
Qed.
Lemma crossing_moved p b b' i j : mb b b' -> here p i -> here p j -> same_end (Forall2 man) (crossing_angle ang b i j) (crossing_angle ang b' i j).
Proof.
  intros M Hi Hj. unfold crossing_angle. apply (end_bind _ _ _ _ _ _ (read_edge b b' i M)). intros ei ei' [Mi Ni]. apply (end_bind _ _ _ _ _ _ (read_edge b b' j M)). intros ej ej' [Mj Nj].
  rewrite <- (is_diagonal_eq _ _ Mi), <- (is_diagonal_eq _ _ Mj). destruct (_ && _); [constructor|]. pose proof (me_seg _ _ Mi) as Si. pose proof (me_seg _ _ Mj) as Sj. rewrite (Hi _ _ Ni) in Si. rewrite (Hj _ _ Nj) in Sj.
  rewrite <- (overlap2_strict_eq _ _ _ _ _ (bounding_moved _ _ _ Si) (bounding_moved _ _ _ Sj)). destruct (negb _); [constructor|]. rewrite <- (relation_seg_eq _ _ _ _ _ Si Sj). pose proof (intersection_moved _ _ _ _ _ Si Sj) as H.
  destruct (relation_seg _ _); try constructor. destruct (intersection (e_seg ei) (e_seg ej)) as [q|], (intersection (e_seg ei') (e_seg ej')) as [q'|]; cbn in H; try contradiction; [|constructor].
  apply (end_bind man); [|intros a a' A; constructor; [exact A|constructor]]. apply new_angle_moved; [exact M|]. intros q0 a Hq. now rewrite (Hi _ _ Hq).
Qed.
Definition sided (p : Plane) (g g' : polygon) : Prop := Forall2 (fun i i' => i = i' /\ here p i) (g_edges g) (g_edges g').
Lemma crossings_moved p b b' l l' : mb b b' -> Forall2 (sided p) l l' -> same_end (Forall2 man) (crossing_angles ang b l) (crossing_angles ang b' l').
Proof.
  intros M F. induction F as [|g g' l l' Sg F IH]; [constructor|]. cbn [crossing_angles].
  assert (Fl : Forall2 (fun i i' => i = i' /\ here p i) (flat_map g_edges l) (flat_map g_edges l')) by (apply (flat_rel (sided p)); [exact F|now intros x x' X]).
  apply (end_bind (Forall2 (Forall2 (Forall2 man)))).
  { apply (end_collect _ _ _ _ _ _ Sg). intros i i' [<- Hi]. apply (end_collect _ _ _ _ _ _ Fl). intros j j' [<- Hj]. now apply (crossing_moved p). }
  intros h h' H. apply (end_bind _ _ _ _ _ _ IH). intros r r' R. cbn. apply Forall2_app; [|exact R]. apply concat_rel, (map_rel (Forall2 (Forall2 man))); [exact H|]. intros x x'. apply concat_rel.
Qed.
Lemma diagonal_angles_moved b b' p : mb b b' -> same_end mb (detect_diagonal_angles ang b p) (detect_diagonal_angles ang b' p).
Proof.
  intros M. unfold detect_diagonal_angles. cbn zeta.
  assert (F : Forall2 (sided p) (filter (fun g => plane_eqb (g_plane g) p) (b_polygons b)) (filter (fun g => plane_eqb (g_plane g) p) (b_polygons b'))).
  { pose proof (filter_rel mg (fun g => plane_eqb (g_plane g) p) (fun g => plane_eqb (g_plane g) p) _ _ (mb_polygons _ _ M)) as F. assert (Hm : forall x y, mg x y -> plane_eqb (g_plane x) p = plane_eqb (g_plane y) p) by (intros x y Z; now rewrite (mg_plane _ _ Z)). specialize (F Hm).
    assert (K : forall g, In g (filter (fun g => plane_eqb (g_plane g) p) (b_polygons b)) -> forall i, In i (g_edges g) -> here p i).
    { intros g Ig i Ii q a H. apply filter_In in Ig. destruct Ig as [Ig P]. apply plane_eqb_true in P. apply In_nth_error in Ig. destruct Ig as (j & N). subst p. apply (HG j (g_plane g) (g_edges g) i q a); [|exact Ii|exact H]. rewrite <- (mb_G _ _ M), nth_error_map, N. reflexivity. }
    revert F K. generalize (filter (fun g => plane_eqb (g_plane g) p) (b_polygons b)) (filter (fun g => plane_eqb (g_plane g) p) (b_polygons b')). clear. intros l l' F. induction F as [|g g' l l' Mg F IH]; intros K; constructor.
    - unfold sided. rewrite <- (mg_edges _ _ Mg). apply same_with. apply K. now left.
    - apply IH. intros x X. apply K. now right. }
  apply (end_bind (Forall2 (Forall2 man))).
  { apply (end_collect _ _ _ _ _ _ F). intros g g' Sg. unfold sided in Sg. destruct Sg as [|i i' l l' [<- Hi] Sg]; [constructor|].
    assert (H : last (i :: l) i = last (i :: l') i /\ here p (last (i :: l) i)) by (apply (last_rel (fun i i' => i = i' /\ here p i)); [constructor; [now split|exact Sg]|now split]). destruct H as [H1 H2]. rewrite <- H1. apply (polygon_angles_moved p); [exact M|constructor; [now split|exact Sg]|exact H2]. }
  intros c c' C. apply (end_bind _ _ _ _ _ _ (crossings_moved p b b' _ _ M F)). intros r r' R. cbn. apply mb_set_angles; [exact M|]. apply Forall2_app; [apply (mb_angles _ _ M)|]. apply Forall2_app; [now apply concat_rel|exact R].
Qed.

(** Zones are kept by address: they do not change. *)
Definition min_plane (p : Plane) (a a' : angle) : Prop := man a a' /\ a_plane a = p.
Lemma angle_coord p v a a' : min_plane p a a' -> pt_coord (a_point a') v == pt_coord (a_point a) v + along (vec p) v.
Proof. intros [M <-]. apply coord_moved, M. Qed.
Lemma angle_less p v (x x' y y' : nat * angle) : at_same (min_plane p) x x' -> at_same (min_plane p) y y' ->
  Qltb (pt_coord (a_point (snd x)) v) (pt_coord (a_point (snd y)) v) = Qltb (pt_coord (a_point (snd x')) v) (pt_coord (a_point (snd y')) v).
Proof. intros [_ X] [_ Y]. apply (shift_ltb (along (vec p) v)); apply angle_coord; assumption. Qed.
Lemma in_one_plane p (l l' : list (nat * angle)) : Forall2 (at_same man) l l' -> forallb (fun x => plane_eqb (a_plane (snd x)) p) l = true -> Forall2 (at_same (min_plane p)) l l'.
Proof.
  intros F. induction F as [|x x' l l' [A B] F IH]; intros H; [constructor|]. cbn in H. apply andb_true_iff in H. destruct H as [H1 H2]. constructor; [|now apply IH]. split; [exact A|]. split; [exact B|now apply plane_eqb_true].
Qed.
Lemma add_zone_moved g dp ax b b' l : mb b b' -> same_end mb (add_diagonal_zone g dp srt ax b l) (add_diagonal_zone g dp srt ax b' l).
Proof.
  intros M. unfold add_diagonal_zone. apply (end_bind (Forall2 (at_same man))).
  { apply (end_collect eq); [apply same_list|]. intros i i' <-. apply (end_bind man); [apply end_read, (mb_angles _ _ M)|]. intros a a' A. now split. }
  intros u u' U. pose proof U as U'. destruct U as [|[i a] [i' a'] u u' [Ei A] U]; [exact M|]. cbn in Ei, A. subst i'. rewrite <- (man_plane _ _ A).
  rewrite <- (all_rel (at_same man) (fun x => plane_eqb (a_plane (snd x)) (a_plane a)) (fun x => plane_eqb (a_plane (snd x)) (a_plane a)) _ _ U') by (intros x y [_ Z]; now rewrite (man_plane _ _ Z)).
  destruct (forallb _ _) eqn:Al; [|exact M]. destruct (view_of_axis (a_plane a) ax) as [v|]; [|exact M]. cbn zeta.
  pose proof (in_one_plane _ _ _ U' Al) as V. assert (Eq : map fst (srt _ (fun x y => Qltb (pt_coord (a_point (snd x)) v) (pt_coord (a_point (snd y)) v)) ((i, a) :: u)) = map fst (srt _ (fun x y => Qltb (pt_coord (a_point (snd x)) v) (pt_coord (a_point (snd y)) v)) ((i, a') :: u'))).
  { apply list_same, (map_rel (at_same (min_plane (a_plane a)))); [|now intros x y [? _]]. apply Oc; [exact V|]. intros x x' y y' X Y. now apply (angle_less (a_plane a)). }
  rewrite <- Eq, <- (mb_zones _ _ M). cbn. now apply mb_set_zones.
Qed.
Lemma ranges_eq p v di di' l l' : Forall2 (fun e e' => me e e' /\ e_plane e = p) di di' -> Forall2 (at_same (min_plane p)) l l' -> angle_ranges v di l = angle_ranges v di' l'.
Proof.
  intros D F. induction F as [|x x' l l' X F IH]; [reflexivity|]. destruct F as [|y y' l l' Y F]; [reflexivity|]. cbn [angle_ranges] in *. cbn zeta. rewrite (proj1 Y) in IH. rewrite (proj1 X), (proj1 Y).
  assert (Ex : existsb (fun e => overlap_coord (box_side v (seg_bounding (e_seg e))) (coord_mid (pt_coord (a_point (snd x)) v) (pt_coord (a_point (snd y)) v))) di
             = existsb (fun e => overlap_coord (box_side v (seg_bounding (e_seg e))) (coord_mid (pt_coord (a_point (snd x')) v) (pt_coord (a_point (snd y')) v))) di').
  { apply (exists_rel (fun e e' => me e e' /\ e_plane e = p)); [exact D|]. intros e e' [Me P]. pose proof (bounding_moved _ _ _ (me_seg _ _ Me)) as B. rewrite P in B.
    pose proof (shift_mid _ _ _ _ _ (angle_coord p v _ _ (proj2 X)) (angle_coord p v _ _ (proj2 Y))) as Mi. destruct B as (B1 & B2 & B3 & B4). unfold overlap_coord.
    destruct v; cbn [box_side along] in *; f_equal; eapply shift_leb; eassumption. }
  rewrite Ex. f_equal. exact IH.
Qed.
Lemma zones_view_moved g dp p acc acc' v : mb (fst acc) (fst acc') /\ Forall2 (at_same (min_plane p)) (snd acc) (snd acc') ->
  same_end (fun x y => mb (fst x) (fst y) /\ Forall2 (at_same (min_plane p)) (snd x) (snd y)) (detect_zones_view g dp srt p acc v) (detect_zones_view g dp srt p acc' v).
Proof.
  destruct acc as [b l], acc' as [b' l']. cbn [fst snd]. intros [M L]. unfold detect_zones_view. cbn zeta.
  assert (So : Forall2 (at_same (min_plane p)) (srt _ (fun x y => Qltb (pt_coord (a_point (snd x)) v) (pt_coord (a_point (snd y)) v)) l) (srt _ (fun x y => Qltb (pt_coord (a_point (snd x)) v) (pt_coord (a_point (snd y)) v)) l')).
  { apply Oc; [exact L|]. intros x x' y y' X Y. now apply (angle_less p). }
  assert (Di : Forall2 (fun e e' => me e e' /\ e_plane e = p) (filter (fun e => plane_eqb (e_plane e) p && (e_to_mesh e && is_diagonal e)) (b_edges b)) (filter (fun e => plane_eqb (e_plane e) p && (e_to_mesh e && is_diagonal e)) (b_edges b'))).
  { pose proof (mb_edges _ _ M) as F. revert F. generalize (b_edges b) (b_edges b'). clear. intros u u' F. induction F as [|e e' u u' Me F IH]; [constructor|]. cbn [filter]. rewrite <- (me_plane _ _ Me), <- (me_mesh _ _ Me), <- (is_diagonal_eq _ _ Me).
    destruct (plane_eqb (e_plane e) p) eqn:P; cbn [andb]; [|exact IH]. destruct (_ && _); [|exact IH]. constructor; [|exact IH]. split; [exact Me|now apply plane_eqb_true]. }
  rewrite <- (ranges_eq p v _ _ _ _ Di So). apply (end_bind mb).
  - apply (end_each eq mb _ _ _ _ (same_list _)); [|exact M]. intros c c' i i' Mc <-. now apply add_zone_moved.
  - intros x x' X. now split.
Qed.
Lemma diagonal_zones_moved g dp b b' p : mb b b' -> same_end mb (detect_diagonal_zones g dp srt b p) (detect_diagonal_zones g dp srt b' p).
Proof.
  intros M. unfold detect_diagonal_zones. cbn zeta. apply (end_bind (fun x y => mb (fst x) (fst y) /\ Forall2 (at_same (min_plane p)) (snd x) (snd y))).
  - apply (end_each eq _ _ _ _ _ (same_list _)); [intros c c' v v' Mc <-; now apply zones_view_moved|]. split; [exact M|]. cbn [snd].
    pose proof (view_rel _ _ _ (mb_angles _ _ M)) as F. revert F. generalize (view (b_angles b)) (view (b_angles b')). clear. intros u u' F. induction F as [|x x' u u' [A B] F IH]; [constructor|]. cbn [filter]. rewrite <- (man_plane _ _ B).
    destruct (plane_eqb (a_plane (snd x)) p) eqn:P; [|exact IH]. constructor; [|exact IH]. split; [exact A|]. split; [exact B|now apply plane_eqb_true].
  - intros [x u] [x' u'] [X _]. exact X.
Qed.

Lemma solve_angle_moved ax f f' b b' i : mb b b' -> (forall a a', man a a' -> f a = f' a') -> same_end mb (solve_angle ax f b i) (solve_angle ax f' b' i).
Proof.
  intros M H. unfold solve_angle. apply (end_bind man); [apply end_read, (mb_angles _ _ M)|]. intros a a' A. rewrite <- (man_plane _ _ A), <- (H _ _ A). destruct (view_of_axis (a_plane a) ax) as [v|]; [|exact M].
  apply update_angle_moved; [exact M|]. intros u u' []. destruct v; now split.
Qed.
Lemma zone_angles_moved dp ax b b' z : mb b b' -> same_end mb (solve_zone_angles dp ax b z) (solve_zone_angles dp ax b' z).
Proof.
  intros M. unfold solve_zone_angles. destruct (dz_angles z) as [|i r]; [exact I|]. apply (end_bind mb).
  - apply (end_each eq mb _ _ _ _ (same_list _)); [|exact M]. intros c c' k k' Mc <-. now apply solve_angle_moved.
  - intros x x' X. apply (end_each eq mb _ _ _ _ (same_list _)); [|exact X]. intros c c' k k' Mc <-. apply solve_angle_moved; [exact Mc|]. intros a a' A. apply leb_m; [reflexivity|apply A].
Qed.
Lemma solve_diagonal_moved dp b b' ax : mb b b' -> same_end mb (solve_diagonal_angles dp b ax) (solve_diagonal_angles dp b' ax).
Proof. intros M. unfold solve_diagonal_angles. rewrite <- (mb_zones _ _ M). apply (end_each eq mb _ _ _ _ (same_list _)); [|exact M]. intros c c' z z' Mc <-. now apply zone_angles_moved. Qed.
Lemma zone_of_moved b b' ax z : mb b b' -> same_end (moved_zone (d ax)) (zone_of b ax z) (zone_of b' ax z).
Proof.
  intros M. unfold zone_of. destruct (dz_angles z) as [|i r]; [exact I|]. apply (end_bind man); [apply end_read, (mb_angles _ _ M)|]. intros x x' X. apply (end_bind man); [apply end_read, (mb_angles _ _ M)|]. intros y y' Y.
  rewrite <- (man_plane _ _ X), <- (man_plane _ _ Y). destruct (view_of_axis (a_plane x) ax) as [v|] eqn:V; [|exact I]. destruct (view_of_axis (a_plane y) ax) as [w|] eqn:W; [|exact I].
  pose proof (coord_moved _ _ _ v (man_point _ _ X)) as Hx. pose proof (coord_moved _ _ _ w (man_point _ _ Y)) as Hy. rewrite (along_axis _ _ _ V) in Hx. rewrite (along_axis _ _ _ W) in Hy. split; [exact Hx|]. split; [exact Hy|reflexivity].
Qed.

(** ** All the steps *)

Lemma on_each_moved f f' b b' : mb b b' -> (forall ax x x', ma (d ax) x x' -> same_end (ma (d ax)) (f ax x) (f' ax x')) -> same_end mb (on_each_axis f b) (on_each_axis f' b').
Proof.
  intros M H. unfold on_each_axis. apply (end_each eq mb _ _ _ _ (same_list _)); [|exact M]. intros c c' ax ax' Mc <-. apply (end_bind _ _ _ _ _ _ (H ax _ _ (mb_axes _ _ Mc ax))). intros x x' X. now apply mb_set_axis.
Qed.
Lemma each_moved {A} (f f' : board -> A -> run board) l b b' : mb b b' -> (forall c c' x, mb c c' -> same_end mb (f c x) (f' c' x)) -> same_end mb (for_each f l b) (for_each f' l b').
Proof. intros M H. apply (end_each eq mb _ _ _ _ (same_list _)); [|exact M]. intros c c' x x' Mc <-. now apply H. Qed.

Lemma policies_moved n g dp fixed fixed' b b' : (forall ax, moved_lines (d ax) (on_axis fixed ax) (on_axis fixed' ax)) -> mb b b' ->
  same_end mb (policies_of_board n g dp srt ang fixed b) (policies_of_board n g dp srt ang fixed' b').
Proof.
  intros Fx M. unfold policies_of_board.
  apply (end_bind mb); [apply each_moved; [exact M|intros; now apply adjust_moved]|]. clear b b' M. intros b b' M.
  apply (end_bind mb); [apply each_moved; [exact M|intros; now apply diagonal_angles_moved]|]. clear b b' M. intros b b' M.
  apply (end_bind mb); [apply each_moved; [exact M|intros; now apply diagonal_zones_moved]|]. clear b b' M. intros b b' M.
  apply (end_bind mb); [apply each_moved; [exact M|intros; now apply solve_diagonal_moved]|]. clear b b' M. intros b b' M.
  apply (end_bind mb); [apply each_moved; [exact M|intros; now apply in_polygons_moved]|]. clear b b' M. intros b b' M.
  apply (end_bind mb); [apply each_moved; [exact M|intros; now apply colinear_moved]|]. clear b b' M. intros b b' M.
  apply (end_bind mb); [apply on_each_moved; [exact M|intros ax x x' X; cbn; apply add_fixeds_moved; [apply Fx|exact X]]|]. clear b b' M. intros b b' M.
  apply (end_bind mb); [apply each_moved; [exact M|intros; now apply solve_all_eip_moved]|]. clear b b' M. intros b b' M.
  apply (end_bind mb); [apply each_moved; [exact M|intros; now apply solve_all_colinear_moved]|]. clear b b' M. intros b b' M.
  apply each_moved; [exact M|intros; now apply individual_moved].
Qed.
Lemma lines_moved n g srt' (Ok : only_compares_keys srt') b b' : mb b b' -> same_end mb (lines_of_board n g srt' b) (lines_of_board n g srt' b').
Proof.
  intros M. unfold lines_of_board.
  apply (end_bind mb); [apply on_each_moved; [exact M|intros; now apply too_close_moved]|]. clear b b' M. intros b b' M.
  apply (end_bind mb); [apply on_each_moved; [exact M|intros; now apply intervals_moved]|]. clear b b' M. intros b b' M.
  apply (end_bind mb). { apply on_each_moved; [exact M|]. intros ax x x' X. rewrite <- (mb_zones _ _ M). apply (end_bind (Forall2 (moved_zone (d ax)))); [|intros zs zs' Z; now apply zones_moved].
    apply (end_collect eq); [apply same_list|]. intros z z' <-. now apply zone_of_moved. }
  clear b b' M. intros b b' M. apply on_each_moved; [exact M|intros; now apply mesh_axis_moved].
Qed.
End Board.

(** ** Drawing *)

Definition sides_in_plane (b : board) : Prop := forall g i, In g (b_polygons b) -> In i (g_edges g) -> exists e, nth_error (b_edges b) i = Some e /\ e_plane e = g_plane g.
Record drawn (d : displacement) (background : option Mat) (b b' : board) : Prop := mk_drawn
  { dr_polygons : Forall2 (mg d) (b_polygons b) (b_polygons b'); dr_edges : Forall2 (me d) (b_edges b) (b_edges b');
    dr_rest : set_edges (set_polygons b []) [] = empty_board background; dr_rest' : set_edges (set_polygons b' []) [] = empty_board background; dr_sides : sides_in_plane b }.

Lemma moved_point d p x : mpt (vec d p) x (move_point d p x).
Proof. destruct p; split; cbn; reflexivity. Qed.
Lemma moved_points d p l : Forall2 (mpt (vec d p)) l (map (move_point d p) l).
Proof. induction l; constructor; [apply moved_point|assumption]. Qed.

Lemma add_polygon_moved d back s b b' : drawn d back b b' ->
  same_end (drawn d back) (add_polygon (sh_plane s) (sh_material s) (sh_priority s) (sh_z s) (sh_points s) b)
    (add_polygon (sh_plane (move_shape d s)) (sh_material (move_shape d s)) (sh_priority (move_shape d s)) (sh_z (move_shape d s)) (sh_points (move_shape d s)) b').
Proof.
  intros D. unfold add_polygon. cbn [move_shape sh_plane sh_material sh_priority sh_z sh_points]. set (p := sh_plane s).
  pose proof (moved_points d p (sh_points s)) as P. apply (end_bind _ _ _ _ _ _ (detect_bounding_moved _ _ _ P)). intros bo bo' B. apply (end_bind _ _ _ _ _ _ (polygon_edges_moved _ _ _ P)). intros es es' F. cbn zeta.
  assert (Fe : Forall2 (me d) (map (new_edge p) es) (map (new_edge p) es')).
  { apply (map_rel (with_same (vec d p))); [exact F|]. intros [x n] [x' n'] [A Eq]. cbn in A, Eq. subst n'. split; cbn; try reflexivity. exact A. }
  pose proof (rel_length _ _ _ Fe) as Le. pose proof (rel_length _ _ _ (dr_edges _ _ _ _ D)) as Lb.
  split; cbn.
  - apply Forall2_app; [apply (dr_polygons _ _ _ _ D)|]. constructor; [|constructor]. rewrite <- Le, <- Lb. split; cbn; try reflexivity; [exact P|exact B].
  - apply Forall2_app; [apply (dr_edges _ _ _ _ D)|exact Fe].
  - exact (dr_rest _ _ _ _ D).
  - exact (dr_rest' _ _ _ _ D).
  - intros g i Ig Ii. cbn in *. apply in_app_iff in Ig. destruct Ig as [Ig|[<-|[]]].
    + destruct (dr_sides _ _ _ _ D g i Ig Ii) as (e & N & Pl). exists e. split; [|exact Pl]. rewrite nth_error_app1; [exact N|]. apply nth_error_Some. congruence.
    + cbn in Ii |- *. apply in_seq in Ii. rewrite nth_error_app2 by lia. rewrite map_length in *. destruct (nth_error es (i - length (b_edges b))) as [x|] eqn:N.
      * exists (new_edge p x). rewrite nth_error_map, N. now split.
      * apply nth_error_None in N. lia.
Qed.
Lemma draw_moved d back l : forall b b', drawn d back b b' -> same_end (drawn d back) (draw l b) (draw (map (move_shape d) l) b').
Proof.
  intros b b' D. unfold draw. apply (end_each (fun s s' => s' = move_shape d s) (drawn d back)); [|intros c c' s s' Dc ->; now apply add_polygon_moved|exact D].
  clear. induction l; constructor; [reflexivity|assumption].
Qed.
Lemma drawn_moved d back b b' : drawn d back b b' -> mb d (map gkey (b_polygons b)) (map ekey (b_edges b)) b b'.
Proof.
  intros [Fp Fe Rb Rb' Sd]. destruct b, b'. cbn in *. injection Rb as -> -> -> -> -> ->. injection Rb' as -> -> -> -> -> ->.
  split; cbn; try reflexivity; try assumption; [constructor|intros []; constructor|intros []; split; cbn; try reflexivity; constructor|intros []; cbn; contradiction|intros []; cbn; contradiction].
Qed.
Lemma drawn_keys d back b b' : drawn d back b b' -> forall j p l i q a, nth_error (map gkey (b_polygons b)) j = Some (p, l) -> In i l -> nth_error (map ekey (b_edges b)) i = Some (q, a) -> q = p.
Proof.
  intros D j p l i q a Nj Ii Ni. rewrite nth_error_map in Nj, Ni. destruct (nth_error (b_polygons b) j) as [g|] eqn:Ng; [|discriminate]. cbn in Nj. injection Nj as <- <-.
  apply nth_error_In in Ng. destruct (dr_sides _ _ _ _ D g i Ng Ii) as (e & N & P). rewrite N in Ni. cbn in Ni. injection Ni as <- _. exact P.
Qed.

Theorem mesh_moved d n g dp srt srt' ang fixed back l : only_compares srt -> only_compares_keys srt' -> of_values ang ->
  same_end (fun b b' => forall ax, ma (d ax) (on_axis (b_axes b) ax) (on_axis (b_axes b') ax)) (mesh_of n g dp srt srt' ang fixed back l) (mesh_of n g dp srt srt' ang (move_fixed d fixed) back (map (move_shape d) l)).
Proof.
  intros Oc Ok Ov. unfold mesh_of.
  assert (D0 : drawn d back (empty_board back) (empty_board back)) by (split; [constructor|constructor|reflexivity|reflexivity|intros g0 i []]).
  apply (end_bind _ _ _ _ _ _ (draw_moved d back l _ _ D0)). intros b b' D. pose proof (drawn_moved _ _ _ _ D) as M. pose proof (drawn_keys _ _ _ _ D) as HG.
  apply (end_bind (mb d (map gkey (b_polygons b)) (map ekey (b_edges b)))).
  - apply policies_moved; try assumption. intros ax. unfold moved_lines, move_fixed. destruct ax; cbn.
    all: match goal with |- Forall2 _ ?l (map _ ?l) => induction l; constructor; [reflexivity|assumption] end.
  - intros c c' Mc. apply (end_mono (mb d (map gkey (b_polygons b)) (map ekey (b_edges b)))); [now apply lines_moved|]. intros x x' X. apply (mb_axes _ _ _ _ _ X).
Qed.
