(** Proofs about the structure view. *)
From Coq Require Import List Arith Bool QArith Qfield Lqa Lia.
From Verif Require Import IntervalModel IntervalProofs ManagerModel ManagerSpec ManagerProofs ManagerSafetyProofs GeomModel GeomSpec GeomProofs BoardModel BoardSpec BoardBuiltProofs.
From Verif Require BoardProofs.
From Verif Require Import EditModel SceneModel SceneSpec SceneProofs SceneValidProofs SceneOnceProofs PlantumlProofs PlantumlStateProofs StructureModel StructureSpec StructureValidProofs.
Import ListNotations.
Local Open Scope Q_scope.

(** ** Figures *)

Lemma qmax_le a b : a <= qmax a b /\ b <= qmax a b.
Proof. unfold qmax. destruct (Qltb a b) eqn:E; [apply Qltb_lt in E|apply Qltb_ge in E]; lra. Qed.
Lemma grown_sight r q : proper r -> in_sight r q ->
  r_left (grown r) <= px q <= r_right (grown r) /\ r_top (grown r) <= py q <= r_bottom (grown r).
Proof.
  intros [A B] (m & M & X & Y). unfold grown. cbn. destruct (qmax_le (r_right r - r_left r) (r_bottom r - r_top r)) as [U V].
  set (z := qmax _ _) in *. clearbody z. assert (m <= z) by (destruct M as [->| ->]; assumption). lra.
Qed.
Lemma reach (lo hi x : Q) : lo <= x <= hi -> exists t, 0 <= t <= 1 /\ x == lo + t * (hi - lo).
Proof.
  intros H. destruct (Qlt_le_dec lo hi) as [L|L].
  - exists ((x - lo) / (hi - lo)). split; [|field; lra]. split; [apply Qle_shift_div_l; lra|apply Qle_shift_div_r; lra].
  - exists 0. split; lra.
Qed.
Lemma reach_back (lo hi x : Q) : lo <= x <= hi -> exists t, 0 <= t <= 1 /\ x == hi + t * (lo - hi).
Proof. intros H. destruct (reach lo hi x H) as (t & T & E). exists (1 - t). split; [lra|]. rewrite E. ring. Qed.

Lemma line_covers axis r x q : proper r -> in_sight r q -> covers (line_at axis r x) q <-> (match axis with VH => py q | VV => px q end) == x.
Proof.
  intros P S. destruct (grown_sight r q P S) as [X Y]. destruct axis; cbn; unfold on_seg; cbn.
  - split; [intros (t & _ & _ & E); rewrite E; ring|]. intros E. destruct (reach _ _ _ X) as (t & T & E'). exists t. split; [exact T|]. split; [exact E'|]. rewrite E. ring.
  - split; [intros (t & _ & E & _); rewrite E; ring|]. intros E. destruct (reach_back _ _ _ Y) as (t & T & E'). exists t. split; [exact T|]. split; [|exact E']. rewrite E. ring.
Qed.
Lemma band_covers axis r x y q : proper r -> in_sight r q -> covers (band_at axis r x y) q <-> between x y (match axis with VH => py q | VV => px q end).
Proof. intros P S. destruct (grown_sight r q P S) as [X Y]. destruct axis; cbn; unfold between; cbn; tauto. Qed.

(** The view axis of an axis, and the coordinate. *)
Lemma view_coordinate p ax v q : view_of_axis p ax = Some v -> coordinate p ax q = Some (match reverse_view v with VH => py q | VV => px q end).
Proof. destruct p, ax; cbn; intros E; inversion E; reflexivity. Qed.
Lemma own_coordinate p ax v q : view_of_axis p ax = Some v -> coordinate p ax q = Some (pt_coord q v).
Proof. destruct p, ax; cbn; intros E; inversion E; reflexivity. Qed.
Lemma view_contains p ax : contains p ax <-> exists v, view_of_axis p ax = Some v.
Proof. destruct p, ax; cbn; split; intros H; first [exact I|contradiction|exists VH; reflexivity|exists VV; reflexivity|destruct H; discriminate]. Qed.
Lemma line_level p ax v r x : view_of_axis p ax = Some v -> line_of p ax r x (line_at (reverse_view v) r x).
Proof.
  intros E q P S. rewrite (line_covers _ _ _ _ P S). unfold level_with. rewrite (view_coordinate _ _ _ q E). split; [intros H; eauto|]. intros (c & C & H). injection C as <-. exact H.
Qed.

Lemma consecutive_chain (l : list point) : forall x a b, consecutive (x :: l) a b <-> In (a, b) (chain x l).
Proof.
  induction l as [|y l IH]; intros x a b; cbn.
  - split; [|intros []]. intros (l1 & l2 & E). destruct l1 as [|z [|w l1]]; discriminate.
  - rewrite <- IH. split.
    + intros (l1 & l2 & E). destruct l1 as [|z l1]; [injection E as <- <- _; now left|]. injection E as -> E. right. now exists l1, l2.
    + intros [E|(l1 & l2 & E)]; [injection E as <- <-; now exists [], l|]. exists (x :: l1), l2. cbn. now rewrite E.
Qed.
Lemma outline_sides p l a b : consecutive ((p :: l) ++ [p]) a b <-> In (a, b) (sides (p :: l)).
Proof.
  change ((p :: l) ++ [p]) with (p :: (l ++ [p])). rewrite consecutive_chain, chain_app. unfold sides. cbn [chain]. rewrite in_app_iff. cbn [chain In].
  replace (last (p :: l) p) with (last l p) by (destruct l; reflexivity). tauto.
Qed.

(** ** Items *)

(** The item of an object. *)
Definition draw (b : board) (p : Plane) (r : rect) (x : entity) : run item :=
  let on ax f := match view_of_axis p ax with Some v => f v | None => Dangling end in
  match x with
  | EPolygon i => draw_polygon b i
  | EEdge i => draw_edge b i
  | EAngle i => draw_angle b i
  | EColinear ax i => on ax (fun v => draw_colinear b ax v r i)
  | EInPolygon _ _ => Dangling
  | EClose ax i => on ax (fun v => draw_close b ax v r i)
  | EZone ax i => on ax (fun v => draw_zone b ax v r i)
  | EPolicy ax i => on ax (fun v => draw_policy b ax v r i)
  | EInterval ax i => on ax (fun v => draw_interval b ax v r i)
  | ELine ax i => on ax (fun v => draw_line b ax v r i)
  end.
(** The objects, in the order they are drawn in. *)
Definition of_polygon (b : board) (i : nat) : list entity :=
  EPolygon i :: match nth_error (b_polygons b) i with Some g => map EEdge (g_edges g) | None => [] end.
Definition of_axis (b : board) (p : Plane) (ax : Axis3) : list entity :=
  match view_of_axis p ax with
  | None => []
  | Some _ => map (ELine ax) (indices (ax_lines (on_axis (b_axes b) ax))) ++ map (EPolicy ax) (indices (ax_policies (on_axis (b_axes b) ax)))
      ++ map (EInterval ax) (indices (ax_segments (on_axis (b_axes b) ax))) ++ map (EColinear ax) (indices (on_axis (b_ce b) ax))
      ++ map (EZone ax) (indices (on_axis (b_zones b) ax)) ++ map (EClose ax) (indices (ax_conflicts (on_axis (b_axes b) ax)))
  end.
Definition shown (b : board) (p : Plane) : list entity :=
  flat_map (of_polygon b) (polygons_of b p) ++ map EAngle (angles_of b p) ++ flat_map (of_axis b p) [axes_table p VH; axes_table p VV].

Lemma draw_entity b p r x it : draw b p r x = Done it -> it_entity it = x.
Proof.
  destruct x; cbn [draw]; intros H; try discriminate; try (destruct (view_of_axis p _) as [v|]; [|discriminate]).
  all: unfold draw_polygon, draw_edge, draw_angle, draw_colinear, draw_close, draw_zone, draw_policy, draw_interval, draw_line in H.
  all: apply bind_done in H; destruct H as (z & _ & H).
  - destruct (g_points z); [discriminate|]. now injection H as <-.
  - now injection H as <-.
  - now injection H as <-.
  - destruct (ce_edges z); [discriminate|]. apply bind_done in H. destruct H as (e & _ & H). now injection H as <-.
  - destruct (tc_solution z); [|discriminate]. do 3 (apply bind_done in H; destruct H as (? & _ & H)). now injection H as <-.
  - apply bind_done in H. destruct H as (w & _ & H). now injection H as <-.
  - now injection H as <-.
  - do 2 (apply bind_done in H; destruct H as (? & _ & H)). now injection H as <-.
  - now injection H as <-.
Qed.

Lemma draws_app b p r l l' xs xs' : Forall2 (fun x it => draw b p r x = Done it) l xs -> Forall2 (fun x it => draw b p r x = Done it) l' xs' ->
  Forall2 (fun x it => draw b p r x = Done it) (l ++ l') (xs ++ xs').
Proof. apply Forall2_app. Qed.
Lemma draws_map {A} b p r (f : A -> entity) (h : A -> run item) l xs : (forall i, draw b p r (f i) = h i) -> collect h l = Done xs -> Forall2 (fun x it => draw b p r x = Done it) (map f l) xs.
Proof. intros E H. apply collect_each in H. induction H; cbn; constructor; [now rewrite E|assumption]. Qed.
Lemma draws_flat {A} b p r (f : A -> list entity) (h : A -> run (list item)) l xs :
  (forall i ys, In i l -> h i = Done ys -> Forall2 (fun x it => draw b p r x = Done it) (f i) ys) -> collect h l = Done xs -> Forall2 (fun x it => draw b p r x = Done it) (flat_map f l) (concat xs).
Proof.
  intros E H. apply collect_each in H. induction H; cbn; [constructor|]. apply draws_app; [apply E; [now left|assumption]|]. apply IHForall2. intros i ys I. apply E. now right.
Qed.

Lemma populate_draws b p r items : populate b p r = Done items -> Forall2 (fun x it => draw b p r x = Done it) (shown b p) items.
Proof.
  unfold populate, shown. intros H. apply bind_done in H. destruct H as (polygons & H1 & H). apply bind_done in H. destruct H as (angles & H2 & H). apply bind_done in H. destruct H as (axes & H3 & H).
  injection H as <-. apply draws_app; [|apply draws_app].
  - revert H1. apply draws_flat. intros i ys _ H. unfold populate_polygon in H. apply bind_done in H. destruct H as (x & X & H). apply bind_done in H. destruct H as (g & G & H). apply read_some in G.
    apply bind_done in H. destruct H as (es & Es & H). injection H as <-. unfold of_polygon. rewrite G. constructor; [exact X|]. revert Es. now apply draws_map.
  - revert H2. now apply draws_map.
  - revert H3. apply draws_flat. intros ax ys _ H. unfold populate_axis in H. unfold of_axis. destruct (view_of_axis p ax) as [v|] eqn:V; [|injection H as <-; constructor].
    do 6 (apply bind_done in H; let l := fresh "l" in let L := fresh "L" in destruct H as (l & L & H)). injection H as <-.
    repeat apply draws_app; (eapply draws_map; [|eassumption]); intros i; cbn [draw]; now rewrite V.
Qed.
Lemma draws_populate b p r : (forall x, In x (shown b p) -> exists it, draw b p r x = Done it) -> exists items, populate b p r = Done items.
Proof.
  intros H. unfold populate, shown in *.
  destruct (collect_all (populate_polygon b) (polygons_of b p)) as (l1 & ->).
  { intros i I. assert (Sub : forall x, In x (of_polygon b i) -> exists it, draw b p r x = Done it) by (intros x X; apply H, in_or_app; left; apply in_flat_map; eauto).
    unfold populate_polygon. destruct (Sub (EPolygon i) (or_introl eq_refl)) as (it & It). cbn [draw] in It. rewrite It. cbn. apply in_positions_spec in I. destruct I as (g & G & _).
    unfold read. rewrite G. cbn. destruct (collect_all (draw_edge b) (g_edges g)) as (es & ->); [|cbn; eauto]. intros e E. apply (Sub (EEdge e)). right. rewrite G. now apply in_map. }
  cbn [bind]. destruct (collect_all (draw_angle b) (angles_of b p)) as (l2 & ->).
  { intros i I. apply (H (EAngle i)). apply in_or_app. right. apply in_or_app. left. now apply in_map. }
  cbn [bind]. destruct (collect_all (populate_axis b p r) [axes_table p VH; axes_table p VV]) as (l3 & ->); [|cbn; eauto].
  intros ax I. assert (Sub : forall x, In x (of_axis b p ax) -> exists it, draw b p r x = Done it) by (intros x X; apply H, in_or_app; right; apply in_or_app; right; apply in_flat_map; eauto).
  unfold populate_axis. unfold of_axis in Sub. destruct (view_of_axis p ax) as [v|] eqn:V; [|eauto].
  assert (K : forall {A} (f : nat -> entity) (h : nat -> run item) (l : list A), (forall i, draw b p r (f i) = h i) -> (forall x, In x (map f (indices l)) -> exists it, draw b p r x = Done it) ->
    exists ys, collect h (indices l) = Done ys).
  { intros A f h l E S. apply collect_all. intros i J. rewrite <- E. apply S. now apply in_map. }
  destruct (K _ (ELine ax) (draw_line b ax v r) (ax_lines (on_axis (b_axes b) ax))) as (y1 & ->); [intros i; cbn [draw]; now rewrite V|intros x X; apply Sub; rewrite !in_app_iff; tauto|].
  destruct (K _ (EPolicy ax) (draw_policy b ax v r) (ax_policies (on_axis (b_axes b) ax))) as (y2 & ->); [intros i; cbn [draw]; now rewrite V|intros x X; apply Sub; rewrite !in_app_iff; tauto|].
  destruct (K _ (EInterval ax) (draw_interval b ax v r) (ax_segments (on_axis (b_axes b) ax))) as (y3 & ->); [intros i; cbn [draw]; now rewrite V|intros x X; apply Sub; rewrite !in_app_iff; tauto|].
  destruct (K _ (EColinear ax) (draw_colinear b ax v r) (on_axis (b_ce b) ax)) as (y4 & ->); [intros i; cbn [draw]; now rewrite V|intros x X; apply Sub; rewrite !in_app_iff; tauto|].
  destruct (K _ (EZone ax) (draw_zone b ax v r) (on_axis (b_zones b) ax)) as (y5 & ->); [intros i; cbn [draw]; now rewrite V|intros x X; apply Sub; rewrite !in_app_iff; tauto|].
  destruct (K _ (EClose ax) (draw_close b ax v r) (ax_conflicts (on_axis (b_axes b) ax))) as (y6 & ->); [intros i; cbn [draw]; now rewrite V|intros x X; apply Sub; rewrite !in_app_iff; tauto|].
  cbn. eauto.
Qed.
Lemma items_entities b p r items : populate b p r = Done items -> map it_entity items = shown b p.
Proof. intros H. apply populate_draws in H. induction H; cbn; [reflexivity|]. apply draw_entity in H. now rewrite H, IHForall2. Qed.
Lemma item_drawn b p r items it : populate b p r = Done items -> In it items -> draw b p r (it_entity it) = Done it.
Proof.
  intros H I. apply populate_draws in H. induction H; [destruct I|]. destruct I as [<-|I]; [|auto]. now rewrite (draw_entity _ _ _ _ _ H).
Qed.

(** ** Which ones *)

Lemma in_indices {A} (l : list A) i : In i (indices l) <-> (i < length l)%nat.
Proof. unfold indices. rewrite in_seq. lia. Qed.
Lemma axes_contained p ax : In ax [axes_table p VH; axes_table p VV] <-> contains p ax.
Proof. destruct p, ax; cbn; intuition discriminate. Qed.
Lemma in_of_axis b p ax x : In x (of_axis b p ax) <-> contains p ax /\ on_board b x /\
  match x with EColinear a _ | EClose a _ | EZone a _ | EPolicy a _ | EInterval a _ | ELine a _ => a = ax | _ => False end.
Proof.
  unfold of_axis. rewrite view_contains. destruct (view_of_axis p ax) as [v|]; [|split; [intros []|intros ((v & V) & _); discriminate]].
  rewrite !in_app_iff, !in_map_iff. split.
  - intros H. split; [eauto|]. destruct H as [H|[H|[H|[H|[H|H]]]]]; destruct H as (i & <- & I); apply in_indices in I; cbn; auto.
  - intros (_ & O & E). destruct x; try contradiction; subst; cbn in O; rewrite <- in_indices in O; eauto 10.
Qed.
Lemma plane_eq p q : plane_eqb p q = true <-> p = q.
Proof. destruct p, q; cbn; split; congruence. Qed.
Lemma in_shown b p x : In x (shown b p) <-> drawn_in b p x.
Proof.
  unfold shown, drawn_in. rewrite !in_app_iff, !in_flat_map, in_map_iff. split.
  - intros [(i & I & H)|[(i & <- & I)|(ax & A & H)]].
    + apply in_positions_spec in I. destruct I as (g & G & P). apply plane_eq in P. unfold of_polygon in H. rewrite G in H. destruct H as [<-|H].
      * cbn. split; [now apply nth_lt in G|eauto].
      * apply in_map_iff in H. destruct H as (e & <- & E). cbn. eauto 10.
    + apply in_positions_spec in I. destruct I as (a & A & P). apply plane_eq in P. cbn. split; [now apply nth_lt in A|eauto].
    + apply in_of_axis in H. destruct H as (C & O & E). split; [exact O|]. destruct x; try contradiction; now subst.
  - intros [O H]. destruct x.
    + destruct H as (g & G & P). left. exists i. split; [apply in_positions_spec; exists g; split; [exact G|now apply plane_eq]|now left].
    + destruct H as (j & g & G & P & I). left. exists j. split; [apply in_positions_spec; exists g; split; [exact G|now apply plane_eq]|]. right. rewrite G. now apply in_map.
    + destruct H as (a & A & P). right. left. exists i. split; [reflexivity|]. apply in_positions_spec. exists a. split; [exact A|now apply plane_eq].
    + right. right. exists a. split; [now apply axes_contained|now apply in_of_axis].
    + destruct H.
    + right. right. exists a. split; [now apply axes_contained|now apply in_of_axis].
    + right. right. exists a. split; [now apply axes_contained|now apply in_of_axis].
    + right. right. exists a. split; [now apply axes_contained|now apply in_of_axis].
    + right. right. exists a. split; [now apply axes_contained|now apply in_of_axis].
    + right. right. exists a. split; [now apply axes_contained|now apply in_of_axis].
Qed.
Lemma shown_once b p : NoDup (concat (map g_edges (b_polygons b))) -> NoDup (shown b p).
Proof.
  intros D. unfold shown. assert (Mi : forall {A} (f : nat -> entity) (l : list A), (forall x y, f x = f y -> x = y) -> NoDup (map f (indices l))) by (intros A f l F; apply nodup_map_inj; [exact F|apply seq_NoDup]).
  apply nodup_app; [|apply nodup_app|].
  - apply nodup_flat; [apply SceneOnceProofs.positions_nodup| |].
    + intros i _. unfold of_polygon. destruct (nth_error (b_polygons b) i) as [g|] eqn:G; [|repeat constructor; intros []]. constructor; [rewrite in_map_iff; intros (e & E & _); discriminate|].
      apply nodup_map_inj; [intros x y E; now injection E|]. exact (own_nodup b D i g G).
    + intros i j x _ _ I J. unfold of_polygon in I, J. destruct I as [<-|I].
      * destruct J as [J|J]; [now injection J|]. destruct (nth_error (b_polygons b) j); [|destruct J]. apply in_map_iff in J. destruct J as (e & E & _). discriminate.
      * destruct (nth_error (b_polygons b) i) as [g|] eqn:G; [|destruct I]. apply in_map_iff in I. destruct I as (e & <- & I). destruct J as [J|J]; [discriminate|].
        destruct (nth_error (b_polygons b) j) as [h|] eqn:H; [|destruct J]. apply in_map_iff in J. destruct J as (e' & E & J). injection E as ->. exact (own_once b D i j g h e G H I J).
  - apply nodup_map_inj; [intros x y E; now injection E|apply SceneOnceProofs.positions_nodup].
  - apply nodup_flat.
    + destruct p; cbn; repeat constructor; cbn; intuition discriminate.
    + intros ax _. unfold of_axis. destruct (view_of_axis p ax); [|constructor].
      repeat (apply nodup_app; [apply Mi; intros x y E; now injection E| |intros x X Y; apply in_map_iff in X; destruct X as (i & <- & _); rewrite ?in_app_iff, !in_map_iff in Y; repeat (destruct Y as [Y|Y]); destruct Y as (? & Y & _); discriminate]).
      apply Mi. intros x y E. now injection E.
    + intros ax ay x _ _ I J. apply in_of_axis in I. apply in_of_axis in J. destruct I as (_ & _ & I), J as (_ & _ & J). destruct x; try contradiction; congruence.
  - intros x X Y. apply in_map_iff in X. destruct X as (i & <- & _). apply in_flat_map in Y. destruct Y as (ax & _ & Y). apply in_of_axis in Y. tauto.
  - intros x X Y. apply in_flat_map in X. destruct X as (i & _ & X). apply in_app_iff in Y.
    assert (K : (exists j, x = EPolygon j) \/ exists j, x = EEdge j).
    { unfold of_polygon in X. destruct X as [<-|X]; [eauto|]. destruct (nth_error (b_polygons b) i); [|destruct X]. apply in_map_iff in X. destruct X as (e & <- & _). eauto. }
    destruct Y as [Y|Y]; [apply in_map_iff in Y; destruct Y as (j & <- & _); destruct K as [(? & K)|(? & K)]; discriminate|].
    apply in_flat_map in Y. destruct Y as (ax & _ & Y). apply in_of_axis in Y. destruct K as [(? & ->)|(? & ->)]; tauto.
Qed.

(** ** The boards that are reached *)

(** The outline of every polygon is its sides. *)
Definition outlined (b : board) : Prop := forall i g, nth_error (b_polygons b) i = Some g ->
  forall a c, In (a, c) (sides (g_points g)) <-> exists j e, In j (g_edges g) /\ edge_at b j e /\ e_seg e = mk_seg a c.

Lemma edges_at_in b l es : edges_at b l es -> forall e, In e es <-> exists j, In j l /\ edge_at b j e.
Proof.
  intros H e. induction H as [|j e' l es E _ IH]; cbn; [split; [intros []|intros (j & [] & _)]|]. rewrite IH. split.
  - intros [->|(k & K & L)]; eauto.
  - intros (k & [<-|K] & L); [left; unfold edge_at in *; congruence|right; eauto].
Qed.
Lemma built_outlined b : built b -> outlined b.
Proof.
  intros B i g G a c. destruct (so_proper b (built_sound b B) i g G) as (_ & _ & es & At & _ & M & _).
  assert (K : In (mk_seg a c) (map (fun pq => mk_seg (fst pq) (snd pq)) (sides (g_points g))) <-> In (a, c) (sides (g_points g))).
  { rewrite in_map_iff. split; [intros ([a' c'] & E & I); cbn in E; injection E as -> ->; exact I|]. intros I. now exists (a, c). }
  rewrite <- K, <- M, in_map_iff. split.
  - intros (e & E & I). apply (edges_at_in _ _ _ At) in I. destruct I as (j & I & J). eauto.
  - intros (j & e & I & J & E). exists e. split; [exact E|]. apply (edges_at_in _ _ _ At). eauto.
Qed.
Lemma nth_map_same {A B C} (f : A -> C) (h : B -> C) l l' i x : map f l = map h l' -> nth_error l i = Some x -> exists y, nth_error l' i = Some y /\ f x = h y.
Proof.
  intros E H. pose proof (map_nth_error f _ _ H) as M. rewrite E in M. destruct (nth_error l' i) as [y|] eqn:Y; [|rewrite (proj2 (nth_error_None _ _)) in M; [discriminate|rewrite map_length; now apply nth_error_None]].
  exists y. split; [reflexivity|]. apply (map_nth_error h) in Y. congruence.
Qed.
Lemma outlined_same b b' : map place (b_edges b') = map place (b_edges b) -> map g_points (b_polygons b') = map g_points (b_polygons b) -> map g_edges (b_polygons b') = map g_edges (b_polygons b) ->
  outlined b -> outlined b'.
Proof.
  intros E P G O i g R a c. destruct (nth_map_same _ _ _ _ _ _ P R) as (h & H & Hp). destruct (nth_map_same _ _ _ _ _ _ G R) as (h' & H' & Hg). assert (h' = h) by congruence. subst h'.
  rewrite Hp, Hg, (O i h H a c). split; intros (j & e & I & J & S).
  - destruct (nth_map_same _ _ _ _ _ _ (eq_sym E) J) as (e' & J' & X). exists j, e'. split; [exact I|]. split; [exact J'|]. unfold place in X. congruence.
  - destruct (nth_map_same _ _ _ _ _ _ E J) as (e' & J' & X). exists j, e'. split; [exact I|]. split; [exact J'|]. unfold place in X. congruence.
Qed.

Section Reached.
Context (ps : list (Plane * seg)) (gs : list (list point)) (pl : list Plane) (b : board).
Context (F : full ps gs pl b) (Sa : forall a, sane (on_axis (b_axes b) a)) (Th : edges_there b) (Ne : Forall (fun l => l <> []) gs) (Ou : outlined b).

Lemma read_ok {A} (l : list A) i x : nth_error l i = Some x -> read l i = Done x.
Proof. intros H. now apply read_some. Qed.
Lemma lt_nth {A} (l : list A) i : (i < length l)%nat -> exists x, nth_error l i = Some x.
Proof. intros L. destruct (nth_error l i) eqn:E; [eauto|]. apply nth_error_None in E. lia. Qed.

Lemma points_there i g : nth_error (b_polygons b) i = Some g -> g_points g <> [].
Proof. intros H. rewrite Forall_forall in Ne. apply Ne. rewrite <- (fu_points _ _ _ _ F). apply in_map. now apply nth_error_In in H. Qed.
Lemma edge_there i p s : nth_error ps i = Some (p, s) -> exists e, edge_at b i e /\ e_plane e = p /\ e_seg e = s.
Proof.
  intros H. rewrite <- (fu_edges _ _ _ _ F) in H. unfold edge_at. destruct (nth_error (b_edges b) i) as [e|] eqn:E.
  - rewrite (map_nth_error place _ _ E) in H. injection H as H1 H2. eauto.
  - rewrite (proj2 (nth_error_None _ _)) in H; [discriminate|]. rewrite map_length. now apply nth_error_None.
Qed.
Lemma angle_there i q : nth_error (planes b) i = Some q -> exists a, nth_error (b_angles b) i = Some a /\ a_plane a = q.
Proof.
  unfold planes. intros H. destruct (nth_error (b_angles b) i) as [a|] eqn:E.
  - rewrite (map_nth_error a_plane _ _ E) in H. injection H as H1. eauto.
  - rewrite (proj2 (nth_error_None _ _)) in H; [discriminate|]. rewrite map_length. now apply nth_error_None.
Qed.
Lemma zone_there ax z : In z (on_axis (b_zones b) ax) -> exists f u v y y', hd_error (dz_angles z) = Some f
  /\ nth_error (b_angles b) f = Some u /\ nth_error (b_angles b) (last (dz_angles z) f) = Some v
  /\ coordinate (a_plane u) ax (a_point u) = Some y /\ coordinate (a_plane v) ax (a_point v) = Some y' /\ zone_of b ax z = Done (mk_zone y y' (dz_dmax z)).
Proof.
  intros I. destruct (fu_zones _ _ _ _ F ax z I) as [N H]. unfold zone_of. destruct (dz_angles z) as [|f l] eqn:E; [now destruct N|].
  destruct (H f (or_introl eq_refl)) as (q & Q & V). destruct (angle_there _ _ Q) as (u & U & <-).
  assert (L : In (last (f :: l) f) (f :: l)) by (apply BoardProofs.last_in; discriminate).
  destruct (H _ L) as (q' & Q' & V'). destruct (angle_there _ _ Q') as (w & W & <-).
  destruct (view_of_axis (a_plane u) ax) as [vu|] eqn:Vu; [|now destruct V]. destruct (view_of_axis (a_plane w) ax) as [vw|] eqn:Vw; [|now destruct V'].
  exists f, u, w, (pt_coord (a_point u) vu), (pt_coord (a_point w) vw). split; [reflexivity|]. split; [exact U|]. split; [exact W|]. split; [now apply own_coordinate|]. split; [now apply own_coordinate|].
  rewrite (read_ok _ _ _ U). cbn [bind]. rewrite (read_ok _ _ _ W). cbn [bind]. now rewrite Vu, Vw.
Qed.
Lemma colinear_there ax k : In k (on_axis (b_ce b) ax) -> exists j l e y, ce_edges k = j :: l /\ edge_at b j e /\ axis_of_seg (e_plane e) (seg_axis (e_seg e)) = Some ax
  /\ coordinate (e_plane e) ax (s0 (e_seg e)) = Some y.
Proof.
  intros I. destruct (fu_ce _ _ _ _ F ax k I) as [N H]. destruct (ce_edges k) as [|j l]; [now destruct N|]. destruct (H j (or_introl eq_refl)) as (p & s & P & A). destruct (edge_there _ _ _ P) as (e & E & <- & <-).
  assert (Y : exists y, coordinate (e_plane e) ax (s0 (e_seg e)) = Some y) by (destruct (e_plane e), (seg_axis (e_seg e)); cbn in A; try discriminate; injection A as <-; cbn; eauto).
  destruct Y as (y & Y). exists j, l, e, y. auto.
Qed.

Lemma drawn_ends p r x : drawn_in b p x -> exists it, draw b p r x = Done it.
Proof.
  intros [O D]. destruct x; cbn [draw].
  - destruct D as (g & G & _). unfold draw_polygon. rewrite (read_ok _ _ _ G). cbn [bind]. pose proof (points_there i g G). destruct (g_points g); [now destruct H|eauto].
  - destruct D as (j & g & G & _ & I). destruct (lt_nth _ _ (Th j g i G I)) as (e & E). unfold draw_edge. rewrite (read_ok _ _ _ E). cbn. eauto.
  - destruct D as (a & A & _). unfold draw_angle. rewrite (read_ok _ _ _ A). cbn. eauto.
  - apply view_contains in D. destruct D as (v & ->). destruct (lt_nth _ _ O) as (k & K). unfold draw_colinear. rewrite (read_ok _ _ _ K). cbn [bind].
    destruct (colinear_there a k (nth_error_In _ _ K)) as (j & l & e & y & -> & E & _). rewrite (read_ok _ _ _ E). cbn [bind]. eauto.
  - destruct D.
  - apply view_contains in D. destruct D as (v & ->). destruct (lt_nth _ _ O) as (k & K). unfold draw_close. rewrite (read_ok _ _ _ K). cbn [bind].
    pose proof (proj2 (fu_axes _ _ _ _ F a) k (nth_error_In _ _ K)) as St. destruct (tc_solution k) as [s|] eqn:T; [|now destruct St].
    destruct (proj2 (proj1 (Sa a)) k (nth_error_In _ _ K)) as [[A B] C]. specialize (C s T). destruct (lt_nth _ _ A) as (x & X). destruct (lt_nth _ _ B) as (y & Y). destruct (lt_nth _ _ C) as (z & Z).
    rewrite (read_ok _ _ _ Z). cbn [bind]. rewrite (read_ok _ _ _ X). cbn [bind]. rewrite (read_ok _ _ _ Y). cbn [bind]. eauto.
  - apply view_contains in D. destruct D as (v & ->). destruct (lt_nth _ _ O) as (z & Z). unfold draw_zone. rewrite (read_ok _ _ _ Z). cbn [bind].
    destruct (zone_there a z (nth_error_In _ _ Z)) as (f & u & w & y & y' & _ & _ & _ & _ & _ & ->). cbn [bind]. eauto.
  - apply view_contains in D. destruct D as (v & ->). destruct (lt_nth _ _ O) as (z & Z). unfold draw_policy. rewrite (read_ok _ _ _ Z). cbn [bind]. eauto.
  - apply view_contains in D. destruct D as (v & ->). destruct (lt_nth _ _ O) as (s & Z). unfold draw_interval. rewrite (read_ok _ _ _ Z). cbn [bind].
    destruct (proj1 (proj1 (Sa a)) s (nth_error_In _ _ Z)) as [A B]. destruct (lt_nth _ _ A) as (x & X). destruct (lt_nth _ _ B) as (y & Y). rewrite (read_ok _ _ _ X). cbn [bind]. rewrite (read_ok _ _ _ Y). cbn [bind]. eauto.
  - apply view_contains in D. destruct D as (v & ->). destruct (lt_nth _ _ O) as (z & Z). unfold draw_line. rewrite (read_ok _ _ _ Z). cbn [bind]. eauto.
Qed.
Lemma populate_ends p r : exists items, populate b p r = Done items.
Proof. apply draws_populate. intros x X. apply drawn_ends. now apply in_shown. Qed.

Lemma placed p r x it q : draw b p r x = Done it -> at_home b p x -> proper r -> in_sight r q -> covers (it_figure it) q <-> located b p x q.
Proof.
  intros H Home Pr Si. destruct x; cbn [draw] in H; try (destruct (view_of_axis p _) as [v|] eqn:V; [|discriminate]).
  - unfold draw_polygon in H. apply bind_done in H. destruct H as (g & G & H). apply read_some in G. pose proof (Ou i g G) as O. destruct (g_points g) as [|c l]; [discriminate|]. injection H as <-.
    cbn [it_figure covers located]. split.
    + intros (a & d & C & S). apply outline_sides, O in C. destruct C as (j & e & I & E & Es). exists g, j, e. rewrite Es. auto.
    + intros (g' & j & e & G' & I & E & S). assert (g' = g) by congruence. subst g'. destruct (e_seg e) as [a d] eqn:Es. exists a, d. split; [|exact S]. apply outline_sides, O. eauto.
  - unfold draw_edge in H. apply bind_done in H. destruct H as (e & E & H). apply read_some in E. injection H as <-. cbn [it_figure covers located]. split.
    + intros S. exists e. split; [exact E|]. now destruct (e_seg e).
    + intros (e' & E' & S). assert (e' = e) by (unfold edge_at in *; congruence). subst. now destruct (e_seg e).
  - unfold draw_angle in H. apply bind_done in H. destruct H as (a & A & H). apply read_some in A. injection H as <-. cbn [it_figure covers located]. cbn zeta. cbn [px py]. unfold diameter.
    assert (K : forall X Y : Q, (2 * (px q - (X - 5 / 2)) - 5) * (2 * (px q - (X - 5 / 2)) - 5) * (5 * 5) + (2 * (py q - (Y - 5 / 2)) - 5) * (2 * (py q - (Y - 5 / 2)) - 5) * (5 * 5) <= 5 * 5 * (5 * 5)
      <-> (px q - X) * (px q - X) + (py q - Y) * (py q - Y) <= (5 # 2) * (5 # 2)).
    { intros X Y. set (x := px q - X). set (y := py q - Y). assert (Ex : 2 * (px q - (X - 5 / 2)) - 5 == 2 * x) by (unfold x; field). assert (Ey : 2 * (py q - (Y - 5 / 2)) - 5 == 2 * y) by (unfold y; field). rewrite Ex, Ey. split; intros; nra. }
    rewrite K. split; [intros S; eauto|]. intros (a' & A' & S). assert (a' = a) by congruence. now subst.
  - unfold draw_colinear in H. apply bind_done in H. destruct H as (k & K & H). apply read_some in K. destruct (colinear_there a k (nth_error_In _ _ K)) as (j & l & e & y & Ce & E & _ & Y). rewrite Ce in H.
    rewrite (read_ok _ _ _ E) in H. cbn [bind] in H. injection H as <-. cbn [it_figure].
    assert (Pe : e_plane e = p) by (apply (Home a i k j e eq_refl K); [rewrite Ce; now left|exact E]). rewrite Pe in Y. rewrite (line_level p a v r _ V q Pr Si).
    pose proof (view_coordinate p a v (s0 (e_seg e)) V) as Y'. rewrite Y in Y'. injection Y' as <-. cbn [located]. split.
    + intros L. exists k, j, e, y. rewrite Ce, Pe. auto.
    + intros (k' & j' & e' & y' & K' & J' & E' & C & L). assert (k' = k) by congruence. subst. rewrite Ce in J'. injection J' as <-. assert (e' = e) by (unfold edge_at in *; congruence). subst. congruence.
  - discriminate.
  - unfold draw_close in H. apply bind_done in H. destruct H as (k & K & H). apply read_some in K. destruct (tc_solution k) as [s|] eqn:T; [|discriminate].
    apply bind_done in H. destruct H as (y & Y & H). apply read_some in Y. do 2 (apply bind_done in H; destruct H as (? & _ & H)). injection H as <-. cbn [it_figure located]. rewrite (line_level p a v r _ V q Pr Si). split.
    + intros L. exists k, s, y. auto.
    + intros (k' & s' & y' & K' & T' & Y' & L). assert (k' = k) by congruence. subst. assert (s' = s) by congruence. subst. assert (y' = y) by (unfold policy_at in *; congruence). now subst.
  - unfold draw_zone in H. apply bind_done in H. destruct H as (z & Z & H). apply read_some in Z. destruct (zone_there a z (nth_error_In _ _ Z)) as (f & u & w & y & y' & Hf & U & W & Y & Y' & Zo). rewrite Zo in H. cbn [bind] in H.
    injection H as <-. cbn [it_figure located z_min z_max]. rewrite (band_covers _ _ _ _ _ Pr Si). pose proof (view_coordinate p a v q V) as Cq. split.
    + intros B. exists z, f, u, w, y, y'. eexists. repeat (split; [eassumption|]). exact B.
    + intros (z' & f' & u' & w' & x & x' & c & Z' & F' & U' & W' & X & X' & C & B). assert (z' = z) by congruence. subst. assert (f' = f) by congruence. subst. assert (u' = u) by congruence. assert (w' = w) by congruence. subst.
      rewrite Cq in C. injection C as <-. assert (x = y) by congruence. assert (x' = y') by congruence. now subst.
  - unfold draw_policy in H. apply bind_done in H. destruct H as (y & Y & H). apply read_some in Y. cbn zeta in H. injection H as <-. cbn [it_figure located]. rewrite (line_level p a v r _ V q Pr Si). split.
    + intros L. exists y. auto.
    + intros (y' & Y' & L). assert (y' = y) by (unfold policy_at in *; congruence). now subst.
  - unfold draw_interval in H. apply bind_done in H. destruct H as (s & Z & H). apply read_some in Z. apply bind_done in H. destruct H as (y & Y & H). apply read_some in Y. apply bind_done in H. destruct H as (z & Z' & H). apply read_some in Z'.
    cbn zeta in H. injection H as <-. cbn [it_figure located]. rewrite (band_covers _ _ _ _ _ Pr Si). pose proof (view_coordinate p a v q V) as Cq. split.
    + intros B. exists s, y, z. eexists. repeat (split; [eassumption|]). exact B.
    + intros (s' & y' & z' & c & S' & Y1 & Z1 & C & B). assert (s' = s) by congruence. subst. assert (y' = y) by (unfold policy_at in *; congruence). assert (z' = z) by (unfold policy_at in *; congruence). subst. rewrite Cq in C. now injection C as <-.
  - unfold draw_line in H. apply bind_done in H. destruct H as (y & Y & H). apply read_some in Y. cbn zeta in H. injection H as <-. cbn [it_figure located]. rewrite (line_level p a v r _ V q Pr Si). split.
    + intros L. exists y. auto.
    + intros (y' & Y' & L). assert (y' = y) by congruence. now subst.
Qed.
End Reached.

(** ** What is told besides *)

Lemma told b p r x it : draw b p r x = Done it -> told_of b x (it_style it).
Proof.
  destruct x; cbn [draw]; intros H; try discriminate; try (destruct (view_of_axis p _) as [v|]; [|discriminate]).
  all: unfold draw_polygon, draw_edge, draw_angle, draw_colinear, draw_close, draw_zone, draw_policy, draw_interval, draw_line in H.
  all: apply bind_done in H; destruct H as (z & Z & H); apply read_some in Z.
  - destruct (g_points z); [discriminate|]. now injection H as <-.
  - now injection H as <-.
  - injection H as <-. cbn. eauto.
  - destruct (ce_edges z); [discriminate|]. apply bind_done in H. destruct H as (e & _ & H). now injection H as <-.
  - destruct (tc_solution z); [|discriminate]. do 3 (apply bind_done in H; destruct H as (? & _ & H)). now injection H as <-.
  - apply bind_done in H. destruct H as (w & _ & H). now injection H as <-.
  - injection H as <-. cbn. eauto.
  - do 2 (apply bind_done in H; destruct H as (? & _ & H)). now injection H as <-.
  - now injection H as <-.
Qed.

(** Lines are in the groups of lines, horizontal or upright; nothing else is. *)
Lemma line_group b p r x it : draw b p r x = Done it ->
  match x with
  | ELine ax i => exists v y, view_of_axis p ax = Some v /\ it_group it = GLines (reverse_view v) /\ it_figure it = line_at (reverse_view v) r y
  | _ => forall v, it_group it <> GLines v
  end.
Proof.
  destruct x; cbn [draw]; intros H; try discriminate; try (destruct (view_of_axis p _) as [v|] eqn:V; [|discriminate]).
  all: unfold draw_polygon, draw_edge, draw_angle, draw_colinear, draw_close, draw_zone, draw_policy, draw_interval, draw_line in H.
  all: apply bind_done in H; destruct H as (z & Z & H); apply read_some in Z.
  - destruct (g_points z); [discriminate|]. injection H as <-. discriminate.
  - injection H as <-. discriminate.
  - injection H as <-. discriminate.
  - destruct (ce_edges z); [discriminate|]. apply bind_done in H. destruct H as (e & _ & H). injection H as <-. discriminate.
  - destruct (tc_solution z); [|discriminate]. do 3 (apply bind_done in H; destruct H as (? & _ & H)). injection H as <-. discriminate.
  - apply bind_done in H. destruct H as (w & _ & H). injection H as <-. discriminate.
  - injection H as <-. discriminate.
  - do 2 (apply bind_done in H; destruct H as (? & _ & H)). injection H as <-. discriminate.
  - injection H as <-. exists v, z. auto.
Qed.
Lemma line_direction m r y : some_size r -> (horizontal (line_at m r y) <-> m = VH) /\ (upright (line_at m r y) <-> m = VV).
Proof.
  intros [[A B] C]. destruct (qmax_le (r_right r - r_left r) (r_bottom r - r_top r)) as [U V].
  assert (L : r_left (grown r) < r_right (grown r) /\ r_top (grown r) < r_bottom (grown r)) by (unfold grown; cbn; set (z := qmax _ _) in *; clearbody z; destruct C; lra).
  destruct L as [L T]. destruct m; cbn -[grown]; split; split; intros H; try reflexivity; try discriminate; try (split; [reflexivity|assumption]).
  - destruct H as [H _]. rewrite H in L. lra.
  - destruct H as [H _]. rewrite H in T. lra.
Qed.
