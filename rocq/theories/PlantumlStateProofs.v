(** Proofs about the state diagram: each state once, in its frame. *)
From Coq Require Import String List Arith Bool QArith Lia Permutation.
From Verif Require Import IntervalModel ManagerModel ManagerSpec ManagerProofs ManagerSafetyProofs GeomModel BoardModel BoardSpec EditModel.
From Verif Require Import SceneModel SceneSpec SceneProofs SceneValidProofs SceneOnceProofs PlantumlModel PlantumlSpec PlantumlProofs.
Import ListNotations.
Local Open Scope nat_scope.
Local Open Scope list_scope.

Lemma nodup_flat {A B} (f : A -> list B) l : NoDup l -> (forall x, In x l -> NoDup (f x)) ->
  (forall x y z, In x l -> In y l -> In z (f x) -> In z (f y) -> x = y) -> NoDup (flat_map f l).
Proof.
  induction l as [|a l IH]; cbn; intros D F X; [constructor|]. inversion D as [|? ? N D']; subst. apply nodup_app.
  - apply F. now left.
  - apply IH; [exact D'|intros x I; apply F; now right|]. intros x y z I J. apply X; now right.
  - intros z Z I. apply in_flat_map in I. destruct I as (y & Y & I). rewrite (X a y z (or_introl eq_refl) (or_intror Y) Z I) in N. contradiction.
Qed.

Section Once.
Context (srt : sort_by) (b : board) (Pm : permutes srt) (D : NoDup (concat (map g_edges (b_polygons b)))).

Lemma in_polygons_of p i : In i (polygons_of b p) <-> exists g, nth_error (b_polygons b) i = Some g /\ g_plane g = p.
Proof.
  unfold polygons_of. rewrite in_positions_spec. split; intros (g & E & P); exists g; (split; [exact E|]); now apply plane_eqb_same.
Qed.

Definition polygon_things (i : nat) : list entity :=
  match nth_error (b_polygons b) i with Some g => EPolygon i :: map EEdge (g_edges g) | None => [] end.
Definition plane_things (p : Plane) : list entity :=
  flat_map polygon_things (polygons_of b p) ++ map (EInPolygon p) (seq 0 (length (on_plane (b_eip b) p))).

Lemma in_polygon_things i x : In x (polygon_things i) <-> exists g, nth_error (b_polygons b) i = Some g /\ (x = EPolygon i \/ exists e, x = EEdge e /\ In e (g_edges g)).
Proof.
  unfold polygon_things. destruct (nth_error (b_polygons b) i) as [g|]; cbn; [|split; [intros []|intros (g & H & _); discriminate]]. rewrite in_map_iff. split.
  - intros [<-|(e & <- & I)]; exists g; (split; [reflexivity|]); eauto.
  - intros (h & E & H). injection E as <-. destruct H as [->|(e & -> & I)]; eauto.
Qed.
Lemma in_plane_things p x : In x (plane_things p) <->
  match x with
  | EPolygon i => exists g, nth_error (b_polygons b) i = Some g /\ g_plane g = p
  | EEdge e => exists i g, nth_error (b_polygons b) i = Some g /\ g_plane g = p /\ In e (g_edges g)
  | EInPolygon q i => q = p /\ i < length (on_plane (b_eip b) p)
  | _ => False
  end.
Proof.
  unfold plane_things. rewrite in_app_iff, in_flat_map, in_map_iff. split.
  - intros [(i & I & H)|(i & <- & I)].
    + apply in_polygons_of in I. apply in_polygon_things in H. destruct H as (g & E & H), I as (g' & E' & P). rewrite E in E'. injection E' as <-. destruct H as [->|(e & -> & H)]; [now exists g|now exists i, g].
    + apply in_seq in I. split; [reflexivity|lia].
  - destruct x as [i|e|i|a i|q i|a i|a i|a i|a i|a i]; try contradiction.
    + intros (g & E & P). left. exists i. split; [apply in_polygons_of; now exists g|]. apply in_polygon_things. exists g. auto.
    + intros (i & g & E & P & I). left. exists i. split; [apply in_polygons_of; now exists g|]. apply in_polygon_things. exists g. eauto.
    + intros [-> L]. right. exists i. split; [reflexivity|]. apply in_seq. lia.
Qed.

Lemma inj_nodup (f : nat -> entity) l : (forall i j, f i = f j -> i = j) -> NoDup l -> NoDup (map f l).
Proof. apply nodup_map_inj. Qed.
Lemma plane_things_once p : NoDup (plane_things p).
Proof.
  unfold plane_things. apply nodup_app.
  - apply nodup_flat; [apply positions_nodup| |].
    + intros i _. unfold polygon_things. destruct (nth_error (b_polygons b) i) as [g|] eqn:E; [|constructor]. constructor.
      * rewrite in_map_iff. intros (e & X & _). discriminate.
      * apply inj_nodup; [intros x y H; now injection H|exact (own_nodup b D i g E)].
    + intros i j z _ _ I J. apply in_polygon_things in I, J. destruct I as (g & G & I), J as (h & H & J). destruct I as [->|(e & -> & I)], J as [J|(e' & E & J)]; try discriminate; [now injection J|].
      injection E as <-. exact (own_once b D i j g h e G H I J).
  - apply inj_nodup; [intros x y H; now injection H|apply seq_NoDup].
  - intros x I J. apply in_flat_map in I. destruct I as (i & _ & I). apply in_polygon_things in I. apply in_map_iff in J. destruct J as (j & <- & _). destruct I as (g & _ & [I|(e & I & _)]); discriminate.
Qed.
Lemma plane_things_apart p q x : In x (plane_things p) -> In x (plane_things q) -> p = q.
Proof.
  rewrite !in_plane_things. destruct x; try contradiction.
  - intros (g & E & <-) (h & F & <-). congruence.
  - intros (j & g & E & <- & I) (j' & h & F & <- & J). rewrite (own_once b D _ _ _ _ _ E F I J) in E. congruence.
  - intros [<- _] [<- _]. reflexivity.
Qed.

Lemma in_axis_things a x : In x (axis_things srt b a) <->
  match x with
  | EPolicy c i => c = a /\ i < length (ax_policies (on_axis (b_axes b) a))
  | EInterval c i => c = a /\ i < length (ax_segments (on_axis (b_axes b) a))
  | ELine c i => c = a /\ i < length (ax_lines (on_axis (b_axes b) a))
  | EColinear c i => c = a /\ i < length (on_axis (b_ce b) a)
  | EClose c i => c = a /\ i < length (ax_conflicts (on_axis (b_axes b) a))
  | _ => False
  end.
Proof.
  assert (So : forall i, In i (sorted_policies srt b a) <-> i < length (ax_policies (on_axis (b_axes b) a))).
  { intros i. unfold sorted_policies. split.
    - intros I. apply (Permutation_in _ (Permutation_sym (Pm _ _ _))), in_seq in I. lia.
    - intros L. apply (Permutation_in _ (Pm _ _ _)), in_seq. lia. }
  unfold axis_things. rewrite !in_app_iff, !in_map_iff. split.
  - intros [(i & <- & I)|[(i & <- & I)|[(i & <- & I)|[(i & <- & I)|(i & <- & I)]]]]; (split; [reflexivity|]); [now apply So|apply in_seq in I; lia..].
  - destruct x as [i|e|i|c i|q i|c i|c i|c i|c i|c i]; try contradiction; intros [-> L].
    + do 3 right. left. exists i. split; [reflexivity|apply in_seq; lia].
    + do 4 right. exists i. split; [reflexivity|apply in_seq; lia].
    + left. exists i. split; [reflexivity|now apply So].
    + right. left. exists i. split; [reflexivity|apply in_seq; lia].
    + do 2 right. left. exists i. split; [reflexivity|apply in_seq; lia].
Qed.
Lemma axis_things_once a : NoDup (axis_things srt b a).
Proof.
  unfold axis_things. assert (P : NoDup (sorted_policies srt b a)) by (apply (Permutation_NoDup (Pm _ _ _)), seq_NoDup).
  repeat (apply nodup_app; [apply inj_nodup; [intros x y H; now injection H|first [exact P|apply seq_NoDup]]| |
    intros x I J; apply in_map_iff in I; destruct I as (i & <- & _); rewrite ?in_app_iff, ?in_map_iff in J;
    repeat match goal with H : _ \/ _ |- _ => destruct H end; match goal with H : exists _, _ |- _ => destruct H as (j & H & _); discriminate end]).
  apply inj_nodup; [intros x y H; now injection H|apply seq_NoDup].
Qed.

(** ** The names *)

Definition whats : list what :=
  flat_map (fun p => Plane_ p :: map Thing (plane_things p)) all_planes ++ flat_map (fun a => Axis_ a :: map Thing (axis_things srt b a)) all_axes.
Lemma map_thing (l : list entity) : NoDup l -> NoDup (map Thing l).
Proof. apply nodup_map_inj. intros x y H. now injection H. Qed.
Lemma in_thing (l : list entity) w : In w (map Thing l) <-> exists x, w = Thing x /\ In x l.
Proof. rewrite in_map_iff. split; intros (x & A & B); exists x; auto. Qed.
Lemma whats_once : NoDup whats.
Proof.
  unfold whats. apply nodup_app.
  - apply nodup_flat.
    + repeat constructor; cbn; intuition discriminate.
    + intros p _. constructor; [rewrite in_thing; intros (x & E & _); discriminate|apply map_thing, plane_things_once].
    + intros p q w _ _ [I|I] [J|J]; [congruence| | |].
      * subst w. apply in_thing in J. destruct J as (x & E & _). discriminate.
      * subst w. apply in_thing in I. destruct I as (x & E & _). discriminate.
      * apply in_thing in I, J. destruct I as (x & -> & I), J as (y & E & J). injection E as <-. exact (plane_things_apart _ _ _ I J).
  - apply nodup_flat.
    + repeat constructor; cbn; intuition discriminate.
    + intros a _. constructor; [rewrite in_thing; intros (x & E & _); discriminate|apply map_thing, axis_things_once].
    + intros p q w _ _ [I|I] [J|J]; [congruence| | |].
      * subst w. apply in_thing in J. destruct J as (x & E & _). discriminate.
      * subst w. apply in_thing in I. destruct I as (x & E & _). discriminate.
      * apply in_thing in I, J. destruct I as (x & -> & I), J as (y & E & J). injection E as <-. apply in_axis_things in I, J. destruct x; try contradiction; destruct I as [<- _], J as [<- _]; reflexivity.
  - intros w I J. apply in_flat_map in I, J. destruct I as (p & _ & I), J as (a & _ & J). destruct I as [<-|I], J as [J|J]; try discriminate.
    + apply in_thing in J. destruct J as (x & E & _). discriminate.
    + apply in_thing in I. destruct I as (x & E & _). congruence.
    + apply in_thing in I, J. destruct I as (x & -> & I), J as (y & E & J). injection E as <-. apply in_plane_things in I. apply in_axis_things in J. destruct x; contradiction.
Qed.

Definition own_names (x : entity) : list name := Whole x :: map (Pin_name x) (pins_of b x).
Definition what_names (w : what) : list name :=
  match w with Plane_ p => [Plane_name p] | Axis_ a => [Axis_name a] | Thing x => own_names x end.
Lemma names_own x : names (own b x) = own_names x.
Proof. unfold own, own_names, names. cbn. now rewrite map_map. Qed.
Lemma names_flat l : names (flat_map (own b) l) = flat_map what_names (map Thing l).
Proof. induction l as [|x l IH]; [reflexivity|]. unfold names. cbn [flat_map]. rewrite map_app. fold names. cbn [map flat_map what_names]. rewrite <- names_own, <- IH. reflexivity. Qed.
Lemma names_app (l r : list declared) : names (l ++ r) = names l ++ names r.
Proof. apply map_app. Qed.
Lemma names_polygons l : names (flat_map (polygon_ds b) l) = flat_map what_names (map Thing (flat_map polygon_things l)).
Proof.
  induction l as [|i l IH]; [reflexivity|]. cbn [flat_map]. rewrite names_app, IH, map_app, flat_map_app. f_equal. unfold polygon_ds, polygon_things. destruct (nth_error (b_polygons b) i) as [g|]; [|reflexivity].
  rewrite names_app, names_inside, names_own. cbn [map flat_map what_names]. f_equal. apply names_flat.
Qed.
Lemma names_plane p : names (plane_ds b p) = flat_map what_names (Plane_ p :: map Thing (plane_things p)).
Proof.
  unfold plane_ds. change (names ((Plane_name p, []) :: ?l)) with (Plane_name p :: names l). rewrite names_inside, names_app, names_polygons, names_flat. unfold plane_things. rewrite map_app. cbn [flat_map what_names app]. rewrite flat_map_app. reflexivity.
Qed.
Lemma names_axis a : names (axis_ds srt b a) = flat_map what_names (Axis_ a :: map Thing (axis_things srt b a)).
Proof. unfold axis_ds. change (names ((Axis_name a, []) :: ?l)) with (Axis_name a :: names l). rewrite names_inside, names_flat. reflexivity. Qed.
Lemma names_each {A} (f : A -> list declared) (g : A -> list what) l : (forall x, names (f x) = flat_map what_names (g x)) -> names (flat_map f l) = flat_map what_names (flat_map g l).
Proof. intros H. induction l as [|x l IH]; [reflexivity|]. cbn [flat_map]. now rewrite names_app, flat_map_app, H, IH. Qed.
Lemma names_all : names (all_ds srt b) = flat_map what_names whats.
Proof. unfold all_ds, whats. rewrite names_app, flat_map_app. f_equal; apply names_each; [apply names_plane|apply names_axis]. Qed.

Lemma pins_once x : NoDup (pins_of b x).
Proof.
  destruct x; cbn; repeat constructor; cbn; try (intuition discriminate). destruct (nth_error _ _) as [c|]; [|constructor]. constructor; [rewrite in_map_iff; intros (j & E & _); discriminate|].
  apply nodup_map_inj; [intros u v H; now injection H|apply seq_NoDup].
Qed.
Lemma what_names_once w : NoDup (what_names w).
Proof.
  destruct w; cbn; [repeat constructor; intros []..|]. constructor; [rewrite in_map_iff; intros (q & E & _); discriminate|]. apply nodup_map_inj; [intros u v H; now injection H|apply pins_once].
Qed.
Lemma what_of w n : In n (what_names w) -> w = match n with Plane_name p => Plane_ p | Axis_name a => Axis_ a | Whole x | Pin_name x _ => Thing x end.
Proof.
  destruct w; cbn; [intros [<-|[]]; reflexivity..|]. intros [<-|I]; [reflexivity|]. apply in_map_iff in I. destruct I as (q & <- & _). reflexivity.
Qed.
Lemma names_once : NoDup (names (all_ds srt b)).
Proof.
  rewrite names_all. apply nodup_flat; [apply whats_once|intros w _; apply what_names_once|]. intros v w n _ _ I J. apply what_of in I, J. congruence.
Qed.

Lemma in_whats w : In w whats <-> match w with Plane_ _ | Axis_ _ => True | Thing x => shown b x end.
Proof.
  unfold whats. rewrite in_app_iff, !in_flat_map. split.
  - intros [(p & _ & [<-|I])|(a & _ & [<-|I])]; try exact I; apply in_thing in I; destruct I as (x & -> & I).
    + apply in_plane_things in I. destruct x; try contradiction; (split; [|exact Logic.I]).
      * destruct I as (g & E & _). now apply nth_lt in E.
      * destruct I as (j & g & E & _ & I). now exists j, g.
      * destruct I as [-> L]. exact L.
    + apply in_axis_things in I. destruct x; try contradiction; (split; [|exact Logic.I]); destruct I as [-> L]; exact L.
  - destruct w as [p|a|x].
    + intros _. left. exists p. split; [destruct p; cbn; tauto|now left].
    + intros _. right. exists a. split; [destruct a; cbn; tauto|now left].
    + intros [O K]. assert (Pl : forall p, In p all_planes) by (intros []; cbn; tauto). assert (Ax : forall a, In a all_axes) by (intros []; cbn; tauto).
      destruct x as [i|e|i|c i|q i|c i|c i|c i|c i|c i]; try contradiction; cbn in O.
      * destruct (nth_error (b_polygons b) i) as [g|] eqn:E; [|apply nth_error_None in E; lia]. left. exists (g_plane g). split; [apply Pl|]. right. apply in_map, in_plane_things. now exists g.
      * destruct O as (j & g & E & I). left. exists (g_plane g). split; [apply Pl|]. right. apply in_map, in_plane_things. now exists j, g.
      * right. exists c. split; [apply Ax|]. right. apply in_map, in_axis_things. auto.
      * left. exists q. split; [apply Pl|]. right. apply in_map, in_plane_things. auto.
      * right. exists c. split; [apply Ax|]. right. apply in_map, in_axis_things. auto.
      * right. exists c. split; [apply Ax|]. right. apply in_map, in_axis_things. auto.
      * right. exists c. split; [apply Ax|]. right. apply in_map, in_axis_things. auto.
      * right. exists c. split; [apply Ax|]. right. apply in_map, in_axis_things. auto.
Qed.
Lemma name_there n : In n (names (all_ds srt b)) <->
  match n with Plane_name _ | Axis_name _ => True | Whole x => shown b x | Pin_name x q => shown b x /\ In q (pins_of b x) end.
Proof.
  rewrite names_all, in_flat_map. split.
  - intros (w & W & I). apply in_whats in W. pose proof (what_of _ _ I) as E. subst w. destruct n as [p|a|x|x q]; [exact W..|]. split; [exact W|]. cbn in I. destruct I as [I|I]; [discriminate|].
    apply in_map_iff in I. destruct I as (q' & E & I). now injection E as <-.
  - destruct n as [p|a|x|x q]; intros H.
    + exists (Plane_ p). split; [now apply in_whats|now left].
    + exists (Axis_ a). split; [now apply in_whats|now left].
    + exists (Thing x). split; [now apply in_whats|now left].
    + destruct H as [H I]. exists (Thing x). split; [now apply in_whats|]. right. now apply in_map.
Qed.

(** ** The frames *)

Lemma in_own x n fr : In (n, fr) (own b x) -> (n = Whole x /\ fr = []) \/ exists q, n = Pin_name x q /\ fr = [Whole x].
Proof. intros [E|I]; [injection E; auto|]. apply in_map_iff in I. destruct I as (q & E & _). injection E as <- <-. right. eauto. Qed.
Lemma in_inside st n fr ds : In (n, fr) (map (inside st) ds) -> exists f, fr = f ++ st /\ In (n, f) ds.
Proof. intros I. apply in_map_iff in I. destruct I as ((m & f) & E & I). injection E as <- <-. eauto. Qed.

Lemma own_framed x n f m (w : what) : In (n, f) (own b x) -> belongs_in b x w -> is_named w m -> forall r, in_its_frame b n (f ++ m :: r).
Proof.
  intros I B N r. apply in_own in I. destruct I as [[-> ->]|(q & -> & ->)]; cbn; [|eauto]. exists w, m, r. auto.
Qed.
Lemma all_framed n fr : In (n, fr) (all_ds srt b) -> in_its_frame b n fr.
Proof.
  unfold all_ds. rewrite in_app_iff, !in_flat_map. intros [(p & _ & [E|I])|(a & _ & [E|I])]; try (injection E as <- <-; reflexivity); apply in_inside in I; destruct I as (f & -> & I).
  - apply in_app_or in I. rewrite !in_flat_map in I. destruct I as [(i & J & I)|(x & X & I)].
    + apply in_polygons_of in J. destruct J as (g & E & P). unfold polygon_ds in I. rewrite E in I. apply in_app_or in I. destruct I as [I|I].
      * apply (own_framed _ _ _ _ (Plane_ p) I); [exists g; split; [exact E|congruence]|reflexivity].
      * apply in_inside in I. destruct I as (f' & -> & I). apply in_flat_map in I. destruct I as (x & X & I). apply in_map_iff in X. destruct X as (e & <- & X). rewrite <- app_assoc.
        apply (own_framed _ _ _ _ (Thing (EPolygon i)) I); [|reflexivity]. exists i, g. auto.
    + apply in_map_iff in X. destruct X as (i & <- & X). apply (own_framed _ _ _ _ (Plane_ p) I); reflexivity.
  - apply in_flat_map in I. destruct I as (x & X & I). apply in_axis_things in X. apply (own_framed _ _ _ _ (Axis_ a) I); [|reflexivity]. destruct x; try contradiction; destruct X as [-> _]; reflexivity.
Qed.
End Once.
