(** Every object of the board has one node. *)
From Coq Require Import List Arith Bool QArith Lia.
From Verif Require Import IntervalModel ManagerModel ManagerSpec ManagerProofs GeomModel BoardModel BoardSpec SceneModel SceneSpec SceneProofs SceneValidProofs.
Import ListNotations.
Open Scope nat_scope.

Lemma nodup_app {A} (l r : list A) : NoDup l -> NoDup r -> (forall x, In x l -> ~ In x r) -> NoDup (l ++ r).
Proof.
  induction l as [|x l IH]; cbn; intros L R D; [exact R|]. inversion L; subst. constructor.
  - rewrite in_app_iff. intros [I|I]; [contradiction|exact (D x (or_introl eq_refl) I)].
  - apply IH; [assumption|exact R|]. intros y Y. apply D. now right.
Qed.

Lemma built_seq b : built b -> concat (map g_edges (b_polygons b)) = seq 0 (length (b_edges b)).
Proof.
  induction 1 as [bg|p m priority z points b b' _ IH E]; [reflexivity|]. unfold add_polygon in E. apply bind_done in E. destruct E as (bo & _ & E). apply bind_done in E. destruct E as (es & _ & E).
  cbn zeta in E. injection E as <-. cbn. rewrite map_app, concat_app, IH, app_length, seq_app. cbn. now rewrite app_nil_r.
Qed.

Lemma once_each (es : list (list nat)) : NoDup (concat es) -> (forall l, In l es -> NoDup l) /\
  forall j k l r i, nth_error es j = Some l -> nth_error es k = Some r -> In i l -> In i r -> j = k.
Proof.
  induction es as [|h t IH]; cbn; intros D; [split; [intros l []|intros j k l r i E; destruct j; discriminate]|].
  assert (Dh : NoDup h) by (clear - D; induction h; [constructor|inversion D; subst; constructor; [rewrite in_app_iff in *; tauto|auto]]).
  assert (Dt : NoDup (concat t)) by (clear - D; induction h; [exact D|inversion D; subst; auto]).
  assert (X : forall i, In i h -> ~ In i (concat t)).
  { clear - D. induction h as [|x h IH]; intros i [].
    - subst. inversion D; subst. rewrite in_app_iff in *. tauto.
    - inversion D; subst. now apply IH. }
  destruct (IH Dt) as [A B]. split; [intros l [<-|I]; auto|]. intros [|j] [|k] l r i E F I J; cbn in E, F; [reflexivity| | |f_equal; eauto].
  - injection E as ->. exfalso. apply (X i I). apply in_concat. exists r. split; [now apply nth_error_In in F|exact J].
  - injection F as ->. exfalso. apply (X i J). apply in_concat. exists l. split; [now apply nth_error_In in E|exact I].
Qed.

Lemma positions_nodup {A} (f : A -> bool) l : NoDup (positions f l).
Proof.
  unfold positions, view. assert (G : forall s, NoDup (map fst (filter (fun x => f (snd x)) (combine (seq s (length l)) l))) /\ forall i, In i (map fst (filter (fun x => f (snd x)) (combine (seq s (length l)) l))) -> s <= i).
  { induction l as [|x l IH]; intros s; cbn; [split; [constructor|intros i []]|]. destruct (IH (S s)) as [D L]. destruct (f x); cbn.
    - split; [constructor; [intros I; apply L in I; lia|exact D]|]. intros i [<-|I]; [lia|apply L in I; lia].
    - split; [exact D|]. intros i I. apply L in I. lia. }
  apply (G 0).
Qed.

Definition once (ns : list node) : Prop := NoDup (map nd_what ns).

Lemma holds_in ns x : holds ns x <-> In (Thing x) (map nd_what ns).
Proof. rewrite in_map_iff. split; intros (nd & A & B); exists nd; tauto. Qed.

Lemma things_once b k inside l ns ns' : for_each (add_thing b k inside) l ns = Done ns' -> once ns -> NoDup l -> (forall x, In x l -> ~ holds ns x) -> once ns'.
Proof.
  intros H O D F. apply add_things in H. destruct H as (t & -> & M & _). unfold once. rewrite map_app, M. apply nodup_app; [exact O| |].
  - clear - D. induction D as [|x l N D IH]; cbn; constructor; [|exact IH]. rewrite in_map_iff. intros (y & E & I). injection E as ->. contradiction.
  - intros w W I. apply in_map_iff in I. destruct I as (x & <- & I). apply (F x I). now apply holds_in.
Qed.

Lemma nodup_map_inj {A B} (f : A -> B) l : (forall x y, f x = f y -> x = y) -> NoDup l -> NoDup (map f l).
Proof. intros I D. induction D as [|x l N D IH]; cbn; constructor; [|exact IH]. rewrite in_map_iff. intros (y & E & Y). apply I in E. now subst. Qed.

Section Once.
Context (b : board) (k : links) (D : NoDup (concat (map g_edges (b_polygons b)))).

Lemma own_nodup i g : nth_error (b_polygons b) i = Some g -> NoDup (g_edges g).
Proof. intros H. apply (proj1 (once_each _ D)). apply in_map. now apply nth_error_In in H. Qed.
Lemma own_once i j g h e : nth_error (b_polygons b) i = Some g -> nth_error (b_polygons b) j = Some h -> In e (g_edges g) -> In e (g_edges h) -> i = j.
Proof. intros G H I J. apply (proj2 (once_each _ D) i j (g_edges g) (g_edges h) e); try assumption; now apply map_nth_error. Qed.

Lemma polygons_once plane l : forall ns ns', for_each (add_polygon_node b k plane) l ns = Done ns' -> Forall (made b k) ns -> once ns -> NoDup l ->
  (forall i g, In i l -> nth_error (b_polygons b) i = Some g -> ~ holds ns (EPolygon i) /\ forall e, In e (g_edges g) -> ~ holds ns (EEdge e)) -> once ns'.
Proof.
  induction l as [|i r IH]; cbn [for_each]; intros ns ns' H F O N X; [now injection H as <-|]. inversion N as [|i' r' Ni Nr]; subst.
  apply bind_done in H. destruct H as (n1 & H1 & H). pose proof H1 as H1'. unfold add_polygon_node in H1. apply bind_done in H1. destruct H1 as (g & R & H1). apply read_some in R.
  apply bind_done in H1. destruct H1 as (n0 & A & H1). destruct (X i g (or_introl eq_refl) R) as [Xp Xe].
  assert (A' : for_each (add_thing b k plane) [EPolygon i] ns = Done n0) by (cbn [for_each]; rewrite A; reflexivity).
  assert (O0 : once n0) by (apply (things_once _ _ _ _ _ _ A' O); [repeat constructor; intros []|intros x [<-|[]]; exact Xp]).
  destruct (made_all _ _ _ _ _ _ A') as [F0 S0]; [intros x [<-|[]]; cbn; now apply nth_lt in R|exact F|].
  assert (O1 : once n1).
  { apply (things_once _ _ _ _ _ _ H1 O0); [apply nodup_map_inj; [intros x y E; now injection E|exact (own_nodup i g R)]|].
    intros x I Y. apply in_map_iff in I. destruct I as (e & <- & I). apply S0 in Y. destruct Y as [Y|[Y|[]]]; [exact (Xe e I Y)|discriminate]. }
  assert (H1s : for_each (add_polygon_node b k plane) [i] ns = Done n1) by (cbn [for_each]; rewrite H1'; reflexivity).
  destruct (polygons_made b k plane [i] ns n1 H1s F) as [F1 S1]. apply (IH n1 ns' H F1 O1 Nr). intros j h J Rj. destruct (X j h (or_intror J) Rj) as [Yp Ye]. split.
  - intros Y. apply S1 in Y. destruct Y as [Y|(i' & g' & [<-|[]] & R' & [E|E])]; [exact (Yp Y)|injection E as ->; contradiction|].
    apply in_map_iff in E. destruct E as (z & E & _). discriminate.
  - intros e I Y. apply S1 in Y. destruct Y as [Y|(i' & g' & [<-|[]] & R' & [E|E])]; [exact (Ye e I Y)|discriminate|]. apply in_map_iff in E. destruct E as (z & E & Z). injection E as ->.
    pose proof (own_once _ _ _ _ _ R' Rj Z I). subst. contradiction.
Qed.

Lemma head_once ns w : once ns -> (forall x, w <> Thing x) -> ~ In w (map nd_what ns) -> once (ns ++ [mk_node w None []]).
Proof. intros O _ N. unfold once. rewrite map_app. apply nodup_app; [exact O|repeat constructor; intros []|]. intros x I [<-|[]]. contradiction. Qed.
Lemma head_holds ns w x : (forall x, w <> Thing x) -> holds (ns ++ [mk_node w None []]) x <-> holds ns x.
Proof.
  intros W. split; intros (nd & N & E); exists nd; (split; [|exact E]); [|apply in_or_app; now left]. apply in_app_or in N. destruct N as [N|[<-|[]]]; [exact N|]. cbn in E. now apply W in E.
Qed.

Lemma whats_from ns ns' inside l w : for_each (add_thing b k inside) l ns = Done ns' -> (forall x, w <> Thing x) -> In w (map nd_what ns') -> In w (map nd_what ns).
Proof.
  intros H W I. apply add_things in H. destruct H as (t & -> & M & _). rewrite map_app, M, in_app_iff in I. destruct I as [I|I]; [exact I|]. apply in_map_iff in I. destruct I as (x & E & _).
  symmetry in E. now apply W in E.
Qed.
Lemma whats_from_polygons ns ns' plane l w : for_each (add_polygon_node b k plane) l ns = Done ns' -> (forall x, w <> Thing x) -> In w (map nd_what ns') -> In w (map nd_what ns).
Proof.
  revert ns. induction l as [|i r IH]; cbn [for_each]; intros ns H W I; [now injection H as <-|]. apply bind_done in H. destruct H as (n1 & H1 & H). apply (IH _ H W) in I.
  unfold add_polygon_node in H1. apply bind_done in H1. destruct H1 as (g & R & H1). apply bind_done in H1. destruct H1 as (n0 & A & H1). apply (whats_from _ _ _ _ _ H1 W) in I.
  assert (A' : for_each (add_thing b k plane) [EPolygon i] ns = Done n0) by (cbn [for_each]; rewrite A; reflexivity). exact (whats_from _ _ _ _ _ A' W I).
Qed.

Lemma plane_once p ns ns' : add_plane b k ns p = Done ns' -> Forall (made b k) ns -> once ns -> ~ In (Plane_ p) (map nd_what ns) -> (forall x, in_plane b p x -> ~ holds ns x) ->
  once ns' /\ forall w, (forall x, w <> Thing x) -> In w (map nd_what ns') -> w = Plane_ p \/ In w (map nd_what ns).
Proof.
  intros H F O N X. unfold add_plane in H. apply bind_done in H. destruct H as (n1 & H1 & H).
  assert (W : forall x, Plane_ p <> Thing x) by discriminate.
  assert (O0 : once (ns ++ [mk_node (Plane_ p) None []])) by (apply head_once; assumption).
  assert (F0 : Forall (made b k) (ns ++ [mk_node (Plane_ p) None []])) by (apply Forall_app; split; [exact F|constructor; [reflexivity|constructor]]).
  assert (O1 : once n1).
  { apply (polygons_once _ _ _ _ H1 F0 O0); [apply positions_nodup|]. intros i g I R. rewrite head_holds by exact W.
    apply polygons_of_spec in I. destruct I as (g' & R' & Pg). rewrite R in R'. injection R' as <-. split; [apply X; cbn; eauto|]. intros e E. rewrite head_holds by exact W. apply X. cbn. eauto 6. }
  destruct (polygons_made _ _ _ _ _ _ H1 F0) as [F1 S1]. split.
  - apply (things_once _ _ _ _ _ _ H O1).
    + apply nodup_app.
      * apply nodup_map_inj; [intros x y E; now injection E|apply seq_NoDup].
      * apply nodup_map_inj; [intros x y E; now injection E|apply positions_nodup].
      * intros x I J. apply in_map_iff in I. destruct I as (i & <- & _). apply in_map_iff in J. destruct J as (j & E & _). discriminate.
    + intros x I Y. apply S1 in Y. apply in_app_or in I.
      assert (Q : in_plane b p x).
      { destruct I as [I|I]; [apply in_seq_map in I; destruct I as (i & L & ->); now split|]. apply in_map_iff in I. destruct I as (i & <- & I). now apply angles_of_spec in I. }
      destruct Y as [Y|(i & g & _ & _ & [->|Y])].
      * apply (proj1 (head_holds ns _ x W)) in Y. exact (X x Q Y).
      * destruct I as [I|I]; apply in_map_iff in I; destruct I as (j & E & _); discriminate.
      * apply in_map_iff in Y. destruct Y as (e & <- & _). destruct I as [I|I]; apply in_map_iff in I; destruct I as (j & E & _); discriminate.
  - intros w Ww I. apply (whats_from _ _ _ _ _ H Ww) in I. apply (whats_from_polygons _ _ _ _ _ H1 Ww) in I. rewrite map_app, in_app_iff in I. destruct I as [I|[<-|[]]]; auto.
Qed.

Lemma axis_once a ns ns' : add_axis b k ns a = Done ns' -> once ns -> ~ In (Axis_ a) (map nd_what ns) -> (forall x, in_axis b a x -> ~ holds ns x) ->
  once ns' /\ forall w, (forall x, w <> Thing x) -> In w (map nd_what ns') -> w = Axis_ a \/ In w (map nd_what ns).
Proof.
  intros H O N X. unfold add_axis in H. assert (W : forall x, Axis_ a <> Thing x) by discriminate.
  assert (O0 : once (ns ++ [mk_node (Axis_ a) None []])) by (apply head_once; assumption). split.
  - apply (things_once _ _ _ _ _ _ H O0).
    + repeat (apply nodup_app; [apply nodup_map_inj; [intros x y E; now injection E|apply seq_NoDup]| |
        intros x I J; apply in_map_iff in I; destruct I as (i & <- & _); rewrite ?in_app_iff, !in_map_iff in J; repeat (destruct J as [J|J]); destruct J as (j & E & _); discriminate]).
      apply nodup_map_inj; [intros x y E; now injection E|apply seq_NoDup].
    + intros x I Y. apply (proj1 (head_holds ns _ x W)) in Y. apply (X x); [|exact Y].
      repeat (apply in_app_or in I; destruct I as [I|I]); apply in_seq_map in I; destruct I as (i & L & ->); (split; [exact L|reflexivity]).
  - intros w Ww I. apply (whats_from _ _ _ _ _ H Ww) in I. rewrite map_app, in_app_iff in I. destruct I as [I|[<-|[]]]; auto.
Qed.

Lemma in_one_plane p q x : in_plane b p x -> in_plane b q x -> p = q.
Proof.
  destruct x; cbn; try contradiction.
  - intros (g & G & P) (h & H & Q). congruence.
  - intros (j & g & G & P & I) (j' & h & H & Q & J). pose proof (own_once _ _ _ _ _ G H I J). subst. congruence.
  - intros (g & G & P) (h & H & Q). congruence.
  - intros [P _] [Q _]. congruence.
Qed.
Lemma in_one_axis a c x : in_axis b a x -> in_axis b c x -> a = c.
Proof. intros [_ A] [_ C]. destruct x; try contradiction; congruence. Qed.
Lemma not_both p a x : in_plane b p x -> in_axis b a x -> False.
Proof. intros P [_ A]. destruct x; cbn in P; try contradiction. Qed.

Lemma nodes_once ns : all_nodes b k = Done ns -> once ns.
Proof.
  unfold all_nodes, all_planes, all_axes. cbn [for_each]. intros H.
  apply bind_done in H. destruct H as (n3 & H & H').
  apply bind_done in H. destruct H as (n1 & H1 & H). apply bind_done in H. destruct H as (n2 & H2 & H). apply bind_done in H. destruct H as (n3' & H3 & E). injection E as ->.
  apply bind_done in H'. destruct H' as (n4 & H4 & H'). apply bind_done in H'. destruct H' as (n5 & H5 & H'). apply bind_done in H'. destruct H' as (n6 & H6 & E). injection E as ->.
  assert (F : Forall (made b k) []) by constructor.
  assert (O : once []) by constructor.
  assert (S0 : forall x, holds [] x <-> False) by (intros x; split; [intros (m & [] & _)|intros []]).
  destruct (plane_made _ _ _ _ _ H1 F) as [F1 S1]. destruct (plane_made _ _ _ _ _ H2 F1) as [F2 S2]. destruct (plane_made _ _ _ _ _ H3 F2) as [F3 S3].
  destruct (axis_made _ _ _ _ _ H4 F3) as [F4 S4]. destruct (axis_made _ _ _ _ _ H5 F4) as [F5 S5].
  destruct (plane_once PYZ [] n1 H1 F O) as [O1 W1]; [intros []|intros x _ Y; now apply S0 in Y|].
  destruct (plane_once PZX n1 n2 H2 F1 O1) as [O2 W2].
  { intros I. apply W1 in I; [|discriminate]. destruct I as [I|[]]. discriminate. }
  { intros x P Y. apply S1 in Y. destruct Y as [Y|Y]; [now apply S0 in Y|]. pose proof (in_one_plane _ _ _ P Y). discriminate. }
  destruct (plane_once PXY n2 n3 H3 F2 O2) as [O3 W3].
  { intros I. apply W2 in I; [|discriminate]. destruct I as [I|I]; [discriminate|]. apply W1 in I; [|discriminate]. destruct I as [I|[]]. discriminate. }
  { intros x P Y. apply S2 in Y. destruct Y as [Y|Y]; [apply S1 in Y; destruct Y as [Y|Y]; [now apply S0 in Y|]|]; pose proof (in_one_plane _ _ _ P Y); discriminate. }
  assert (T3 : forall a x, in_axis b a x -> ~ holds n3 x).
  { intros a x A Y. apply S3 in Y. destruct Y as [Y|Y]; [apply S2 in Y; destruct Y as [Y|Y]; [apply S1 in Y; destruct Y as [Y|Y]; [now apply S0 in Y|]|]|]; exact (not_both _ _ _ Y A). }
  assert (U3 : forall a, ~ In (Axis_ a) (map nd_what n3)).
  { intros a I. apply W3 in I; [|discriminate]. destruct I as [I|I]; [discriminate|]. apply W2 in I; [|discriminate]. destruct I as [I|I]; [discriminate|]. apply W1 in I; [|discriminate].
    destruct I as [I|[]]. discriminate. }
  destruct (axis_once AX n3 n4 H4 O3 (U3 AX) (T3 AX)) as [O4 W4].
  destruct (axis_once AY n4 n5 H5 O4) as [O5 W5].
  { intros I. apply W4 in I; [|discriminate]. destruct I as [I|I]; [discriminate|]. now apply U3 in I. }
  { intros x A Y. apply S4 in Y. destruct Y as [Y|Y]; [now apply (T3 AY x A)|]. pose proof (in_one_axis _ _ _ A Y). discriminate. }
  apply (axis_once AZ n5 _ H6 O5).
  - intros I. apply W5 in I; [|discriminate]. destruct I as [I|I]; [discriminate|]. apply W4 in I; [|discriminate]. destruct I as [I|I]; [discriminate|]. now apply U3 in I.
  - intros x A Y. apply S5 in Y. destruct Y as [Y|Y]; [apply S4 in Y; destruct Y as [Y|Y]; [now apply (T3 AZ x A)|]|]; pose proof (in_one_axis _ _ _ A Y); discriminate.
Qed.

Lemma stands_once sc m n x : populate b k = Done sc -> stands_for sc m x -> stands_for sc n x -> m = n.
Proof.
  intros H (nm & Em & Wm) (nn & En & Wn). apply populate_nodes, nodes_once in H. unfold once in H. rewrite NoDup_nth_error in H. apply H.
  - rewrite map_length. now apply nth_lt in Em.
  - rewrite (map_nth_error nd_what _ _ Em), (map_nth_error nd_what _ _ En). congruence.
Qed.
End Once.
