(** Proofs about the state diagram: it can be written, and its arrows. *)
From Coq Require Import String List Arith Bool QArith Lia Permutation.
From Verif Require Import IntervalModel ManagerModel ManagerSpec ManagerProofs ManagerSafetyProofs GeomModel BoardModel BoardSpec EditModel.
From Verif Require Import SceneModel SceneSpec SceneProofs SceneValidProofs SceneOnceProofs PlantumlModel PlantumlSpec PlantumlProofs PlantumlStateProofs PlantumlValidProofs.
Import ListNotations.
Local Open Scope nat_scope.
Local Open Scope list_scope.

Lemma in_collected {A B} (f : A -> run (list B)) l r s : collect f l = Done r -> In s (concat r) <-> exists x y, In x l /\ f x = Done y /\ In s y.
Proof.
  intros C. apply collect_each in C. split.
  - intros I. apply in_concat in I. destruct I as (y & Y & I). induction C as [|x z l r E C IH]; [destruct Y|]. destruct Y as [<-|Y]; [exists x, z; split; [now left|auto]|].
    destruct (IH Y) as (x' & y' & X' & H). exists x', y'. split; [now right|exact H].
  - intros (x & y & X & E & I). apply in_concat. exists y. split; [|exact I]. induction C as [|x' z l r E' C IH]; [destruct X|]. destruct X as [->|X]; [left; congruence|right; auto].
Qed.

Lemma each_done {A B} (f : A -> run (list B)) l r x : collect f l = Done r -> In x l -> exists y, f x = Done y.
Proof. intros C I. apply collect_each in C. induction C as [|q y l r E C IH]; [destruct I|]. destruct I as [<-|I]; eauto. Qed.

Section Pieces.
Context (named : nat -> string) (srt : sort_by) (b : board) (k : links) (Pm : permutes srt).

Definition thing_lines (x : entity) : run (list stmt) :=
  match x with
  | EPolygon i => polygon_lines named b i
  | EEdge i => edge_lines b i
  | EColinear a i => colinear_lines b a i
  | EInPolygon p i => in_polygon_lines b p i
  | EClose a i => close_lines b a i
  | EPolicy a i => policy_lines b k a i
  | EInterval a i => interval_lines b a i
  | ELine a i => meshline_lines b k a i
  | EAngle _ | EZone _ _ => Dangling
  end.

Lemma in_mapped {A B} (f : A -> run (list B)) l r s : collect f l = Done r -> In s (concat r) -> exists x y, In x l /\ f x = Done y /\ In s y.
Proof. intros C I. now apply (in_collected f l r s C). Qed.

Context (doc : list stmt) (H : plantuml named srt b k = Done doc).

Lemma in_doc s : In s doc <-> s = Start \/ s = Finish \/ (exists p l, plane_lines named b p = Done l /\ In s l) \/ exists a l, axis_lines srt b k a = Done l /\ In s l.
Proof.
  pose proof H as H0. unfold plantuml in H0. apply bind_done in H0. destruct H0 as (ps & P & H0). apply bind_done in H0. destruct H0 as (xs & X & H0). injection H0 as <-.
  cbn [app In]. rewrite !in_app_iff, (in_collected _ _ _ _ P), (in_collected _ _ _ _ X). cbn [In].
  assert (Pl : forall p, In p all_planes) by (intros []; cbn; tauto). assert (Ax : forall a, In a all_axes) by (intros []; cbn; tauto). split.
  - intros [<-|[(p & l & _ & E & I)|[(a & l & _ & E & I)|[<-|[]]]]]; auto; right; right; [left|right]; eauto.
  - intros [->|[->|[(p & l & E & I)|(a & l & E & I)]]]; [now left|right; right; right; now left|right; left; exists p, l; auto|right; right; left; exists a, l; auto].
Qed.

Lemma in_plane p l : plane_lines named b p = Done l -> forall s, In s l <-> s = Open ("Plane " ++ plane_string p) (Plane_name p) "" \/ s = Close
  \/ (exists i y, In i (polygons_of b p) /\ polygon_lines named b i = Done y /\ In s y)
  \/ (exists i y, In i (seq 0 (length (on_plane (b_eip b) p))) /\ in_polygon_lines b p i = Done y /\ In s y).
Proof.
  intros E s. unfold plane_lines in E. apply bind_done in E. destruct E as (ps & P & E). apply bind_done in E. destruct E as (cs & C & E). injection E as <-.
  cbn [app In]. rewrite !in_app_iff, (in_collected _ _ _ _ P), (in_collected _ _ _ _ C). cbn [In]. split; intros X; repeat (destruct X as [X|X]); try tauto; subst; tauto.
Qed.
Lemma in_axis a l : axis_lines srt b k a = Done l -> forall s, In s l <-> s = Open ("Axis " ++ axis_string a) (Axis_name a) "" \/ s = Close
  \/ (exists i y, In i (sorted_policies srt b a) /\ policy_lines b k a i = Done y /\ In s y)
  \/ (exists i y, In i (seq 0 (length (ax_segments (on_axis (b_axes b) a)))) /\ interval_lines b a i = Done y /\ In s y)
  \/ (exists i y, In i (seq 0 (length (ax_lines (on_axis (b_axes b) a)))) /\ meshline_lines b k a i = Done y /\ In s y)
  \/ (exists i y, In i (seq 0 (length (on_axis (b_ce b) a))) /\ colinear_lines b a i = Done y /\ In s y)
  \/ (exists i y, In i (seq 0 (length (ax_conflicts (on_axis (b_axes b) a)))) /\ close_lines b a i = Done y /\ In s y).
Proof.
  intros E s. unfold axis_lines in E. cbn zeta in E. apply bind_done in E. destruct E as (ps & P & E). apply bind_done in E. destruct E as (is & Iv & E). apply bind_done in E. destruct E as (ms & M & E).
  apply bind_done in E. destruct E as (cs & C & E). apply bind_done in E. destruct E as (ts & T & E). injection E as <-.
  cbn [app In]. rewrite !in_app_iff, (in_collected _ _ _ _ P), (in_collected _ _ _ _ Iv), (in_collected _ _ _ _ M), (in_collected _ _ _ _ C), (in_collected _ _ _ _ T). cbn [In]. split; intros X; repeat (destruct X as [X|X]); try tauto; subst; tauto.
Qed.

Lemma below_seq i n : In i (seq 0 n) <-> i < n.
Proof. rewrite in_seq. lia. Qed.
Lemma in_sorted a i : In i (sorted_policies srt b a) <-> i < length (ax_policies (on_axis (b_axes b) a)).
Proof.
  unfold sorted_policies. rewrite <- below_seq. split; intros I; [exact (Permutation_in _ (Permutation_sym (Pm _ _ _)) I)|exact (Permutation_in _ (Pm _ _ _) I)].
Qed.

Lemma plane_done p : exists l, plane_lines named b p = Done l /\ incl l doc.
Proof.
  pose proof H as H0. unfold plantuml in H0. apply bind_done in H0. destruct H0 as (ps & P & H0). clear H0.
  assert (I : In p all_planes) by (destruct p; cbn; tauto). pose proof (each_done _ _ _ _ P I) as E.
  destruct E as (l & E). exists l. split; [exact E|]. clear I. intros s I. apply in_doc. right. right. left. eauto.
Qed.
Lemma axis_done a : exists l, axis_lines srt b k a = Done l /\ incl l doc.
Proof.
  pose proof H as H0. unfold plantuml in H0. apply bind_done in H0. destruct H0 as (ps & _ & H0). apply bind_done in H0. destruct H0 as (xs & X & H0). clear H0.
  assert (I : In a all_axes) by (destruct a; cbn; tauto). pose proof (each_done _ _ _ _ X I) as E.
  destruct E as (l & E). exists l. split; [exact E|]. clear I. intros s I. apply in_doc. right. right. right. eauto.
Qed.

(** The piece of each object is in the document. *)
Lemma piece_in x : shown b x -> exists l, thing_lines x = Done l /\ incl l doc.
Proof.
  intros [O K].
  assert (Po : forall i g, nth_error (b_polygons b) i = Some g -> exists l, polygon_lines named b i = Done l /\ incl l doc).
  { intros i g E. destruct (plane_done (g_plane g)) as (l & L & I). assert (J : In i (polygons_of b (g_plane g))) by (apply in_polygons_of; eauto).
    pose proof L as L0. unfold plane_lines in L0. apply bind_done in L0. destruct L0 as (ps & P & _). destruct (each_done _ _ _ _ P J) as (y & Y). exists y. split; [exact Y|].
    intros s S. apply I. apply (in_plane _ _ L). right. right. left. eauto. }
  assert (Ax : forall a l, axis_lines srt b k a = Done l -> incl l doc -> (forall i, i < length (ax_policies (on_axis (b_axes b) a)) -> exists y, policy_lines b k a i = Done y /\ incl y doc)
     /\ (forall i, i < length (ax_segments (on_axis (b_axes b) a)) -> exists y, interval_lines b a i = Done y /\ incl y doc)
     /\ (forall i, i < length (ax_lines (on_axis (b_axes b) a)) -> exists y, meshline_lines b k a i = Done y /\ incl y doc)
     /\ (forall i, i < length (on_axis (b_ce b) a) -> exists y, colinear_lines b a i = Done y /\ incl y doc)
     /\ (forall i, i < length (ax_conflicts (on_axis (b_axes b) a)) -> exists y, close_lines b a i = Done y /\ incl y doc)).
  { intros a l L I. pose proof L as E. unfold axis_lines in E. cbn zeta in E. apply bind_done in E. destruct E as (ps & P & E). apply bind_done in E. destruct E as (is & Iv & E). apply bind_done in E. destruct E as (ms & M & E).
    apply bind_done in E. destruct E as (cs & C & E). apply bind_done in E. destruct E as (ts & T & E). clear E. fold (less_coord b a) in P. fold (sorted_policies srt b a) in P.
    split; [|split; [|split; [|split]]]; intros i J.
    - apply in_sorted in J. destruct (each_done _ _ _ _ P J) as (y & Y). exists y. split; [exact Y|]. intros s S. apply I, (in_axis _ _ L). do 2 right. left. eauto.
    - apply below_seq in J. destruct (each_done _ _ _ _ Iv J) as (y & Y). exists y. split; [exact Y|]. intros s S. apply I, (in_axis _ _ L). do 3 right. left. eauto.
    - apply below_seq in J. destruct (each_done _ _ _ _ M J) as (y & Y). exists y. split; [exact Y|]. intros s S. apply I, (in_axis _ _ L). do 4 right. left. eauto.
    - apply below_seq in J. destruct (each_done _ _ _ _ C J) as (y & Y). exists y. split; [exact Y|]. intros s S. apply I, (in_axis _ _ L). do 5 right. left. eauto.
    - apply below_seq in J. destruct (each_done _ _ _ _ T J) as (y & Y). exists y. split; [exact Y|]. intros s S. apply I, (in_axis _ _ L). do 6 right. eauto. }
  destruct x as [i|e|i|a i|q i|a i|a i|a i|a i|a i]; try contradiction; cbn [thing_lines]; cbn in O; try (destruct (axis_done a) as (l & L & I); destruct (Ax a l L I) as (A1 & A2 & A3 & A4 & A5); auto).
  - destruct (nth_error (b_polygons b) i) as [g|] eqn:E; [exact (Po i g E)|apply nth_error_None in E; lia].
  - destruct O as (j & g & E & J). destruct (Po j g E) as (l & L & I). pose proof L as L0. unfold polygon_lines in L0. apply bind_done in L0. destruct L0 as (g' & R & L0). apply read_some in R. rewrite E in R. injection R as <-.
    cbn zeta in L0. apply bind_done in L0. destruct L0 as (es & C & L0). destruct (each_done _ _ _ _ C J) as (y & Y). exists y. split; [exact Y|]. intros s S. apply I. injection L0 as <-.
    cbn [app In]. do 3 right. apply in_or_app. left. apply (in_collected _ _ _ _ C). eauto.
  - destruct (plane_done q) as (l & L & I). pose proof L as L0. unfold plane_lines in L0. apply bind_done in L0. destruct L0 as (ps & _ & L0). apply bind_done in L0. destruct L0 as (cs & C & _).
    apply below_seq in O. destruct (each_done _ _ _ _ C O) as (y & Y). exists y. split; [exact Y|]. intros s S. apply I, (in_plane _ _ L). do 3 right. eauto.
Qed.

(** Arrows are in the piece of some object. *)
Definition is_arrow (s : stmt) : Prop := match s with Arrow _ _ _ _ => True | _ => False end.
Lemma arrow_piece s : In s doc -> is_arrow s -> exists x l, shown b x /\ thing_lines x = Done l /\ In s l /\ match x with EPolygon _ | EEdge _ => False | _ => True end.
Proof.
  intros I A. apply in_doc in I. destruct I as [->|[->|[(p & l & L & I)|(a & l & L & I)]]]; try contradiction.
  - apply (in_plane _ _ L) in I. destruct I as [->|[->|[(i & y & J & Y & I)|(i & y & J & Y & I)]]]; try contradiction.
    + exfalso. unfold polygon_lines in Y. apply bind_done in Y. destruct Y as (g & _ & Y). cbn zeta in Y. apply bind_done in Y. destruct Y as (es & C & Y). injection Y as <-. cbn [app In] in I.
      destruct I as [<-|[<-|[<-|I]]]; try contradiction. apply in_app_or in I. destruct I as [I|[<-|[]]]; try contradiction. apply (in_collected _ _ _ _ C) in I. destruct I as (j & y & _ & Y & I).
      apply bind_done in Y. destruct Y as (e & _ & Y). injection Y as <-. cbn in I. repeat destruct I as [<-|I]; contradiction.
    + apply below_seq in J. exists (EInPolygon p i), y. repeat split; assumption.
  - apply (in_axis _ _ L) in I. destruct I as [->|[->|[(i & y & J & Y & I)|[(i & y & J & Y & I)|[(i & y & J & Y & I)|[(i & y & J & Y & I)|(i & y & J & Y & I)]]]]]]; try contradiction.
    + apply in_sorted in J. exists (EPolicy a i), y. repeat split; assumption.
    + apply below_seq in J. exists (EInterval a i), y. repeat split; assumption.
    + apply below_seq in J. exists (ELine a i), y. repeat split; assumption.
    + apply below_seq in J. exists (EColinear a i), y. repeat split; assumption.
    + apply below_seq in J. exists (EClose a i), y. repeat split; assumption.
Qed.
End Pieces.

(** ** It can be written *)

Section Ends.
Context (named : nat -> string) (srt : sort_by) (b : board) (k : links) (Pm : permutes srt) (n count : nat) (es : list (list nat)).
Context (X : valid False n count es b) (Sh : shared_out n es) (W : solved_well b).

Lemma edge_read i : i < n -> exists e, read (b_edges b) i = Done e.
Proof. intros L. apply read_lt. now rewrite (va_len _ _ _ _ _ X). Qed.
Lemma plantuml_ends : exists doc, plantuml named srt b k = Done doc.
Proof.
  assert (Pl : forall p, exists l, plane_lines named b p = Done l).
  { intros p. unfold plane_lines. destruct (collect_all (polygon_lines named b) (polygons_of b p)) as (ps & ->).
    { intros i I. apply in_polygons_of in I. destruct I as (g & E & _). unfold polygon_lines, read at 1. rewrite E. cbn [bind]. cbn zeta.
      destruct (collect_all (edge_lines b) (g_edges g)) as (r & ->); [|cbn; eauto]. intros j J. unfold edge_lines. destruct (edge_read j) as (e & ->); [|cbn; eauto].
      apply (proj2 Sh (g_edges g)); [|exact J]. rewrite <- (va_polys _ _ _ _ _ X). apply in_map. now apply nth_error_In in E. }
    cbn [bind]. destruct (collect_all (in_polygon_lines b p) (seq 0 (length (on_plane (b_eip b) p)))) as (cs & ->); [|cbn; eauto].
    intros i I. apply below_seq in I. unfold in_polygon_lines. destruct (read_lt _ _ I) as (c & R). rewrite R. cbn [bind]. apply read_some in R. destruct (va_eip _ _ _ _ _ X p c (nth_error_In _ _ R)) as [L _].
    destruct (edge_read _ L) as (e & ->). cbn. eauto. }
  assert (Ax : forall a, exists l, axis_lines srt b k a = Done l).
  { intros a. unfold axis_lines. cbn zeta. fold (less_coord b a). fold (sorted_policies srt b a). destruct (collect_all (policy_lines b k a) (sorted_policies srt b a)) as (ps & ->).
    { intros i I. apply (in_sorted srt b Pm) in I. unfold policy_lines. destruct (read_lt _ _ I) as (c & ->). cbn. eauto. }
    cbn [bind]. destruct (collect_all (interval_lines b a) (seq 0 (length (ax_segments (on_axis (b_axes b) a))))) as (is & ->).
    { intros i I. apply below_seq in I. unfold interval_lines. destruct (read_lt _ _ I) as (c & ->). cbn. eauto. }
    cbn [bind]. destruct (collect_all (meshline_lines b k a) (seq 0 (length (ax_lines (on_axis (b_axes b) a))))) as (ms & ->).
    { intros i I. apply below_seq in I. unfold meshline_lines. destruct (read_lt _ _ I) as (c & ->). cbn. eauto. }
    cbn [bind]. destruct (collect_all (colinear_lines b a) (seq 0 (length (on_axis (b_ce b) a)))) as (cs & ->).
    { intros i I. apply below_seq in I. unfold colinear_lines. destruct (read_lt _ _ I) as (c & R). rewrite R. cbn [bind]. cbn zeta. apply read_some in R. apply nth_error_In in R.
      match goal with |- context [collect ?f ?l] => destruct (collect_all f l) as (r & ->) end.
      { intros j J. destruct (edge_read j (va_ce _ _ _ _ _ X a c R j J)) as (e & ->). cbn. eauto. }
      cbn [bind]. destruct (ce_policy c) as [j|] eqn:E; [|cbn; eauto]. destruct (read_lt _ _ (W a c j R E)) as (p & ->). cbn. eauto. }
    cbn [bind]. destruct (collect_all (close_lines b a) (seq 0 (length (ax_conflicts (on_axis (b_axes b) a))))) as (ts & ->); [|cbn; eauto].
    intros i I. apply below_seq in I. unfold close_lines. destruct (read_lt _ _ I) as (c & ->). cbn. eauto. }
  unfold plantuml. destruct (collect_all (plane_lines named b) all_planes) as (ps & ->); [intros p _; apply Pl|]. cbn [bind].
  destruct (collect_all (axis_lines srt b k) all_axes) as (xs & ->); [intros p _; apply Ax|]. cbn. eauto.
Qed.

(** ** The arrows *)

Context (L : links_sound b k) (doc : list stmt) (H : plantuml named srt b k = Done doc).

Lemma edge_shown i : i < n -> shown b (EEdge i).
Proof.
  intros I. split; [|exact Logic.I]. destruct (proj1 Sh i I) as (l & J & K). rewrite <- (va_polys _ _ _ _ _ X) in J. apply in_map_iff in J. destruct J as (g & <- & J). apply In_nth_error in J. destruct J as (j & J). now exists j, g.
Qed.
Definition there_name (m : name) : Prop :=
  match m with Whole x => shown b x | Pin_name x q => shown b x /\ In q (pins_of b x) | _ => False end.
Definition right_arrow (from to : name) : Prop :=
  way_out from /\ way_in to /\ there_name from /\ there_name to /\ exists y z, end_at y from /\ end_at z to /\ drawn_from b k z y.

Lemma made_shown z y : on_board b z -> comes_from b k z y -> (forall i, z <> EEdge i) -> on_board b y.
Proof. intros O C N. apply (sound_of False n count es b Sh X k L y z O C). intros i E. destruct (N i E). Qed.

Lemma numbered_nth {A} (l : list A) x i : In (x, i) (numbered l) -> nth_error l i = Some x.
Proof.
  unfold numbered. assert (G : forall s, In (x, i) (combine l (seq s (length l))) -> s <= i /\ nth_error l (i - s) = Some x).
  { induction l as [|y r IH]; intros s; cbn; [intros []|]. intros [E|I]; [injection E as -> ->; now rewrite Nat.sub_diag|]. apply IH in I. destruct I as [Le I]. split; [lia|]. now replace (i - s) with (S (i - S s)) by lia. }
  intros I. apply G in I. destruct I as [_ I]. now rewrite Nat.sub_0_r in I.
Qed.

Lemma arrow_right from style to rest : In (Arrow from style to rest) doc -> right_arrow from to.
Proof.
  intros I. destruct (arrow_piece named srt b k Pm doc H _ I Logic.I) as (x & l & S & T & J & _). clear I. destruct x as [i|e|i|a i|q i|a i|a i|a i|a i|a i]; cbn [thing_lines] in T; try discriminate T.
  - exfalso. destruct (arrow_piece named srt b k Pm doc H (Arrow from style to rest)) as (x & l' & _ & T' & J' & N).
    + destruct (piece_in named srt b k Pm doc H (EPolygon i) S) as (l0 & T0 & I0). cbn in T0. rewrite T in T0. injection T0 as <-. now apply I0.
    + exact Logic.I.
    + unfold polygon_lines in T. apply bind_done in T. destruct T as (g & _ & Y). cbn zeta in Y. apply bind_done in Y. destruct Y as (cs & C & Y). injection Y as <-. cbn [app In] in J.
      destruct J as [E|[E|[E|J]]]; try discriminate. apply in_app_or in J. destruct J as [J|[E|[]]]; try discriminate. apply (in_collected _ _ _ _ C) in J. destruct J as (j & y & _ & Y & J).
      apply bind_done in Y. destruct Y as (e & _ & Y). injection Y as <-. cbn in J. repeat destruct J as [E|J]; try discriminate; contradiction.
  - exfalso. apply bind_done in T. destruct T as (e' & _ & Y). injection Y as <-. cbn in J. repeat destruct J as [E|J]; try discriminate; contradiction.
  - unfold colinear_lines in T. apply bind_done in T. destruct T as (c & R & T). apply read_some in R. cbn zeta in T. apply bind_done in T. destruct T as (cs & C & T). apply bind_done in T. destruct T as (so & So & T). injection T as <-.
    cbn [app In] in J. destruct J as [E|[E|[E|J]]]; try discriminate. rewrite !in_app_iff in J. destruct J as [J|[J|[E|[]]]]; try discriminate.
    + apply (in_collected _ _ _ _ C) in J. destruct J as (j & y & Ij & Y & J). apply bind_done in Y. destruct Y as (e & _ & Y). injection Y as <-. destruct J as [E|[E|[]]]; [discriminate|]. injection E as <- <- <- <-.
      assert (Cf : comes_from b k (EColinear a i) (EEdge j)) by (eapply colinear_from_edge; eassumption).
      split; [exact Logic.I|split; [exact Logic.I|split; [|split]]].
      * split; [|exact Logic.I]. apply (made_shown _ _ (proj1 S) Cf). discriminate.
      * split; [exact S|cbn; tauto].
      * exists (EEdge j), (EColinear a i). split; [now left|split; [right; eauto|]]. apply drawn_made; [exact Cf|exact Logic.I|left; exact Logic.I].
    + destruct (ce_policy c) as [j|] eqn:E; [|injection So as <-; destruct J]. apply bind_done in So. destruct So as (p & Rp & So). apply read_some in Rp. injection So as <-. destruct J as [Q|[Q|[Q|[]]]]; try discriminate. injection Q as <- <- <- <-.
      split; [exact Logic.I|split; [exact Logic.I|split; [|split]]].
      * split; [exact S|cbn; tauto].
      * split; [split; [now apply nth_lt in Rp|exact Logic.I]|cbn; tauto].
      * exists (EColinear a i), (EPolicy a j). split; [right; eauto|split; [right; eauto|]]. eapply drawn_colinear; eassumption.
  - unfold in_polygon_lines in T. apply bind_done in T. destruct T as (c & R & T). apply read_some in R. apply bind_done in T. destruct T as (e & Re & T). cbn zeta in T. injection T as <-.
    destruct (va_eip _ _ _ _ _ X q c (nth_error_In _ _ R)) as [Le Lo]. cbn [app In] in J. destruct J as [E|[E|[E|[E|J]]]]; try discriminate.
    + injection E as <- <- <- <-. split; [exact Logic.I|split; [exact Logic.I|split; [now apply edge_shown|split; [exact S|]]]].
      exists (EEdge (ei_edge c)), (EInPolygon q i). split; [now left|split; [now left|]]. apply drawn_made; [now apply in_polygon_from_edge|exact Logic.I|left; exact Logic.I].
    + injection E as <- <- <- <-. split; [exact Logic.I|split; [exact Logic.I|split; [|split; [now apply edge_shown|]]]].
      * split; [exact S|]. cbn. rewrite R. now left.
      * exists (EInPolygon q i), (EEdge (ei_edge c)). split; [right; eauto|split; [now left|]]. now apply drawn_back.
    + apply in_app_or in J. destruct J as [J|[E|[]]]; [|discriminate]. apply in_flat_map in J. destruct J as ((o & m) & O & J). apply numbered_nth in O. pose proof (nth_error_In _ _ O) as Io. destruct (Lo o Io) as [Lp Lj].
      assert (Pi : In (Input_no m) (pins_of b (EInPolygon q i))) by (cbn; rewrite R; right; apply in_map, below_seq; now apply nth_lt in O).
      cbn [app In fst snd] in J. destruct J as [E|[E|J]]; [discriminate| |].
      * injection E as <- <- <- <-. assert (Cf : comes_from b k (EInPolygon q i) (EPolygon (ov_polygon o))) by (eapply in_polygon_from_polygon; eassumption).
        split; [exact Logic.I|split; [exact Logic.I|split; [|split; [split; [exact S|exact Pi]|]]]].
        -- split; [|cbn; tauto]. split; [|exact Logic.I]. apply (made_shown _ _ (proj1 S) Cf). discriminate.
        -- exists (EPolygon (ov_polygon o)), (EInPolygon q i). split; [right; eauto|split; [right; eauto|]]. apply drawn_made; [exact Cf|exact Logic.I|left; exact Logic.I].
      * apply in_map_iff in J. destruct J as (j & E & J). apply in_maybe in J. injection E as <- <- <- <-. split; [exact Logic.I|split; [exact Logic.I|split; [apply edge_shown, Lj, J|split; [split; [exact S|exact Pi]|]]]].
        exists (EEdge j), (EInPolygon q i). split; [now left|split; [right; eauto|]]. eapply drawn_overlap; eassumption.
  - unfold close_lines in T. apply bind_done in T. destruct T as (c & R & T). apply read_some in R. cbn zeta in T. injection T as <-. cbn [app map In] in J.
    assert (Cf : forall j, j = tc_a c \/ j = tc_b c -> from = Pin_name (EPolicy a j) Output -> to = Pin_name (EClose a i) Input -> right_arrow from to).
    { intros j Ij -> ->. assert (Cf : comes_from b k (EClose a i) (EPolicy a j)) by (eapply close_from_policy; eassumption).
      split; [exact Logic.I|split; [exact Logic.I|split; [|split]]].
      - split; [|cbn; tauto]. split; [|exact Logic.I]. apply (made_shown _ _ (proj1 S) Cf). discriminate.
      - split; [exact S|cbn; tauto].
      - exists (EPolicy a j), (EClose a i). split; [right; eauto|split; [right; eauto|]]. apply drawn_made; [exact Cf|exact Logic.I|left; exact Logic.I]. }
    destruct J as [E|[E|[E|[E|[E|J]]]]]; try discriminate.
    + injection E as <- <- <- <-. now apply (Cf (tc_a c)); auto.
    + injection E as <- <- <- <-. now apply (Cf (tc_b c)); auto.
    + apply in_app_or in J. destruct J as [J|[E|[]]]; [|discriminate]. apply in_map_iff in J. destruct J as (j & E & J). apply in_maybe in J. injection E as <- <- <- <-.
      split; [exact Logic.I|split; [exact Logic.I|split; [|split]]].
      * split; [exact S|cbn; tauto].
      * split; [split; [|exact Logic.I]|cbn; tauto]. destruct (va_axes _ _ _ _ _ X a) as [[_ G] _]. exact (proj2 (G c (nth_error_In _ _ R)) j J).
      * exists (EClose a i), (EPolicy a j). split; [right; eauto|split; [right; eauto|]]. eapply drawn_close; eassumption.
  - unfold policy_lines in T. apply bind_done in T. destruct T as (c & R & T). apply read_some in R. cbn zeta in T. injection T as <-. cbn [app In] in J. destruct J as [E|[E|[E|[E|[E|[E|[E|J]]]]]]]; try discriminate.
    apply in_app_or in J. destruct J as [J|[E|[]]]; [|discriminate]. destruct (lk_origins k a i) as [|[j|j|j|c' j|c' j|c' j|c' j|c' j|c' j|c' j] [|]] eqn:Eo; try (destruct J). 2:{ destruct H0. }
    injection H0 as <- <- <- <-. split; [exact Logic.I|split; [exact Logic.I|split; [|split]]].
    + split; [|exact Logic.I]. destruct L as (L1 & _). apply (L1 a i); [exact (proj1 S)|rewrite Eo; now left].
    + split; [exact S|cbn; tauto].
    + exists (EEdge j), (EPolicy a i). split; [now left|split; [right; eauto|]]. eapply drawn_origin; eassumption.
  - unfold interval_lines in T. apply bind_done in T. destruct T as (c & R & T). apply read_some in R. cbn zeta in T. injection T as <-. cbn [In] in J.
    assert (Cf : forall j m, j = sg_before c \/ j = sg_after c -> m = 1 \/ m = 2 -> from = Pin_name (EPolicy a j) Output -> to = Pin_name (EInterval a i) (Input_no m) -> right_arrow from to).
    { intros j m Ij Im -> ->. assert (Cf : comes_from b k (EInterval a i) (EPolicy a j)) by (eapply interval_from_policy; eassumption).
      split; [exact Logic.I|split; [exact Logic.I|split; [|split]]].
      - split; [|cbn; tauto]. split; [|exact Logic.I]. apply (made_shown _ _ (proj1 S) Cf). discriminate.
      - split; [exact S|]. cbn. destruct Im as [->| ->]; tauto.
      - exists (EPolicy a j), (EInterval a i). split; [right; eauto|split; [right; eauto|]]. apply drawn_made; [exact Cf|exact Logic.I|right; exact Logic.I]. }
    repeat destruct J as [E|J]; try discriminate; try contradiction; injection E as <- <- <- <-; [apply (Cf (sg_before c) 1)|apply (Cf (sg_after c) 2)]; auto.
  - unfold meshline_lines in T. apply bind_done in T. destruct T as (c & R & T). apply read_some in R. cbn zeta in T. injection T as <-. cbn [app In] in J. destruct J as [E|[E|J]]; try discriminate.
    assert (Cf : forall y, comes_from b k (ELine a i) y -> shown_kind y -> In Output (pins_of b y) -> from = Pin_name y Output -> to = Whole (ELine a i) -> right_arrow from to).
    { intros y Cf K P -> ->. split; [exact Logic.I|split; [exact Logic.I|split; [|split; [exact S|]]]].
      - split; [|exact P]. split; [|exact K]. apply (made_shown _ _ (proj1 S) Cf). discriminate.
      - exists y, (ELine a i). split; [right; eauto|split; [now left|]]. apply drawn_made; [exact Cf|exact K|right; exact Logic.I]. }
    rewrite !in_app_iff, !in_map_iff in J. destruct J as [(j & E & J)|[(j & E & J)|[E|[]]]]; try discriminate; apply in_maybe in J; injection E as <- <- <- <-.
    + apply (Cf (EInterval a j)); [eapply line_from_interval; eassumption|exact Logic.I|cbn; tauto|reflexivity..].
    + apply (Cf (EPolicy a j)); [eapply line_from_policy; eassumption|exact Logic.I|cbn; tauto|reflexivity..].
Qed.

Lemma in_numbered {A} (l : list A) x i : nth_error l i = Some x -> In (x, i) (numbered l).
Proof.
  unfold numbered. assert (G : forall s i, nth_error l i = Some x -> In (x, s + i) (combine l (seq s (length l)))).
  { induction l as [|y r IH]; intros s [|j] E; cbn in *; try discriminate; [injection E as ->; left; f_equal; lia|]. right. replace (s + S j) with (S s + j) by lia. now apply IH. }
  intros E. exact (G 0 i E).
Qed.
Lemma in_piece x l s : shown b x -> thing_lines named b k x = Done l -> In s l -> In s doc.
Proof. intros Sx T I. destruct (piece_in named srt b k Pm doc H x Sx) as (l' & T' & J). rewrite T in T'. injection T' as <-. now apply J. Qed.
Lemma piece_there x : shown b x -> exists l, thing_lines named b k x = Done l /\ incl l doc.
Proof. apply (piece_in named srt b k Pm doc H). Qed.

Lemma drawn_arrow z y : drawn_from b k z y -> arrow doc y z.
Proof.
  intros D. assert (Mk : forall x l from style to rest, thing_lines named b k x = Done l -> incl l doc -> In (Arrow from style to rest) l -> end_at y from -> end_at z to -> arrow doc y z)
    by (intros x l from style to rest _ I J F T; exists from, style, to, rest; auto).
  assert (On : forall x, on_board b x -> shown_kind x -> shown b x) by (intros; split; assumption).
  destruct D as [z y C K N|p i c o j E Io Ej|p i c E|a i c j E Ej|a i c j E Ej|a i p j E Eo].
  - destruct C as [i e c E Ej|i a j E Ij|a i c j E Ij|p i c E|p i c o E Io|a i c j E Ij|a i d j E Ij|a i p x E Io|a i s j E Ij|a i s j E Ij|a i x j E Ej|a i x j E Ej]; try (destruct N as [N|N]; contradiction); try contradiction.
    + destruct (piece_there (EColinear a i)) as (l & T & I); [apply On; [now apply nth_lt in E|exact Logic.I]|]. eapply Mk; [exact T|exact I| |left; reflexivity|right; eauto].
      cbn in T. unfold colinear_lines, read at 1 in T. rewrite E in T. cbn [bind] in T. cbn zeta in T. apply bind_done in T. destruct T as (cs & C & T). apply bind_done in T. destruct T as (so & _ & T). injection T as <-.
      cbn [app In]. do 3 right. apply in_or_app. left. apply (in_collected _ _ _ _ C). exists j. destruct (each_done _ _ _ _ C Ij) as (y & Y). exists y. split; [exact Ij|split; [exact Y|]]. apply bind_done in Y. destruct Y as (e & _ & Y). injection Y as <-. right. left. reflexivity.
    + destruct (piece_there (EInPolygon p i)) as (l & T & I); [apply On; [now apply nth_lt in E|exact Logic.I]|]. eapply Mk; [exact T|exact I| |left; reflexivity|left; reflexivity].
      cbn in T. unfold in_polygon_lines, read at 1 in T. unfold eip_at in E. rewrite E in T. cbn [bind] in T. apply bind_done in T. destruct T as (e & _ & T). injection T as <-. do 2 right. left. reflexivity.
    + destruct (piece_there (EInPolygon p i)) as (l & T & I); [apply On; [now apply nth_lt in E|exact Logic.I]|]. apply In_nth_error in Io. destruct Io as (m & Em). apply in_numbered in Em.
      eapply Mk; [exact T|exact I| |right; eauto|right; exists (Input_no m); reflexivity].
      cbn in T. unfold in_polygon_lines, read at 1 in T. unfold eip_at in E. rewrite E in T. cbn [bind] in T. apply bind_done in T. destruct T as (e & _ & T). injection T as <-. cbn [app In]. do 4 right. apply in_or_app. left.
      apply in_flat_map. exists (o, m). split; [exact Em|]. right. left. reflexivity.
    + destruct (piece_there (EClose a i)) as (l & T & I); [apply On; [now apply nth_lt in E|exact Logic.I]|]. eapply Mk; [exact T|exact I| |right; eauto|right; eauto].
      cbn in T. unfold close_lines, read at 1 in T. rewrite E in T. cbn [bind] in T. cbn zeta in T. injection T as <-. cbn [app In map]. destruct Ij as [->| ->]; [do 3 right; left; reflexivity|do 4 right; left; reflexivity].
    + destruct (piece_there (EInterval a i)) as (l & T & I); [apply On; [now apply nth_lt in E|exact Logic.I]|].
      cbn in T. unfold interval_lines, read at 1 in T. rewrite E in T. cbn [bind] in T. cbn zeta in T. injection T as <-. destruct Ij as [->| ->].
      * eapply (Mk (EInterval a i)); [cbn; unfold interval_lines, read; rewrite E; reflexivity|exact I|do 9 right; left; reflexivity|right; eauto|right; eauto].
      * eapply (Mk (EInterval a i)); [cbn; unfold interval_lines, read; rewrite E; reflexivity|exact I|do 10 right; left; reflexivity|right; eauto|right; eauto].
    + destruct (piece_there (ELine a i)) as (l & T & I); [apply On; [now apply nth_lt in E|exact Logic.I]|]. eapply Mk; [exact T|exact I| |right; eauto|left; reflexivity].
      cbn in T. unfold meshline_lines, read at 1 in T. rewrite E in T. cbn [bind] in T. cbn zeta in T. injection T as <-. rewrite Ej. cbn [app In map maybe]. do 2 right. left. reflexivity.
    + destruct (piece_there (ELine a i)) as (l & T & I); [apply On; [now apply nth_lt in E|exact Logic.I]|]. eapply Mk; [exact T|exact I| |right; eauto|left; reflexivity].
      cbn in T. unfold meshline_lines, read at 1 in T. rewrite E in T. cbn [bind] in T. cbn zeta in T. injection T as <-. rewrite Ej. cbn [app In]. do 2 right. apply in_or_app. right. left. reflexivity.
  - destruct (piece_there (EInPolygon p i)) as (l & T & I); [apply On; [now apply nth_lt in E|exact Logic.I]|]. apply In_nth_error in Io. destruct Io as (m & Em). apply in_numbered in Em.
    eapply Mk; [exact T|exact I| |left; reflexivity|right; exists (Input_no m); reflexivity].
    cbn in T. unfold in_polygon_lines, read at 1 in T. unfold eip_at in E. rewrite E in T. cbn [bind] in T. apply bind_done in T. destruct T as (e & _ & T). injection T as <-. cbn [app In]. do 4 right. apply in_or_app. left.
    apply in_flat_map. exists (o, m). split; [exact Em|]. cbn [fst snd app In]. rewrite Ej. right. right. left. reflexivity.
  - destruct (piece_there (EInPolygon p i)) as (l & T & I); [apply On; [now apply nth_lt in E|exact Logic.I]|]. pose proof T as T0.
    cbn in T. unfold in_polygon_lines, read at 1 in T. unfold eip_at in E. rewrite E in T. cbn [bind] in T. apply bind_done in T. destruct T as (e & _ & T). injection T as <-.
    eapply Mk; [exact T0|exact I|do 3 right; left; reflexivity|right; eauto|left; reflexivity].
  - destruct (piece_there (EColinear a i)) as (l & T & I); [apply On; [now apply nth_lt in E|exact Logic.I]|]. eapply Mk; [exact T|exact I| |right; eauto|right; eauto].
    cbn in T. unfold colinear_lines, read at 1 in T. rewrite E in T. cbn [bind] in T. cbn zeta in T. apply bind_done in T. destruct T as (cs & C & T). apply bind_done in T. destruct T as (so & So & T). injection T as <-.
    rewrite Ej in So. apply bind_done in So. destruct So as (p & _ & So). injection So as <-. cbn [app In]. do 3 right. apply in_or_app. right. do 2 right. left. reflexivity.
  - destruct (piece_there (EClose a i)) as (l & T & I); [apply On; [now apply nth_lt in E|exact Logic.I]|]. eapply Mk; [exact T|exact I| |right; eauto|right; eauto].
    cbn in T. unfold close_lines, read at 1 in T. rewrite E in T. cbn [bind] in T. cbn zeta in T. injection T as <-. rewrite Ej. do 5 right. left. reflexivity.
  - destruct (piece_there (EPolicy a i)) as (l & T & I); [apply On; [now apply nth_lt in E|exact Logic.I]|]. eapply Mk; [exact T|exact I| |left; reflexivity|right; eauto].
    cbn in T. unfold policy_lines, read at 1 in T. unfold policy_at in E. rewrite E in T. cbn [bind] in T. cbn zeta in T. injection T as <-. rewrite Eo. do 7 right. left. reflexivity.
Qed.
End Ends.
