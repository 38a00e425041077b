(** Edges turned around because of the material they face. *)
From Coq Require Import List Arith Bool Lia QArith Qabs Lqa Sorting.Permutation.
From Verif Require Import IntervalModel IntervalProofs ManagerModel ManagerProofs GeomModel GeomSpec GeomProofs.
From Verif Require Import BoardModel BoardSpec BoardProofs BoardColinearProofs BoardCoverProofs BoardDetectProofs BoardBuiltProofs.
Import ListNotations.
Open Scope Q_scope.

Lemma in_seg_bounding s q : in_box (seg_bounding s) q <->
  ((px (s0 s) <= px q <= px (s1 s) \/ px (s1 s) <= px q <= px (s0 s)) /\ (py (s0 s) <= py q <= py (s1 s) \/ py (s1 s) <= py q <= py (s0 s))).
Proof.
  unfold in_box, seg_bounding. cbn [xmin xmax ymin ymax].
  destruct (Qltb_spec (px (s0 s)) (px (s1 s))), (Qltb_spec (px (s1 s)) (px (s0 s))), (Qltb_spec (py (s0 s)) (py (s1 s))), (Qltb_spec (py (s1 s)) (py (s0 s)));
    try lra; (split; [intros H|intros [[H|H] [K|K]]]); try lra; try (split; [|]); try (left; lra); try (right; lra).
Qed.

Lemma ambient_wd b p s s' c x : same_pt (s0 s) (s0 s') -> same_pt (s1 s) (s1 s') -> ambient b p s c x -> ambient b p s' c x.
Proof.
  intros [X0 Y0] [X1 Y1] (i & g & G & P & M & Pr & C & q & Q1 & Q2). exists i, g. do 5 (split; [assumption|]).
  exists q. split; [assumption|]. rewrite in_seg_bounding in *. rewrite X0, Y0, X1, Y1 in Q2. exact Q2.
Qed.

Lemma same_pt_sym p q : same_pt p q -> same_pt q p.
Proof. intros [H K]. split; now symmetry. Qed.

(** What adjust_edge compares. *)
Definition needed (srt : sort_by) (b : board) (p : Plane) (k : nat) (g : polygon) (e : edge) : bool :=
  match outer_material srt b p (k, g) e, g_material g with
  | Done (Some o, _), Some m => mat_gtb o m
  | _, _ => false
  end.

Lemma outer_spec srt b p k g e m n : sorts_by srt -> g_plane g = p -> outer_material srt b p (k, g) e = Done (m, n) ->
  (e_normal e = Nnone /\ m = None) \/
  (e_normal e <> Nnone /\ forall o, m = Some o <-> material_beyond b k g e o).
Proof.
  intros So P E. unfold outer_material in E.
  assert (K : forall s, same_pt (s0 s) (s0 (beyond e)) -> same_pt (s1 s) (s1 (beyond e)) -> find_ambient srt b p s (Some (k, g)) = (m, n) ->
    forall o, m = Some o <-> material_beyond b k g e o).
  { intros s E0 E1 F o. apply (find_ambient_spec _ _ _ _ _ _ _ So) in F.
    assert (W : forall x, ambient b p s (Some (k, g)) x <-> ambient b (g_plane g) (beyond e) (Some (k, g)) x).
    { intros x. rewrite P. split; apply ambient_wd; try assumption; now apply same_pt_sym. }
    destruct F as [(No & -> & _)|(k0 & -> & Am & Top)]; split; intros H.
    - right. split; [intros x X; now apply (No x), W|assumption].
    - destruct H as [(x & X & _)|[_ H]]; [exfalso; now apply (No x), W|assumption].
    - injection H as ->. left. exists (o, n). split; [now apply W|]. split; [reflexivity|]. intros y Y. now apply Top, W.
    - f_equal. destruct H as [(x & X & <- & T)|[No _]]; [|exfalso; now apply (No (k0, n)), W].
      pose proof (Top x (proj2 (W x) X)) as A. pose proof (T (k0, n) (proj1 (W _) Am)) as B. unfold above in A, B. cbn in A, B.
      assert (rank k0 = rank (fst x)) as R by lia. destruct k0, (fst x); cbn in R; congruence || discriminate. }
  assert (K' : forall s, same_pt (s0 s) (s0 (beyond e)) /\ same_pt (s1 s) (s1 (beyond e)) -> Done (find_ambient srt b p s (Some (k, g))) = Done (m, n) ->
    forall o, m = Some o <-> material_beyond b k g e o).
  { intros s [E0 E1] F. injection F as F. now apply (K s). } clear K.
  destruct (e_normal e) eqn:N; try discriminate; [..|left; split; [reflexivity|congruence]]; right; (split; [discriminate|]); eapply K'; try exact E;
    unfold same_pt, beyond, moved, pt_sub, pt_add; rewrite N; cbn; repeat split; ring.
Qed.

Lemma needed_spec srt b p k g i e : sorts_by srt -> nth_error (b_polygons b) k = Some g -> g_plane g = p -> In i (g_edges g) ->
  needed srt b p k g e = true -> outranked b p i e.
Proof.
  intros So G P I N. unfold needed in N. destruct (outer_material srt b p (k, g) e) as [[[o|] n]| |] eqn:E; try discriminate.
  destruct (g_material g) as [m|] eqn:M; [|discriminate]. destruct (outer_spec _ _ _ _ _ _ _ _ So P E) as [[_ K]|[Nn K]]; [discriminate|].
  exists k, g, m, o. do 5 (split; [assumption|]). split; [now apply K|]. now apply mat_gtb_rank.
Qed.

Lemma needed_complete srt b p k g e m o m' n : sorts_by srt -> g_plane g = p -> e_normal e <> Nnone -> g_material g = Some m ->
  material_beyond b k g e o -> (rank m < rank o)%nat -> outer_material srt b p (k, g) e = Done (m', n) -> needed srt b p k g e = true.
Proof.
  intros So P Nn M B R E. unfold needed. rewrite E. destruct (outer_spec _ _ _ _ _ _ _ _ So P E) as [[K _]|[_ K]]; [contradiction|].
  rewrite (proj2 (K o) B), M. now apply mat_gtb_rank.
Qed.

Lemma outer_same srt b b' p g e e' : b_polygons b' = b_polygons b -> b_background b' = b_background b -> without_reverse e' = without_reverse e ->
  outer_material srt b' p g e' = outer_material srt b p g e.
Proof.
  intros P B W. injection W as W1 W2 W3 _ _ _ _. unfold outer_material, find_ambient. now rewrite P, B, W2, W3.
Qed.

Record adjusted (srt : sort_by) (p : Plane) (b : board) (D : nat -> nat -> Prop) (b' : board) : Prop := {
  ad_same : same_but_reverse b b';
  ad_turned : forall i e e', edge_at b i e -> edge_at b' i e' ->
    (e_to_reverse e' = true <-> e_to_reverse e = true
       \/ exists k g, D k i /\ nth_error (b_polygons b) k = Some g /\ needed srt b p k g e = true);
}.

Lemma same_reverse_edge b b' i e : same_but_reverse b b' -> edge_at b i e -> exists e', edge_at b' i e' /\ without_reverse e' = without_reverse e.
Proof. intros [M _] E. exact (map_at _ _ _ _ _ M E). Qed.
Lemma same_reverse_edge' b b' i e' : same_but_reverse b b' -> edge_at b' i e' -> exists e, edge_at b i e /\ without_reverse e' = without_reverse e.
Proof. intros [M _] E. symmetry in M. destruct (map_at _ _ _ _ _ M E) as (e & E1 & E2). exists e. split; [assumption|now symmetry]. Qed.

(** When the comparison of an edge reads a pointer to nothing. *)
Definition bad_edge (srt : sort_by) (b : board) (p : Plane) (k : nat) (g : polygon) (e : edge) : Prop :=
  e_normal e = Nzmin \/ e_normal e = Nzmax
  \/ exists o n, outer_material srt b p (k, g) e = Done (Some o, n) /\ g_material g = None.

Lemma adjust_edge_spec srt p b D b' k g i e : adjusted srt p b D b' -> nth_error (b_polygons b) k = Some g -> edge_at b i e ->
  match adjust_edge srt p (k, g) b' i with
  | Done b'' => ~ bad_edge srt b p k g e /\ adjusted srt p b (fun k' i' => D k' i' \/ (k' = k /\ i' = i)) b''
  | Dangling => bad_edge srt b p k g e
  | Running => False
  end.
Proof.
  intros [S T] G Ei. destruct (same_reverse_edge _ _ _ _ S Ei) as (e' & Ei' & W). unfold adjust_edge, read. unfold edge_at in Ei'. rewrite Ei'. cbn [bind].
  pose proof S as (_ & SP & _ & SB & _). rewrite (outer_same srt b b' p (k, g) e e' SP SB W).
  assert (Stay : needed srt b p k g e = false -> adjusted srt p b (fun k' i' => D k' i' \/ (k' = k /\ i' = i)) b').
  { intros N. constructor; [assumption|]. intros j f f' Ej Ej'. rewrite (T j f f' Ej Ej'). split; (intros [H|H]; [now left|right]).
    - destruct H as (k' & g' & H & G' & N'). exists k', g'. split; [now left|]. now split.
    - destruct H as (k' & g' & [H|[-> ->]] & G' & N').
      + exists k', g'. now repeat split.
      + assert (g' = g) as -> by congruence. assert (f = e) as -> by (unfold edge_at in *; congruence). congruence. }
  unfold needed in *. destruct (outer_material srt b p (k, g) e) as [[m n]| |] eqn:O; cbn [bind fst].
  - assert (NB : forall o, m = Some o -> g_material g <> None -> ~ bad_edge srt b p k g e).
    { intros o -> M [N|[N|(o' & n' & _ & K)]]; [unfold outer_material in O; rewrite N in O; discriminate..|contradiction]. }
    destruct m as [o|].
    + cbn [snd]. destruct (g_material g) as [m|] eqn:M.
      * assert (~ bad_edge srt b p k g e) as B by (now apply (NB o)). clear NB. destruct (mat_gtb o m) eqn:R.
        -- destruct (update_edge_spec b' i e' set_to_reverse Ei') as (l & -> & Len & At & Ot). split; [assumption|].
           assert (forall j f', edge_at (set_edges b' l) j f' -> (j = i /\ f' = set_to_reverse e') \/ (j <> i /\ edge_at b' j f')) as Cases.
           { intros j f' H. unfold edge_at in *. cbn in H. destruct (Nat.eq_dec j i) as [->|N]; [left; split; congruence|right].
             rewrite Ot in H by assumption. now split. }
           constructor.
           ++ destruct S as (S1 & S2 & S3 & S4 & S5 & S6 & S7 & S8). split; [|now repeat split]. cbn. rewrite <- S1.
              apply (map_write without_reverse (b_edges b') l i e' (set_to_reverse e')); try assumption. reflexivity.
           ++ intros j f f' Ej Ej'. destruct (Cases _ _ Ej') as [[-> ->]|[N Ej2]].
              ** assert (f = e) as -> by (unfold edge_at in *; congruence). cbn. split; [|reflexivity]. intros _. right. exists k, g.
                 split; [now right|]. split; [assumption|]. unfold needed. now rewrite O, M.
              ** rewrite (T j f f' Ej Ej2). split; (intros [H|(k' & g' & H & R')]; [now left|right; exists k', g'; split; [|assumption]]); [now left|].
                 destruct H as [H|[_ H]]; [assumption|congruence].
        -- split; [assumption|]. apply Stay. reflexivity.
      * right. right. exists o, n. now split.
    + split; [|now apply Stay]. intros [N|[N|(o' & n' & K & _)]]; [unfold outer_material in O; rewrite N in O; discriminate..|congruence].
  - unfold outer_material in O. destruct (e_normal e) eqn:N; try discriminate.
  - unfold outer_material in O. destruct (e_normal e) eqn:N; try discriminate; unfold bad_edge; rewrite N; tauto.
Qed.

Lemma adjusted_iff srt p b D D' b' : (forall k i, D k i <-> D' k i) -> adjusted srt p b D b' -> adjusted srt p b D' b'.
Proof.
  intros H [S T]. constructor; [assumption|]. intros i e e' E E'. rewrite (T i e e' E E').
  split; (intros [K|(k & g & K & R)]; [now left|right; exists k, g; split; [now apply H|assumption]]).
Qed.

Lemma adjusted_start srt p b : adjusted srt p b (fun _ _ => False) b.
Proof.
  constructor; [now repeat split|]. intros i e e' E E'. assert (e' = e) as -> by (unfold edge_at in *; congruence).
  split; [now left|]. intros [H|(k & g & [] & _)]. assumption.
Qed.

Definition own (b : board) (ks : list nat) (k i : nat) : Prop := In k ks /\ exists g, nth_error (b_polygons b) k = Some g /\ In i (g_edges g).

Lemma adjust_done srt p b b' : edges_in_place b -> adjust_edges_to_materials srt b p = Done b' ->
  adjusted srt p b (own b (polygons_of b p)) b'
  /\ (forall k g i e, nth_error (b_polygons b) k = Some g -> g_plane g = p -> In i (g_edges g) -> edge_at b i e -> ~ bad_edge srt b p k g e).
Proof.
  intros Pl E. unfold adjust_edges_to_materials in E.
  pose proof (for_each_done (fun b j => let! g := read (b_polygons b) j in for_each (adjust_edge srt p (j, g)) (g_edges g) b) (fun done b1 => adjusted srt p b (own b done) b1 /\
    (forall k g i e, In k done -> nth_error (b_polygons b) k = Some g -> In i (g_edges g) -> edge_at b i e -> ~ bad_edge srt b p k g e))
    (polygons_of b p) b b') as H.
  destruct H as [H1 H2]; [..|split; [assumption|]].
  - split; [|now intros k g i e []]. eapply adjusted_iff; [|apply adjusted_start]. intros k i. split; [intros []|intros [[] _]].
  - intros done k rest b1 b2 EL [A B] F. pose proof A as [(_ & SP & _) _]. unfold read in F. rewrite SP in F.
    destruct (nth_error (b_polygons b) k) as [g|] eqn:G; [|discriminate]. cbn [bind] in F.
    pose proof (for_each_done (adjust_edge srt p (k, g)) (fun d b3 => adjusted srt p b (fun k' i' => own b done k' i' \/ (k' = k /\ In i' d)) b3 /\
      (forall i e, In i d -> edge_at b i e -> ~ bad_edge srt b p k g e)) (g_edges g) b1 b2) as H.
    destruct H as [H1 H2]; [..|exact F|split].
    + split; [|now intros i e []]. eapply adjusted_iff; [|exact A]. intros k' i'. cbn. tauto.
    + intros d i rest' b3 b4 EL' [A' B'] F'. assert (In i (g_edges g)) as I by (rewrite EL'; apply in_or_app; right; now left).
      destruct (Pl k g G i I) as (e & Ee & _). pose proof (adjust_edge_spec srt p b _ b3 k g i e A' G Ee) as K. rewrite F' in K. destruct K as [K1 K2]. split.
      * eapply adjusted_iff; [|exact K2]. intros k' i'. cbn. rewrite in_app_iff. cbn. intuition congruence.
      * intros j f J Ej. apply in_app_or in J. destruct J as [J|[<-|[]]]; [now apply (B' j)|]. assert (f = e) as -> by (unfold edge_at in *; congruence). assumption.
    + eapply adjusted_iff; [|exact H1]. intros k' i'. unfold own. rewrite in_app_iff. cbn. split.
      * intros [[K1 K2]|[-> K]]; [tauto|]. split; [tauto|]. now exists g.
      * intros [[K1|[<-|[]]] K2]; [now left; split|]. right. split; [reflexivity|]. destruct K2 as (g' & G' & K2). congruence.
    + intros k' g' i e K G' I Ee. apply in_app_or in K. destruct K as [K|[<-|[]]]; [now apply (B k' g' i e)|].
      assert (g' = g) as -> by congruence. now apply (H2 i e).
  - exact E.
  - intros k g i e G P. apply H2; [|assumption]. apply polygons_of_in. now exists g.
Qed.

Lemma adjust_ends srt p b : edges_in_place b ->
  (forall k g i e, nth_error (b_polygons b) k = Some g -> g_plane g = p -> In i (g_edges g) -> edge_at b i e -> ~ bad_edge srt b p k g e) ->
  exists b', adjust_edges_to_materials srt b p = Done b'.
Proof.
  intros Pl Ok. unfold adjust_edges_to_materials.
  destruct (for_each_inv (fun b j => let! g := read (b_polygons b) j in for_each (adjust_edge srt p (j, g)) (g_edges g) b)
    (fun done b1 => exists D, adjusted srt p b D b1) (polygons_of b p) b) as (b' & E & _); [| |eauto].
  - eexists. apply adjusted_start.
  - intros done k rest b1 EL (D & A). assert (In k (polygons_of b p)) as K by (rewrite EL; apply in_or_app; right; now left).
    apply polygons_of_in in K. destruct K as (g & G & P). pose proof A as [(_ & SP & _) _]. unfold read. rewrite SP, G. cbn [bind].
    apply (for_each_inv (adjust_edge srt p (k, g)) (fun _ b3 => exists D, adjusted srt p b D b3)); [now exists D|].
    intros d i rest' b3 EL' (D' & A'). assert (In i (g_edges g)) as I by (rewrite EL'; apply in_or_app; right; now left).
    destruct (Pl k g G i I) as (e & Ee & _). pose proof (adjust_edge_spec srt p b _ b3 k g i e A' G Ee) as Q.
    destruct (adjust_edge srt p (k, g) b3 i) as [b4| |]; [|contradiction|].
    + exists b4. split; [reflexivity|]. eexists. apply Q.
    + exfalso. now apply (Ok k g i e).
Qed.

Lemma adjust_outranked srt p b b' : sorts_by srt -> edges_in_place b -> adjust_edges_to_materials srt b p = Done b' ->
  same_but_reverse b b' /\ forall i e e', edge_at b i e -> edge_at b' i e' -> (e_to_reverse e' = true <-> e_to_reverse e = true \/ outranked b p i e).
Proof.
  intros So Pl E. destruct (adjust_done srt p b b' Pl E) as [[S T] Ok]. split; [assumption|]. intros i e e' Ei Ei'. rewrite (T i e e' Ei Ei').
  split; (intros [H|H]; [now left|right]).
  - destruct H as (k & g & [K (g' & G' & I)] & G & N). assert (g' = g) as -> by congruence. apply polygons_of_in in K. destruct K as (g'' & G'' & P).
    assert (g'' = g) as -> by congruence. now apply (needed_spec srt b p k g).
  - destruct H as (k & g & m & o & G & P & I & Nn & M & B & R). exists k, g. split; [|split; [assumption|]].
    + split; [apply polygons_of_in; now exists g|now exists g].
    + destruct (outer_material srt b p (k, g) e) as [[m' n]| |] eqn:O; [now apply (needed_complete srt b p k g e m o m' n)|exfalso..].
      * unfold outer_material in O. destruct (e_normal e); discriminate.
      * apply (Ok k g i e G P I Ei). unfold outer_material in O. unfold bad_edge. destruct (e_normal e); try discriminate; tauto.
Qed.
