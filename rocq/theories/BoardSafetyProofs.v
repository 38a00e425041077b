(** The steps up to the policies never follow a pointer to nothing, and end when the
    location of points in polygons does. *)
From Coq Require Import List Arith Bool Lia QArith Qabs Lqa Sorting.Sorted Sorting.Permutation.
From Verif Require Import IntervalModel IntervalProofs ManagerModel ManagerSpec ManagerProofs GeomModel GeomSpec GeomProofs GeomBoxProofs GeomLocateProofs.
From Verif Require Import BoardModel BoardSpec BoardProofs BoardColinearProofs BoardSolveProofs BoardCoverProofs BoardDetectProofs.
From Verif Require Import BoardBuiltProofs BoardAdjustProofs BoardIndividualProofs BoardRunProofs BoardDiagProofs.
Import ListNotations.
Open Scope Q_scope.

(** * Computations with fuel *)

(** Never undefined behaviour, results [P] that more fuel does not change, and an end
    when [D]. *)
Record tame {A} (D : Prop) (m : nat -> run A) (P : A -> Prop) : Prop := {
  ta_safe : forall n, m n <> Dangling;
  ta_done : forall n a, m n = Done a -> P a /\ forall n', (n <= n')%nat -> m n' = Done a;
  ta_ends : D -> exists n a, m n = Done a;
}.

Lemma tame_ret {A} (D : Prop) (a : A) (P : A -> Prop) : P a -> tame D (fun _ => Done a) P.
Proof. intros H. constructor; [discriminate| |]. - intros n x E. injection E as <-. now split. - intros _. exists 0%nat, a. reflexivity. Qed.

Lemma tame_bind {A B} (D : Prop) (m : nat -> run A) (h : nat -> A -> run B) P R : tame D m P -> (forall a, P a -> tame D (fun n => h n a) R) ->
  tame D (fun n => let! x := m n in h n x) R.
Proof.
  intros [S K E] H. constructor.
  - intros n. specialize (S n). destruct (m n) as [a| |] eqn:M; cbn; [|discriminate|contradiction]. destruct (K n a M) as [Pa _]. exact (ta_safe _ _ _ (H a Pa) n).
  - intros n b Eb. destruct (m n) as [a| |] eqn:M; cbn in Eb; try discriminate. destruct (K n a M) as [Pa Ka].
    destruct (ta_done _ _ _ (H a Pa) n b Eb) as [Rb Kb]. split; [assumption|]. intros n' L. rewrite (Ka n' L). cbn. now apply Kb.
  - intros d. destruct (E d) as (n & a & M). destruct (K n a M) as [Pa Ka]. destruct (ta_ends _ _ _ (H a Pa) d) as (n' & b & Mb).
    destruct (ta_done _ _ _ (H a Pa) n' b Mb) as [_ Kb]. exists (Nat.max n n'), b. rewrite (Ka _ (Nat.le_max_l _ _)). cbn. apply Kb. apply Nat.le_max_r.
Qed.

Lemma tame_weaken {A} (D : Prop) (m : nat -> run A) (P R : A -> Prop) : (forall a, P a -> R a) -> tame D m P -> tame D m R.
Proof. intros H [S K E]. constructor; [assumption| |assumption]. intros n a Ea. destruct (K n a Ea) as [Pa Ka]. split; [now apply H|assumption]. Qed.

Lemma tame_each {A B} (D : Prop) (f : nat -> B -> A -> run B) (P : list A -> B -> Prop) l : forall b, P [] b ->
  (forall done x rest b, l = done ++ x :: rest -> P done b -> tame D (fun n => f n b x) (P (done ++ [x]))) ->
  tame D (fun n => for_each (f n) l b) (P l).
Proof.
  revert P. induction l as [|x l IH]; intros P b P0 S; cbn [for_each].
  - now apply tame_ret.
  - eapply tame_bind; [exact (S [] x l b eq_refl P0)|]. intros b1 P1. apply (IH (fun d => P (x :: d)) b1 P1).
    intros done y rest b' E H. apply (S (x :: done) y rest b'); [cbn; now rewrite E|assumption].
Qed.

(** * The location of points *)

Lemma relation_tame (D : Prop) l p : l <> [] -> (D -> exists n r, relation_polygon n l p = Done r) ->
  tame D (fun n => relation_polygon n l p) (fun _ => True).
Proof.
  intros Ne H. unfold relation_polygon in *. destruct l as [|a l]; [contradiction|]. cbn [detect_bounding detect_edges bind] in *.
  set (b := bounding_loop _ _) in *. set (e := edges_from _ _) in *. clearbody b e. constructor; [| |exact H].
  - intros n. generalize 0%nat. induction n as [|n IH]; intros k; [discriminate|]. rewrite ray_loop_S. destruct (vertex_on_ray _ p (a :: l)) as [[|]|]; [apply IH| |discriminate].
    destruct (count_crossings _ p e 0); discriminate.
  - intros n r E. split; [exact I|]. intros n' L. apply (ray_loop_more n); [assumption|assumption|discriminate].
Qed.

(** * One edge and one polygon *)

(** There are two points or more to read. *)
Definition two_points (srt : sort_by) (ea : edge) (points : list point) (ebs : list edge) : Prop :=
  forall n rel0 rel1, met_points ea ebs <> [] -> relation_polygon n points (s0 (e_seg ea)) = Done rel0 -> relation_polygon n points (s1 (e_seg ea)) = Done rel1 ->
    inside_or_out rel0 = true \/ inside_or_out rel1 = true ->
    (2 <= length (unique (sort_points srt (seg_vec (e_seg ea)) (met_points ea ebs ++ [s0 (e_seg ea); s1 (e_seg ea)]))))%nat.

Section Safe.
Variables (D : Prop) (srt : sort_by) (b0 : board) (p : Plane).
Hypothesis Pl : edges_in_place b0.
Hypothesis Points : forall k g, nth_error (b_polygons b0) k = Some g -> g_points g <> [].
Hypothesis Decides : D -> forall k g q, nth_error (b_polygons b0) k = Some g -> exists n r, relation_polygon n (g_points g) q = Done r.
Hypothesis Two : forall i ea k g ebs, edge_at b0 i ea -> nth_error (b_polygons b0) k = Some g -> edges_at b0 (g_edges g) ebs -> two_points srt ea (g_points g) ebs.

Definition sound_overlap (_ : nat) (o : Overlap) : Prop := overlap_exists b0 o.
Let ok := detected b0 p sound_overlap.

Lemma located k g q : nth_error (b_polygons b0) k = Some g -> tame D (fun n => relation_polygon n (g_points g) q) (fun _ => True).
Proof. intros G. apply relation_tame; [exact (Points k g G)|]. intros d. exact (Decides d k g q G). Qed.

Lemma add_tame b i k range other ea g : ok b -> edge_at b0 i ea -> e_plane ea = p -> nth_error (b_polygons b0) k = Some g -> g_plane g = p ->
  (forall j, other = Some j -> exists f, edge_at b0 j f) -> tame D (fun _ => add_edge_in_polygon b i k range other) ok.
Proof.
  intros O Ei Pe Gk Pg H. destruct (add_detected b0 p sound_overlap b i k range other ea g O Ei Pe Gk Pg H) as (b' & -> & D' & _). now apply tame_ret.
Qed.

Lemma register_tame b i k ea g r : ok b -> edge_at b0 i ea -> e_plane ea = p -> nth_error (b_polygons b0) k = Some g -> g_plane g = p ->
  tame D (fun n => register_range n i k b r) ok.
Proof.
  intros O Ei Pe Gk Pg. unfold register_range.
  destruct (same_eip_polygon p b0 b k g (de_same _ _ _ _ O) Gk) as (g' & G & W). apply read_done in G. rewrite G. cbn [bind].
  assert (g_points g' = g_points g) as -> by (unfold without_eip_g in W; injection W; congruence).
  destruct r as [[range rel] mid]. eapply tame_bind with (P := fun _ => True).
  - destruct mid as [m|]; [|now apply tame_ret]. eapply tame_bind; [exact (located k g m Gk)|]. intros x _. now apply tame_ret.
  - intros y _. destruct (y || _); [|now apply tame_ret]. eapply add_tame; eauto. discriminate.
Qed.

Lemma edge_tame b i k ea g : ok b -> edge_at b0 i ea -> e_plane ea = p -> nth_error (b_polygons b0) k = Some g -> g_plane g = p ->
  tame D (fun n => edge_in_polygon n srt k b i) ok.
Proof.
  intros O Ei Pe Gk Pg. unfold edge_in_polygon.
  destruct (same_eip_polygon p b0 b k g (de_same _ _ _ _ O) Gk) as (g' & G & W). apply read_done in G. rewrite G. cbn [bind].
  destruct (same_eip_edge p b0 b i ea (de_same _ _ _ _ O) Ei) as (ea' & Ea & Wa). apply read_done in Ea. rewrite Ea. cbn [bind].
  assert (Gp : g_points g' = g_points g) by (unfold without_eip_g in W; injection W; congruence).
  assert (Ge : g_edges g' = g_edges g) by (unfold without_eip_g in W; injection W; congruence).
  rewrite Gp, Ge, (without_eip_seg _ _ _ Wa). clear Wa Ea W G Gp Ge.
  destruct (edges_in_place_at b0 g k Pl Gk) as (ebs & Es).
  destruct (meet_loop b0 p i k ea g Ei Pe Gk Pg sound_overlap (g_edges g) ebs Es b [] [] O) as (b1 & E1 & O1 & _).
  { intros j eb r _ Ej _ j' Ej'. injection Ej' as <-. eauto. }
  rewrite E1. cbn [bind app]. clear E1. pose proof (Two i ea k g ebs Ei Gk Es) as T. unfold two_points in T.
  assert (T' : tame D (fun n => relation_polygon n (g_points g) (s0 (e_seg ea))) (fun x => exists n, relation_polygon n (g_points g) (s0 (e_seg ea)) = Done x)).
  { destruct (located k g (s0 (e_seg ea)) Gk) as [A B C]. constructor; [assumption| |assumption]. intros n a E. split; [eauto|]. now apply B. }
  eapply tame_bind; [exact T'|]. clear T'. intros rel0 (n0 & R0).
  assert (T' : tame D (fun n => relation_polygon n (g_points g) (s1 (e_seg ea))) (fun x => exists n, relation_polygon n (g_points g) (s1 (e_seg ea)) = Done x)).
  { destruct (located k g (s1 (e_seg ea)) Gk) as [A B C]. constructor; [assumption| |assumption]. intros n a E. split; [eauto|]. now apply B. }
  eapply tame_bind; [exact T'|]. clear T'. intros rel1 (n1 & R1).
  assert (R0' : relation_polygon (Nat.max n0 n1) (g_points g) (s0 (e_seg ea)) = Done rel0) by (apply (ta_done _ _ _ (located k g (s0 (e_seg ea)) Gk) n0); [assumption|lia]).
  assert (R1' : relation_polygon (Nat.max n0 n1) (g_points g) (s1 (e_seg ea)) = Done rel1) by (apply (ta_done _ _ _ (located k g (s1 (e_seg ea)) Gk) n1); [assumption|lia]).
  destruct (met_points ea ebs) as [|q qs] eqn:Mp.
  - destruct (pp_eqb rel0 PP_IN && pp_eqb rel1 PP_IN); [|now apply tame_ret]. eapply add_tame; eauto. discriminate.
  - rewrite <- Mp in *. fold (inside_or_out rel0). fold (inside_or_out rel1).
    specialize (T _ rel0 rel1 ltac:(rewrite Mp; discriminate) R0' R1'). clear R0 R1 R0' R1' Mp.
    set (l := unique (sort_points srt (seg_vec (e_seg ea)) (met_points ea ebs ++ [s0 (e_seg ea); s1 (e_seg ea)]))) in *. clearbody l.
    eapply tame_bind with (P := fun _ => True).
    { destruct (inside_or_out rel0); [|now apply tame_ret]. specialize (T (or_introl eq_refl)). destruct l as [|x [|y l]]; cbn in T; [lia..|]. now apply tame_ret. }
    intros first _. eapply tame_bind with (P := fun _ => True).
    { destruct (inside_or_out rel1); [|now apply tame_ret]. specialize (T (or_intror eq_refl)). rewrite <- rev_length in T.
      destruct (rev l) as [|x [|y l']]; cbn in T; [lia..|]. now apply tame_ret. }
    intros final _. apply (tame_each D (fun n => register_range n i k) (fun _ b => ok b)); [assumption|]. intros done r rest b2 _ O2. now apply (register_tame b2 i k ea g r).
Qed.

Lemma polygon_tame b ka pa kb pb : nth_error (b_polygons b0) ka = Some pa -> g_plane pa = p -> nth_error (b_polygons b0) kb = Some pb -> g_plane pb = p ->
  ok b -> tame D (fun n => polygon_in_polygon n srt ka b kb) ok.
Proof.
  intros Ga Pa Gb Pb O. unfold polygon_in_polygon.
  destruct (same_eip_polygon p b0 b ka pa (de_same _ _ _ _ O) Ga) as (ga & Ga' & Wa).
  destruct (same_eip_polygon p b0 b kb pb (de_same _ _ _ _ O) Gb) as (gb & Gb' & Wb).
  apply read_done in Ga'. rewrite Ga'. cbn [bind]. apply read_done in Gb'. rewrite Gb'. cbn [bind].
  assert (g_edges ga = g_edges pa) as -> by (unfold without_eip_g in Wa; injection Wa; congruence).
  destruct (kb =? ka)%nat; [now apply tame_ret|]. destruct (_ <? _)%nat; [now apply tame_ret|]. destruct (negb _); [now apply tame_ret|].
  apply (tame_each D (fun n => edge_in_polygon n srt kb) (fun _ b => ok b)); [assumption|]. intros done i rest b2 EL O2.
  assert (I : In i (g_edges pa)) by (rewrite EL; apply in_or_app; right; now left). destruct (Pl ka pa Ga i I) as (ea & Ei & Pe).
  apply (edge_tame b2 i kb ea pb); try assumption. congruence.
Qed.

Lemma detect_tame : no_eip b0 p -> tame D (fun n => detect_edges_in_polygons n srt b0 p) ok.
Proof.
  intros No. unfold detect_edges_in_polygons.
  apply (tame_each D (fun n b i => for_each (polygon_in_polygon n srt i) (polygons_of b p) b) (fun _ b => ok b)); [now apply detected_start|].
  intros done ka rest b1 EL O1. assert (I : In ka (polygons_of b0 p)) by (rewrite EL; apply in_or_app; right; now left).
  apply polygons_of_in in I. destruct I as (pa & Ga & Pa). rewrite (polygons_of_same p p b0 b1 (de_same _ _ _ _ O1)).
  apply (tame_each D (fun n => polygon_in_polygon n srt ka) (fun _ b => ok b)); [assumption|].
  intros done' kb rest' b2 EL' O2. assert (I : In kb (polygons_of b0 p)) by (rewrite EL'; apply in_or_app; right; now left).
  apply polygons_of_in in I. destruct I as (pb & Gb & Pb). now apply (polygon_tame b2 ka pa kb pb).
Qed.
End Safe.

(** * All planes *)

Record fit (D : Prop) (srt : sort_by) (b : board) : Prop := {
  fi_points : forall k g, nth_error (b_polygons b) k = Some g -> g_points g <> [];
  fi_decides : D -> forall k g q, nth_error (b_polygons b) k = Some g -> exists n r, relation_polygon n (g_points g) q = Done r;
  fi_two : forall i ea k g ebs, edge_at b i ea -> nth_error (b_polygons b) k = Some g -> edges_at b (g_edges g) ebs -> two_points srt ea (g_points g) ebs;
}.

Definition shape (g : polygon) : list point * list nat := (g_points g, g_edges g).

Lemma met_points_same ea ea' ebs ebs' : e_seg ea' = e_seg ea -> Forall2 (fun e e' => e_seg e' = e_seg e) ebs ebs' -> met_points ea' ebs' = met_points ea ebs.
Proof. intros E F. unfold met_points. induction F as [|e e' l l' H F IH]; cbn; [reflexivity|]. now rewrite (met_same _ _ _ _ E H), IH. Qed.

Lemma fit_same D srt b b' : same_geo b b' -> map shape (b_polygons b') = map shape (b_polygons b) -> fit D srt b -> fit D srt b'.
Proof.
  intros Ge Sh [F1 F2 F3].
  assert (Back : forall k g', nth_error (b_polygons b') k = Some g' -> exists g, nth_error (b_polygons b) k = Some g /\ g_points g' = g_points g /\ g_edges g' = g_edges g).
  { intros k g' G. symmetry in Sh. destruct (map_at _ _ _ _ _ Sh G) as (g & G' & W). exists g. split; [assumption|]. injection W as W1 W2. now split. }
  constructor.
  - intros k g' G. destruct (Back k g' G) as (g & G' & -> & _). exact (F1 k g G').
  - intros d k g' q G. destruct (Back k g' G) as (g & G' & -> & _). exact (F2 d k g q G').
  - intros i ea' k g' ebs' Ei G Es. destruct (Back k g' G) as (g & G' & -> & Eg). rewrite Eg in Es.
    destruct (geo_at b' b i ea' (same_geo_sym _ _ Ge) Ei) as (ea & Ea & Wa).
    assert (exists ebs, edges_at b (g_edges g) ebs /\ Forall2 (fun e e' => e_seg e' = e_seg e) ebs ebs') as (ebs & Es' & Fs).
    { clear - Es Ge. unfold edges_at in *. induction Es as [|j e' js es' E' F IH]; [exists []; split; constructor|]. destruct IH as (ebs & A & B).
      destruct (geo_at b' b j e' (same_geo_sym _ _ Ge) E') as (e & E & W). exists (e :: ebs). split; constructor; try assumption. injection W as _ W _. congruence. }
    pose proof (F3 i ea k g ebs Ea G' Es') as T. unfold two_points in *. assert (Ws : e_seg ea' = e_seg ea) by (injection Wa as _ Wa _; congruence).
    rewrite (met_points_same ea ea' ebs ebs' Ws Fs), Ws. exact T.
Qed.

Lemma all_eip_geo b b' : same_but_all_eip b b' -> same_geo b b' /\ map shape (b_polygons b') = map shape (b_polygons b).
Proof.
  intros (P & E & _). split; [apply (map_geo less_eip); [reflexivity|assumption]|].
  assert (forall l, map shape l = map shape (map less_eip_g l)) as K by (intros l; rewrite map_map; now apply map_ext). now rewrite K, P, <- K.
Qed.

Record found_eip (b0 : board) (done : list Plane) (b : board) : Prop := {
  fe_same : same_but_all_eip b0 b;
  fe_one : forall p, one_each b p;
  fe_wf : forall p, well_formed_eip b p;
  fe_rest : forall p, ~ In p done -> no_eip b p;
}.

Lemma detect_all_tame D srt b : edges_in_place b -> (forall p, no_eip b p) -> fit D srt b ->
  tame D (fun n => for_each (detect_edges_in_polygons n srt) all_planes b) (found_eip b all_planes).
Proof.
  intros Pl No Fi. apply (tame_each D (fun n => detect_edges_in_polygons n srt) (found_eip b)).
  - constructor; [apply same_all_eip_refl| | |intros p _; apply No]; intros p; destruct (No p) as (N & _).
    + intros n n' c c' H. unfold eip_at in H. rewrite N in H. destruct n; discriminate.
    + intros n c H. unfold eip_at in H. rewrite N in H. destruct n; discriminate.
  - intros done p rest b1 EL [S On Wf R].
    assert (N : ~ In p done).
    { pose proof all_planes_nodup as ND. rewrite EL in ND. apply NoDup_remove_2 in ND. intros K. apply ND, in_or_app. now left. }
    pose proof (in_place_all_eip _ _ S Pl) as Pl1. destruct (all_eip_geo _ _ S) as [Ge Sh]. destruct (fit_same D srt b b1 Ge Sh Fi) as [F1 F2 F3].
    eapply tame_weaken; [|exact (detect_tame D srt b1 p Pl1 F1 F2 F3 (R p N))]. clear F1 F2 F3 Ge Sh. intros b2 [S2 One2 C2 _].
    pose proof S2 as (_ & _ & _ & _ & _ & _ & _ & O). pose proof (same_eip_all _ _ _ S2) as S3.
    assert (Ed : forall i e, edge_at b1 i e -> exists e', edge_at b2 i e') by (intros i e E; destruct (same_eip_edge p b1 b2 i e S2 E) as (e' & E' & _); eauto).
    constructor.
    + eapply same_all_eip_trans; eassumption.
    + intros q. destruct (plane_dec q p) as [->|D']; [assumption|]. unfold one_each, eip_at. rewrite O by assumption. apply On.
    + intros q n c H. destruct (plane_dec q p) as [->|D'].
      * destruct (C2 n c H) as (Ne & _ & (e & E) & Q). split; [assumption|]. split; [eauto|]. intros o I j J. destruct (Q o I j J) as (f & F). eauto.
      * unfold eip_at in H. rewrite O in H by assumption. destruct (Wf q n c H) as (Ne & (e & E) & Q). split; [assumption|]. split; [eauto|].
        intros o I j J. destruct (Q o I j J) as (f & F). eauto.
    + intros q I. apply (no_eip_other p q b1 b2); [|assumption|].
      * intros ->. apply I, in_or_app. right. now left.
      * apply R. intros K. apply I, in_or_app. now left.
Qed.

(** * From the board to the policies *)

Lemma adjust_all_ends srt planes : sorts_by srt -> forall b, edges_in_place b ->
  (forall i e, edge_at b i e -> e_normal e <> Nzmin /\ e_normal e <> Nzmax) -> (forall k g, nth_error (b_polygons b) k = Some g -> g_material g <> None) ->
  exists b', for_each (adjust_edges_to_materials srt) planes b = Done b'.
Proof.
  intros So. induction planes as [|p planes IH]; intros b Pl No Ma; cbn [for_each]; [eauto|].
  destruct (adjust_ends srt p b Pl) as (b1 & E1).
  { intros k g i e G _ _ Ei [N|[N|(o & n & _ & N)]]; [now apply (proj1 (No i e Ei))|now apply (proj2 (No i e Ei))|exact (Ma k g G N)]. }
  rewrite E1. cbn [bind]. destruct (adjust_outranked srt p b b1 So Pl E1) as [S1 _]. apply IH.
  - exact (in_place_reverse _ _ S1 Pl).
  - intros i e Ei. destruct (same_reverse_edge' _ _ _ _ S1 Ei) as (e0 & E0 & W). assert (e_normal e = e_normal e0) as -> by (injection W; congruence). now apply (No i).
  - destruct S1 as (_ & P & _). now rewrite P.
Qed.

Lemma solve_all_ends srt b : permutes srt -> (forall p, one_each b p) -> (forall p, well_formed_eip b p) ->
  exists b', for_each (auto_solve_all_edge_in_polygon srt) all_planes b = Done b' /\ same_but_all_solutions b b'.
Proof.
  intros Pm One Wf.
  destruct (for_each_inv (auto_solve_all_edge_in_polygon srt)
    (fun done b1 => same_but_all_solutions b b1 /\ forall p, ~ In p done -> one_each b1 p /\ well_formed_eip b1 p) all_planes b) as (b' & E & S & _); [| |eauto].
  - split; [apply same_all_solutions_refl|]. intros p _. now split.
  - intros done p rest b1 EL [S H].
    assert (N : ~ In p done).
    { pose proof all_planes_nodup as ND. rewrite EL in ND. apply NoDup_remove_2 in ND. intros K. apply ND, in_or_app. now left. }
    destruct (H p N) as [O1 W1]. destruct (auto_solve_in_polygon_ends srt p b1 Pm O1 W1) as (b2 & E2). exists b2. split; [assumption|].
    destruct (auto_solve_in_polygon srt p b1 b2 O1 E2) as [(S1 & S2 & S3 & S4 & S5 & S6 & S7 & S8) _ _ _].
    assert (Ed : forall i e, edge_at b1 i e -> exists e', edge_at b2 i e') by (intros i e Ei; destruct (map_at _ _ _ _ _ S2 Ei) as (e' & E' & _); eauto).
    split.
    + eapply same_all_solutions_trans; [eassumption|]. now repeat split.
    + intros q I. assert (q <> p) as D by (intros ->; apply I, in_or_app; right; now left). destruct (H q) as [Oq Wq]; [intros K; apply I, in_or_app; now left|].
      split; [unfold one_each, eip_at; rewrite S8 by congruence; exact Oq|]. intros n c C. unfold eip_at in C. rewrite S8 in C by congruence.
      destruct (Wq n c C) as (Ne & (e & Ee) & Q). split; [assumption|]. split; [eauto|]. intros o Io j J. destruct (Q o Io j J) as (f & F). eauto.
Qed.

Lemma policies_tame D g d srt ang fixed b0 : sorts_by srt -> permutes srt -> built b0 -> (forall k h, nth_error (b_polygons b0) k = Some h -> g_material h <> None) ->
  fit D srt b0 -> tame D (fun n => policies_of_board n g d srt ang fixed b0) (fun _ => True).
Proof.
  intros So Pm Bu Ma Fi. unfold policies_of_board. pose proof (built_sound b0 Bu) as [Fr Pr Ow Ra (An & Ce & Eip & Zo & Ax)]. pose proof (built_in_place b0 Bu) as Pl0.
  destruct (adjust_all_ends srt all_planes So b0 Pl0 (built_normals b0 Bu) Ma) as (b1 & E1). rewrite E1. cbn [bind].
  destruct (adjust_all srt all_planes So b0 b1 Pl0 E1) as [S1 _]. pose proof S1 as (D1 & P1 & G1 & B1 & C1 & I1 & Z1 & A1).
  pose proof (in_place_reverse _ _ S1 Pl0) as Pl1.
  destruct (diagonal_steps g d srt ang b1 b1 So Pl1) as (b2 & b3 & b4 & E2 & E3 & E4 & _); [now split|congruence|congruence|].
  rewrite E2. cbn [bind]. rewrite E3. cbn [bind]. rewrite E4. cbn [bind].
  assert (S4 : same_but_angles b1 b4).
  { apply (same_angles_trans b1 b2 b4); [|apply (same_angles_trans b2 b3 b4)].
    - revert E2. apply for_each_rel; [apply same_angles_refl|apply same_angles_trans|]. intros p x y _. apply diagonal_angles_frame.
    - revert E3. apply for_each_rel; [apply same_angles_refl|apply same_angles_trans|]. intros p x y _ H. now apply diagonal_zones_frame in H.
    - revert E4. apply for_each_rel; [apply same_angles_refl|apply same_angles_trans|]. intros p x y _ H. now apply diagonal_solve_frame in H. }
  clear E2 E3 E4 b2 b3. pose proof S4 as (P4 & D4 & B4 & C4 & I4 & A4).
  assert (Pl4 : edges_in_place b4).
  { intros k h H. rewrite P4 in H. unfold edge_at. rewrite D4. exact (Pl1 k h H). }
  assert (No4 : forall p, no_eip b4 p).
  { intros p. destruct (built_no_eip b0 p Bu) as (N & NE & NG). split; [rewrite I4, I1; assumption|]. split.
    - intros i e n Ei. unfold edge_at in Ei. rewrite D4 in Ei. destruct (same_reverse_edge' _ _ _ _ S1 Ei) as (e0 & E0 & W).
      assert (e_conflicts e = e_conflicts e0) as -> by (injection W; congruence). now apply (NE i e0).
    - rewrite P4, P1. exact NG. }
  assert (Fi4 : fit D srt b4).
  { apply (fit_same D srt b0); [|now rewrite P4, P1|assumption]. unfold same_geo. rewrite D4. apply (map_geo without_reverse); [reflexivity|assumption]. }
  eapply tame_bind; [exact (detect_all_tame D srt b4 Pl4 No4 Fi4)|]. intros b5 [S5 One5 Wf5 _]. pose proof S5 as (P5 & D5 & G5 & B5 & C5 & Z5 & A5).
  assert (No5 : no_ce b5).
  { split; [intros ax; rewrite C5, C4, C1, Ce; now destruct ax|]. intros i e Ei ax n I. symmetry in D5. destruct (map_at _ _ _ _ _ D5 Ei) as (e4 & E4 & W).
    rewrite D4 in E4. destruct (same_reverse_edge' _ _ _ _ S1 E4) as (e0 & E0 & W0). destruct (Fr i e0 E0) as (_ & _ & K & _).
    assert (e_conflicts e4 = []) as K4 by (injection W0; congruence). assert (only_ce (e_conflicts e) = only_ce (e_conflicts e4)) as K5 by (injection W; congruence).
    rewrite K4 in K5. cbn in K5. assert (In (InCE ax n) (only_ce (e_conflicts e))) as J by (unfold only_ce; apply filter_In; now split). rewrite K5 in J. destruct J. }
  destruct (planes_done all_planes b5 all_planes_nodup No5) as (b6 & -> & [S6 L6 W6 F6 In6 St6]). cbn [bind].
  pose proof S6 as (P6 & D6 & G6 & B6 & I6 & Z6 & A6).
  destruct (on_each_axis_ends (fun ax x => Done (add_fixed_policies g x (on_axis fixed ax))) b6) as (b7 & E7); [intros ax; eauto|].
  rewrite E7. cbn [bind]. destruct (on_each_axis_done _ _ _ E7) as [X7 _].
  assert (D7 : b_edges b7 = b_edges b6) by now rewrite X7. assert (C7 : b_ce b7 = b_ce b6) by now rewrite X7. assert (I7 : b_eip b7 = b_eip b6) by now rewrite X7.
  assert (Ed : forall i e, edge_at b5 i e -> exists e', edge_at b7 i e').
  { intros i e Ei. unfold edge_at. rewrite D7. destruct (map_at _ _ _ _ _ D6 Ei) as (e' & E' & _). eauto. }
  destruct (solve_all_ends srt b7 Pm) as (b8 & -> & S8).
  { intros p. unfold one_each, eip_at. rewrite I7, I6. apply One5. }
  { intros p n c C. unfold eip_at in C. rewrite I7, I6 in C. destruct (Wf5 p n c C) as (Ne & (e & Ee) & Q). split; [assumption|]. split; [eauto|].
    intros o Io j J. destruct (Q o Io j J) as (f & F). eauto. }
  cbn [bind]. pose proof S8 as (P8 & D8 & G8 & B8 & C8 & Z8 & A8).
  assert (W8 : wf b8).
  { apply (wf_geo b6); [|intros ax; unfold groups; now rewrite C8, C7|assumption].
    unfold same_geo. transitivity (map geo (b_edges b7)); [apply (map_geo without_solution); [reflexivity|assumption]|now rewrite D7]. }
  assert (ND : NoDup all_axes) by (unfold all_axes; repeat constructor; cbn; intuition discriminate).
  destruct (colinear_all g all_axes ND b8) as (b9 & -> & _); [intros ax c; now apply wf_solvable|]. cbn [bind].
  destruct (individual_planes g all_planes b9) as (b & -> & _). now apply tame_ret.
Qed.
