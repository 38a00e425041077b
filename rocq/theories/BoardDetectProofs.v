(** The detection of edges in polygons. *)
From Coq Require Import List Arith Bool Lia QArith Qabs Sorting.Permutation.
From Verif Require Import IntervalModel IntervalSpec IntervalProofs ManagerModel ManagerSpec ManagerProofs ManagerMoreProofs.
From Verif Require Import GeomModel GeomSpec GeomProofs BoardModel BoardSpec BoardProofs BoardColinearProofs BoardCoverProofs.
Import ListNotations.

Lemma update_polygon_spec b i g f : nth_error (b_polygons b) i = Some g -> exists l, update_polygon b i f = Done (set_polygons b l)
  /\ length l = length (b_polygons b) /\ nth_error l i = Some (f g) /\ forall j, j <> i -> nth_error l j = nth_error (b_polygons b) j.
Proof.
  intros E. unfold update_polygon, read. rewrite E. cbn [bind].
  destruct (write_spec (f g) (b_polygons b) i (nth_lt _ _ _ E)) as (l & -> & Len & At & O). exists l. now repeat split.
Qed.

Lemma find_in_polygon_spec a l : forall pos,
  match find_in_polygon a l pos with
  | Some (n, c) => exists k, n = (pos + k)%nat /\ nth_error l k = Some c /\ ei_edge c = a
  | None => forall c, In c l -> ei_edge c <> a
  end.
Proof.
  induction l as [|c l IH]; intros pos; cbn [find_in_polygon]; [intros c []|].
  destruct (Nat.eqb_spec (ei_edge c) a) as [E|E].
  - exists 0%nat. split; [lia|]. now split.
  - specialize (IH (S pos)). destruct (find_in_polygon a l (S pos)) as [[n d]|].
    + destruct IH as (k & -> & K). exists (S k). split; [lia|exact K].
    + intros d [<-|I]; [assumption|now apply IH].
Qed.

Lemma other_conflicts_push p n l : other_conflicts p (l ++ [InEIP p n]) = other_conflicts p l.
Proof.
  unfold other_conflicts. rewrite filter_app. cbn. assert (plane_eqb p p = true) as -> by (now apply plane_eqb_eq). apply app_nil_r.
Qed.

Lemma push_e p n e : without_eip p (push_conflict (InEIP p n) e) = without_eip p e.
Proof. unfold without_eip. cbn [push_conflict e_plane e_seg e_normal e_to_mesh e_to_reverse e_conflicts e_solves e_policy]. now rewrite other_conflicts_push. Qed.
Lemma push_g p n g : without_eip_g p (push_conflict_g (InEIP p n) g) = without_eip_g p g.
Proof. unfold without_eip_g. cbn [push_conflict_g g_plane g_material g_priority g_z g_points g_bounding g_edges g_conflicts]. now rewrite other_conflicts_push. Qed.

(** The state of the detection, when overlaps are to satisfy [Q]. *)
Record detected (b0 : board) (p : Plane) (Q : nat -> Overlap -> Prop) (b : board) : Prop := {
  de_same : same_but_eip p b0 b;
  de_one : one_each b p;
  de_conf : forall n c, eip_at b p n c -> ei_overlaps c <> [] /\ ei_solved c = false
    /\ (exists e, edge_at b0 (ei_edge c) e) /\ forall o, In o (ei_overlaps c) -> Q (ei_edge c) o;
  de_links : eip_links b p;
}.

Lemma detected_start b p Q : no_eip b p -> detected b p Q b.
Proof.
  intros (N & E & G). constructor.
  - unfold same_but_eip. repeat split.
  - intros n n' c c' H. unfold eip_at in H. rewrite N in H. destruct n; discriminate.
  - intros n c H. unfold eip_at in H. rewrite N in H. destruct n; discriminate.
  - split.
    + intros i e n Ei. split; [intro I; exfalso; eapply E; eauto|]. intros (c & C & _). unfold eip_at in C. rewrite N in C. destruct n; discriminate.
    + intros k g n Gk. split; [intro I; exfalso; eapply G; eauto|]. intros (c & o & C & _). unfold eip_at in C. rewrite N in C. destruct n; discriminate.
Qed.

Lemma same_eip_edge p b b' i e : same_but_eip p b b' -> edge_at b i e -> exists e', edge_at b' i e' /\ without_eip p e' = without_eip p e.
Proof. intros (_ & M & _) E. exact (map_at _ _ _ _ _ M E). Qed.
Lemma same_eip_polygon p b b' i g : same_but_eip p b b' -> nth_error (b_polygons b) i = Some g ->
  exists g', nth_error (b_polygons b') i = Some g' /\ without_eip_g p g' = without_eip_g p g.
Proof. intros (M & _) E. exact (map_at _ _ _ _ _ M E). Qed.
Lemma same_eip_edge' p b b' i e' : same_but_eip p b b' -> edge_at b' i e' -> exists e, edge_at b i e /\ without_eip p e' = without_eip p e.
Proof.
  intros (_ & M & _) E. symmetry in M. destruct (map_at _ _ _ _ _ M E) as (e & E1 & E2). exists e. split; [assumption|now symmetry].
Qed.
Lemma same_eip_polygon' p b b' i g' : same_but_eip p b b' -> nth_error (b_polygons b') i = Some g' ->
  exists g, nth_error (b_polygons b) i = Some g /\ without_eip_g p g' = without_eip_g p g.
Proof.
  intros (M & _) E. symmetry in M. destruct (map_at _ _ _ _ _ M E) as (g & E1 & E2). exists g. split; [assumption|now symmetry].
Qed.

(** An overlap of edge [i] like this one is known. *)
Definition known_overlap (b : board) (p : Plane) (i k : nat) (range : seg) (other : option nat) : Prop :=
  exists n c o, eip_at b p n c /\ ei_edge c = i /\ In o (ei_overlaps c) /\ ov_polygon o = k
    /\ seg_eqb (ov_range o) range = true /\ same_overlap_edge (ov_edge o) other = true.

(** Conflicts only grow. *)
Definition more_overlaps (p : Plane) (b b' : board) : Prop :=
  forall n c, eip_at b p n c -> exists c' t, eip_at b' p n c' /\ ei_edge c' = ei_edge c /\ ei_overlaps c' = ei_overlaps c ++ t.

Lemma more_refl p b : more_overlaps p b b.
Proof. intros n c H. exists c, []. now rewrite app_nil_r. Qed.
Lemma more_trans p a b c : more_overlaps p a b -> more_overlaps p b c -> more_overlaps p a c.
Proof.
  intros H K n x X. destruct (H n x X) as (y & t & Y & Ey & Oy). destruct (K n y Y) as (z & u & Z & Ez & Oz).
  exists z, (t ++ u). split; [assumption|]. split; [congruence|]. now rewrite Oz, Oy, app_assoc.
Qed.
Lemma known_more p b b' i k r o : more_overlaps p b b' -> known_overlap b p i k r o -> known_overlap b' p i k r o.
Proof.
  intros M (n & c & x & C & E & I & H). destruct (M n c C) as (c' & t & C' & E' & O').
  exists n, c', x. split; [assumption|]. split; [congruence|]. split; [rewrite O'; apply in_or_app; now left|assumption].
Qed.

(** Pushing a conflict to an edge or a polygon. *)
Lemma seg_eqb_refl s : seg_eqb s s = true.
Proof.
  unfold seg_eqb. assert (forall p, pt_eqb p p = true) as R.
  { intros q. assert (forall x, coord_eqb x x = true) as C.
    { intros x. unfold coord_eqb. apply Qltb_lt. setoid_replace (x - x)%Q with 0%Q by ring. reflexivity. }
    unfold pt_eqb. now rewrite !C. }
  rewrite !R. reflexivity.
Qed.

Lemma same_overlap_refl o : same_overlap_edge o o = true.
Proof. destruct o; cbn; [apply Nat.eqb_refl|reflexivity]. Qed.

Lemma add_detected b0 p Q b i k range other ea ga : detected b0 p Q b ->
  edge_at b0 i ea -> e_plane ea = p -> nth_error (b_polygons b0) k = Some ga -> g_plane ga = p -> Q i (k, range, other) ->
  exists b', add_edge_in_polygon b i k range other = Done b' /\ detected b0 p Q b' /\ more_overlaps p b b'
    /\ known_overlap b' p i k range other.
Proof.
  intros D Ei Pe Gk Pg Qi.
  destruct (same_eip_edge p b0 b i ea (de_same _ _ _ _ D) Ei) as (e & E & We).
  destruct (same_eip_polygon p b0 b k ga (de_same _ _ _ _ D) Gk) as (g & G & Wg).
  assert (Ep : e_plane e = p) by (unfold without_eip in We; injection We as H; congruence).
  assert (Gp : g_plane g = p) by (unfold without_eip_g in Wg; injection Wg as H; congruence).
  unfold add_edge_in_polygon. pose proof E as E'. unfold edge_at in E'. apply read_done in E'. rewrite E'. cbn [bind].
  pose proof G as G'. apply read_done in G'. rewrite G'. cbn [bind]. rewrite Ep, Gp.
  assert (plane_eqb p p = true) as -> by (now apply plane_eqb_eq). cbn [bind].
  destruct D as [Sa On Co [Le Lg]]. destruct Sa as (S1 & S2 & S3 & S4 & S5 & S6 & S7 & S8).
  pose proof (find_in_polygon_spec i (on_plane (b_eip b) p) 0) as F.
  destruct (find_in_polygon i (on_plane (b_eip b) p) 0) as [[n c]|].
  - destruct F as (n' & -> & C & Ec). cbn [Nat.add]. rename n' into n.
    destruct (existsb (fun o => (ov_polygon o =? k)%nat && seg_eqb (ov_range o) range && same_overlap_edge (ov_edge o) other) (ei_overlaps c)) eqn:Kn.
    + exists b. split; [reflexivity|]. split; [constructor; try assumption; [unfold same_but_eip; tauto|now split]|]. split; [apply more_refl|].
      apply existsb_exists in Kn. destruct Kn as (o & I & H). rewrite !andb_true_iff in H. destruct H as [[H1 H2] H3].
      exists n, c, o. apply Nat.eqb_eq in H1. split; [exact C|]. split; [exact Ec|]. split; [exact I|]. split; [exact H1|]. split; [exact H2|exact H3].
    + destruct (write_spec (ei_append c (k, range, other)) (on_plane (b_eip b) p) n (nth_lt _ _ _ C)) as (all & W & Len & At & O).
      rewrite W. cbn [bind]. set (b1 := set_eip b (set_plane (b_eip b) p all)).
      assert (Eip : forall m d, nth_error all m = Some d -> (m = n /\ d = ei_append c (k, range, other)) \/ (m <> n /\ eip_at b p m d)).
      { intros m d H. destruct (Nat.eq_dec m n) as [->|Ne]; [left; split; [reflexivity|congruence]|right; split; [assumption|]]. unfold eip_at. now rewrite <- O. }
      assert (More : forall b', on_plane (b_eip b') p = all -> more_overlaps p b b').
      { intros b' Eb m d H. unfold eip_at in H. destruct (Nat.eq_dec m n) as [->|Ne].
        - assert (d = c) as -> by congruence. exists (ei_append c (k, range, other)), [(k, range, other)]. unfold eip_at. rewrite Eb. now repeat split.
        - exists d, []. unfold eip_at. rewrite Eb, O by assumption. rewrite app_nil_r. now repeat split. }
      assert (Known : forall b', on_plane (b_eip b') p = all -> known_overlap b' p i k range other).
      { intros b' Eb. exists n, (ei_append c (k, range, other)), (k, range, other). unfold eip_at. rewrite Eb. split; [assumption|]. split; [assumption|].
        split; [cbn; apply in_or_app; right; now left|]. split; [reflexivity|]. split; [apply seg_eqb_refl|apply same_overlap_refl]. }
      assert (One : forall b', on_plane (b_eip b') p = all -> one_each b' p).
      { intros b' Eb n1 n2 c1 c2 C1 C2. unfold eip_at in C1, C2. rewrite Eb in C1, C2. apply Eip in C1, C2.
        destruct C1 as [[-> ->]|[N1 C1]], C2 as [[-> ->]|[N2 C2]]; cbn; intro K.
        - reflexivity.
        - apply (On n n2 c c2); [exact C|exact C2|exact K].
        - apply (On n1 n c1 c); [exact C1|exact C|exact K].
        - apply (On n1 n2 c1 c2); assumption. }
      assert (Conf : forall b', on_plane (b_eip b') p = all -> forall m d, eip_at b' p m d -> ei_overlaps d <> [] /\ ei_solved d = false
          /\ (exists e, edge_at b0 (ei_edge d) e) /\ forall o, In o (ei_overlaps d) -> Q (ei_edge d) o).
      { intros b' Eb m d H. unfold eip_at in H. rewrite Eb in H. apply Eip in H. destruct H as [[-> ->]|[Ne H]]; [|now apply (Co m)].
        destruct (Co n c C) as (Co1 & Co2 & Co3 & Co4). cbn. split; [intro K; apply app_eq_nil in K; destruct K; discriminate|]. split; [assumption|]. split; [assumption|].
        intros o I. apply in_app_or in I. destruct I as [I|[<-|[]]]; [now apply Co4|now rewrite Ec]. }
      assert (Eb1 : on_plane (b_eip b1) p = all) by (cbn; apply on_set_plane).
      assert (LE : forall b', on_plane (b_eip b') p = all -> b_edges b' = b_edges b ->
        forall j f m, edge_at b' j f -> In (InEIP p m) (e_conflicts f) <-> exists d, eip_at b' p m d /\ ei_edge d = j).
      { intros b' Eb Ee j f m Hf. unfold edge_at in Hf. rewrite Ee in Hf. rewrite (Le j f m Hf). unfold eip_at. rewrite Eb. split.
        - intros (d & H & <-). destruct (Nat.eq_dec m n) as [->|Ne].
          + assert (d = c) as -> by (unfold eip_at in H; congruence). exists (ei_append c (k, range, other)). now split.
          + exists d. rewrite O by assumption. now split.
        - intros (d & H & <-). apply Eip in H. destruct H as [[-> ->]|[Ne H]]; [exists c; now split|exists d; now split]. }
      destruct (existsb (fun o => (ov_polygon o =? k)%nat) (ei_overlaps c)) eqn:Kk.
      * exists b1. split; [reflexivity|]. split; [|split; [now apply More|now apply Known]].
        constructor; [unfold same_but_eip; cbn; repeat split; try assumption; intros p' Np; rewrite on_set_plane_other by assumption; now apply S8|now apply One|now apply Conf|].
        split; [now apply LE|]. intros j f m Hf. cbn in Hf. rewrite (Lg j f m Hf). unfold eip_at. rewrite Eb1. split.
        -- intros (d & o & H & I & Eo). destruct (Nat.eq_dec m n) as [->|Ne].
           ++ assert (d = c) as -> by (unfold eip_at in H; congruence). exists (ei_append c (k, range, other)), o. split; [assumption|]. split; [cbn; apply in_or_app; now left|assumption].
           ++ exists d, o. rewrite O by assumption. now repeat split.
        -- intros (d & o & H & I & Eo). apply Eip in H. destruct H as [[-> ->]|[Ne H]].
           ++ cbn in I. apply in_app_or in I. destruct I as [I|[<-|[]]]; [now exists c, o|]. cbn in Eo. subst j.
              apply existsb_exists in Kk. destruct Kk as (o' & I' & K'). apply Nat.eqb_eq in K'. now exists c, o'.
           ++ now exists d, o.
      * destruct (update_polygon_spec b1 k g (push_conflict_g (InEIP p n)) G) as (l & -> & Len' & At' & O').
        assert (Eb2 : on_plane (b_eip (set_polygons b1 l)) p = all) by exact Eb1.
        eexists. split; [reflexivity|]. split; [|split; [now apply More|now apply Known]].
        constructor; [|now apply One|now apply Conf|].
        -- unfold same_but_eip. cbn. repeat split; try assumption.
           ++ rewrite <- S1. eapply map_write; [exact G|exact At'| |exact Len'|exact O']. apply push_g.
           ++ intros p' Np. rewrite on_set_plane_other by assumption. now apply S8.
        -- split; [now apply LE|]. intros j f m Hf. cbn in Hf. unfold eip_at. rewrite Eb2.
           assert (NoK : forall o, In o (ei_overlaps c) -> ov_polygon o <> k).
           { intros o I K. assert (existsb (fun o => (ov_polygon o =? k)%nat) (ei_overlaps c) = true); [|congruence]. apply existsb_exists. exists o. split; [assumption|now apply Nat.eqb_eq]. }
           destruct (Nat.eq_dec j k) as [->|Nj].
           ++ assert (f = push_conflict_g (InEIP p n) g) as -> by congruence. cbn. rewrite in_app_iff, (Lg k g m G). split.
              ** intros [(d & o & H & I & Eo)|[K|[]]].
                 --- destruct (Nat.eq_dec m n) as [->|Ne].
                     +++ assert (d = c) as -> by (unfold eip_at in H; congruence). exfalso. now apply (NoK o I).
                     +++ exists d, o. rewrite O by assumption. now repeat split.
                 --- injection K as <-. exists (ei_append c (k, range, other)), (k, range, other). split; [assumption|]. split; [cbn; apply in_or_app; right; now left|reflexivity].
              ** intros (d & o & H & I & Eo). apply Eip in H. destruct H as [[-> ->]|[Ne H]]; [right; now left|]. left. now exists d, o.
           ++ rewrite O' in Hf by assumption. rewrite (Lg j f m Hf). split.
              ** intros (d & o & H & I & Eo). destruct (Nat.eq_dec m n) as [->|Ne].
                 --- assert (d = c) as -> by (unfold eip_at in H; congruence). exists (ei_append c (k, range, other)), o. split; [assumption|]. split; [cbn; apply in_or_app; now left|assumption].
                 --- exists d, o. rewrite O by assumption. now repeat split.
              ** intros (d & o & H & I & Eo). apply Eip in H. destruct H as [[-> ->]|[Ne H]]; [|now exists d, o].
                 cbn in I. apply in_app_or in I. destruct I as [I|[<-|[]]]; [now exists c, o|]. cbn in Eo. congruence.
  - set (N := length (on_plane (b_eip b) p)). set (all := on_plane (b_eip b) p ++ [mk_in_polygon i [(k, range, other)] false]).
    set (b1 := set_eip b (set_plane (b_eip b) p all)).
    destruct (update_edge_spec b1 i e (push_conflict (InEIP p N)) E) as (le & -> & Lene & Ate & Oe). cbn [bind].
    destruct (update_polygon_spec (set_edges b1 le) k g (push_conflict_g (InEIP p N)) G) as (lg & -> & Leng & Atg & Og).
    set (b2 := set_polygons (set_edges b1 le) lg).
    assert (Eb : on_plane (b_eip b2) p = all) by (cbn; apply on_set_plane).
    assert (Eip : forall m d, eip_at b2 p m d <-> eip_at b p m d \/ (m = N /\ d = mk_in_polygon i [(k, range, other)] false)).
    { intros m d. unfold eip_at. rewrite Eb. apply nth_snoc. }
    exists b2. split; [reflexivity|]. split; [|split].
    + constructor.
      * unfold same_but_eip. cbn. repeat split; try assumption.
        -- rewrite <- S1. eapply map_write; [exact G|exact Atg| |exact Leng|exact Og]. apply push_g.
        -- rewrite <- S2. eapply map_write; [exact E|exact Ate| |exact Lene|exact Oe]. apply push_e.
        -- intros p' Np. rewrite on_set_plane_other by assumption. now apply S8.
      * intros n1 n2 c1 c2 C1 C2. apply Eip in C1, C2.
        destruct C1 as [C1|[-> ->]], C2 as [C2|[-> ->]]; cbn; intro K.
        -- now apply (On n1 n2 c1 c2).
        -- exfalso. apply (F c1); [eapply nth_error_In; exact C1|assumption].
        -- exfalso. apply (F c2); [eapply nth_error_In; exact C2|now symmetry].
        -- reflexivity.
      * intros m d H. apply Eip in H. destruct H as [H|[-> ->]]; [now apply (Co m)|]. cbn. split; [discriminate|]. split; [reflexivity|].
        split; [eauto|]. intros o [<-|[]]. assumption.
      * split.
        -- intros j f m Hf. unfold edge_at in Hf. cbn in Hf. destruct (Nat.eq_dec j i) as [->|Nj].
           ++ assert (f = push_conflict (InEIP p N) e) as -> by congruence. cbn. rewrite in_app_iff, (Le i e m E). split.
              ** intros [(d & H & Ed)|[K|[]]]; [exists d; split; [apply Eip; now left|assumption]|].
                 injection K as <-. eexists. split; [apply Eip; right; split; reflexivity|reflexivity].
              ** intros (d & H & Ed). apply Eip in H. destruct H as [H|[-> ->]]; [left; now exists d|right; now left].
           ++ cbn in Oe. rewrite Oe in Hf by assumption. rewrite (Le j f m Hf). split.
              ** intros (d & H & Ed). exists d. split; [apply Eip; now left|assumption].
              ** intros (d & H & Ed). apply Eip in H. destruct H as [H|[-> ->]]; [now exists d|]. cbn in Ed. congruence.
        -- intros j f m Hf. cbn in Hf. destruct (Nat.eq_dec j k) as [->|Nj].
           ++ assert (f = push_conflict_g (InEIP p N) g) as -> by congruence. cbn. rewrite in_app_iff, (Lg k g m G). split.
              ** intros [(d & o & H & I & Ed)|[K|[]]]; [exists d, o; split; [apply Eip; now left|now split]|].
                 injection K as <-. eexists. exists (k, range, other). split; [apply Eip; right; split; reflexivity|]. split; [now left|reflexivity].
              ** intros (d & o & H & I & Ed). apply Eip in H. destruct H as [H|[-> ->]]; [left; now exists d, o|right; now left].
           ++ cbn in Og. rewrite Og in Hf by assumption. rewrite (Lg j f m Hf). split.
              ** intros (d & o & H & I & Ed). exists d, o. split; [apply Eip; now left|now split].
              ** intros (d & o & H & I & Ed). apply Eip in H. destruct H as [H|[-> ->]]; [now exists d, o|]. cbn in I. destruct I as [<-|[]]. cbn in Ed. congruence.
    + intros m d H. exists d, []. rewrite app_nil_r. split; [apply Eip; now left|]. now split.
    + eexists N, _, (k, range, other). split; [apply Eip; right; split; reflexivity|]. split; [reflexivity|]. split; [now left|].
      split; [reflexivity|]. split; [apply seg_eqb_refl|apply same_overlap_refl].
Qed.

(** * What one edge and one polygon give *)

(** The points of an edge on another, and the range they share. *)
Definition met (ea eb : edge) : list point * option seg :=
  match relation_seg (e_seg ea) (e_seg eb) with
  | CROSSING => (match intersection (e_seg ea) (e_seg eb) with Some p => [p] | None => [] end, None)
  | OVERLAPPING =>
      match overlap (e_seg ea) (e_seg eb) with
      | None => ([], None)
      | Some r => ([s0 r; s1 r], match seg_axis r with SPOINT => None | _ => Some r end)
      end
  | _ => ([], None)
  end.
Definition met_points (ea : edge) (l : list edge) : list point := flat_map (fun e => fst (met ea e)) l.
Definition met_ranges (ea : edge) (l : list edge) : list between :=
  flat_map (fun e => match snd (met ea e) with Some r => [with_rel r PP_ON] | None => [] end) l.

Definition inside_or_out (x : PolyPoint) : bool := pp_eqb x PP_IN || pp_eqb x PP_OUT.
(** The pieces of the edge. *)
Definition candidates (srt : sort_by) (ea : edge) (rel0 rel1 : PolyPoint) (inter : list point) (ranges : list between) : run (list between) :=
  let l := unique (sort_points srt (seg_vec (e_seg ea)) (inter ++ [s0 (e_seg ea); s1 (e_seg ea)])) in
  let! first := if inside_or_out rel0 then
                  let! p := read l 0 in let! q := read l 1 in Done [with_rel (mk_seg p q) rel0]
                else Done [] in
  let! final := if inside_or_out rel1 then
                  match rev l with
                  | q :: p :: _ => Done [with_rel (mk_seg p q) rel1]
                  | _ => Dangling
                  end
                else Done [] in
  let known := ranges ++ first ++ final in
  Done (known ++ pieces known l).
Definition piece_in (fuel : nat) (points : list point) (r : between) : run bool :=
  let '(range, rel, mid) := r in
  let! at_mid := match mid with
                 | None => Done false
                 | Some m => let! x := relation_polygon fuel points m in Done (pp_eqb x PP_IN)
                 end in
  Done (at_mid || match rel with Some PP_IN => true | _ => false end).

(** A range of the edge found inside the polygon. *)
Inductive found (fuel : nat) (srt : sort_by) (ea : edge) (points : list point) (ebs : list edge) : seg -> Prop :=
| found_whole : met_points ea ebs = [] ->
    relation_polygon fuel points (s0 (e_seg ea)) = Done PP_IN -> relation_polygon fuel points (s1 (e_seg ea)) = Done PP_IN ->
    found fuel srt ea points ebs (mk_seg (s0 (e_seg ea)) (s1 (e_seg ea)))
| found_piece rel0 rel1 cs r : met_points ea ebs <> [] ->
    relation_polygon fuel points (s0 (e_seg ea)) = Done rel0 -> relation_polygon fuel points (s1 (e_seg ea)) = Done rel1 ->
    candidates srt ea rel0 rel1 (met_points ea ebs) (met_ranges ea ebs) = Done cs -> In r cs -> piece_in fuel points r = Done true ->
    found fuel srt ea points ebs (fst (fst r)).

Definition reason (fuel : nat) (srt : sort_by) (b : board) (i : nat) (o : Overlap) : Prop :=
  exists ea g, edge_at b i ea /\ nth_error (b_polygons b) (ov_polygon o) = Some g
    /\ match ov_edge o with
       | Some j => In j (g_edges g) /\ exists eb, edge_at b j eb /\ snd (met ea eb) = Some (ov_range o)
       | None => exists ebs, edges_at b (g_edges g) ebs /\ found fuel srt ea (g_points g) ebs (ov_range o)
       end.

Lemma without_eip_seg p e e' : without_eip p e' = without_eip p e -> e_seg e' = e_seg e.
Proof. unfold without_eip. intro H. injection H. congruence. Qed.

Lemma met_same ea ea' eb eb' : e_seg ea' = e_seg ea -> e_seg eb' = e_seg eb -> met ea' eb' = met ea eb.
Proof. unfold met. now intros -> ->. Qed.

Section One.
Variables (fuel : nat) (srt : sort_by) (b0 : board) (p : Plane) (i k : nat) (ea : edge) (g : polygon).
Hypothesis Ei : edge_at b0 i ea.
Hypothesis Pe : e_plane ea = p.
Hypothesis Gk : nth_error (b_polygons b0) k = Some g.
Hypothesis Pg : g_plane g = p.
Variable Q : nat -> Overlap -> Prop.

Lemma meet_edge_spec b inter ranges j eb : detected b0 p Q b -> edge_at b0 j eb ->
  (forall r, snd (met ea eb) = Some r -> Q i (k, r, Some j)) ->
  exists b', meet_edge i k (b, inter, ranges) j = Done (b', inter ++ fst (met ea eb), ranges ++ match snd (met ea eb) with Some r => [with_rel r PP_ON] | None => [] end)
    /\ detected b0 p Q b' /\ more_overlaps p b b' /\ forall r, snd (met ea eb) = Some r -> known_overlap b' p i k r (Some j).
Proof.
  intros D Ej H.
  destruct (same_eip_edge p b0 b i ea (de_same _ _ _ _ D) Ei) as (ea' & Ea & Wa).
  destruct (same_eip_edge p b0 b j eb (de_same _ _ _ _ D) Ej) as (eb' & Eb & Wb).
  unfold meet_edge. apply read_done in Ea, Eb. rewrite Ea. cbn [bind]. rewrite Eb. cbn [bind].
  rewrite (without_eip_seg _ _ _ Wa), (without_eip_seg _ _ _ Wb). unfold met in *.
  assert (None' : exists b', Done (b, inter, ranges) = Done (b', inter ++ [], ranges ++ []) /\ detected b0 p Q b' /\ more_overlaps p b b'
    /\ forall r, None = Some r -> known_overlap b' p i k r (Some j)).
  { exists b. rewrite !app_nil_r. split; [reflexivity|]. split; [assumption|]. split; [apply more_refl|discriminate]. }
  destruct (relation_seg (e_seg ea) (e_seg eb)).
  - exact None'.
  - destruct (intersection (e_seg ea) (e_seg eb)) as [q|]; [|exact None']. exists b. rewrite app_nil_r. split; [reflexivity|]. split; [assumption|].
    split; [apply more_refl|discriminate].
  - exact None'.
  - destruct (overlap (e_seg ea) (e_seg eb)) as [r|]; [|exact None'].
    assert (Add : (forall r', Some r = Some r' -> Q i (k, r', Some j)) -> exists b',
      (let! b' := add_edge_in_polygon b i k r (Some j) in Done (b', inter ++ [s0 r; s1 r], ranges ++ [with_rel r PP_ON]))
      = Done (b', inter ++ [s0 r; s1 r], ranges ++ [with_rel r PP_ON]) /\ detected b0 p Q b' /\ more_overlaps p b b'
      /\ forall r', Some r = Some r' -> known_overlap b' p i k r' (Some j)).
    { intros H'. destruct (add_detected b0 p Q b i k r (Some j) ea g D Ei Pe Gk Pg (H' r eq_refl)) as (b' & -> & D' & M' & K').
      exists b'. split; [reflexivity|]. split; [assumption|]. split; [assumption|]. intros r' E. now injection E as <-. }
    cbn [fst snd] in *. destruct (seg_axis r); try (now apply Add).
    exists b. rewrite app_nil_r. split; [reflexivity|]. split; [assumption|]. split; [apply more_refl|discriminate].
Qed.

Lemma meet_loop js ebs : Forall2 (edge_at b0) js ebs -> forall b inter ranges, detected b0 p Q b ->
  (forall j eb r, In j js -> edge_at b0 j eb -> snd (met ea eb) = Some r -> Q i (k, r, Some j)) ->
  exists b', for_each (meet_edge i k) js (b, inter, ranges) = Done (b', inter ++ met_points ea ebs, ranges ++ met_ranges ea ebs)
    /\ detected b0 p Q b' /\ more_overlaps p b b'
    /\ forall j eb r, In j js -> edge_at b0 j eb -> snd (met ea eb) = Some r -> known_overlap b' p i k r (Some j).
Proof.
  induction 1 as [|j eb js ebs Ej F IH]; intros b inter ranges D H; cbn [for_each met_points met_ranges flat_map].
  - exists b. rewrite !app_nil_r. split; [reflexivity|]. split; [assumption|]. split; [apply more_refl|intros j eb r []].
  - destruct (meet_edge_spec b inter ranges j eb D Ej) as (b1 & -> & D1 & M1 & K1); [intros r; apply H; [now left|assumption]|]. cbn [bind].
    destruct (IH b1 (inter ++ fst (met ea eb)) (ranges ++ match snd (met ea eb) with Some r => [with_rel r PP_ON] | None => [] end) D1) as (b2 & -> & D2 & M2 & K2).
    { intros j' eb' r I. apply H. now right. }
    exists b2. rewrite <- !app_assoc. split; [reflexivity|]. split; [assumption|]. split; [eapply more_trans; eassumption|].
    intros j' eb' r [<-|I] E' S'.
    + assert (eb' = eb) as -> by (unfold edge_at in *; congruence). eapply known_more; [exact M2|]. now apply K1.
    + now apply (K2 j' eb').
Qed.

Lemma register_spec b r b' : detected b0 p Q b -> register_range fuel i k b r = Done b' ->
  exists x, piece_in fuel (g_points g) r = Done x /\ ((x = true -> Q i (k, fst (fst r), None)) -> detected b0 p Q b' /\ more_overlaps p b b'
    /\ (x = true -> known_overlap b' p i k (fst (fst r)) None)).
Proof.
  intros D. unfold register_range, piece_in.
  destruct (same_eip_polygon p b0 b k g (de_same _ _ _ _ D) Gk) as (g' & G & W). apply read_done in G. rewrite G. cbn [bind].
  assert (g_points g' = g_points g) as -> by (unfold without_eip_g in W; injection W; congruence).
  destruct r as [[range rel] mid]. cbn [fst].
  destruct (match mid with None => Done false | Some m => let! x := relation_polygon fuel (g_points g) m in Done (pp_eqb x PP_IN) end) as [y| |]; cbn [bind]; try discriminate.
  intros E. eexists. split; [reflexivity|]. destruct (y || match rel with Some PP_IN => true | _ => false end); intros H.
  - destruct (add_detected b0 p Q b i k range None ea g D Ei Pe Gk Pg (H eq_refl)) as (b2 & E2 & D2 & M2 & K2).
    assert (b2 = b') as <- by congruence. split; [assumption|]. split; [assumption|]. now intros _.
  - injection E as <-. split; [assumption|]. split; [apply more_refl|discriminate].
Qed.

Lemma register_loop cs : forall b b', detected b0 p Q b -> for_each (register_range fuel i k) cs b = Done b' ->
  (forall r, In r cs -> piece_in fuel (g_points g) r = Done true -> Q i (k, fst (fst r), None)) ->
  detected b0 p Q b' /\ more_overlaps p b b'
  /\ (forall r, In r cs -> piece_in fuel (g_points g) r = Done true -> known_overlap b' p i k (fst (fst r)) None).
Proof.
  induction cs as [|r cs IH]; intros b b' D E H; cbn [for_each] in E.
  - injection E as <-. split; [assumption|]. split; [apply more_refl|intros r []].
  - destruct (register_range fuel i k b r) as [b1| |] eqn:E1; cbn [bind] in E; try discriminate.
    destruct (register_spec b r b1 D E1) as (x & X & Y). destruct Y as (D1 & M1 & K1).
    { intros ->. apply H; [now left|assumption]. }
    destruct (IH b1 b' D1 E) as (D2 & M2 & K2); [intros r' I; apply H; now right|].
    split; [assumption|]. split; [eapply more_trans; eassumption|]. intros r' [<-|I] P'.
    + eapply known_more; [exact M2|]. apply K1. congruence.
    + now apply K2.
Qed.

Lemma edge_in_polygon_spec ebs b b' : edges_at b0 (g_edges g) ebs -> detected b0 p Q b -> edge_in_polygon fuel srt k b i = Done b' ->
  (forall o, ov_polygon o = k -> reason fuel srt b0 i o -> Q i o) ->
  detected b0 p Q b' /\ more_overlaps p b b'
  /\ forall o, ov_polygon o = k -> reason fuel srt b0 i o -> known_overlap b' p i k (ov_range o) (ov_edge o).
Proof.
  intros Es D E H. unfold edge_in_polygon in E.
  destruct (same_eip_polygon p b0 b k g (de_same _ _ _ _ D) Gk) as (g' & G & W). apply read_done in G. rewrite G in E. cbn [bind] in E.
  destruct (same_eip_edge p b0 b i ea (de_same _ _ _ _ D) Ei) as (ea' & Ea & Wa). apply read_done in Ea. rewrite Ea in E. cbn [bind] in E.
  assert (Gp : g_points g' = g_points g) by (unfold without_eip_g in W; injection W; congruence).
  assert (Ge : g_edges g' = g_edges g) by (unfold without_eip_g in W; injection W; congruence).
  rewrite Gp, Ge, (without_eip_seg _ _ _ Wa) in E. clear Wa Ea W G Gp Ge.
  destruct (meet_loop (g_edges g) ebs Es b [] [] D) as (b1 & E1 & D1 & M1 & K1).
  { intros j eb r I Ej S. apply H; [reflexivity|]. exists ea, g. split; [assumption|]. split; [assumption|]. cbn. split; [assumption|]. eauto. }
  rewrite E1 in E. cbn [bind app] in E. clear E1.
  assert (R : forall o, ov_polygon o = k -> reason fuel srt b0 i o ->
    (exists j eb, ov_edge o = Some j /\ In j (g_edges g) /\ edge_at b0 j eb /\ snd (met ea eb) = Some (ov_range o))
    \/ (ov_edge o = None /\ found fuel srt ea (g_points g) ebs (ov_range o))).
  { intros o Ok (ea1 & g1 & Ea1 & G1 & R). rewrite Ok in G1. assert (ea1 = ea) as -> by (unfold edge_at in *; congruence).
    assert (g1 = g) as -> by congruence. destruct (ov_edge o) as [j|].
    - left. destruct R as (I & eb & Ej & S). eauto 6.
    - right. split; [reflexivity|]. destruct R as (ebs' & Es' & F). assert (ebs' = ebs) as ->; [|assumption].
      clear - Es Es'. unfold edges_at, edge_at in *. revert ebs Es. induction Es' as [|x y l l' X F IH]; intros ebs Es; inversion Es; subst; [reflexivity|].
      f_equal; [congruence|]. now apply IH. }
  assert (F' : forall s, found fuel srt ea (g_points g) ebs s -> Q i (k, s, None)).
  { intros s Fs. apply H; [reflexivity|]. exists ea, g. split; [assumption|]. split; [assumption|]. cbn. eauto. }
  assert (Goal' : forall b2, detected b0 p Q b2 -> more_overlaps p b1 b2 ->
     (forall s, found fuel srt ea (g_points g) ebs s -> known_overlap b2 p i k s None) ->
     detected b0 p Q b2 /\ more_overlaps p b b2 /\ forall o, ov_polygon o = k -> reason fuel srt b0 i o -> known_overlap b2 p i k (ov_range o) (ov_edge o)).
  { intros b2 D2 M2 K2. split; [assumption|]. split; [eapply more_trans; eassumption|]. intros o Ok Ro.
    destruct (R o Ok Ro) as [(j & eb & -> & I & Ej & S)|(-> & Fo)]; [|now apply K2]. eapply known_more; [exact M2|]. now apply (K1 j eb). }
  clear K1 R H.
  destruct (relation_polygon fuel (g_points g) (s0 (e_seg ea))) as [rel0| |] eqn:R0; cbn [bind] in E; try discriminate.
  destruct (relation_polygon fuel (g_points g) (s1 (e_seg ea))) as [rel1| |] eqn:R1; cbn [bind] in E; try discriminate.
  destruct (met_points ea ebs) as [|q qs] eqn:Mp.
  - destruct (pp_eqb rel0 PP_IN && pp_eqb rel1 PP_IN) eqn:Both.
    + apply andb_true_iff in Both. destruct Both as [B0 B1]. assert (rel0 = PP_IN) as -> by (now destruct rel0). assert (rel1 = PP_IN) as -> by (now destruct rel1).
      destruct (add_detected b0 p Q b1 i k (mk_seg (s0 (e_seg ea)) (s1 (e_seg ea))) None ea g D1 Ei Pe Gk Pg) as (b2 & E2 & D2 & M2 & K2).
      { apply F'. now constructor. }
      assert (b2 = b') as <- by congruence. apply Goal'; [assumption|assumption|].
      intros s Fs. destruct Fs as [|rel0 rel1 cs r N]; [assumption|congruence].
    + injection E as <-. apply Goal'; [assumption|apply more_refl|]. intros s Fs. exfalso. destruct Fs as [_ A B|rel0' rel1' cs r N]; [|congruence].
      assert (rel0 = PP_IN) as -> by congruence. assert (rel1 = PP_IN) as -> by congruence. discriminate.
  - fold (inside_or_out rel0) in E. fold (inside_or_out rel1) in E. rewrite <- Mp in *.
    assert (C : exists cs, candidates srt ea rel0 rel1 (met_points ea ebs) (met_ranges ea ebs) = Done cs /\ for_each (register_range fuel i k) cs b1 = Done b').
    { unfold candidates. cbv zeta in *. cbv beta in *.
      set (l := unique (sort_points srt (seg_vec (e_seg ea)) (met_points ea ebs ++ [s0 (e_seg ea); s1 (e_seg ea)]))) in *.
      destruct (if inside_or_out rel0 then let! p := read l 0 in let! q := read l 1 in Done [with_rel (mk_seg p q) rel0] else Done []) as [first| |]; cbn [bind] in *; try discriminate.
      destruct (if inside_or_out rel1 then match rev l with q :: p :: _ => Done [with_rel (mk_seg p q) rel1] | _ => Dangling end else Done []) as [final| |]; cbn [bind] in *; try discriminate.
      eauto. }
    destruct C as (cs & C & E').
    destruct (register_loop cs b1 b' D1 E') as (D2 & M2 & K2).
    + intros r I P. apply F'. eapply found_piece; eauto. rewrite Mp. discriminate.
    + apply Goal'; [assumption|assumption|]. intros s Fs. destruct Fs as [N|rel0' rel1' cs' r N A B C' I P]; [rewrite Mp in N; discriminate|].
      assert (rel0' = rel0) as -> by congruence. assert (rel1' = rel1) as -> by congruence. assert (cs' = cs) as -> by congruence. now apply K2.
Qed.
End One.

(** * All edges and polygons of a plane *)

Lemma for_each_app {A B} (f : B -> A -> run B) l l' : forall b, for_each f (l ++ l') b = let! b' := for_each f l b in for_each f l' b'.
Proof. induction l as [|x l IH]; intros b; cbn; [reflexivity|]. destruct (f b x); cbn; [apply IH|reflexivity|reflexivity]. Qed.

Lemma for_each_map {A B C} (f : B -> A -> run B) (h : C -> A) l : forall b, for_each f (map h l) b = for_each (fun b x => f b (h x)) l b.
Proof. induction l as [|x l IH]; intros b; cbn; [reflexivity|]. destruct (f b (h x)); cbn; [apply IH|reflexivity|reflexivity]. Qed.

Lemma polygons_of_in b p k : In k (polygons_of b p) <-> exists g, nth_error (b_polygons b) k = Some g /\ g_plane g = p.
Proof.
  unfold polygons_of. rewrite positions_in. split; intros (g & G & P); exists g; (split; [assumption|]); now apply plane_eqb_eq.
Qed.

Lemma polygons_of_same p q b b' : same_but_eip p b b' -> polygons_of b' q = polygons_of b q.
Proof.
  intros (M & _). unfold polygons_of, positions, view. revert M. generalize 0%nat. generalize (b_polygons b).
  induction (b_polygons b') as [|x l IH]; intros [|y l'] n M; cbn [map] in M; try discriminate; [reflexivity|].
  assert (M2 : map (without_eip_g p) l = map (without_eip_g p) l') by congruence.
  assert (g_plane x = g_plane y) as M1 by (apply (f_equal (hd x)) in M; cbn in M; injection M; congruence). cbn. rewrite M1.
  destruct (plane_eqb (g_plane y) q); cbn; [f_equal|]; apply (IH l' (S n) M2).
Qed.

Definition rightly (fuel : nat) (srt : sort_by) (b : board) (i : nat) (o : Overlap) : Prop :=
  may_hide b i (ov_polygon o) /\ reason fuel srt b i o.
Definition all_known (fuel : nat) (srt : sort_by) (b0 : board) (p : Plane) (b : board) (i k : nat) : Prop :=
  forall o, ov_polygon o = k -> reason fuel srt b0 i o -> known_overlap b p i k (ov_range o) (ov_edge o).

Lemma all_known_more fuel srt b0 p b b' i k : more_overlaps p b b' -> all_known fuel srt b0 p b i k -> all_known fuel srt b0 p b' i k.
Proof. intros M H o Ok R. eapply known_more; [exact M|]. now apply H. Qed.

Lemma edges_in_place_at b g k : edges_in_place b -> nth_error (b_polygons b) k = Some g -> exists es, edges_at b (g_edges g) es.
Proof.
  intros Pl G. assert (K : forall i, In i (g_edges g) -> exists e, edge_at b i e).
  { intros i I. destruct (Pl k g G i I) as (e & E & _). eauto. }
  clear G. induction (g_edges g) as [|i l IH]; [exists []; constructor|].
  destruct (K i (or_introl eq_refl)) as (e & E). destruct IH as (es & Es); [intros j J; apply K; now right|]. exists (e :: es). now constructor.
Qed.

Lemma overlap_z_point a b : overlap_z a b = true <-> exists z, in_range a z /\ in_range b z.
Proof. apply overlap_side_point. Qed.

Lemma polygon_in_polygon_spec fuel srt b0 p ka pa kb pb b b' : edges_in_place b0 ->
  nth_error (b_polygons b0) ka = Some pa -> g_plane pa = p -> nth_error (b_polygons b0) kb = Some pb -> g_plane pb = p ->
  detected b0 p (rightly fuel srt b0) b -> polygon_in_polygon fuel srt ka b kb = Done b' ->
  detected b0 p (rightly fuel srt b0) b' /\ more_overlaps p b b'
  /\ (kb <> ka -> (g_priority pa <= g_priority pb)%nat -> (exists z, in_range (g_z pa) z /\ in_range (g_z pb) z) ->
      forall i, In i (g_edges pa) -> all_known fuel srt b0 p b' i kb).
Proof.
  intros Pl Ga Pa Gb Pb D E. unfold polygon_in_polygon in E.
  destruct (same_eip_polygon p b0 b ka pa (de_same _ _ _ _ D) Ga) as (ga & Ga' & Wa).
  destruct (same_eip_polygon p b0 b kb pb (de_same _ _ _ _ D) Gb) as (gb & Gb' & Wb).
  apply read_done in Ga'. rewrite Ga' in E. cbn [bind] in E. apply read_done in Gb'. rewrite Gb' in E. cbn [bind] in E.
  unfold without_eip_g in Wa, Wb. injection Wa as W1 W2 W3 W4 W5 W6 W7 W8. injection Wb as V1 V2 V3 V4 V5 V6 V7 V8.
  rewrite W3, W4, W7, V3, V4 in E. clear W1 W2 W3 W4 W5 W6 W7 W8 V1 V2 V3 V4 V5 V6 V7 V8.
  assert (Skip : b' = b -> (kb <> ka -> (g_priority pa <= g_priority pb)%nat -> (exists z, in_range (g_z pa) z /\ in_range (g_z pb) z) -> False) ->
    detected b0 p (rightly fuel srt b0) b' /\ more_overlaps p b b'
    /\ (kb <> ka -> (g_priority pa <= g_priority pb)%nat -> (exists z, in_range (g_z pa) z /\ in_range (g_z pb) z) ->
        forall i, In i (g_edges pa) -> all_known fuel srt b0 p b' i kb)).
  { intros -> No. split; [assumption|]. split; [apply more_refl|]. intros A B C. exfalso. now apply No. }
  destruct (Nat.eqb_spec kb ka) as [Ek|Nk]; [apply Skip; [congruence|congruence]|].
  destruct (Nat.ltb_spec (g_priority pb) (g_priority pa)) as [L|L]; [apply Skip; [congruence|lia]|].
  destruct (overlap_z (g_z pb) (g_z pa)) eqn:Z; cbn [negb] in E.
  2:{ apply Skip; [congruence|]. intros _ _ (z & Z1 & Z2). assert (overlap_z (g_z pb) (g_z pa) = true); [|congruence]. apply overlap_z_point. now exists z. }
  clear Skip. apply overlap_z_point in Z. destruct Z as (z & Zb & Za).
  destruct (edges_in_place_at b0 pb kb Pl Gb) as (ebs & Es).
  pose proof (for_each_done (edge_in_polygon fuel srt kb) (fun done b' => detected b0 p (rightly fuel srt b0) b' /\ more_overlaps p b b'
    /\ forall i, In i done -> all_known fuel srt b0 p b' i kb) (g_edges pa) b b') as H.
  destruct H as (D' & M' & K'); [| |exact E|].
  - split; [assumption|]. split; [apply more_refl|intros i []].
  - intros done i rest b1 b2 EL (D1 & M1 & K1) E2. assert (I : In i (g_edges pa)) by (rewrite EL; apply in_or_app; right; now left).
    destruct (Pl ka pa Ga i I) as (ea & Ei & Pe).
    destruct (edge_in_polygon_spec fuel srt b0 p i kb ea pb Ei ltac:(congruence) Gb Pb (rightly fuel srt b0) ebs b1 b2 Es D1 E2) as (D2 & M2 & K2).
    { intros o Ok R. split; [|assumption]. rewrite Ok. exists ka, pa, pb. split; [assumption|]. split; [assumption|]. split; [congruence|]. split; [assumption|].
      split; [congruence|]. split; [assumption|]. now exists z. }
    split; [assumption|]. split; [eapply more_trans; eassumption|]. intros j J. apply in_app_or in J. destruct J as [J|[<-|[]]]; [|exact K2].
    eapply all_known_more; [exact M2|]. now apply K1.
  - split; [assumption|]. split; [assumption|]. intros _ _ _. exact K'.
Qed.

Lemma detect_in_polygons_spec fuel srt b p b' : edges_in_place b -> no_eip b p -> detect_edges_in_polygons fuel srt b p = Done b' ->
  detected b p (rightly fuel srt b) b'
  /\ forall i o e, edge_at b i e -> e_plane e = p -> rightly fuel srt b i o -> known_overlap b' p i (ov_polygon o) (ov_range o) (ov_edge o).
Proof.
  intros Pl No E. unfold detect_edges_in_polygons in E.
  set (all ka b' := forall pa kb pb, nth_error (b_polygons b) ka = Some pa -> nth_error (b_polygons b) kb = Some pb -> g_plane pb = p ->
     kb <> ka -> (g_priority pa <= g_priority pb)%nat -> (exists z, in_range (g_z pa) z /\ in_range (g_z pb) z) ->
      forall i, In i (g_edges pa) -> all_known fuel srt b p b' i kb).
  pose proof (for_each_done (fun b i => for_each (polygon_in_polygon fuel srt i) (polygons_of b p) b)
    (fun done b' => detected b p (rightly fuel srt b) b' /\ more_overlaps p b b' /\ forall ka, In ka done -> all ka b') (polygons_of b p) b b') as H.
  destruct H as (D' & M' & K'); [| |exact E|].
  - split; [now apply detected_start|]. split; [apply more_refl|intros i []].
  - intros done ka rest b1 b2 EL (D1 & M1 & K1) E2.
    assert (I : In ka (polygons_of b p)) by (rewrite EL; apply in_or_app; right; now left). apply polygons_of_in in I. destruct I as (pa & Ga & Pa).
    rewrite (polygons_of_same p p b b1 (de_same _ _ _ _ D1)) in E2.
    pose proof (for_each_done (polygon_in_polygon fuel srt ka)
      (fun done b' => detected b p (rightly fuel srt b) b' /\ more_overlaps p b1 b' /\
        forall kb pb, In kb done -> nth_error (b_polygons b) kb = Some pb -> kb <> ka -> (g_priority pa <= g_priority pb)%nat -> (exists z, in_range (g_z pa) z /\ in_range (g_z pb) z) ->
          forall i, In i (g_edges pa) -> all_known fuel srt b p b' i kb) (polygons_of b p) b1 b2) as H.
    destruct H as (D2 & M2 & K2); [| |exact E2|].
    + split; [assumption|]. split; [apply more_refl|intros kb pb []].
    + intros done' kb rest' c1 c2 EL' (Dc & Mc & Kc) Ec.
      assert (I : In kb (polygons_of b p)) by (rewrite EL'; apply in_or_app; right; now left). apply polygons_of_in in I. destruct I as (pb & Gb & Pb).
      destruct (polygon_in_polygon_spec fuel srt b p ka pa kb pb c1 c2 Pl Ga Pa Gb Pb Dc Ec) as (D3 & M3 & K3).
      split; [assumption|]. split; [eapply more_trans; eassumption|]. intros kb' pb' I Gb' N L Z i Ii. apply in_app_or in I. destruct I as [I|[<-|[]]].
      * eapply all_known_more; [exact M3|]. now apply (Kc kb' pb').
      * assert (pb' = pb) as -> by congruence. now apply K3.
    + split; [assumption|]. split; [eapply more_trans; eassumption|]. intros ka' I. apply in_app_or in I. destruct I as [I|[<-|[]]].
      * intros pa' kb pb A B C N L Z i Ii. eapply all_known_more; [exact M2|]. now apply (K1 ka' I pa' kb pb).
      * intros pa' kb pb A B C N L Z i Ii. assert (pa' = pa) as -> by congruence. apply (K2 kb pb); try assumption. apply polygons_of_in. now exists pb.
  - split; [assumption|]. intros i o e Ei Pe ((ka & ga & gb & Ga & Gb & Nk & Ie & Pp & L & Z) & R).
    destruct (Pl ka ga Ga i Ie) as (e' & Ee' & Pe'). assert (e' = e) as -> by (unfold edge_at in *; congruence).
    assert (In ka (polygons_of b p)) as I by (apply polygons_of_in; exists ga; split; [assumption|congruence]).
    exact (K' ka I ga (ov_polygon o) gb Ga Gb ltac:(congruence) ltac:(congruence) L Z i Ie o eq_refl R).
Qed.
