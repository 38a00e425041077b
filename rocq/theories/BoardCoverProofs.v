(** The solution of the conflicts of edges in polygons: ranges of one line. *)
From Coq Require Import List Arith Bool Lia QArith Qabs Qminmax Lqa Sorting.Sorted Sorting.Permutation.
From Verif Require Import IntervalModel IntervalSpec IntervalProofs ManagerModel ManagerSpec ManagerProofs ManagerMoreProofs.
From Verif Require Import GeomModel GeomSpec GeomProofs GeomSegProofs BoardModel BoardSpec BoardProofs BoardColinearProofs.
Import ListNotations.
Open Scope Q_scope.

(** * Ranges of a line *)

Definition pt_on (v : ViewAxis) (x y : Q) : point := match v with VH => mk_pt x y | VV => mk_pt y x end.
(** [s] is the range from [a] to [b] of the line at [y]. *)
Definition spans (v : ViewAxis) (y : Q) (s : seg) (a b : Q) : Prop :=
  level v (s0 s) == y /\ level v (s1 s) == y /\ equality_tolerance <= b - a
  /\ ((along v (s0 s) == a /\ along v (s1 s) == b) \/ (along v (s0 s) == b /\ along v (s1 s) == a)).

Lemma tolerance_pos : 0 < equality_tolerance.
Proof. reflexivity. Qed.

Lemma spans_lt v y s a b : spans v y s a b -> a < b.
Proof. intros (_ & _ & L & _). pose proof tolerance_pos. lra. Qed.

Lemma spans_straight v y s a b : spans v y s a b -> straight v s /\ level v (s0 s) == y.
Proof.
  intros (L0 & L1 & T & A). split; [|assumption]. split; [lra|].
  destruct A as [[A0 A1]|[A0 A1]]; rewrite A0, A1.
  - eapply Qle_trans; [exact T|]. apply Qle_Qabs.
  - rewrite Qabs_Qminus. eapply Qle_trans; [exact T|]. apply Qle_Qabs.
Qed.

Lemma straight_spans v s : straight v s -> exists a b, spans v (level v (s0 s)) s a b.
Proof.
  intros [L T]. destruct (Qlt_le_dec (along v (s0 s)) (along v (s1 s))) as [D|D].
  - exists (along v (s0 s)), (along v (s1 s)). split; [reflexivity|]. split; [lra|]. split; [|left; split; reflexivity].
    rewrite Qabs_pos in T by lra. assumption.
  - exists (along v (s1 s)), (along v (s0 s)). split; [reflexivity|]. split; [lra|]. split; [|right; split; reflexivity].
    rewrite Qabs_neg in T by lra. lra.
Qed.

Lemma spans_wd v y y' s a b a' b' : y == y' -> a == a' -> b == b' -> spans v y s a b -> spans v y' s a' b'.
Proof.
  intros Y A B (L0 & L1 & T & E). split; [lra|]. split; [lra|]. split; [lra|].
  destruct E as [[E0 E1]|[E0 E1]]; [left|right]; split; lra.
Qed.

Lemma spans_unique v y s a b a' b' : spans v y s a b -> spans v y s a' b' -> a == a' /\ b == b'.
Proof.
  intros H H'. pose proof (spans_lt _ _ _ _ _ H). pose proof (spans_lt _ _ _ _ _ H').
  destruct H as (_ & _ & _ & E), H' as (_ & _ & _ & E').
  destruct E as [[E0 E1]|[E0 E1]], E' as [[F0 F1]|[F0 F1]]; split; lra.
Qed.

Lemma spans_on v y s a b : spans v y s a b -> forall p, on_seg s p <-> level v p == y /\ a <= along v p <= b.
Proof.
  intros H p. pose proof (spans_lt _ _ _ _ _ H) as Lt. pose proof H as (L0 & L1 & _ & E).
  rewrite (straight_box_gen s v) by lra. destruct (seg_bounding_cases s) as [Cx Cy]. unfold in_box.
  destruct v; cbn [level along] in *;
    (destruct Cx as [(C & -> & ->)|(C & -> & ->)]; destruct Cy as [(D & -> & ->)|(D & -> & ->)]; destruct E as [[E0 E1]|[E0 E1]]);
    (split; [intros [[H1 H2] [H3 H4]]|intros [H1 [H2 H3]]]); repeat split; lra.
Qed.

Lemma level_on v x y : level v (pt_on v x y) = y.
Proof. now destruct v. Qed.
Lemma along_on v x y : along v (pt_on v x y) = x.
Proof. now destruct v. Qed.

Lemma spans_at v y s a b x : spans v y s a b -> on_seg s (pt_on v x y) <-> a <= x <= b.
Proof.
  intros H. rewrite (spans_on _ _ _ _ _ H), level_on, along_on. split; [tauto|]. intro K. split; [reflexivity|assumption].
Qed.

Lemma merge_spans v y r m a b c d : spans v y r a b -> spans v y m c d ->
  match merge r m with
  | Some t => spans v y t (Qmin a c) (Qmax b d) /\ c <= b /\ a <= d
  | None => b < c \/ d < a
  end.
Proof.
  intros R M. destruct (spans_straight _ _ _ _ _ R) as [SR LR]. destruct (spans_straight _ _ _ _ _ M) as [SM LM].
  pose proof (spans_lt _ _ _ _ _ R) as Lr. pose proof (spans_lt _ _ _ _ _ M) as Lm.
  assert (same_line v r m) as L by (unfold same_line; lra).
  pose proof (merge_straight v r m SR SM L) as H.
  destruct (merge r m) as [t|].
  - destruct H as (U & p & P1 & P2).
    apply (spans_on _ _ _ _ _ R) in P1. apply (spans_on _ _ _ _ _ M) in P2.
    split; [|lra].
    assert (T0 : on_seg t (s0 t)) by apply on_seg_s0. assert (T1 : on_seg t (s1 t)) by apply on_seg_s1.
    assert (K : forall q, on_seg t q -> level v q == y /\ Qmin a c <= along v q <= Qmax b d).
    { intros q Q. apply U in Q. rewrite (spans_on _ _ _ _ _ R), (spans_on _ _ _ _ _ M) in Q.
      pose proof (Q.le_min_l a c). pose proof (Q.le_min_r a c). pose proof (Q.le_max_l b d). pose proof (Q.le_max_r b d).
      destruct Q as [[Q1 Q2]|[Q1 Q2]]; (split; [assumption|split; lra]). }
    destruct (K _ T0) as (E0 & B0). destruct (K _ T1) as (E1 & B1).
    assert (Lo : on_seg t (pt_on v (Qmin a c) y)).
    { apply U. rewrite (spans_at _ _ _ _ _ _ R), (spans_at _ _ _ _ _ _ M). destruct (Q.min_spec a c) as [[? E]|[? E]]; rewrite E; [left|right]; lra. }
    assert (Hi : on_seg t (pt_on v (Qmax b d) y)).
    { apply U. rewrite (spans_at _ _ _ _ _ _ R), (spans_at _ _ _ _ _ _ M). destruct (Q.max_spec b d) as [[? E]|[? E]]; rewrite E; [right|left]; lra. }
    assert (Wide : equality_tolerance <= Qmax b d - Qmin a c).
    { destruct R as (_ & _ & W & _). pose proof (Q.le_min_l a c). pose proof (Q.le_max_l b d). lra. }
    assert (Between : forall x, on_seg t (pt_on v x y) -> (along v (s0 t) <= x <= along v (s1 t) \/ along v (s1 t) <= x <= along v (s0 t))).
    { intros x (u & Hu & Ex & Ey). destruct (Qlt_le_dec (along v (s0 t)) (along v (s1 t))) as [D|D]; [left|right];
        destruct v; cbn [pt_on along px py] in *.
      - eapply on_seg_range; [exact Hu|exact Ex|lra].
      - eapply on_seg_range; [exact Hu|exact Ey|lra].
      - eapply on_seg_range'; [exact Hu|exact Ex|lra].
      - eapply on_seg_range'; [exact Hu|exact Ey|lra]. }
    split; [assumption|]. split; [assumption|]. split; [assumption|].
    destruct (Between _ Lo) as [F|F], (Between _ Hi) as [G|G]; [left|left|right|right]; split; lra.
  - destruct (Qlt_le_dec b c) as [D|D]; [now left|]. destruct (Qlt_le_dec d a) as [D'|D']; [now right|]. exfalso.
    apply (H (pt_on v (Qmax a c) y)). rewrite (spans_at _ _ _ _ _ _ R), (spans_at _ _ _ _ _ _ M).
    destruct (Q.max_spec a c) as [[? E]|[? E]]; rewrite E; lra.
Qed.

(** * Merging the overlaps *)

Definition within (v : ViewAxis) (y : Q) (o : Overlap) : Prop := exists a b, spans v y (ov_range o) a b.
Definition covers (v : ViewAxis) (y : Q) (l : list Overlap) (x : Q) : Prop :=
  exists o, In o l /\ on_seg (ov_range o) (pt_on v x y).

Lemma merge_cover v y edges n l : forall m c d t, spans v y m c d -> Forall (within v y) l ->
  merge_overlaps edges n l m = Done t ->
  exists c' d', spans v y t c' d' /\ forall x, c' <= x <= d' -> c <= x <= d \/ covers v y l x.
Proof.
  assert (Nothing : forall l m c d t, spans v y m c d -> Done m = Done t ->
    exists c' d', spans v y t c' d' /\ forall x, c' <= x <= d' -> c <= x <= d \/ covers v y l x).
  { intros l' m c d t M E. injection E as <-. exists c, d. split; [assumption|]. now left. }
  induction l as [|o l IH]; intros m c d t M F E; cbn [merge_overlaps] in E.
  - now apply (Nothing [] m).
  - destruct (match ov_edge o with None => Done true | Some j => let! e := read edges j in Done (negb (normal_eqb (e_normal e) n)) end) as [[|]| |];
      cbn [bind] in E; try discriminate; [|now apply (Nothing (o :: l) m)].
    inversion F as [|o' l' (a & b & O) F']; subst.
    pose proof (merge_spans v y _ _ _ _ _ _ O M) as H. destruct (merge (ov_range o) m) as [m'|]; [|now apply (Nothing (o :: l) m)].
    destruct H as (M' & H1 & H2). destruct (IH _ _ _ _ M' F' E) as (c' & d' & T & C). exists c', d'. split; [assumption|].
    intros x X. destruct (C x X) as [K|(q & I & On)].
    + destruct (Qlt_le_dec x c) as [D|D]; [|destruct (Qlt_le_dec d x) as [D'|D']].
      * right. exists o. split; [now left|]. rewrite (spans_at _ _ _ _ _ _ O).
        destruct (Q.min_spec a c) as [[? E1]|[? E1]], (Q.max_spec b d) as [[? E2]|[? E2]]; rewrite E1, E2 in K; lra.
      * right. exists o. split; [now left|]. rewrite (spans_at _ _ _ _ _ _ O).
        destruct (Q.min_spec a c) as [[? E1]|[? E1]], (Q.max_spec b d) as [[? E2]|[? E2]]; rewrite E1, E2 in K; lra.
      * left. lra.
    + right. exists q. split; [now right|assumption].
Qed.

Definition other_b (edges : list edge) (n : Normal) (o : Overlap) : Prop :=
  match ov_edge o with
  | None => True
  | Some j => exists f, nth_error edges j = Some f /\ e_normal f <> n
  end.

Lemma normal_eqb_neq a b : a <> b -> normal_eqb a b = false.
Proof. destruct a, b; cbn; congruence. Qed.

Lemma other_runs edges n o : other_b edges n o ->
  match ov_edge o with None => Done true | Some j => let! e := read edges j in Done (negb (normal_eqb (e_normal e) n)) end = Done true.
Proof.
  unfold other_b. destruct (ov_edge o) as [j|]; [|reflexivity]. intros (f & E & N). apply read_done in E. rewrite E. cbn.
  now rewrite (normal_eqb_neq _ _ N).
Qed.

(** Ranges by increasing start. *)
Lemma merge_all_up v y edges n hi l : forall m c d, spans v y m c d -> d <= hi ->
  Forall (other_b edges n) l ->
  (forall o, In o l -> exists a b, spans v y (ov_range o) a b /\ c <= a /\ b <= hi) ->
  StronglySorted (fun o p => forall a b a' b', spans v y (ov_range o) a b -> spans v y (ov_range p) a' b' -> a <= a') l ->
  (forall x, c <= x <= hi -> x <= d \/ covers v y l x) ->
  exists t, merge_overlaps edges n l m = Done t /\ spans v y t c hi.
Proof.
  induction l as [|o l IH]; intros m c d M D Ot R So C.
  - exists m. split; [reflexivity|]. eapply spans_wd; [reflexivity|reflexivity| |exact M].
    pose proof (spans_lt _ _ _ _ _ M). destruct (C hi) as [K|(o & [] & _)]; [lra|]. lra.
  - inversion Ot as [|? ? Oo Ot']; subst. inversion So as [|? ? So' Fo]; subst.
    cbn [merge_overlaps]. rewrite (other_runs _ _ _ Oo). cbn [bind].
    destruct (R o (or_introl eq_refl)) as (a & b & O & A & B).
    pose proof (merge_spans v y _ _ _ _ _ _ O M) as H. pose proof (spans_lt _ _ _ _ _ O) as Lo. pose proof (spans_lt _ _ _ _ _ M) as Lm.
    destruct (merge (ov_range o) m) as [m'|].
    + destruct H as (M' & H1 & H2).
      assert (M'' : spans v y m' c (Qmax b d)).
      { eapply spans_wd; [reflexivity| |reflexivity|exact M']. apply Q.min_r. assumption. }
      apply (IH m' c (Qmax b d) M'').
      * apply Q.max_lub; assumption.
      * assumption.
      * intros q I. apply R. now right.
      * assumption.
      * intros x X. destruct (C x X) as [K|(q & [<-|I] & On)].
        -- left. eapply Qle_trans; [exact K|]. apply Q.le_max_r.
        -- left. apply (spans_at _ _ _ _ _ _ O) in On. eapply Qle_trans; [apply On|]. apply Q.le_max_l.
        -- right. exists q. now split.
    + exfalso. destruct H as [H|H]; [lra|].
      destruct (C ((d + a) / 2)) as [K|(q & [<-|I] & On)].
      * split; [apply Qle_shift_div_l|apply Qle_shift_div_r]; lra.
      * assert (d < (d + a) / 2) by (apply Qlt_shift_div_l; lra). lra.
      * apply (spans_at _ _ _ _ _ _ O) in On. assert ((d + a) / 2 < a) by (apply Qlt_shift_div_r; lra). lra.
      * destruct (R q (or_intror I)) as (a' & b' & Q & _). apply (spans_at _ _ _ _ _ _ Q) in On.
        rewrite Forall_forall in Fo. pose proof (Fo q I _ _ _ _ O Q). assert ((d + a) / 2 < a) by (apply Qlt_shift_div_r; lra). lra.
Qed.

(** Ranges by decreasing end. *)
Lemma merge_all_down v y edges n lo l : forall m c d, spans v y m c d -> lo <= c ->
  Forall (other_b edges n) l ->
  (forall o, In o l -> exists a b, spans v y (ov_range o) a b /\ lo <= a /\ b <= d) ->
  StronglySorted (fun o p => forall a b a' b', spans v y (ov_range o) a b -> spans v y (ov_range p) a' b' -> b' <= b) l ->
  (forall x, lo <= x <= d -> c <= x \/ covers v y l x) ->
  exists t, merge_overlaps edges n l m = Done t /\ spans v y t lo d.
Proof.
  induction l as [|o l IH]; intros m c d M D Ot R So C.
  - exists m. split; [reflexivity|]. eapply spans_wd; [reflexivity| |reflexivity|exact M].
    pose proof (spans_lt _ _ _ _ _ M). destruct (C lo) as [K|(o & [] & _)]; [lra|]. lra.
  - inversion Ot as [|? ? Oo Ot']; subst. inversion So as [|? ? So' Fo]; subst.
    cbn [merge_overlaps]. rewrite (other_runs _ _ _ Oo). cbn [bind].
    destruct (R o (or_introl eq_refl)) as (a & b & O & A & B).
    pose proof (merge_spans v y _ _ _ _ _ _ O M) as H. pose proof (spans_lt _ _ _ _ _ O) as Lo. pose proof (spans_lt _ _ _ _ _ M) as Lm.
    destruct (merge (ov_range o) m) as [m'|].
    + destruct H as (M' & H1 & H2).
      assert (M'' : spans v y m' (Qmin a c) d).
      { eapply spans_wd; [reflexivity|reflexivity| |exact M']. apply Q.max_r. assumption. }
      apply (IH m' (Qmin a c) d M'').
      * apply Q.min_glb; assumption.
      * assumption.
      * intros q I. apply R. now right.
      * assumption.
      * intros x X. destruct (C x X) as [K|(q & [<-|I] & On)].
        -- left. eapply Qle_trans; [|exact K]. apply Q.le_min_r.
        -- left. apply (spans_at _ _ _ _ _ _ O) in On. eapply Qle_trans; [|apply On]. apply Q.le_min_l.
        -- right. exists q. now split.
    + exfalso. destruct H as [H|H]; [|lra].
      destruct (C ((b + c) / 2)) as [K|(q & [<-|I] & On)].
      * split; [apply Qle_shift_div_l|apply Qle_shift_div_r]; lra.
      * assert ((b + c) / 2 < c) by (apply Qlt_shift_div_r; lra). lra.
      * apply (spans_at _ _ _ _ _ _ O) in On. assert (b < (b + c) / 2) by (apply Qlt_shift_div_l; lra). lra.
      * destruct (R q (or_intror I)) as (a' & b' & Q & _). apply (spans_at _ _ _ _ _ _ Q) in On.
        rewrite Forall_forall in Fo. pose proof (Fo q I _ _ _ _ O Q). assert (b < (b + c) / 2) by (apply Qlt_shift_div_l; lra). lra.
Qed.

(** * The order of the overlaps *)

Lemma before_straight v s : straight v s ->
  (along v (s0 s) < along v (s1 s) /\ before (seg_vec s) = Some (fun p q => Qltb (along v p) (along v q)))
  \/ (along v (s1 s) < along v (s0 s) /\ before (seg_vec s) = Some (fun p q => Qltb (along v q) (along v p))).
Proof.
  intros [L T]. pose proof tolerance_pos as Tol.
  assert (Z : forall a b : Q, a == b -> signum (b - a) = Eq).
  { intros a b E. unfold signum. destruct (Qltb 0 (b - a)) eqn:K; [apply Qltb_lt in K; lra|].
    destruct (Qltb (b - a) 0) eqn:K'; [apply Qltb_lt in K'; lra|reflexivity]. }
  assert (P : forall a b : Q, a < b -> signum (b - a) = Gt).
  { intros a b E. unfold signum. destruct (Qltb 0 (b - a)) eqn:K; [reflexivity|]. apply Qltb_ge in K. lra. }
  assert (N : forall a b : Q, b < a -> signum (b - a) = Lt).
  { intros a b E. unfold signum. destruct (Qltb 0 (b - a)) eqn:K; [apply Qltb_lt in K; lra|].
    destruct (Qltb (b - a) 0) eqn:K'; [reflexivity|]. apply Qltb_ge in K'. lra. }
  destruct (Qlt_le_dec (along v (s0 s)) (along v (s1 s))) as [D|D].
  - left. split; [assumption|]. unfold before, seg_vec, pt_sub. cbn [px py]. destruct v; cbn [level along] in *.
    + rewrite (P _ _ D), (Z _ _ L). reflexivity.
    + rewrite (P _ _ D), (Z _ _ L). reflexivity.
  - assert (D' : along v (s1 s) < along v (s0 s)).
    { apply Qle_lt_or_eq in D. destruct D as [D|D]; [assumption|]. exfalso.
      assert (along v (s1 s) - along v (s0 s) == 0) as K by lra. rewrite K in T. cbn in T. lra. }
    right. split; [assumption|]. unfold before, seg_vec, pt_sub. cbn [px py]. destruct v; cbn [level along] in *.
    + rewrite (N _ _ D'), (Z _ _ L). reflexivity.
    + rewrite (N _ _ D'), (Z _ _ L). reflexivity.
Qed.

Lemma weak_order_key {A} (f : A -> Q) l : weak_order (fun a b => Qltb (f a) (f b)) l.
Proof.
  split; [|split].
  - intros x _. destruct (Qltb (f x) (f x)) eqn:K; [apply Qltb_lt in K; lra|reflexivity].
  - intros x y z _ _ _ H K. apply Qltb_lt in H, K. apply Qltb_lt. lra.
  - intros x y z _ _ _ H K. apply Qltb_ge in H, K. apply Qltb_ge. lra.
Qed.
Lemma weak_order_key' {A} (f : A -> Q) l : weak_order (fun a b => Qltb (f b) (f a)) l.
Proof.
  split; [|split].
  - intros x _. destruct (Qltb (f x) (f x)) eqn:K; [apply Qltb_lt in K; lra|reflexivity].
  - intros x y z _ _ _ H K. apply Qltb_lt in H, K. apply Qltb_lt. lra.
  - intros x y z _ _ _ H K. apply Qltb_ge in H, K. apply Qltb_ge. lra.
Qed.

Lemma sorted_weaken {A} (R R' : A -> A -> Prop) l : (forall x y, In x l -> In y l -> R x y -> R' x y) -> StronglySorted R l -> StronglySorted R' l.
Proof.
  intros H S. induction S as [|x l S IH F]; constructor.
  - apply IH. intros a b I J. apply H; now right.
  - apply Forall_forall. intros y I. rewrite Forall_forall in F. apply H; [now left|now right|now apply F].
Qed.

Lemma sort_overlaps_straight srt v s l : sorts_by srt -> straight v s ->
  Permutation l (sort_overlaps srt (seg_vec s) l)
  /\ ((along v (s0 s) < along v (s1 s)
       /\ StronglySorted (fun o p => along v (s0 (ov_range o)) <= along v (s0 (ov_range p))) (sort_overlaps srt (seg_vec s) l))
      \/ (along v (s1 s) < along v (s0 s)
          /\ StronglySorted (fun o p => along v (s0 (ov_range p)) <= along v (s0 (ov_range o))) (sort_overlaps srt (seg_vec s) l))).
Proof.
  intros So St. unfold sort_overlaps. destruct (before_straight v s St) as [[D ->]|[D ->]].
  - destruct (So _ _ l (weak_order_key (fun o => along v (s0 (ov_range o))) l)) as [P Q]. split; [assumption|]. left. split; [assumption|].
    eapply sorted_weaken; [|exact Q]. intros x y _ _ K. now apply Qltb_ge.
  - destruct (So _ _ l (weak_order_key' (fun o => along v (s0 (ov_range o))) l)) as [P Q]. split; [assumption|]. right. split; [assumption|].
    eapply sorted_weaken; [|exact Q]. intros x y _ _ K. now apply Qltb_ge.
Qed.

(** * The answer for one conflict *)

Definition answer (srt : sort_by) (b : board) (c : in_polygon) (e : edge) (m : seg) : Prop :=
  exists o r, sort_overlaps srt (seg_vec (e_seg e)) (ei_overlaps c) = o :: r
    /\ merge_overlaps (b_edges b) (e_normal e) (o :: r) (ov_range o) = Done m.

Lemma range_spans v e o : range_of v e o -> within v (level v (s0 (e_seg e))) o.
Proof.
  intros [S L]. destruct (straight_spans v _ S) as (a & b & H). exists a, b. eapply spans_wd; [|reflexivity|reflexivity|exact H].
  symmetry. exact L.
Qed.

Lemma pt_eqb_close p q : pt_eqb p q = true <-> close p q.
Proof. unfold pt_eqb, close. now rewrite andb_true_iff, !coord_eqb_spec. Qed.

Lemma close_on v p q : close p q <-> Qabs (along v p - along v q) < equality_tolerance /\ Qabs (level v p - level v q) < equality_tolerance.
Proof. destruct v; unfold close; cbn; tauto. Qed.

Lemma answer_sound srt v b c e m : sorts_by srt -> straight v (e_seg e) -> (forall o, In o (ei_overlaps c) -> range_of v e o) ->
  answer srt b c e m -> seg_eqb (e_seg e) m = true -> nearly_covered_by (ei_overlaps c) (e_seg e).
Proof.
  intros So St R (o & r & Es & Em) Eq q On.
  destruct (sort_overlaps_straight srt v _ (ei_overlaps c) So St) as [P _]. rewrite Es in P.
  set (y := level v (s0 (e_seg e))).
  assert (W : Forall (within v y) (o :: r)).
  { apply Forall_forall. intros x I. apply range_spans, R. eapply Permutation_in; [apply Permutation_sym; exact P|exact I]. }
  inversion W as [|? ? (c0 & d0 & O) _]; subst.
  destruct (merge_cover v y _ _ _ _ _ _ _ O W Em) as (a & b' & M & C).
  assert (C' : forall x, a <= x <= b' -> covers v y (ei_overlaps c) x).
  { intros x X. destruct (C x X) as [K|(p & I & Op)].
    - exists o. split; [eapply Permutation_in; [apply Permutation_sym; exact P|now left]|]. now apply (spans_at _ _ _ _ _ _ O).
    - exists p. split; [eapply Permutation_in; [apply Permutation_sym; exact P|exact I]|assumption]. }
  destruct (straight_spans v _ St) as (lo & hi & E). fold y in E.
  apply (spans_on _ _ _ _ _ E) in On. destruct On as [Ly Al].
  pose proof (spans_lt _ _ _ _ _ E) as Le. pose proof (spans_lt _ _ _ _ _ M) as Lm. pose proof tolerance_pos as Tol.
  assert (Near : Qabs (lo - a) < equality_tolerance /\ Qabs (hi - b') < equality_tolerance).
  { unfold seg_eqb in Eq. apply orb_true_iff in Eq. rewrite !andb_true_iff, !pt_eqb_close, !(close_on v) in Eq.
    rewrite !Qabs_Qlt_condition in Eq. rewrite !Qabs_Qlt_condition.
    destruct E as (_ & _ & Te & [[E0 E1]|[E0 E1]]), M as (_ & _ & Tm & [[M0 M1]|[M0 M1]]);
      (destruct Eq as [[[Eq1 _] [Eq2 _]]|[[Eq1 _] [Eq2 _]]]; (split; split; lra)). }
  rewrite !Qabs_Qlt_condition in Near. destruct Near as [N1 N2].
  set (x := along v q) in *.
  assert (exists x', a <= x' <= b' /\ Qabs (x - x') < equality_tolerance) as (x' & X & N).
  { destruct (Qlt_le_dec x a) as [D|D]; [exists a|destruct (Qlt_le_dec b' x) as [D'|D']; [exists b'|exists x]];
      rewrite Qabs_Qlt_condition; repeat split; lra. }
  destruct (C' x' X) as (p & I & Op). exists p, (pt_on v x' y). split; [assumption|]. split; [assumption|].
  apply (close_on v). rewrite along_on, level_on. split; [assumption|]. rewrite Ly. setoid_replace (y - y) with 0 by ring. reflexivity.
Qed.

Lemma answer_complete srt v b c e : sorts_by srt -> straight v (e_seg e) -> ei_overlaps c <> [] ->
  (forall o, In o (ei_overlaps c) -> range_of v e o /\ other_side b e o /\ forward_in v e o) ->
  covered_by (ei_overlaps c) (e_seg e) -> exists m, answer srt b c e m /\ seg_eqb (e_seg e) m = true.
Proof.
  intros So St Ne R Cov. set (y := level v (s0 (e_seg e))).
  destruct (sort_overlaps_straight srt v _ (ei_overlaps c) So St) as [P Sd].
  destruct (sort_overlaps srt (seg_vec (e_seg e)) (ei_overlaps c)) as [|o r] eqn:Es.
  { exfalso. apply Ne. apply Permutation_nil. now apply Permutation_sym. }
  assert (In' : forall x, In x (o :: r) -> In x (ei_overlaps c)) by (intros x I; eapply Permutation_in; [apply Permutation_sym; exact P|exact I]).
  destruct (straight_spans v _ St) as (lo & hi & E). fold y in E. pose proof (spans_lt _ _ _ _ _ E) as Le. pose proof tolerance_pos as Tol.
  assert (Rs : forall x, In x (o :: r) -> exists a b, spans v y (ov_range x) a b /\ lo <= a /\ b <= hi
    /\ (along v (s0 (e_seg e)) < along v (s1 (e_seg e)) -> along v (s0 (ov_range x)) == a)
    /\ (along v (s1 (e_seg e)) < along v (s0 (e_seg e)) -> along v (s0 (ov_range x)) == b)).
  { intros x I. destruct (R x (In' x I)) as (Rx & _ & Fx & Ix). destruct (range_spans v e x Rx) as (a & b' & H). fold y in H.
    exists a, b'. split; [assumption|]. pose proof (spans_lt _ _ _ _ _ H) as Lx.
    assert (lo <= a <= hi) as Ha by (apply (spans_at _ _ _ _ _ _ E), Ix, (spans_at _ _ _ _ _ _ H); lra).
    assert (lo <= b' <= hi) as Hb by (apply (spans_at _ _ _ _ _ _ E), Ix, (spans_at _ _ _ _ _ _ H); lra).
    split; [lra|]. split; [lra|]. destruct H as (_ & _ & _ & H). split; intro D; destruct H as [[H0 H1]|[H0 H1]]; try assumption; exfalso.
    - assert (along v (s1 (ov_range x)) - along v (s0 (ov_range x)) < 0) as K by lra. nra.
    - assert (0 < along v (s1 (ov_range x)) - along v (s0 (ov_range x))) as K by lra. nra. }
  assert (Ot : Forall (other_b (b_edges b) (e_normal e)) (o :: r)).
  { apply Forall_forall. intros x I. destruct (R x (In' x I)) as (_ & Ox & _). exact Ox. }
  destruct (Rs o (or_introl eq_refl)) as (a & b' & O & Ra & Rb & Up & Down).
  assert (Cv : forall x, lo <= x <= hi -> covers v y (o :: r) x).
  { intros x X. destruct (Cov (pt_on v x y)) as (p & I & Op); [now apply (spans_at _ _ _ _ _ _ E)|].
    exists p. split; [eapply Permutation_in; [exact P|exact I]|assumption]. }
  assert (Eqm : forall m, spans v y m lo hi -> seg_eqb (e_seg e) m = true).
  { intros m M. unfold seg_eqb. apply orb_true_iff. rewrite !andb_true_iff, !pt_eqb_close, !(close_on v), !Qabs_Qlt_condition.
    destruct E as (E1 & E2 & _ & [[E3 E4]|[E3 E4]]), M as (M1 & M2 & _ & [[M3 M4]|[M3 M4]]); [left|right|right|left]; repeat split; lra. }
  destruct Sd as [[D Sd]|[D Sd]].
  - assert (Low : a == lo).
    { destruct (Cv lo ltac:(lra)) as (p & I & Op). destruct (Rs p I) as (a' & b'' & Hp & Lp & _ & Up' & _).
      apply (spans_at _ _ _ _ _ _ Hp) in Op. assert (a <= a'); [|lra]. rewrite <- (Up D), <- (Up' D).
      inversion Sd as [|? ? _ F]; subst. destruct I as [->|I]; [lra|]. rewrite Forall_forall in F. now apply F. }
    destruct (merge_all_up v y (b_edges b) (e_normal e) hi (o :: r) (ov_range o) a b') as (m & Em & M); try assumption.
    + intros x I. destruct (Rs x I) as (a' & b'' & Hp & Lp & Hp' & _). exists a', b''. split; [assumption|]. split; lra.
    + eapply sorted_weaken; [|exact Sd]. intros p q I J K a1 b1 a2 b2 H1 H2. cbn beta in K.
      destruct (Rs p I) as (a1' & b1' & H1' & _ & _ & U1 & _). destruct (Rs q J) as (a2' & b2' & H2' & _ & _ & U2 & _).
      destruct (spans_unique _ _ _ _ _ _ _ H1 H1') as [-> _]. destruct (spans_unique _ _ _ _ _ _ _ H2 H2') as [-> _].
      rewrite <- (U1 D), <- (U2 D). exact K.
    + intros x X. right. apply Cv. lra.
    + exists m. split; [exists o, r; now split|]. apply Eqm. eapply spans_wd; [reflexivity|exact Low|reflexivity|exact M].
  - assert (High : b' == hi).
    { destruct (Cv hi ltac:(lra)) as (p & I & Op). destruct (Rs p I) as (a' & b'' & Hp & Lp & Hp' & _ & Down').
      apply (spans_at _ _ _ _ _ _ Hp) in Op. assert (b'' <= b'); [|lra]. rewrite <- (Down D), <- (Down' D).
      inversion Sd as [|? ? _ F]; subst. destruct I as [->|I]; [lra|]. rewrite Forall_forall in F. now apply F. }
    destruct (merge_all_down v y (b_edges b) (e_normal e) lo (o :: r) (ov_range o) a b') as (m & Em & M); try assumption.
    + intros x I. destruct (Rs x I) as (a' & b'' & Hp & Lp & Hp' & _). exists a', b''. split; [assumption|]. split; lra.
    + eapply sorted_weaken; [|exact Sd]. intros p q I J K a1 b1 a2 b2 H1 H2. cbn beta in K.
      destruct (Rs p I) as (a1' & b1' & H1' & _ & _ & _ & U1). destruct (Rs q J) as (a2' & b2' & H2' & _ & _ & _ & U2).
      destruct (spans_unique _ _ _ _ _ _ _ H1 H1') as [_ ->]. destruct (spans_unique _ _ _ _ _ _ _ H2 H2') as [_ ->].
      rewrite <- (U1 D), <- (U2 D). exact K.
    + intros x X. right. apply Cv. lra.
    + exists m. split; [exists o, r; now split|]. apply Eqm. eapply spans_wd; [reflexivity|reflexivity|exact High|exact M].
Qed.

(** * The loop over the conflicts of a plane *)

Lemma for_each_done {A B} (f : B -> A -> run B) (P : list A -> B -> Prop) l : forall b b', P [] b ->
  (forall done x rest b b', l = done ++ x :: rest -> P done b -> f b x = Done b' -> P (done ++ [x]) b') ->
  for_each f l b = Done b' -> P l b'.
Proof.
  revert P. induction l as [|x l IH]; intros P b b' P0 S E; cbn in E.
  - congruence.
  - destruct (f b x) as [b1| |] eqn:E1; cbn in E; try discriminate.
    apply (IH (fun d => P (x :: d)) b1 b'); [exact (S [] x l b b1 eq_refl P0 E1)| |assumption].
    intros done y rest c c' El Q K. apply (S (x :: done) y rest c c'); [cbn; now rewrite El|exact Q|exact K].
Qed.

Lemma merge_overlaps_normals edges edges' n l : (forall j, option_map e_normal (nth_error edges' j) = option_map e_normal (nth_error edges j)) ->
  forall m, merge_overlaps edges' n l m = merge_overlaps edges n l m.
Proof.
  intros H. induction l as [|o l IH]; intros m; cbn [merge_overlaps]; [reflexivity|].
  assert (match ov_edge o with None => Done true | Some j => let! e := read edges' j in Done (negb (normal_eqb (e_normal e) n)) end
    = match ov_edge o with None => Done true | Some j => let! e := read edges j in Done (negb (normal_eqb (e_normal e) n)) end) as ->.
  { destruct (ov_edge o) as [j|]; [|reflexivity]. specialize (H j). unfold read.
    destruct (nth_error edges' j), (nth_error edges j); cbn in *; congruence. }
  destruct (match ov_edge o with None => Done true | Some j => let! e := read edges j in Done (negb (normal_eqb (e_normal e) n)) end) as [[|]| |];
    cbn [bind]; try reflexivity. destruct (merge (ov_range o) m); [apply IH|reflexivity].
Qed.

Lemma on_set_plane {A} (s : space A) p x : on_plane (set_plane s p x) p = x.
Proof. now destruct p. Qed.
Lemma on_set_plane_other {A} (s : space A) p q x : q <> p -> on_plane (set_plane s p x) q = on_plane s q.
Proof. destruct p, q; cbn; congruence. Qed.

Lemma map_at {A B} (g : A -> B) l l' i x : map g l' = map g l -> nth_error l i = Some x -> exists y, nth_error l' i = Some y /\ g y = g x.
Proof.
  intros M E. pose proof (f_equal (fun k => nth_error k i) M) as K. cbn beta in K. rewrite !nth_error_map, E in K. cbn in K.
  destruct (nth_error l' i) as [y|]; cbn in K; [|discriminate]. exists y. split; [reflexivity|congruence].
Qed.

Lemma same_solutions_refl p b : same_but_solutions p b b.
Proof. unfold same_but_solutions. repeat split. Qed.

Lemma same_solutions_normals p b b' : same_but_solutions p b b' -> forall j, option_map e_normal (nth_error (b_edges b') j) = option_map e_normal (nth_error (b_edges b) j).
Proof.
  intros (_ & M & _) j. pose proof (f_equal (fun k => nth_error k j) M) as K. cbn beta in K. rewrite !nth_error_map in K.
  destruct (nth_error (b_edges b') j), (nth_error (b_edges b) j); cbn in *; try discriminate; [|reflexivity].
  unfold without_solution in K. injection K as _ _ N _ _ _. now rewrite N.
Qed.

(** What solving one conflict does. *)
Lemma solve_in_polygon_done srt p b n c e m : eip_at b p n c -> edge_at b (ei_edge c) e -> answer srt b c e m ->
  exists b', solve_in_polygon srt p b n = Done b' /\ same_but_solutions p b b'
    /\ edge_at b' (ei_edge c) (set_to_mesh (negb (seg_eqb (e_seg e) m)) (InEIP p n) e)
    /\ (forall j, j <> ei_edge c -> nth_error (b_edges b') j = nth_error (b_edges b) j)
    /\ eip_at b' p n (mk_in_polygon (ei_edge c) (sort_overlaps srt (seg_vec (e_seg e)) (ei_overlaps c)) true)
    /\ (forall k, k <> n -> nth_error (on_plane (b_eip b') p) k = nth_error (on_plane (b_eip b) p) k).
Proof.
  intros C E (o & r & Es & Em). unfold solve_in_polygon, eip_at, edge_at in *.
  apply read_done in C. rewrite C. cbn [bind]. apply read_done in C. pose proof E as E'. apply read_done in E'. rewrite E'. cbn [bind].
  rewrite Es. cbn [bind]. rewrite Em. cbn [bind].
  destruct (write_spec (mk_in_polygon (ei_edge c) (o :: r) true) _ n (nth_lt _ _ _ C)) as (all & W & Len & At & O). rewrite W. cbn [bind].
  destruct (update_edge_spec (set_eip b (set_plane (b_eip b) p all)) (ei_edge c) e (set_to_mesh (negb (seg_eqb (e_seg e) m)) (InEIP p n)) E) as (l & -> & Len' & At' & O').
  eexists. split; [reflexivity|]. cbn in *. rewrite on_set_plane. repeat split; try assumption.
  - cbn. eapply map_write; [exact E|exact At'|reflexivity|exact Len'|exact O'].
  - intros p' D. cbn. now rewrite on_set_plane_other.
Qed.

Lemma solve_in_polygon_inv srt p b n b' : solve_in_polygon srt p b n = Done b' ->
  exists c e m, eip_at b p n c /\ edge_at b (ei_edge c) e /\ answer srt b c e m.
Proof.
  unfold solve_in_polygon. destruct (read (on_plane (b_eip b) p) n) as [c| |] eqn:C; cbn [bind]; try discriminate.
  destruct (read (b_edges b) (ei_edge c)) as [e| |] eqn:E; cbn [bind]; try discriminate.
  destruct (sort_overlaps srt (seg_vec (e_seg e)) (ei_overlaps c)) as [|o r] eqn:S; try discriminate.
  destruct (merge_overlaps (b_edges b) (e_normal e) (o :: r) (ov_range o)) as [m| |] eqn:M; cbn [bind]; try discriminate.
  intros _. exists c, e, m. apply read_done in C, E. split; [assumption|]. split; [assumption|]. exists o, r. now split.
Qed.

Lemma same_solutions_trans p a b c : same_but_solutions p a b -> same_but_solutions p b c -> same_but_solutions p a c.
Proof.
  intros (A1 & A2 & A3 & A4 & A5 & A6 & A7 & A8) (B1 & B2 & B3 & B4 & B5 & B6 & B7 & B8).
  unfold same_but_solutions. repeat split; try congruence. intros p' D. now rewrite B8, A8.
Qed.

Lemma edge_seg_same e f : without_solution e = without_solution f -> e_seg e = e_seg f /\ e_normal e = e_normal f.
Proof. intro H. unfold without_solution in H. injection H as _ H1 H2 _ _ _. now split. Qed.

Lemma sort_overlaps_ext srt e e' l : e_seg e = e_seg e' -> sort_overlaps srt (seg_vec (e_seg e)) l = sort_overlaps srt (seg_vec (e_seg e')) l.
Proof. now intros ->. Qed.

Record solved (srt : sort_by) (p : Plane) (b : board) (k : nat) (b' : board) : Prop := {
  so_same : same_but_solutions p b b';
  so_done : forall n c e, (n < k)%nat -> eip_at b p n c -> edge_at b (ei_edge c) e ->
    exists m, answer srt b c e m /\ edge_at b' (ei_edge c) (set_to_mesh (negb (seg_eqb (e_seg e) m)) (InEIP p n) e)
      /\ eip_at b' p n (mk_in_polygon (ei_edge c) (sort_overlaps srt (seg_vec (e_seg e)) (ei_overlaps c)) true);
  so_rest : forall n, (k <= n)%nat -> nth_error (on_plane (b_eip b') p) n = nth_error (on_plane (b_eip b) p) n;
  so_edges : forall j, (forall n c, (n < k)%nat -> eip_at b p n c -> ei_edge c <> j) -> nth_error (b_edges b') j = nth_error (b_edges b) j;
}.

Lemma seq_at k done x rest : seq 0 k = done ++ x :: rest -> x = length done /\ (length done < k)%nat.
Proof.
  intros EL. pose proof (f_equal (fun l => nth_error l (length done)) EL) as K. cbn in K.
  rewrite nth_error_app2, Nat.sub_diag in K by lia. cbn in K. pose proof (f_equal (@length nat) EL) as Len.
  rewrite seq_length, app_length in Len. cbn in Len. assert (length done < k)%nat as L by lia.
  rewrite (nth_error_nth' _ 0%nat) in K by (rewrite seq_length; lia). rewrite seq_nth in K by lia. injection K as K. lia.
Qed.

Lemma solved_step srt p b k b1 c1 e1 m1 : one_each b p -> solved srt p b k b1 ->
  eip_at b1 p k c1 -> edge_at b1 (ei_edge c1) e1 -> answer srt b1 c1 e1 m1 ->
  exists b2, solve_in_polygon srt p b1 k = Done b2 /\ solved srt p b (Datatypes.S k) b2.
Proof.
  intros One [Sa Dn Re Ed] C1 E1 A1.
  assert (C : eip_at b p k c1) by (unfold eip_at in *; rewrite <- (Re k) by lia; assumption).
  assert (E : edge_at b (ei_edge c1) e1).
  { unfold edge_at in *. rewrite <- Ed; [assumption|]. intros n c L Cn K. apply (One n k c c1) in K; [lia|assumption|assumption]. }
  assert (A : answer srt b c1 e1 m1).
  { destruct A1 as (o & r & Es & Em). exists o, r. split; [assumption|].
    rewrite <- (merge_overlaps_normals (b_edges b) (b_edges b1)) by (now apply (same_solutions_normals p)). assumption. }
  destruct (solve_in_polygon_done srt p b1 k c1 e1 m1 C1 E1 A1) as (b2 & Eb & Sa' & E2 & O2 & C2 & R2).
  exists b2. split; [assumption|]. constructor.
  - eapply same_solutions_trans; eassumption.
  - intros n c e L Cn En. destruct (Nat.eq_dec n k) as [->|D].
    + assert (c = c1) as -> by (unfold eip_at in *; congruence). assert (e = e1) as -> by (unfold edge_at in *; congruence).
      exists m1. split; [assumption|]. split; assumption.
    + destruct (Dn n c e ltac:(lia) Cn En) as (m & Am & Em & Cm). exists m. split; [assumption|]. split.
      * unfold edge_at in *. rewrite O2; [assumption|]. intro K. apply D. now apply (One n k c c1).
      * unfold eip_at in *. now rewrite R2.
  - intros n L. rewrite R2 by lia. apply Re. lia.
  - intros j J. rewrite O2; [|intro K; apply (J k c1); [lia|assumption|now rewrite K]].
    apply Ed. intros n c L. apply J. lia.
Qed.

Lemma auto_solve_in_polygon srt p b b' : one_each b p -> auto_solve_all_edge_in_polygon srt b p = Done b' ->
  solved srt p b (length (on_plane (b_eip b) p)) b'.
Proof.
  intros One E. unfold auto_solve_all_edge_in_polygon in E.
  pose proof (for_each_done (solve_in_polygon srt p) (fun done b' => solved srt p b (length done) b') (seq 0 (length (on_plane (b_eip b) p))) b b') as H.
  cbn beta in H. rewrite seq_length in H. apply H; [| |assumption].
  - constructor; [apply same_solutions_refl|intros n c e L; cbn in L; lia|reflexivity|reflexivity].
  - intros done n rest b1 b2 EL S E2. destruct (seq_at _ _ _ _ EL) as [-> L]. rewrite app_length, Nat.add_1_r.
    destruct (solve_in_polygon_inv _ _ _ _ _ E2) as (c & e & m & C & Ed & A).
    destruct (solved_step srt p b (length done) b1 c e m One S C Ed A) as (b2' & E2' & S'). congruence.
Qed.

Lemma merge_overlaps_ok edges n l : (forall o j, In o l -> ov_edge o = Some j -> exists f, nth_error edges j = Some f) ->
  forall m, exists t, merge_overlaps edges n l m = Done t.
Proof.
  induction l as [|o l IH]; intros H m; cbn [merge_overlaps]; [eauto|].
  destruct (ov_edge o) as [j|] eqn:J.
  - destruct (H o j (or_introl eq_refl) J) as (f & F). apply read_done in F. rewrite F. cbn [bind].
    destruct (negb (normal_eqb (e_normal f) n)); [|eauto]. destruct (merge (ov_range o) m); [|eauto]. apply IH. intros o' j' I. apply H. now right.
  - cbn [bind]. destruct (merge (ov_range o) m); [|eauto]. apply IH. intros o' j' I. apply H. now right.
Qed.

Lemma answer_exists srt b c e : permutes srt -> ei_overlaps c <> [] -> (forall o, In o (ei_overlaps c) -> overlap_exists b o) ->
  exists m, answer srt b c e m.
Proof.
  intros P Ne Ex. assert (Pm : Permutation (ei_overlaps c) (sort_overlaps srt (seg_vec (e_seg e)) (ei_overlaps c))).
  { unfold sort_overlaps. destruct (before (seg_vec (e_seg e))); [apply P|apply Permutation_refl]. }
  destruct (sort_overlaps srt (seg_vec (e_seg e)) (ei_overlaps c)) as [|o r] eqn:Es.
  { exfalso. apply Ne. apply Permutation_nil. now apply Permutation_sym. }
  destruct (merge_overlaps_ok (b_edges b) (e_normal e) (o :: r)) with (m := ov_range o) as (m & M).
  - intros x j I J. apply (Ex x); [|assumption]. eapply Permutation_in; [apply Permutation_sym; exact Pm|exact I].
  - exists m, o, r. now split.
Qed.

Lemma auto_solve_in_polygon_ends srt p b : permutes srt -> one_each b p -> well_formed_eip b p ->
  exists b', auto_solve_all_edge_in_polygon srt b p = Done b'.
Proof.
  intros Pm One Wf. unfold auto_solve_all_edge_in_polygon.
  destruct (for_each_inv (solve_in_polygon srt p) (fun done b' => solved srt p b (length done) b') (seq 0 (length (on_plane (b_eip b) p))) b) as (b' & E & _); [| |eauto].
  - constructor; [apply same_solutions_refl|intros n c e L; cbn in L; lia|reflexivity|reflexivity].
  - intros done n rest b1 EL S. destruct (seq_at _ _ _ _ EL) as [-> L]. rewrite app_length, Nat.add_1_r.
    destruct (nth_error (on_plane (b_eip b) p) (length done)) as [c|] eqn:C; [|apply nth_error_None in C; lia].
    destruct (Wf _ _ C) as (Ne & (e & E) & Ex).
    assert (C1 : eip_at b1 p (length done) c) by (unfold eip_at; rewrite (so_rest _ _ _ _ _ S) by lia; assumption).
    assert (E1 : edge_at b1 (ei_edge c) e).
    { unfold edge_at in *. rewrite (so_edges _ _ _ _ _ S); [assumption|]. intros n' c' L' C' K. apply (One n' (length done) c' c) in K; [lia|assumption|assumption]. }
    destruct (answer_exists srt b1 c e Pm Ne) as (m & M).
    { intros o I j J. destruct (Ex o I j J) as (f & F). destruct (map_at without_solution (b_edges b) (b_edges b1) j f) as (f' & F' & _); [apply (so_same _ _ _ _ _ S)|assumption|].
      now exists f'. }
    destruct (solved_step srt p b (length done) b1 c e m One S C1 E1 M) as (b2 & E2 & S2). eauto.
Qed.
