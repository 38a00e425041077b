(** Property C87: the progress bars. *)
From Coq Require Import List Bool Arith ZArith Lia.
From Coq Require QArith.
From Verif Require IntervalModel ManagerModel ManagerSpec ManagerProofs ManagerMoreProofs PropertiesManager.
From Verif Require Import ProgressModel ProgressSpec ProgressProofs.
Import ListNotations.

Lemma terms_shown : forall m t, shown (mkBar m t) = terms t.
Proof. reflexivity. Qed.
Lemma founds_found : forall m t, found (mkBar m t) = founds t.
Proof. intros m t. apply flat_map_ext. intros [i|f j]; reflexivity. Qed.

(** * C87 *)

(** Counts that go one by one from the first to the last: the adjusting of edges, the individual
    edges, the solving of conflicts. *)
Theorem C87_one_by_one :
  (forall ps, max (adjust ps) = length (concat ps) /\ shown (adjust ps) = seq 1 (length (concat ps)))
  /\ (forall es as_, max (individual_edges es as_) = length (es ++ as_) /\ shown (individual_edges es as_) = seq 1 (length (es ++ as_)))
  /\ (forall n, max (solving n) = n /\ shown (solving n) = seq 1 n).
Proof.
  repeat apply conj.
  - intros ps. split; [reflexivity|]. unfold adjust. rewrite terms_shown, adjust_polygons_is. apply adjust_edges_is.
  - intros es as_. unfold individual_edges. destruct (adjust_edges_is es (0, 0)) as (A1 & A2 & _).
    destruct (adjust_edges es (0, 0)) as [t c]. cbn [fst snd] in *. rewrite terms_shown. cbn [max]. rewrite app_length. split; [reflexivity|].
    destruct (adjust_edges_is as_ c) as (B1 & _). unfold terms in *. rewrite map_app, A1, B1, A2. cbn [fst snd]. symmetry. apply (seq_app (length es) (length as_) 1).
  - intros n. split; [reflexivity|]. unfold solving. rewrite terms_shown. apply ticks_post_is.
Qed.

(** Counts that go row by row: a polygon against all polygons, a zone against all intervals. *)
Theorem C87_by_row :
  (forall p f, max (edges_in_polygons p f) = p * p /\ shown (edges_in_polygons p f) = map (fun k => k * p) (seq 1 p))
  /\ (forall z n g, max (intervals_per_zone z n g) = z * n /\ shown (intervals_per_zone z n g) = map (fun k => k * n) (seq 1 z)).
Proof.
  assert (R : forall p q f, terms (fst (pairs f (seq 0 p) (seq 0 q) (0, 0))) = map (fun k => k * q) (seq 1 p)).
  { intros p q f. destruct (pairs_is f (seq 0 p) (seq 0 q) (0, 0)) as [P _]. rewrite P, !seq_length, <- (seq_shift p 0), map_map. reflexivity. }
  split.
  - intros p f. split; [reflexivity|]. unfold edges_in_polygons. rewrite terms_shown. apply R.
  - intros z n g. split; [reflexivity|]. unfold intervals_per_zone. rewrite terms_shown, per_zone_is. apply R.
Qed.

(** Counts that start from two: the intervals, one less than the policies there are, and the meshing,
    whose maximum is one more than its work. *)
Theorem C87_from_two :
  (forall n, max (intervals n) = n /\ shown (intervals n) = seq 2 (n - 1))
  /\ (forall i p, max (meshing i p) = i + p + 1 /\ shown (meshing i p) = seq 2 (i + p)).
Proof.
  split.
  - intros n. split; [reflexivity|]. unfold intervals, shown. cbn [ticks]. rewrite map_map. cbn [terminal]. apply seq_shift.
  - intros i p. unfold meshing. destruct (ticks_pre_is i 0) as [A1 A2]. destruct (ticks_pre i 0) as [t j]. cbn [fst snd] in *. split; [reflexivity|].
    rewrite terms_shown. destruct (ticks_pre_is p j) as [B _]. unfold terms in *. rewrite map_app, A1, B, A2. symmetry. rewrite seq_app. reflexivity.
Qed.

(** The colinear edges: one tick per edge; the counts rise to the number of pairs of edges, whichever
    of them are diagonal. *)
Theorem C87_colinear : forall diags f, let b := colinear_edges diags f in
  length (shown b) = length diags /\ behaves b /\ 2 * max b + length diags = length diags * length diags /\ (diags <> [] -> ends_full b).
Proof.
  intros diags f. cbn zeta. unfold behaves, ends_full. unfold colinear_edges. rewrite terms_shown. cbn [max].
  destruct (colinear_is f diags 0 (0, 0)) as (I1 & I2 & I3 & I4 & I5 & _). cbn [snd] in *.
  rewrite (halved (length diags) _ ltac:(rewrite I4; lia)). split; [exact I1|]. split; [split; [exact I2|]|].
  - apply Forall_forall. intros x X. apply (I3 x X).
  - split; [lia|exact I5].
Qed.

(** The diagonal zones: both axes one after the other, the count of a range before it is done and the
    last one once more; full from two angles on. *)
Theorem C87_zones : forall n zx zy, 1 <= n -> let b := diagonal_zones n zx zy in
  shown b = seq 0 n ++ seq (n - 1) n /\ (max b = if n =? 1 then 2 else 2 * (n - 1)) /\ behaves b /\ (2 <= n -> ends_full b) /\ finds b (zx + zy).
Proof.
  intros n zx zy N. cbn zeta. assert (Sh : shown (diagonal_zones n zx zy) = seq 0 n ++ seq (n - 1) n /\ finds (diagonal_zones n zx zy) (zx + zy)).
  { unfold diagonal_zones, zones_of, finds. rewrite terms_shown, founds_found. destruct (ranges_is (n - 1) (0, 0)) as [A1 A2]. destruct (ranges (n - 1) (0, 0)) as [t c]. cbn [fst snd] in *. subst c. cbn [fst snd].
    destruct (ranges_is (n - 1) (0 + zx, 0 + (n - 1))) as [B1 B2]. destruct (ranges (n - 1) (0 + zx, 0 + (n - 1))) as [t' c]. cbn [fst snd] in *. subst c. cbn [fst snd].
    unfold terms in *. split.
    - rewrite map_app. cbn [map terminal]. rewrite map_app. cbn [map terminal]. rewrite A1, B1. destruct n as [|n]; [lia|]. replace (S n - 1) with n by lia.
      rewrite (seq_S n 0), (seq_S n n). cbn [Nat.add]. rewrite <- app_assoc. reflexivity.
    - rewrite !founds_app. change (founds (Two (0 + zx) (0 + (n - 1)) :: ?l)) with ((0 + zx) :: founds l).
      exists (founds t ++ (0 + zx) :: founds t'). rewrite <- app_assoc. cbn [app]. rewrite founds_app. reflexivity. }
  destruct Sh as [Sh F]. assert (M : max (diagonal_zones n zx zy) = if n =? 1 then 2 else 2 * (n - 1)).
  { unfold diagonal_zones. cbn [max]. destruct n as [|[|n]]; [lia|reflexivity|]. cbn [Nat.ltb Nat.leb Nat.eqb]. lia. }
  split; [exact Sh|]. split; [exact M|]. unfold behaves, ends_full. rewrite Sh, M. split; [|split; [|exact F]].
  - split.
    + apply rising_app; try apply rising_seq. intros x y X Y. apply in_seq in X, Y. lia.
    + apply Forall_forall. intros x X. rewrite in_app_iff, !in_seq in X. destruct (Nat.eqb_spec n 1); lia.
  - intros N2. destruct n as [|n]; [lia|]. exists (seq 0 (S n) ++ seq (S n - 1) n). rewrite (seq_S n (S n - 1)), app_assoc.
    destruct (Nat.eqb_spec (S n) 1); [lia|]. do 2 f_equal. lia.
Qed.

(** The policies too close: the counts are the numbers of the rounds that made a conflict, and at the
    end the number of policies; what was found is the number of conflicts made.  The bar behaves as
    long as there are no more rounds than policies. *)
Theorem C87_too_close : forall n l, let b := too_close n l in
  max b = n /\ ends_full b /\ finds b (how_many l) /\ length (shown b) = S (how_many l)
  /\ (forall x, In x (removelast (shown b)) <-> exists k, x = S k /\ nth_error l k = Some true)
  /\ (length l <= n -> behaves b).
Proof.
  intros n l. cbn zeta.
  assert (C : forall l c, length (terms (fst (closest l c))) = how_many l /\ fst (snd (closest l c)) = fst c + how_many l
    /\ (forall x, In x (terms (fst (closest l c))) <-> exists k, x = snd c + S k /\ nth_error l k = Some true)
    /\ rising (terms (fst (closest l c)))).
  { clear. induction l as [|b l IH]; intros c; cbn [closest].
    - cbn. repeat apply conj; try exact I; try lia. intros x. split; [intros []|intros (k & _ & K); destruct k; discriminate K].
    - destruct (IH (fst c + one b, S (snd c))) as (I1 & I2 & I3 & I4). destruct (closest l _) as [t c'] eqn:E. cbn [fst snd] in *.
      assert (T : forall x, In x (terms t) -> snd c + 1 <= x) by (intros x X; apply I3 in X as (k & -> & _); lia).
      assert (W : how_many (b :: l) = one b + how_many l) by (unfold how_many; destruct b; reflexivity). rewrite W.
      destruct b; cbn [one app] in *; unfold terms in *; cbn [map terminal length]; repeat apply conj; try lia.
      + intros x. cbn [In]. rewrite I3. split.
        * intros [<-|(k & -> & K)]; [exists 0; split; [lia|reflexivity]|exists (S k); split; [lia|exact K]].
        * intros ([|k] & -> & K); [left; lia|right; exists k; split; [lia|exact K]].
      + destruct (map terminal t) as [|y r]; [exact I|]. split; [specialize (T y (or_introl eq_refl)); lia|exact I4].
      + intros x. rewrite I3. split; [intros (k & -> & K); exists (S k); split; [lia|exact K]|].
        intros ([|k] & -> & K); [discriminate K|exists k; split; [lia|exact K]].
      + exact I4. }
  destruct (C l (0, 0)) as (I1 & I2 & I3 & I4). unfold behaves, ends_full, finds, too_close. destruct (closest l (0, 0)) as [t c] eqn:E. cbn [fst snd] in *.
  rewrite terms_shown, founds_found, founds_app. cbn [max]. assert (S' : terms (t ++ [Two (fst c) n]) = terms t ++ [n]) by (unfold terms; rewrite map_app; reflexivity). rewrite S'.
  split; [reflexivity|]. split; [exists (terms t); reflexivity|]. split; [exists (founds t); cbn; rewrite I2; reflexivity|].
  split; [rewrite app_length, I1; cbn; lia|]. split.
  - intros x. rewrite removelast_last. rewrite I3. split; intros (k & -> & K); exists k; split; auto.
  - intros L. assert (B : forall x, In x (terms t) -> x <= n).
    { intros x X. apply I3 in X as (k & -> & K). assert (k < length l) by (apply nth_error_Some; congruence). lia. }
    split; [apply rising_app; [exact I4|exact I|]; intros x y X [<-|[]]; auto|].
    apply Forall_app. split; [apply Forall_forall; exact B|constructor; [lia|constructor]].
Qed.

(** There are no more rounds than policies: each makes a conflict, and the bar behaves, whatever the
    policies of an axis that earlier steps left. *)
Theorem C87_rounds : forall g srt ax, ManagerSpec.sorts srt -> ManagerSpec.settled ax ->
  exists ax' l, (forall n, ManagerSpec.enabled_count ax < n -> ManagerModel.detect_and_solve_too_close n g srt ax = ManagerModel.Done ax' /\ turns n g srt ax = Some l)
    /\ length l <= length (ManagerModel.ax_policies ax) /\ behaves (too_close (length (ManagerModel.ax_policies ax)) l)
    /\ finds (too_close (length (ManagerModel.ax_policies ax)) l) (length (ManagerModel.ax_conflicts ax') - length (ManagerModel.ax_conflicts ax)).
Proof.
  intros g srt ax So Se.
  assert (K : forall n ax, ManagerSpec.enabled_count ax <= n -> ManagerSpec.settled ax -> exists ax' l, length l <= ManagerSpec.enabled_count ax /\ how_many l = length l
    /\ length (ManagerModel.ax_conflicts ax') = length (ManagerModel.ax_conflicts ax) + length l
    /\ forall m, n < m -> ManagerModel.detect_and_solve_too_close m g srt ax = ManagerModel.Done ax' /\ turns m g srt ax = Some l).
  { clear ax Se. induction n as [|n IH]; intros ax Le Se.
    - destruct (ManagerModel.detect_closest srt ax (IntervalModel.g_proximity_limit g)) as [[a b]|] eqn:D.
      + destruct (ManagerProofs.detect_closest_some _ _ _ _ _ So D) as (pa & pb & Ea & _).
        rewrite <- (ManagerProofs.dimension_in srt _ _ _ So) in Ea. pose proof (ManagerProofs.dimension_length srt ax So) as L0.
        destruct (ManagerModel.dimension srt ax); [destruct Ea|cbn in L0; lia].
      + exists ax, []. split; [cbn; lia|]. split; [reflexivity|]. split; [cbn; lia|]. intros [|m] H; [lia|]. cbn. rewrite D. split; reflexivity.
    - destruct (ManagerModel.detect_closest srt ax (IntervalModel.g_proximity_limit g)) as [[a b]|] eqn:D.
      + destruct (ManagerProofs.detect_closest_some _ _ _ _ _ So D) as (pa & pb & Ea & Eb & N & _). pose proof Se as [S1 S2].
        destruct (ManagerProofs.turn_ok g ax a b pa pb (proj1 Ea) (proj1 Eb) N (S1 _ _ Ea) (S1 _ _ Eb)) as (ax1 & ax2 & A & Sv & T).
        pose proof (ManagerProofs.count_turn _ _ _ _ _ _ _ T N Ea Eb) as C. pose proof (ManagerProofs.turn_length _ _ _ _ _ _ _ T) as L0.
        destruct (ManagerProofs.turn_conflicts _ _ _ _ _ _ _ T) as [o O]. apply (f_equal (@length _)) in O. rewrite app_length in O. cbn [length] in O.
        destruct (IH ax2) as (ax' & l & I1 & I2 & I3 & I4); [lia|eapply (ManagerProofs.turn_settled g ax a b pa pb); [split|..]; eassumption|].
        exists ax', (true :: l). split; [cbn; lia|]. split; [change (how_many (true :: l)) with (S (how_many l)); rewrite I2; reflexivity|]. split; [cbn [length]; lia|].
        intros [|m] H; [lia|]. destruct (I4 m ltac:(lia)) as [F1 F2]. cbn [ManagerModel.detect_and_solve_too_close turns]. rewrite D, A. cbn [ManagerModel.bind]. rewrite Sv. cbn [ManagerModel.bind]. rewrite F1, F2. split; reflexivity.
      + exists ax, []. split; [cbn; lia|]. split; [reflexivity|]. split; [cbn; lia|]. intros [|m] H; [lia|]. cbn. rewrite D. split; reflexivity. }
  destruct (K _ ax (le_n _) Se) as (ax' & l & I1 & I2 & I3 & I4). exists ax', l. split; [exact I4|].
  assert (E : ManagerSpec.enabled_count ax <= length (ManagerModel.ax_policies ax)).
  { unfold ManagerSpec.enabled_count. generalize (ManagerModel.ax_policies ax). clear. induction l as [|p l IH]; cbn; [lia|]. destruct (IntervalModel.p_enabled p); cbn; lia. }
  assert (L : length l <= length (ManagerModel.ax_policies ax)) by lia. destruct (C87_too_close (length (ManagerModel.ax_policies ax)) l) as (_ & _ & F & _ & _ & B).
  split; [exact L|]. split; [exact (B L)|]. replace (_ - _) with (how_many l) by lia. exact F.
Qed.

(** The bars of all the steps but two never go back nor pass their maximum, and end full as soon as
    there is something to do. *)
Theorem C87_behave :
  (forall ps, behaves (adjust ps) /\ (concat ps <> [] -> ends_full (adjust ps)))
  /\ (forall es as_, behaves (individual_edges es as_) /\ (es ++ as_ <> [] -> ends_full (individual_edges es as_)))
  /\ (forall n, behaves (solving n) /\ (1 <= n -> ends_full (solving n)))
  /\ (forall p f, behaves (edges_in_polygons p f) /\ (1 <= p -> ends_full (edges_in_polygons p f)))
  /\ (forall z n g, behaves (intervals_per_zone z n g) /\ (1 <= z -> ends_full (intervals_per_zone z n g)))
  /\ (forall n, behaves (intervals n) /\ (2 <= n -> ends_full (intervals n)))
  /\ (forall i p, behaves (meshing i p) /\ (1 <= i + p -> ends_full (meshing i p))).
Proof.
  assert (S1 : forall b m n, shown b = seq m n -> max b = m + n - 1 -> behaves b /\ (1 <= n -> ends_full b)).
  { intros b m n Sh M. unfold behaves, ends_full. rewrite Sh, M. split; [split; [apply rising_seq|]|].
    - apply Forall_forall. intros x X. apply in_seq in X. lia.
    - intros N. destruct n as [|n]; [lia|]. exists (seq m n). rewrite seq_S. do 2 f_equal. lia. }
  assert (R1 : forall b p q, max b = p * q -> shown b = map (fun k => k * q) (seq 1 p) -> behaves b /\ (1 <= p -> ends_full b)).
  { intros b p q M Sh. unfold behaves, ends_full. rewrite Sh, M. split; [split; [apply rising_map_seq; intros; nia|]|].
    - apply Forall_forall. intros x X. apply in_map_iff in X as (k & <- & K). apply in_seq in K. nia.
    - intros P. destruct p as [|p]; [lia|]. exists (map (fun k => k * q) (seq 1 p)). rewrite seq_S, map_app. reflexivity. }
  destruct C87_one_by_one as (A1 & A2 & A3). destruct C87_by_row as (B1 & B2). destruct C87_from_two as (D1 & D2).
  assert (NE : forall {X} (l : list X), l <> [] -> 1 <= length l) by (intros X [|x l]; cbn; [congruence|lia]).
  repeat apply conj.
  - intros ps. destruct (A1 ps) as [M Sh]. destruct (S1 _ _ _ Sh) as [P Q]; [rewrite M; lia|]. split; [exact P|]. intros H. apply Q, NE, H.
  - intros es as_. destruct (A2 es as_) as [M Sh]. destruct (S1 _ _ _ Sh) as [P Q]; [rewrite M; lia|]. split; [exact P|]. intros H. apply Q, NE, H.
  - intros n. destruct (A3 n) as [M Sh]. apply (S1 _ _ _ Sh). rewrite M; lia.
  - intros p f. destruct (B1 p f) as [M Sh]. apply (R1 _ _ _ M Sh).
  - intros z n g. destruct (B2 z n g) as [M Sh]. apply (R1 _ _ _ M Sh).
  - intros n. destruct (D1 n) as [M Sh]. destruct n as [|n]; [split; [split; [exact I|constructor]|intros H; exfalso; lia]|].
    destruct (S1 _ _ _ Sh) as [P Q]; [rewrite M; lia|]. split; [exact P|]. intros H. apply Q. lia.
  - intros i p. destruct (D2 i p) as [M Sh]. destruct (S1 _ _ _ Sh) as [P Q]; [rewrite M; lia|]. split; [exact P|exact Q].
Qed.

(** Reading a file: one tick per primitive that is looked at; all of them are counted, so that the bar
    ends full if they are all under one Properties node, with one Primitives node at most in each
    property. *)
Theorem C87_parsing : forall file, let b := parsing file in
  max b = length (concat (concat (concat file))) /\ shown b = seq 1 (length (concat (map first (first file)))) /\ behaves b
  /\ (forall ps, file = [ps] -> Forall (fun p => length p <= 1) ps -> concat (concat ps) <> [] -> ends_full b).
Proof.
  intros file. cbn zeta. split; [reflexivity|]. assert (Sh : shown (parsing file) = seq 1 (length (concat (map first (first file))))).
  { unfold parsing. rewrite terms_shown, adjust_polygons_is. apply adjust_edges_is. }
  assert (F1 : forall (p : property), length (first p) <= length (concat p)) by (intros [|x p]; cbn; [lia|rewrite app_length; lia]).
  assert (F2 : forall ps : list property, length (concat (map first ps)) <= length (concat (concat ps))).
  { induction ps as [|p ps IH]; cbn; [lia|]. rewrite concat_app, !app_length. specialize (F1 p). lia. }
  assert (F3 : length (concat (map first (first file))) <= length (concat (concat (concat file)))).
  { destruct file as [|ps file]; [cbn; lia|]. cbn [first concat]. rewrite !concat_app, app_length. specialize (F2 ps). lia. }
  split; [exact Sh|]. split.
  - split; rewrite Sh; [apply rising_seq|]. apply Forall_forall. intros x X. apply in_seq in X. cbn [parsing max]. lia.
  - intros ps -> O NE. unfold ends_full. rewrite Sh. cbn [parsing max first concat]. rewrite app_nil_r.
    assert (E : concat (map first ps) = concat (concat ps)).
    { clear - O. induction O as [|p ps H _ IH]; [reflexivity|]. cbn. rewrite concat_app, IH. f_equal. destruct p as [|x [|y p]]; cbn in *; [reflexivity|symmetry; apply app_nil_r|lia]. }
    rewrite E. destruct (length (concat (concat ps))) eqn:L; [apply length_zero_iff_nil in L; contradiction|]. exists (seq 1 n). rewrite seq_S. reflexivity.
Qed.

(** What is said to be found at the end is what was found. *)
Theorem C87_found :
  (forall ps, concat ps <> [] -> finds (adjust ps) (how_many (concat ps)))
  /\ (forall es as_, es ++ as_ <> [] -> finds (individual_edges es as_) (how_many (es ++ as_)))
  /\ (forall p f, 1 <= p -> finds (edges_in_polygons p f) (sum (map (fun a => sum (map (f a) (seq 0 p))) (seq 0 p))))
  /\ (forall z n g, 1 <= z -> finds (intervals_per_zone z n g) (sum (map (fun a => how_many (map (g a) (seq 0 n))) (seq 0 z))))
  /\ (forall file, concat (map first (first file)) <> [] -> finds (parsing file) (how_many (concat (map first (first file))))).
Proof.
  repeat apply conj.
  - intros ps NE. unfold finds, adjust. rewrite founds_found, adjust_polygons_is. destruct (adjust_edges_is (concat ps) (0, 0)) as (_ & _ & F & _). exact (F NE).
  - intros es as_ NE. unfold finds, individual_edges. destruct (adjust_edges_is es (0, 0)) as (_ & A2 & A3 & _). destruct (adjust_edges es (0, 0)) as [t c]. cbn [fst snd] in *.
    rewrite founds_found, founds_app, how_many_app. subst c. destruct as_ as [|a as_].
    + rewrite app_nil_r in NE. destruct (A3 NE) as [f F]. exists f. cbn [adjust_edges fst]. rewrite F. cbn [founds flat_map]. rewrite app_nil_r. do 2 f_equal. cbn. lia.
    + destruct (adjust_edges_is (a :: as_) (0 + how_many es, 0 + length es)) as (_ & _ & B & _). destruct (B ltac:(discriminate)) as [f F]. exists (founds t ++ f). rewrite F, app_assoc. reflexivity.
  - intros p f P. unfold finds, edges_in_polygons. rewrite founds_found. destruct (pairs_is f (seq 0 p) (seq 0 p) (0, 0)) as [_ F]. apply F. destruct p; [lia|discriminate].
  - intros z n g Z. unfold finds, intervals_per_zone. rewrite founds_found, per_zone_is. destruct (pairs_is (fun z i => one (g z i)) (seq 0 z) (seq 0 n) (0, 0)) as [_ F].
    destruct F as [l L]; [destruct z; [lia|discriminate]|]. exists l. rewrite L. cbn [fst Nat.add]. do 3 f_equal. apply map_ext. intros a. rewrite <- sum_ones, map_map. reflexivity.
  - intros file NE. unfold finds, parsing. rewrite founds_found, adjust_polygons_is. destruct (adjust_edges_is (concat (map first (first file))) (0, 0)) as (_ & _ & F & _). exact (F NE).
Qed.

(** The diagonal angles: one tick per polygon and one per edge; the count never goes back and ends at
    the corners and the pairs of edges of distinct polygons, where the maximum is the pairs of edges. *)
Theorem C87_angles : forall ps cross, let b := diagonal_angles ps cross in let sizes := map (@length bool) ps in
  length (shown b) = length ps + sum sizes /\ rising (shown b) /\ 2 * max b + sum sizes = sum sizes * sum sizes
  /\ (concat ps <> [] -> exists l, shown b = l ++ [sum sizes + across sizes]).
Proof.
  intros ps cross. cbn zeta. unfold diagonal_angles. destruct (corners_is ps (0, 0)) as (C1 & C2 & C3 & C4). destruct (corners ps (0, 0)) as [t c]. cbn [fst snd] in *.
  destruct (crosses_is cross ps 0 c) as (D1 & D2 & D3 & D4 & D5). rewrite terms_shown. cbn [max]. rewrite lengths_concat in *. unfold terms in *.
  rewrite map_app, app_length, !map_length, C1, D1. split; [reflexivity|]. split; [|split].
  - apply rising_app; [exact C3|exact D3|]. intros x y X Y. specialize (C4 x X). specialize (D4 y Y). lia.
  - set (s := sum (map (@length bool) ps)). pose proof (across_squares (map (@length bool) ps)) as A. fold s in A. assert (P : exists k, s * s = s + 2 * k).
    { clear. induction s as [|s [k IH]]; [exists 0; reflexivity|]. exists (k + s). nia. }
    destruct P as [k P]. rewrite P. replace (s + 2 * k - s) with (k * 2) by lia. rewrite Nat.div_mul; lia.
  - intros NE. destruct (D5 NE) as [l L]. rewrite L. exists (map terminal t ++ l). rewrite <- app_assoc, D2, C2. reflexivity.
Qed.
(** With three edges or more in every polygon it stays within the maximum, and reaches it only if all
    polygons are triangles. *)
Theorem C87_triangles : forall ps cross, Forall (fun p => 3 <= length p) ps -> let b := diagonal_angles ps cross in
  behaves b /\ (ps <> [] -> (ends_full b <-> Forall (fun p => length p = 3) ps)).
Proof.
  intros ps cross H. cbn zeta. destruct (C87_angles ps cross) as (A1 & A2 & A3 & A4). set (b := diagonal_angles ps cross) in *. set (s := map (@length bool) ps) in *.
  assert (T : Forall (fun n => 3 <= n) s) by (apply Forall_map; exact H). pose proof (across_squares s) as Q. pose proof (squares_three s T) as Q3.
  assert (NE : ps <> [] -> concat ps <> []) by (destruct H as [|p ps P _]; [congruence|]; intros _ E; cbn in E; apply app_eq_nil in E as [-> _]; cbn in P; lia).
  split.
  - split; [exact A2|]. destruct ps as [|p ps]; [constructor|]. destruct (A4 (NE ltac:(discriminate))) as [l L]. rewrite L in A2 |- *.
    assert (R : forall l m, rising (l ++ [m]) -> Forall (fun x => x <= m) (l ++ [m])).
    { clear. induction l as [|x l IH]; intros m R; [repeat constructor|]. destruct l as [|y l]; [destruct R as [R _]; repeat constructor; exact R|].
      destruct R as [R1 R2]. specialize (IH m R2). constructor; [|exact IH]. apply Forall_inv in IH. lia. }
    eapply Forall_impl; [|apply R; exact A2]. intros x X. cbn beta in X. nia.
  - intros P. destruct (A4 (NE P)) as [l L]. unfold ends_full. rewrite L. split.
    + intros [l' E]. apply app_inj_tail in E as [_ E]. assert (F : Forall (fun n => n = 3) s) by (apply squares_equal; [exact T|nia]). apply Forall_map in F. exact F.
    + intros F. exists l. do 2 f_equal. assert (E : sum (map (fun n => n * n) s) = 3 * sum s).
      { unfold s. clear - F. induction F as [|p ps P _ IH]; [reflexivity|]. cbn [map sum]. rewrite P, IH. lia. } nia.
Qed.

(** Wrong: that the bar of the diagonal angles ends full; one square is enough, which shows 4 of 6. *)
Definition square : list (list bool) := [[false; false; false; false]].
Theorem C87_angles_refuted : ~ (forall ps cross, Forall (fun p => 3 <= length p) ps -> ps <> [] -> ends_full (diagonal_angles ps cross)).
Proof. intros H. destruct (H square (fun _ _ _ _ => false) ltac:(repeat constructor) ltac:(discriminate)) as [l E]. cbn in E. destruct l as [|x [|y [|z [|u [|v [|w l]]]]]]; discriminate E. Qed.
(** Wrong: that a bar never passes its maximum; with fixed policies, however many, it always does, and
    shows one more than there are. *)
Theorem C87_fixed : forall n, max (fixed_policies n) = n /\ shown (fixed_policies n) = seq 2 n.
Proof. intros n. split; [reflexivity|]. unfold fixed_policies. rewrite terms_shown. apply ticks_pre_is. Qed.
Theorem C87_fixed_refuted : forall n, 1 <= n -> ~ behaves (fixed_policies n) /\ ~ ends_full (fixed_policies n).
Proof.
  intros n N. destruct (C87_fixed n) as [M Sh]. unfold behaves, ends_full. rewrite Sh, M. destruct n as [|n]; [lia|]. rewrite seq_S. split.
  - intros [_ F]. apply Forall_app in F as [_ F]. apply Forall_inv in F. lia.
  - intros [l E]. apply app_inj_tail in E as [_ E]. lia.
Qed.

(** ** The window *)

(** A count of one number is shown alike in both; a count with what was found is one further in the
    window.  What the window is left with is the last value it was given that is not past the maximum. *)
Theorem C87_window :
  (forall n, 1 <= n -> window (solving n) = Some n)
  /\ (forall n, 2 <= n -> window (intervals n) = Some n)
  /\ (forall n, window (fixed_policies n) = match n with O | 1 => None | _ => Some n end)
  /\ (forall ps, window (adjust ps) = match length (concat ps) with O | 1 => None | n => Some n end)
  /\ (forall p f, 1 <= p -> window (edges_in_polygons p f) = if p =? 1 then None else Some (p * p - p + 1)).
Proof.
  assert (W : forall m (t : list told) vs v, map window_given t = vs -> fold_left (fun v t => set_value m v (window_given t)) t v = fold_left (set_value m) vs v).
  { intros m t vs v <-. revert v. induction t as [|x t IH]; intros v; cbn; [reflexivity|apply IH]. }
  assert (L : forall m vs x v, x <= m -> fold_left (set_value m) (vs ++ [x]) v = Some x).
  { intros m vs x v X. rewrite fold_left_app. cbn. unfold set_value. apply Nat.leb_le in X. rewrite X. reflexivity. }
  assert (O : forall m vs x v, 1 <= m < x -> fold_left (set_value m) (vs ++ [x]) v = fold_left (set_value m) vs v).
  { intros m vs x v X. rewrite fold_left_app. cbn. unfold set_value at 1. destruct (Nat.leb_spec x m); [lia|]. destruct (Nat.eqb_spec m 0); [lia|reflexivity]. }
  assert (G : forall t, (forall x, In x t -> exists i, x = One i) -> map window_given t = terms t).
  { intros t T. apply map_ext_in. intros x X. destruct (T x X) as [i ->]. reflexivity. }
  assert (G2 : forall t, (forall x, In x t -> exists f j, x = Two f j) -> map window_given t = map S (terms t)).
  { intros t T. unfold terms. rewrite map_map. apply map_ext_in. intros x X. destruct (T x X) as (f & j & ->). reflexivity. }
  assert (Two' : forall n, fold_left (set_value n) (seq 2 n) None = match n with O | 1 => None | _ => Some n end).
  { intros [|[|n]]; [reflexivity|reflexivity|]. rewrite seq_S, O by lia. rewrite seq_S, L by lia. f_equal. }
  repeat apply conj.
  - intros n N. unfold window. rewrite (W _ _ (seq 1 n)).
    + cbn [solving max]. destruct n as [|n]; [lia|]. rewrite seq_S, L by lia. reflexivity.
    + rewrite G; [apply ticks_post_is|]. cbn [solving ticks]. generalize 0. clear. induction n; intros i x X; cbn in X; [contradiction|]. destruct X as [<-|X]; [eauto|eapply IHn, X].
  - intros n N. unfold window. rewrite (W _ _ (seq 2 (n - 1))).
    + cbn [intervals max]. destruct n as [|[|n]]; [lia|lia|]. replace (S (S n) - 1) with (S n) by lia. rewrite seq_S, L by lia. reflexivity.
    + rewrite G; [apply C87_from_two|]. cbn [intervals ticks]. intros x X. apply in_map_iff in X as (i & <- & _). eauto.
  - intros n. unfold window. rewrite (W _ _ (seq 2 n)); [apply Two'|].
    rewrite G; [apply (proj2 (C87_fixed n))|]. cbn [fixed_policies ticks]. generalize 0. clear. induction n; intros i x X; cbn in X; [contradiction|]. specialize (IHn (S i) x). destruct (ticks_pre n (S i)). destruct X as [<-|X]; [eauto|apply IHn, X].
  - intros ps. unfold window. rewrite (W _ _ (seq 2 (length (concat ps)))); [cbn [adjust max]; rewrite Two'; destruct (length (concat ps)) as [|[|n]]; reflexivity|].
    rewrite G2; [|cbn [adjust ticks]; rewrite adjust_polygons_is; generalize (0, 0); clear; induction (concat ps) as [|b l IH]; intros c x X; cbn in X; [contradiction|]; specialize (IH (fst c + one b, S (snd c)) x); destruct (adjust_edges l _); destruct X as [<-|X]; [eauto|apply IH, X]].
    change (terms (ticks (adjust ps))) with (shown (adjust ps)). rewrite (proj2 (proj1 C87_one_by_one ps)). apply seq_shift.
  - intros p f P. unfold window. rewrite (W _ _ (map (fun k => S (k * p)) (seq 1 p))).
    + cbn [edges_in_polygons max]. destruct p as [|p]; [lia|]. rewrite (seq_S p 1), map_app. cbn [map]. rewrite O by (cbn; lia).
      destruct p as [|p]; [reflexivity|]. rewrite (seq_S p 1), map_app. cbn [map]. rewrite L by nia. cbn [Nat.eqb]. f_equal. nia.
    + rewrite G2; [|cbn [edges_in_polygons ticks]; generalize (0, 0); generalize (seq 0 p) at 2; clear; induction (seq 0 p) as [|a l IH]; intros bs c x X; cbn in X; [contradiction|]; specialize (IH bs (fold_left (fun c b => (fst c + f a b, S (snd c))) bs c) x); destruct (pairs f l bs _); destruct X as [<-|X]; [eauto|apply IH, X]].
      change (terms (ticks (edges_in_polygons p f))) with (shown (edges_in_polygons p f)). rewrite (proj2 (proj1 C87_by_row p f)), map_map. reflexivity.
Qed.
(** Wrong: that the window ends full where the terminal does. *)
Theorem C87_window_refuted : ~ (forall b, behaves b -> ends_full b -> window b = Some (max b)).
Proof.
  intros H. assert (E := H (edges_in_polygons 2 (fun _ _ => 0)) (proj1 (proj1 (proj2 (proj2 (proj2 C87_behave))) 2 _)) (proj2 (proj1 (proj2 (proj2 (proj2 C87_behave))) 2 _) ltac:(lia))).
  discriminate E.
Qed.

(** With nothing to do the window shows any value: one, for each zone when an axis has no intervals. *)
Theorem C87_window_busy : (forall b t l, max b = 0 -> ticks b = l ++ [t] -> window b = Some (window_given t))
  /\ forall z g, 1 <= z -> window (intervals_per_zone z 0 g) = Some 1.
Proof.
  assert (B : forall b t l, max b = 0 -> ticks b = l ++ [t] -> window b = Some (window_given t)).
  { intros b t l M T. unfold window. rewrite T, fold_left_app, M. cbn [fold_left]. unfold set_value at 1. rewrite orb_true_r. reflexivity. }
  split; [exact B|]. intros z g Z. destruct (proj2 C87_by_row z 0 g) as [M Sh]. rewrite Nat.mul_0_r in M.
  destruct (exists_last (l := ticks (intervals_per_zone z 0 g))) as (l & t & T).
  { intros E. unfold shown in Sh. rewrite E in Sh. destruct z; [lia|discriminate Sh]. }
  rewrite (B _ _ _ M T). assert (I : In t (ticks (intervals_per_zone z 0 g))) by (rewrite T; apply in_app_iff; right; left; reflexivity).
  assert (K : exists f j, t = Two f j).
  { clear T M Sh. unfold intervals_per_zone in I. cbn [ticks] in I. rewrite per_zone_is in I. revert I. change (seq 0 0) with (@nil nat). generalize (0, 0). induction (seq 0 z) as [|a r IH]; intros c X; cbn in X; [contradiction|].
    match type of X with context [pairs ?f ?x ?y ?c] => specialize (IH c); destruct (pairs f x y c) end. destruct X as [<-|X]; [eauto|apply IH, X]. }
  destruct K as (f & j & ->). cbn [window_given]. do 2 f_equal.
  assert (J : In j (shown (intervals_per_zone z 0 g))) by (unfold shown; apply (in_map terminal) in I; exact I).
  rewrite Sh in J. apply in_map_iff in J as (k & K & _). lia.
Qed.

(** ** The width *)

(** The bar of the terminal has what is left of 81 columns, as long as the texts around it fit; else
    its width wraps around to more than can be shown. *)
Theorem C87_width : forall prefix postfix, (0 <= prefix -> 0 <= postfix -> prefix + postfix < 2 ^ 64 ->
  (prefix + postfix <= 81 -> bar_width prefix postfix = 81 - prefix - postfix) /\ (81 < prefix + postfix -> 81 < bar_width prefix postfix))%Z.
Proof.
  intros p q P Q B. unfold bar_width. split; intros H.
  - rewrite Z.mod_small; lia.
  - replace (100 - p - q - 19)%Z with ((81 - p - q + 2 ^ 64) + (-1) * 2 ^ 64)%Z by lia. rewrite Z.mod_add by lia. rewrite Z.mod_small; lia.
Qed.

(** ** Cases *)

(** Two triangles and a square, with two crosses: 10 edges; the bar ends at 43 of 45. *)
Example C87_angles_example : let ps := [[true; false; true]; [false; false; true]; [false; false; false; false]] in
  let b := diagonal_angles ps (fun i l j m => (i =? 0) && (l =? 0) && (j =? 2) && (m <? 2)) in
  Forall (fun p => 3 <= length p) ps /\ concat ps <> [] /\ max b = 45 /\ shown b = [3; 6; 10; 17; 24; 31; 35; 39; 43; 43; 43; 43; 43] /\ found b = [2; 3; 3; 5; 5; 5; 5; 5; 5; 5; 5; 5; 5].
Proof. cbv zeta. split; [repeat constructor|]. split; [discriminate|]. repeat split. Qed.
(** A polygon of two edges passes the maximum: 2 of 1. *)
Example C87_flat_example : let b := diagonal_angles [[true; true]] (fun _ _ _ _ => false) in max b = 1 /\ shown b = [2; 2; 2].
Proof. repeat split. Qed.
Example C87_colinear_example : let b := colinear_edges [false; true; false; false] (fun i j => (i =? 0) && (j =? 3)) in
  max b = 6 /\ shown b = [3; 5; 6; 6] /\ found b = [1; 1; 1; 1].
Proof. repeat split. Qed.
Example C87_zones_example : shown (diagonal_zones 3 1 2) = [0; 1; 2; 2; 3; 4] /\ found (diagonal_zones 3 1 2) = [0; 0; 1; 1; 1; 3].
Proof. split; reflexivity. Qed.
Example C87_too_close_example : shown (too_close 5 [true; true; true]) = [1; 2; 3; 5].
Proof. reflexivity. Qed.
Example C87_rounds_example : turns 6 PropertiesManager.usual ManagerMoreProofs.isort (PropertiesManager.of_policies [PropertiesManager.line (QArith_base.Qmake 5 1); PropertiesManager.halfs (QArith_base.Qmake 0 1); PropertiesManager.thirds (QArith_base.Qmake 9 2); PropertiesManager.thirds (QArith_base.Qmake 1 2)]) = Some [true; true].
Proof. vm_compute. reflexivity. Qed.
Example C87_parsing_example : let file := [[[[true; false]]; [[true]; [true]]]; [[[true]]]] in max (parsing file) = 5 /\ shown (parsing file) = [1; 2; 3] /\ found (parsing file) = [1; 1; 2].
Proof. repeat split. Qed.
Example C87_window_example : window (adjust [[true; false]; [true]]) = Some 3 /\ window (adjust [[true]]) = None /\ shown (adjust [[true]]) = [1] /\ window (edges_in_polygons 3 (fun _ _ => 1)) = Some 7.
Proof. repeat split. Qed.

Print Assumptions C87_one_by_one.
Print Assumptions C87_by_row.
Print Assumptions C87_from_two.
Print Assumptions C87_colinear.
Print Assumptions C87_zones.
Print Assumptions C87_too_close.
Print Assumptions C87_rounds.
Print Assumptions C87_behave.
Print Assumptions C87_parsing.
Print Assumptions C87_found.
Print Assumptions C87_angles.
Print Assumptions C87_triangles.
Print Assumptions C87_angles_refuted.
Print Assumptions C87_fixed.
Print Assumptions C87_fixed_refuted.
Print Assumptions C87_window.
Print Assumptions C87_window_refuted.
Print Assumptions C87_window_busy.
Print Assumptions C87_width.
