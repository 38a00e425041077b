(** The proofs about the merging of too close policies in doubles.  Most are those of
    ManagerProofs.v, over the rounded functions. *)
From Coq Require Import List Arith Bool Lia ZArith QArith Qabs Lqa Sorting.Sorted Sorting.Permutation.
From Verif Require Import IntervalModel IntervalSpec IntervalProofs ManagerModel ManagerSpec ManagerProofs ManagerMoreProofs RoundModel RoundSpec RoundProofs RoundCloseModel RoundCloseSpec.
Import ListNotations.
Open Scope Q_scope.

Notation dist x y := (r_distance double (p_coord (snd x)) (p_coord (snd y))).

Lemma closest_loop_cons x y l o : (r_closest_loop double) (x :: y :: l) o =
  (r_closest_loop double) (y :: l) match o with
                        | Some (s, _) => if Qltb (dist x y) s then Some (dist x y, (fst x, fst y)) else o
                        | None => Some (dist x y, (fst x, fst y))
                        end.
Proof. reflexivity. Qed.

Lemma closest_loop_keeps l : forall s q, exists s' q', (r_closest_loop double) l (Some (s, q)) = Some (s', q') /\ s' <= s.
Proof.
  induction l as [|x [|y l] IH]; intros s q; [now exists s, q; split; [|lra]..|].
  rewrite closest_loop_cons. destruct (Qltb (dist x y) s) eqn:E.
  - destruct (IH (dist x y) (fst x, fst y)) as (s' & q' & E' & L). exists s', q'. split; [exact E'|].
    apply Qltb_lt in E. lra.
  - apply IH.
Qed.

Lemma closest_loop_min l : forall o s q, (r_closest_loop double) l o = Some (s, q) ->
  forall x y, adjacent x y l -> s <= dist x y.
Proof.
  induction l as [|x [|y l] IH]; intros o s q E u v A; [inversion A|inversion A; subst; match goal with H : adjacent _ _ [] |- _ => inversion H end|].
  rewrite closest_loop_cons in E. inversion A; subst.
  - destruct o as [[s0 q0]|].
    + destruct (Qltb (dist x y) s0) eqn:C.
      * destruct (closest_loop_keeps (y :: l) (dist x y) (fst x, fst y)) as (s' & q' & E' & L).
        rewrite E' in E. inversion E; subst. assumption.
      * destruct (closest_loop_keeps (y :: l) s0 q0) as (s' & q' & E' & L).
        rewrite E' in E. inversion E; subst. apply Qltb_ge in C. lra.
    + destruct (closest_loop_keeps (y :: l) (dist x y) (fst x, fst y)) as (s' & q' & E' & L).
      rewrite E' in E. inversion E; subst. assumption.
  - eapply IH; eassumption.
Qed.

Lemma closest_loop_from l : forall o s q, (r_closest_loop double) l o = Some (s, q) ->
  o = Some (s, q) \/ exists x y, adjacent x y l /\ s = dist x y /\ q = (fst x, fst y).
Proof.
  induction l as [|x [|y l] IH]; intros o s q E; [now left|now left|].
  rewrite closest_loop_cons in E. apply IH in E. destruct E as [E|(u & v & A & R)].
  - assert (C : o = Some (s, q) \/ Some (dist x y, (fst x, fst y)) = Some (s, q)).
    { destruct o as [[s0 q0]|]; [destruct (Qltb (dist x y) s0)|]; tauto. }
    destruct C as [C|C]; [now left|]. inversion C. right. exists x, y. split; [constructor|now split].
  - right. exists u, v. split; [now constructor|assumption].
Qed.

Lemma closest_loop_none l : (r_closest_loop double) l None = None -> (length l <= 1)%nat.
Proof.
  destruct l as [|x [|y l]]; [cbn; lia..|]. rewrite closest_loop_cons.
  intros E. destruct (closest_loop_keeps (y :: l) (dist x y) (fst x, fst y)) as (s' & q' & E' & _).
  congruence.
Qed.

Lemma r_distance_le a b c d : a <= b -> c <= d -> b - a <= d - c -> r_distance double a b <= r_distance double c d.
Proof.
  intros H1 H2 H3. unfold r_distance.
  assert (double (a - b) <= 0) by (apply double_le; [apply is_double_0|lra]).
  assert (double (c - d) <= 0) by (apply double_le; [apply is_double_0|lra]).
  rewrite !Qabs_neg by assumption. pose proof (double_mono (c - d) (a - b)). lra.
Qed.

Lemma r_distance_sym a b : r_distance double a b == r_distance double b a.
Proof.
  unfold r_distance. rewrite <- (Qabs_opp (double (b - a))). rewrite <- double_opp.
  rewrite (double_comp (a - b) (- (b - a))) by ring. reflexivity.
Qed.

(** In a sorted list, any two elements are at least as far as some adjacent pair. *)
Lemma sorted_pair l : StronglySorted (fun x y : nat * mlp => p_coord (snd x) <= p_coord (snd y)) l ->
  forall x y, In x l -> In y l -> x <> y -> exists u v, adjacent u v l /\ dist u v <= dist x y.
Proof.
  intros S. induction S as [|z l S IH F]; intros x y X Y N; [destruct X|].
  rewrite Forall_forall in F.
  assert (K : forall w, In w l -> exists u v, adjacent u v (z :: l) /\ dist u v <= dist z w).
  { intros w W. destruct l as [|v l]; [destruct W|].
    exists z, v. split; [constructor|]. apply StronglySorted_inv in S. destruct S as [_ G].
    rewrite Forall_forall in G. pose proof (F v (or_introl eq_refl)). pose proof (F w W).
    destruct W as [->|W]; [apply Qle_refl|]. specialize (G w W). apply r_distance_le; lra. }
  destruct X as [->|X], Y as [->|Y].
  - congruence.
  - apply K. assumption.
  - destruct (K x X) as (u & v & A & L). exists u, v. split; [assumption|].
    rewrite (r_distance_sym (p_coord (snd x))). assumption.
  - destruct (IH x y X Y N) as (u & v & A & L). exists u, v. split; [now constructor|assumption].
Qed.

Lemma detect_closest_some srt ax limit a b : sorts srt -> (r_detect_closest double) srt ax limit = Some (a, b) ->
  exists pa pb, enabled_at ax a pa /\ enabled_at ax b pb /\ a <> b /\ p_coord pa <= p_coord pb /\
    r_distance double (p_coord pa) (p_coord pb) <= limit /\
    forall i j p q, i <> j -> enabled_at ax i p -> enabled_at ax j q -> r_distance double (p_coord pa) (p_coord pb) <= r_distance double (p_coord p) (p_coord q).
Proof.
  intros S E. unfold r_detect_closest in E.
  destruct ((r_closest_loop double) (dimension srt ax) None) as [[s q]|] eqn:L; [|discriminate].
  destruct (Qle_bool s limit) eqn:M; [|discriminate]. inversion E; subst q. apply Qle_bool_iff in M.
  pose proof (dimension_sorted srt ax S) as So. pose proof (dimension_nodup srt ax S) as Nd.
  destruct (closest_loop_from _ _ _ _ L) as [H|(x & y & A & Es & Eq)]; [discriminate|].
  destruct x as [i pi], y as [j pj]. cbn in Eq. inversion Eq; subst i j.
  destruct (adjacent_in _ _ _ A) as [Ia Ib].
  exists pi, pj. apply (dimension_in _ _ _ _ S) in Ia. apply (dimension_in _ _ _ _ S) in Ib. split; [assumption|]. split; [assumption|].
  split; [|split; [|split]].
  - apply (adjacent_map fst) in A. cbn in A. eapply adjacent_nodup; eassumption.
  - exact (adjacent_sorted _ _ _ _ A So).
  - subst s. assumption.
  - intros i j p q N Ei Ej. apply (dimension_in srt _ _ _ S) in Ei. apply (dimension_in srt _ _ _ S) in Ej.
    destruct (sorted_pair _ So (i, p) (j, q) Ei Ej) as (u & v & A' & D); [congruence|].
    pose proof (closest_loop_min _ _ _ _ L _ _ A'). subst s. cbn in *. lra.
Qed.

Lemma detect_closest_none srt ax limit : sorts srt -> (r_detect_closest double) srt ax limit = None ->
  forall i j p q, i <> j -> enabled_at ax i p -> enabled_at ax j q -> limit < r_distance double (p_coord p) (p_coord q).
Proof.
  intros S E i j p q N Ei Ej. unfold r_detect_closest in E.
  apply (dimension_in srt _ _ _ S) in Ei. apply (dimension_in srt _ _ _ S) in Ej.
  destruct ((r_closest_loop double) (dimension srt ax) None) as [[s q0]|] eqn:L.
  - destruct (Qle_bool s limit) eqn:M; [discriminate|].
    pose proof (dimension_sorted srt ax S) as So.
    destruct (sorted_pair _ So (i, p) (j, q) Ei Ej) as (u & v & A' & D); [congruence|].
    pose proof (closest_loop_min _ _ _ _ L _ _ A').
    assert (limit < s). { apply Qnot_le_lt. intros H'. apply Qle_bool_iff in H'. congruence. }
    cbn in *. lra.
  - apply closest_loop_none in L. destruct (dimension srt ax) as [|x [|y l]]; cbn in *; [tauto| |lia].
    destruct Ei as [->|[]], Ej as [Ej|[]]. congruence.
Qed.

(** What looks farther than the limit is. *)
Lemma far_really limit a b : is_double limit -> limit < r_distance double a b -> limit < Qabs (a - b).
Proof.
  intros D H. apply Qnot_le_lt. intros L. apply (Qlt_not_le _ _ H). unfold r_distance.
  apply Qabs_Qle_condition in L. apply Qabs_Qle_condition. split.
  - apply double_ge; [now apply is_double_opp|lra].
  - apply double_le; [assumption|lra].
Qed.

Record turn (g : params) (ax : axis) (a b : nat) (pa pb : mlp) (ax' : axis) : Prop :=
  { tu_a : policy_at ax' a (disable pa);
    tu_b : policy_at ax' b (disable pb);
    tu_other : forall i, i <> a -> i <> b -> (i < length (ax_policies ax))%nat ->
      nth_error (ax_policies ax') i = nth_error (ax_policies ax) i;
    tu_new : match (r_merged double) pa pb with
             | Some (policy, normal, coord) =>
                 if inconsistent policy normal
                 then length (ax_policies ax') = length (ax_policies ax) /\
                      ax_conflicts ax' = ax_conflicts ax ++ [mk_tc a b None]
                 else length (ax_policies ax') = S (length (ax_policies ax)) /\
                      policy_at ax' (length (ax_policies ax)) ((r_new_policy double) g policy normal coord true) /\
                      ax_conflicts ax' = ax_conflicts ax ++ [mk_tc a b (Some (length (ax_policies ax)))]
             | None => length (ax_policies ax') = length (ax_policies ax) /\
                       ax_conflicts ax' = ax_conflicts ax ++ [mk_tc a b None]
             end;
    tu_segments : ax_segments ax' = ax_segments ax;
    tu_lines : ax_lines ax' = ax_lines ax }.

Lemma merged_disable a b : (r_merged double) (disable a) (disable b) = (r_merged double) a b.
Proof. reflexivity. Qed.

Lemma turn_ok g ax a b pa pb : policy_at ax a pa -> policy_at ax b pb -> a <> b ->
  ~ conflicting ax a -> ~ conflicting ax b ->
  exists ax1 ax', add_too_close ax a b = Done (Some (ax1, length (ax_conflicts ax))) /\
    (r_solve_too_close double) g ax1 (length (ax_conflicts ax)) = Done ax' /\ turn g ax a b pa pb ax'.
Proof.
  intros Pa Pb N Ca Cb. unfold policy_at in *.
  apply in_conflict_false in Ca. apply in_conflict_false in Cb.
  unfold add_too_close. rewrite Ca, Cb. cbn [orb].
  unfold read. rewrite Pa, Pb. cbn [bind].
  destruct (write_spec (disable pa) (ax_policies ax) a (nth_lt _ _ _ Pa)) as (l1 & W1 & Len1 & H1 & O1).
  rewrite W1. cbn [bind].
  destruct (write_spec (disable pb) l1 b) as (l2 & W2 & Len2 & H2 & O2).
  { rewrite Len1. eapply nth_lt; eassumption. }
  rewrite W2. cbn [bind].
  assert (A2 : nth_error l2 a = Some (disable pa)) by (rewrite O2; auto).
  exists (set_conflicts (set_policies ax l2) (ax_conflicts ax ++ [mk_tc a b None])).
  unfold r_solve_too_close, read. cbn [set_policies set_conflicts ax_conflicts ax_policies].
  rewrite nth_error_app2, Nat.sub_diag by lia. cbn [nth_error bind tc_a tc_b].
  rewrite A2, H2. cbn [bind]. rewrite merged_disable.
  destruct ((r_merged double) pa pb) as [[[pol nrm] co]|] eqn:M.
  - unfold r_add_meshline_policy. cbn [ax_policies set_conflicts set_policies].
    destruct (inconsistent pol nrm) eqn:I; cbn [ax_conflicts set_policies set_conflicts ax_policies];
      rewrite write_last; cbn [bind]; eexists; (split; [reflexivity|]); (split; [reflexivity|]);
      split; unfold policy_at; cbn [ax_conflicts set_policies set_conflicts ax_policies ax_segments ax_lines];
      rewrite ?M, ?I; try reflexivity; try assumption.
    + intros i Na Nb L. rewrite O2, O1 by assumption. reflexivity.
    + split; [congruence|reflexivity].
    + rewrite nth_error_app1; [assumption|]. eapply nth_lt; eassumption.
    + rewrite nth_error_app1; [assumption|]. eapply nth_lt; eassumption.
    + intros i Na Nb L. rewrite nth_error_app1 by (rewrite Len2, Len1; assumption). rewrite O2, O1 by assumption. reflexivity.
    + rewrite app_length. cbn. rewrite <- Len1, <- Len2. split; [lia|]. split; [|reflexivity].
      rewrite nth_error_app2, Nat.sub_diag by lia. reflexivity.
  - eexists. split; [reflexivity|]. split; [reflexivity|].
    split; unfold policy_at; cbn [ax_conflicts set_policies set_conflicts ax_policies ax_segments ax_lines]; rewrite ?M;
      try reflexivity; try assumption.
    + intros i Na Nb L. rewrite O2, O1 by assumption. reflexivity.
    + split; [congruence|reflexivity].
Qed.

Lemma count_turn g ax a b pa pb ax' : turn g ax a b pa pb ax' -> a <> b ->
  enabled_at ax a pa -> enabled_at ax b pb ->
  (enabled_count ax' + 2 = enabled_count ax + (length (ax_policies ax') - length (ax_policies ax)))%nat.
Proof.
  intros T N [Pa Ea] [Pb Eb]. unfold enabled_count, policy_at in *.
  destruct (write_spec (disable pa) (ax_policies ax) a (nth_lt _ _ _ Pa)) as (l1 & W1 & Len1 & H1 & O1).
  destruct (write_spec (disable pb) l1 b) as (l2 & W2 & Len2 & H2 & O2).
  { rewrite Len1. eapply nth_lt; eassumption. }
  pose proof (count_write _ _ _ _ _ Pa W1) as K1.
  assert (Pb1 : nth_error l1 b = Some pb) by (rewrite O1; auto).
  pose proof (count_write _ _ _ _ _ Pb1 W2) as K2. rewrite Ea in K1. rewrite Eb in K2. cbn in K1, K2.
  assert (Pre : forall i, (i < length l2)%nat -> nth_error (ax_policies ax') i = nth_error l2 i).
  { intros i L. destruct (Nat.eq_dec i b) as [->|Nb]; [rewrite H2; apply (tu_b _ _ _ _ _ _ _ T)|].
    rewrite O2 by assumption. destruct (Nat.eq_dec i a) as [->|Na]; [rewrite H1; apply (tu_a _ _ _ _ _ _ _ T)|].
    rewrite O1 by assumption. apply (tu_other _ _ _ _ _ _ _ T); try assumption. lia. }
  assert (L2 : length l2 = length (ax_policies ax)) by congruence.
  pose proof (tu_new _ _ _ _ _ _ _ T) as New.
  assert (Cases : length (ax_policies ax') = length (ax_policies ax) \/
    exists p, p_enabled p = true /\ length (ax_policies ax') = S (length (ax_policies ax)) /\
      nth_error (ax_policies ax') (length (ax_policies ax)) = Some p).
  { destruct ((r_merged double) pa pb) as [[[pol nrm] co]|]; [|tauto]. destruct (inconsistent pol nrm); [tauto|].
    right. exists ((r_new_policy double) g pol nrm co true). split; [reflexivity|]. unfold policy_at in New. tauto. }
  destruct Cases as [C|(p & Ep & C & Np)].
  - assert (ax_policies ax' = l2) as -> by (apply nth_ext_eq; [congruence|]; intros i L; apply Pre; congruence). lia.
  - assert (ax_policies ax' = l2 ++ [p]) as ->.
    { apply nth_ext_eq; [rewrite app_length; cbn; lia|]. intros i L.
      destruct (Nat.eq_dec i (length l2)) as [->|Ni].
      - rewrite nth_error_app2, Nat.sub_diag by lia. rewrite L2. assumption.
      - rewrite nth_error_app1 by lia. apply Pre. lia. }
    rewrite filter_app, !app_length. cbn. rewrite Ep. cbn. lia.
Qed.

Lemma turn_enabled g ax a b pa pb ax' i p : turn g ax a b pa pb ax' -> enabled_at ax' i p ->
  (i <> a /\ i <> b /\ enabled_at ax i p) \/
  exists policy normal coord, (r_merged double) pa pb = Some (policy, normal, coord) /\
    inconsistent policy normal = false /\ i = length (ax_policies ax) /\ p = (r_new_policy double) g policy normal coord true.
Proof.
  intros T [P E]. unfold policy_at in P.
  destruct (Nat.eq_dec i a) as [->|Na].
  { pose proof (tu_a _ _ _ _ _ _ _ T) as H. unfold policy_at in H. rewrite H in P. inversion P; subst. discriminate. }
  destruct (Nat.eq_dec i b) as [->|Nb].
  { pose proof (tu_b _ _ _ _ _ _ _ T) as H. unfold policy_at in H. rewrite H in P. inversion P; subst. discriminate. }
  destruct (le_lt_dec (length (ax_policies ax)) i) as [L|L].
  - right. pose proof (tu_new _ _ _ _ _ _ _ T) as New. pose proof (nth_lt _ _ _ P) as L'.
    destruct ((r_merged double) pa pb) as [[[pol nrm] co]|]; [|lia]. destruct (inconsistent pol nrm) eqn:I; [lia|].
    exists pol, nrm, co. destruct New as (Len & Np & _). unfold policy_at in Np.
    assert (i = length (ax_policies ax)) by lia. subst i. rewrite Np in P. inversion P; subst. tauto.
  - left. split; [assumption|]. split; [assumption|]. split; [|assumption]. unfold policy_at.
    rewrite <- (tu_other _ _ _ _ _ _ _ T) by assumption. assumption.
Qed.

Lemma turn_keeps g ax a b pa pb ax' i p : turn g ax a b pa pb ax' -> i <> a -> i <> b -> policy_at ax i p -> policy_at ax' i p.
Proof.
  intros T Na Nb P. unfold policy_at in *. rewrite (tu_other _ _ _ _ _ _ _ T); try assumption. eapply nth_lt; eassumption.
Qed.

Lemma turn_length g ax a b pa pb ax' : turn g ax a b pa pb ax' ->
  (length (ax_policies ax) <= length (ax_policies ax') <= S (length (ax_policies ax)))%nat.
Proof.
  intros T. pose proof (tu_new _ _ _ _ _ _ _ T) as New.
  destruct ((r_merged double) pa pb) as [[[pol nrm] co]|]; [|lia]. destruct (inconsistent pol nrm); lia.
Qed.

Lemma turn_conflicts g ax a b pa pb ax' : turn g ax a b pa pb ax' ->
  exists o, ax_conflicts ax' = ax_conflicts ax ++ [mk_tc a b o].
Proof.
  intros T. pose proof (tu_new _ _ _ _ _ _ _ T) as New.
  destruct ((r_merged double) pa pb) as [[[pol nrm] co]|]; [destruct (inconsistent pol nrm)|]; eexists; apply New.
Qed.

Lemma turn_conflicting g ax a b pa pb ax' i : turn g ax a b pa pb ax' ->
  conflicting ax' i <-> conflicting ax i \/ i = a \/ i = b.
Proof.
  intros T. destruct (turn_conflicts _ _ _ _ _ _ _ T) as (o & E). unfold conflicting. rewrite E.
  split.
  - intros (c & I & H). apply in_app_iff in I. destruct I as [I|[<-|[]]]; [left; eauto|]. cbn in H. right. intuition congruence.
  - intros [(c & I & H)|H].
    + exists c. split; [apply in_app_iff; now left|assumption].
    + exists (mk_tc a b o). split; [apply in_app_iff; right; now left|]. cbn. intuition congruence.
Qed.

Lemma turn_settled g ax a b pa pb ax' : settled ax -> enabled_at ax a pa -> enabled_at ax b pb ->
  turn g ax a b pa pb ax' -> settled ax'.
Proof.
  intros [S1 S2] [Pa _] [Pb _] T. split.
  - intros i p E C. apply (turn_conflicting _ _ _ _ _ _ _ i T) in C.
    destruct (turn_enabled _ _ _ _ _ _ _ _ _ T E) as [(Na & Nb & E0)|(pol & nrm & co & _ & _ & -> & _)].
    + destruct C as [C|[C|C]]; [|congruence..]. exact (S1 _ _ E0 C).
    + assert (exists p, policy_at ax (length (ax_policies ax)) p) as (q & H).
      { destruct C as [C|[C|C]]; [apply S2; assumption|exists pa; congruence|exists pb; congruence]. }
      apply nth_lt in H. lia.
  - intros i C. apply (turn_conflicting _ _ _ _ _ _ _ i T) in C.
    assert (exists p, policy_at ax i p) as (q & H).
    { destruct C as [C|[C|C]]; [apply S2; assumption|exists pa; congruence|exists pb; congruence]. }
    apply nth_lt in H. destruct (nth_error (ax_policies ax') i) as [p|] eqn:X; [exists p; exact X|].
    apply nth_error_None in X. pose proof (turn_length _ _ _ _ _ _ _ T). lia.
Qed.

Inductive solving (g : params) (srt : sorter) : axis -> axis -> Prop :=
| solving_end ax : (r_detect_closest double) srt ax (g_proximity_limit g) = None -> solving g srt ax ax
| solving_turn ax a b pa pb ax1 ax' :
    (r_detect_closest double) srt ax (g_proximity_limit g) = Some (a, b) ->
    enabled_at ax a pa -> enabled_at ax b pb -> a <> b -> turn g ax a b pa pb ax1 ->
    solving g srt ax1 ax' -> solving g srt ax ax'.

Lemma solve_loop g srt : sorts srt -> forall n ax, (enabled_count ax <= n)%nat -> settled ax ->
  exists ax', solving g srt ax ax' /\
    forall m, (n < m)%nat -> (r_detect_and_solve_too_close double) m g srt ax = Done ax'.
Proof.
  intros S. induction n as [|n IH]; intros ax L Se.
  - destruct ((r_detect_closest double) srt ax (g_proximity_limit g)) as [[a b]|] eqn:D.
    + destruct (detect_closest_some _ _ _ _ _ S D) as (pa & pb & Ea & _).
      rewrite <- (dimension_in srt _ _ _ S) in Ea. pose proof (dimension_length srt ax S) as Le.
      destruct (dimension srt ax); [destruct Ea|cbn in Le; lia].
    + exists ax. split; [now constructor|]. intros [|m] H; [lia|]. cbn. now rewrite D.
  - destruct ((r_detect_closest double) srt ax (g_proximity_limit g)) as [[a b]|] eqn:D.
    + destruct (detect_closest_some _ _ _ _ _ S D) as (pa & pb & Ea & Eb & N & _).
      destruct Se as [S1 S2].
      destruct (turn_ok g ax a b pa pb (proj1 Ea) (proj1 Eb) N (S1 _ _ Ea) (S1 _ _ Eb)) as (ax1 & ax2 & A & So & T).
      pose proof (count_turn _ _ _ _ _ _ _ T N Ea Eb) as C. pose proof (turn_length _ _ _ _ _ _ _ T) as Le.
      destruct (IH ax2) as (ax' & Sol & F); [lia|eapply (turn_settled g ax a b pa pb); [split|..]; eassumption|].
      exists ax'. split; [eapply solving_turn; eassumption|].
      intros [|m] H; [lia|]. cbn [r_detect_and_solve_too_close]. rewrite D, A. cbn [bind]. rewrite So. cbn [bind].
      apply F. lia.
    + exists ax. split; [now constructor|]. intros [|m] H; [lia|]. cbn. now rewrite D.
Qed.

Lemma solve_stuck g srt ax a b : (r_detect_closest double) srt ax (g_proximity_limit g) = Some (a, b) ->
  conflicting ax a \/ conflicting ax b -> loops (fun n => (r_detect_and_solve_too_close double) n g srt ax).
Proof.
  intros D C n. induction n as [|n IH]; [reflexivity|]. cbn [r_detect_and_solve_too_close]. rewrite D.
  assert (in_conflict ax a || in_conflict ax b = true) as E.
  { apply orb_true_iff. rewrite !in_conflict_spec. assumption. }
  unfold add_too_close. rewrite E. cbn [bind]. assumption.
Qed.

Lemma solving_apart g srt ax ax' : sorts srt -> solving g srt ax ax' ->
  forall i j p q, i <> j -> enabled_at ax' i p -> enabled_at ax' j q -> is_double (g_proximity_limit g) -> g_proximity_limit g < gap p q.
Proof. intros S H. induction H; [|assumption]. intros i j p q N Ei Ej D. apply far_really; [assumption|]. exact (detect_closest_none srt _ _ S H i j p q N Ei Ej). Qed.

Lemma solving_settled g srt ax ax' : solving g srt ax ax' -> settled ax -> settled ax'.
Proof. intros H. induction H; intros Se; [assumption|]. apply IHsolving. exact (turn_settled _ _ _ _ _ _ _ Se H0 H1 H3). Qed.

Lemma merged_consistent a b : consistent a -> consistent b ->
  exists policy normal coord, (r_merged double) a b = Some (policy, normal, coord) /\ inconsistent policy normal = false.
Proof.
  unfold consistent, r_merged. intros Ca Cb.
  destruct (p_policy a), (p_policy b); try (do 3 eexists; split; [reflexivity|reflexivity]).
  destruct (p_normal a), (p_normal b); try (do 3 eexists; split; [reflexivity|reflexivity]).
  exfalso. now apply Ca.
Qed.

Lemma turn_consistent g ax a b pa pb ax' : turn g ax a b pa pb ax' -> policy_at ax a pa -> policy_at ax b pb ->
  all_consistent ax -> all_consistent ax'.
Proof.
  rewrite !all_consistent_at. intros T Pa Pb C i p P.
  destruct (Nat.eq_dec i a) as [->|Na].
  { pose proof (tu_a _ _ _ _ _ _ _ T) as H. unfold policy_at in *. rewrite H in P. inversion P; subst. exact (C _ _ Pa). }
  destruct (Nat.eq_dec i b) as [->|Nb].
  { pose proof (tu_b _ _ _ _ _ _ _ T) as H. unfold policy_at in *. rewrite H in P. inversion P; subst. exact (C _ _ Pb). }
  destruct (le_lt_dec (length (ax_policies ax)) i) as [L|L].
  - pose proof (tu_new _ _ _ _ _ _ _ T) as New. pose proof (nth_lt _ _ _ P) as L'.
    destruct ((r_merged double) pa pb) as [[[pol nrm] co]|]; [|lia]. destruct (inconsistent pol nrm) eqn:I; [lia|].
    destruct New as (Len & Np & _). assert (i = length (ax_policies ax)) by lia. subst i.
    unfold policy_at in *. rewrite Np in P. inversion P; subst. apply consistent_dec. assumption.
  - apply (C i). unfold policy_at in *. rewrite (tu_other _ _ _ _ _ _ _ T) in P by assumption. assumption.
Qed.

Lemma solving_consistent g srt ax ax' : solving g srt ax ax' -> all_consistent ax -> all_consistent ax'.
Proof.
  intros H. induction H; intros C; [assumption|]. apply IHsolving.
  eapply turn_consistent; try eassumption; [apply H0|apply H1].
Qed.

Lemma turn_count_consistent g ax a b pa pb ax' : turn g ax a b pa pb ax' -> a <> b ->
  enabled_at ax a pa -> enabled_at ax b pb -> all_consistent ax ->
  (enabled_count ax' + 1 = enabled_count ax)%nat /\ length (ax_conflicts ax') = S (length (ax_conflicts ax)).
Proof.
  intros T N Ea Eb C. pose proof (count_turn _ _ _ _ _ _ _ T N Ea Eb) as K.
  rewrite all_consistent_at in C.
  destruct (merged_consistent pa pb (C _ _ (proj1 Ea)) (C _ _ (proj1 Eb))) as (pol & nrm & co & M & I).
  pose proof (tu_new _ _ _ _ _ _ _ T) as New. rewrite M, I in New. destruct New as (Len & _ & Cs).
  rewrite Cs, app_length. cbn. lia.
Qed.

Lemma solving_count g srt ax ax' : solving g srt ax ax' -> all_consistent ax ->
  (length (ax_conflicts ax') + enabled_count ax' = length (ax_conflicts ax) + enabled_count ax)%nat.
Proof.
  intros H. induction H; intros C; [reflexivity|].
  destruct (turn_count_consistent _ _ _ _ _ _ _ H3 H2 H0 H1 C).
  rewrite IHsolving; [lia|]. eapply turn_consistent; try eassumption; [apply H0|apply H1].
Qed.

Lemma turn_frame g ax a b pa pb ax' i p : turn g ax a b pa pb ax' -> policy_at ax a pa -> policy_at ax b pb ->
  policy_at ax i p -> policy_at ax' i p \/ policy_at ax' i (disable p).
Proof.
  intros T Pa Pb P.
  destruct (Nat.eq_dec i a) as [->|Na].
  { right. unfold policy_at in *. rewrite Pa in P. inversion P; subst. apply (tu_a _ _ _ _ _ _ _ T). }
  destruct (Nat.eq_dec i b) as [->|Nb].
  { right. unfold policy_at in *. rewrite Pb in P. inversion P; subst. apply (tu_b _ _ _ _ _ _ _ T). }
  left. eapply turn_keeps; eassumption.
Qed.

Lemma solving_frame g srt ax ax' : solving g srt ax ax' -> forall i p, policy_at ax i p ->
  policy_at ax' i p \/ policy_at ax' i (disable p).
Proof.
  intros H. induction H; intros i p P; [now left|].
  destruct (turn_frame _ _ _ _ _ _ _ _ _ H3 (proj1 H0) (proj1 H1) P) as [Q|Q]; apply IHsolving in Q; [tauto|].
  rewrite disable_disable in Q. tauto.
Qed.

Lemma solving_other g srt ax ax' : solving g srt ax ax' ->
  ax_segments ax' = ax_segments ax /\ ax_lines ax' = ax_lines ax /\ exists l, ax_conflicts ax' = ax_conflicts ax ++ l.
Proof.
  intros H. induction H; [split; [reflexivity|]; split; [reflexivity|]; exists []; now rewrite app_nil_r|].
  destruct IHsolving as (A & B & l & C). rewrite A, B, C, (tu_segments _ _ _ _ _ _ _ H3), (tu_lines _ _ _ _ _ _ _ H3).
  split; [reflexivity|]. split; [reflexivity|].
  destruct (turn_conflicts _ _ _ _ _ _ _ H3) as (o & ->). rewrite <- app_assoc. eauto.
Qed.

Lemma solve_done srt g : sorts srt -> forall n ax ax', (r_detect_and_solve_too_close double) n g srt ax = Done ax' -> solving g srt ax ax'.
Proof.
  intros S. induction n as [|n IH]; intros ax ax' E; [discriminate|].
  pose proof E as E0. cbn [r_detect_and_solve_too_close] in E.
  destruct ((r_detect_closest double) srt ax (g_proximity_limit g)) as [[a b]|] eqn:D; [|inversion E; subst; now constructor].
  destruct (detect_closest_some _ _ _ _ _ S D) as (pa & pb & Ea & Eb & N & _).
  destruct (in_conflict ax a || in_conflict ax b) eqn:C.
  - exfalso. apply orb_true_iff in C. rewrite !in_conflict_spec in C.
    pose proof (solve_stuck g srt ax a b D C (Datatypes.S n)) as H. congruence.
  - apply orb_false_iff in C. rewrite !in_conflict_false in C.
    destruct (turn_ok g ax a b pa pb (proj1 Ea) (proj1 Eb) N (proj1 C) (proj2 C)) as (ax1 & ax2 & A1 & A2 & T).
    rewrite A1 in E. cbn [bind] in E. rewrite A2 in E. cbn [bind] in E.
    eapply solving_turn; try eassumption. now apply IH.
Qed.

Lemma merged_kind a b policy normal coord : consistent a -> consistent b -> (r_merged double) a b = Some (policy, normal, coord) ->
  (policy = ONELINE <-> p_policy a = ONELINE \/ p_policy b = ONELINE) /\
  (forall n, policy = THIRDS /\ normal = n <->
     p_policy a = THIRDS /\ p_normal a = n /\ p_policy b = THIRDS /\ p_normal b = n).
Proof.
  unfold r_merged, consistent. intros Ca Cb E.
  destruct (p_policy a), (p_policy b); try destruct (p_normal a), (p_normal b); inversion E; subst; clear E;
  (split; [split; [intros H; try discriminate; tauto|intros [H|H]; discriminate || reflexivity]|];
   intros n; split; [intros [H1 H2]; try discriminate; subst; repeat split
                    |intros (H1 & H2 & H3 & H4); try discriminate; subst; try discriminate; now split]).
Qed.

Lemma between_sym a b x : between a b x -> between b a x.
Proof. unfold between. tauto. Qed.

Lemma two_double x : is_double x -> is_double (2 * x).
Proof.
  intros (m & e & M & E & H). exists m, (e + 1)%Z. split; [assumption|]. split; [lia|]. rewrite two_succ, H. ring.
Qed.

Lemma mid_between_le a b : a <= b -> is_double a -> is_double b -> a <= r_mid double a b <= b.
Proof.
  intros L Da Db. unfold r_mid. pose proof (two_double a Da) as Da2. pose proof (two_double b Db) as Db2.
  assert (2 * a <= double (a + b)) by (apply double_ge; [assumption|lra]).
  assert (double (a + b) <= 2 * b) by (apply double_le; [assumption|lra]).
  split; [apply double_ge; [assumption|apply Qle_shift_div_l; lra]|apply double_le; [assumption|apply Qle_shift_div_r; lra]].
Qed.

Lemma mid_between a b : is_double a -> is_double b -> between a b (r_mid double a b).
Proof.
  intros Da Db. destruct (Qlt_le_dec a b) as [L|L].
  - left. apply mid_between_le; [lra|assumption..].
  - right. assert (E : r_mid double a b == r_mid double b a).
    { unfold r_mid. apply double_comp. rewrite (double_comp (a + b) (b + a)) by ring. reflexivity. }
    rewrite E. apply mid_between_le; [lra|assumption..].
Qed.

Lemma merged_between a b policy normal coord : is_double (p_coord a) -> is_double (p_coord b) ->
  r_merged double a b = Some (policy, normal, coord) -> between (p_coord a) (p_coord b) coord.
Proof.
  intros Da Db E. pose proof (mid_between _ _ Da Db) as B.
  assert (Xa : between (p_coord a) (p_coord b) (p_coord a)) by (unfold between; destruct (Qlt_le_dec (p_coord a) (p_coord b)); lra).
  assert (Xb : between (p_coord a) (p_coord b) (p_coord b)) by (unfold between; destruct (Qlt_le_dec (p_coord a) (p_coord b)); lra).
  unfold r_merged in E. destruct (p_policy a), (p_policy b); try destruct (p_normal a), (p_normal b); inversion E; subst; assumption.
Qed.

Lemma merged_double a b policy normal coord : is_double (p_coord a) -> is_double (p_coord b) ->
  r_merged double a b = Some (policy, normal, coord) -> is_double coord.
Proof.
  intros Da Db E. assert (Dm : is_double (r_mid double (p_coord a) (p_coord b))) by apply double_is_double.
  unfold r_merged in E. destruct (p_policy a), (p_policy b); try destruct (p_normal a), (p_normal b); inversion E; subst; assumption.
Qed.

Lemma turn_doubles g ax a b pa pb ax' : turn g ax a b pa pb ax' -> policy_at ax a pa -> policy_at ax b pb ->
  on_doubles ax -> on_doubles ax'.
Proof.
  unfold on_doubles. intros T Pa Pb C i p P.
  destruct (Nat.eq_dec i a) as [->|Na].
  { pose proof (tu_a _ _ _ _ _ _ _ T) as H. unfold policy_at in *. rewrite H in P. inversion P; subst. exact (C _ _ Pa). }
  destruct (Nat.eq_dec i b) as [->|Nb].
  { pose proof (tu_b _ _ _ _ _ _ _ T) as H. unfold policy_at in *. rewrite H in P. inversion P; subst. exact (C _ _ Pb). }
  destruct (le_lt_dec (length (ax_policies ax)) i) as [L|L].
  - pose proof (tu_new _ _ _ _ _ _ _ T) as New. pose proof (nth_lt _ _ _ P) as L'.
    destruct (r_merged double pa pb) as [[[pol nrm] co]|] eqn:M; [|lia]. destruct (inconsistent pol nrm) eqn:I; [lia|].
    destruct New as (Len & Np & _). assert (i = length (ax_policies ax)) by lia. subst i.
    unfold policy_at in *. rewrite Np in P. inversion P; subst. cbn. exact (merged_double _ _ _ _ _ (C _ _ Pa) (C _ _ Pb) M).
  - apply (C i). unfold policy_at in *. rewrite (tu_other _ _ _ _ _ _ _ T) in P by assumption. assumption.
Qed.

Lemma solving_doubles g srt ax ax' : solving g srt ax ax' -> on_doubles ax -> on_doubles ax'.
Proof.
  intros H. induction H; intros C; [assumption|]. apply IHsolving.
  eapply turn_doubles; try eassumption; [apply H0|apply H1].
Qed.

Lemma turn_well_solved g ax a b pa pb ax' : turn g ax a b pa pb ax' -> a <> b ->
  policy_at ax a pa -> policy_at ax b pb -> all_consistent ax -> on_doubles ax ->
  Forall (well_solved ax) (ax_conflicts ax) -> Forall (well_solved ax') (ax_conflicts ax').
Proof.
  intros T N Pa Pb C Db F. rewrite all_consistent_at in C.
  destruct (merged_consistent pa pb (C _ _ Pa) (C _ _ Pb)) as (pol & nrm & co & M & I).
  pose proof (tu_new _ _ _ _ _ _ _ T) as New. rewrite M, I in New. destruct New as (Len & Pn & Cs).
  rewrite Cs. apply Forall_app. split.
  - eapply Forall_impl; [|exact F]. intros c (k & qa & qb & qk & S & Nc & La & Lb & Qa & Qb & Qk & Da & Db' & Bt & K1 & K2).
    assert (exists qk', policy_at ax' k qk' /\ p_coord qk' = p_coord qk /\ p_policy qk' = p_policy qk /\ p_normal qk' = p_normal qk) as (qk' & Qk' & E1 & E2 & E3).
    { destruct (turn_frame _ _ _ _ _ _ _ _ _ T Pa Pb Qk) as [H|H]; eexists; (split; [exact H|repeat split]). }
    assert (Qa' : policy_at ax' (tc_a c) qa).
    { destruct (turn_frame _ _ _ _ _ _ _ _ _ T Pa Pb Qa) as [H|H]; [exact H|now rewrite (disable_off _ Da) in H]. }
    assert (Qb' : policy_at ax' (tc_b c) qb).
    { destruct (turn_frame _ _ _ _ _ _ _ _ _ T Pa Pb Qb) as [H|H]; [exact H|now rewrite (disable_off _ Db') in H]. }
    exists k, qa, qb, qk'. rewrite E1, E2, E3. repeat (split; [assumption|]). assumption.
  - constructor; [|constructor]. destruct (merged_kind _ _ _ _ _ (C _ _ Pa) (C _ _ Pb) M) as [K1 K2].
    exists (length (ax_policies ax)), (disable pa), (disable pb), ((r_new_policy double) g pol nrm co true). cbn [tc_a tc_b tc_solution].
    split; [reflexivity|]. split; [assumption|]. split; [eapply nth_lt; exact Pa|]. split; [eapply nth_lt; exact Pb|].
    split; [apply (tu_a _ _ _ _ _ _ _ T)|]. split; [apply (tu_b _ _ _ _ _ _ _ T)|]. split; [assumption|].
    split; [reflexivity|]. split; [reflexivity|]. cbn. split; [now apply (merged_between _ _ _ _ _ (Db _ _ Pa) (Db _ _ Pb) M)|]. split; assumption.
Qed.

Lemma solving_well_solved g srt ax ax' : solving g srt ax ax' -> all_consistent ax -> on_doubles ax ->
  Forall (well_solved ax) (ax_conflicts ax) -> Forall (well_solved ax') (ax_conflicts ax').
Proof.
  intros H. induction H; intros C Db F; [assumption|]. apply IHsolving.
  - eapply turn_consistent; try eassumption; [apply H0|apply H1].
  - eapply turn_doubles; try eassumption; [apply H0|apply H1].
  - eapply turn_well_solved; try eassumption; [apply H0|apply H1].
Qed.

(** * Up to the lines *)

Lemma half_double x : 2 ^ (-990) <= x -> is_double x -> is_double (x / 2).
Proof.
  intros L (m & e & Hm & He & E). exists m, (e - 1)%Z. split; [assumption|]. split.
  - destruct (Z_lt_le_dec e (-1043)) as [H|H]; [exfalso|lia].
    assert (x < 2 ^ (-990)); [|lra]. rewrite E.
    assert (inject_Z m <= 2 ^ 53) by (change (2 ^ 53) with (inject_Z (2 ^ 53)); rewrite <- Zle_Qle; lia).
    assert (2 ^ 53 * 2 ^ e == 2 ^ (53 + e)) by (now rewrite two_plus).
    assert (2 ^ (53 + e) < 2 ^ (-990)) by (apply two_lt; lia).
    assert (inject_Z m * 2 ^ e <= 2 ^ 53 * 2 ^ e) by (apply Qmult_le_compat_r; [assumption|pose proof (two_pos e); lra]).
    lra.
  - rewrite E. replace e with (e - 1 + 1)%Z at 1 by lia. rewrite two_succ. field.
Qed.

Lemma between_bounds M a b x : - M <= a <= M -> - M <= b <= M -> between a b x -> - M <= x <= M.
Proof. unfold between. intros. lra. Qed.

Lemma turn_crowded M lo D g zs ax a b pa pb ax' : crowded M lo D g zs ax ->
  enabled_at ax a pa -> enabled_at ax b pb -> turn g ax a b pa pb ax' -> crowded M lo D g zs ax'.
Proof.
  intros C Ea Eb T. destruct (cr_dmax _ _ _ _ _ _ C) as [Dd [Dl Dh]]. destruct (cr_limit _ _ _ _ _ _ C) as [Li Lm]. split; try apply C; try (now split).
  - intros i p E. destruct (turn_enabled _ _ _ _ _ _ _ _ _ T E) as [(_ & _ & E0)|(pol & nrm & co & Me & I & -> & ->)].
    + exact (cr_policies _ _ _ _ _ _ C _ _ E0).
    + destruct (cr_policies _ _ _ _ _ _ C _ _ Ea) as (Da & Ba & _). destruct (cr_policies _ _ _ _ _ _ C _ _ Eb) as (Db & Bb & _).
      cbn [p_coord p_d r_new_policy]. pose proof (cr_low _ _ _ _ _ _ C).
      assert (H2 : is_double (g_dmax g / 2)) by (apply half_double; [pose proof (two_pos (-990)); lra|assumption]).
      split; [exact (merged_double _ _ _ _ _ Da Db Me)|].
      split; [exact (between_bounds _ _ _ _ Ba Bb (merged_between _ _ _ _ _ Da Db Me))|].
      split; [apply double_is_double|]. split; [rewrite (double_fixed _ H2); apply Qle_shift_div_l; lra|].
      apply consistent_dec. exact I.
  - eapply turn_settled; [apply C|exact Ea|exact Eb|exact T].
Qed.

Lemma solving_crowded M lo D g zs srt ax ax' : solving g srt ax ax' -> crowded M lo D g zs ax -> crowded M lo D g zs ax'.
Proof. intros H. induction H; intros C; [assumption|]. apply IHsolving. eapply turn_crowded; [exact C|exact H0|exact H1|exact H3]. Qed.

Lemma crowded_tame M lo D g zs srt ax ax' : sorts srt -> solving g srt ax ax' -> crowded M lo D g zs ax -> tame M lo D g zs ax'.
Proof.
  intros S H C. pose proof (solving_crowded _ _ _ _ _ _ _ _ H C) as C'.
  destruct (cr_limit _ _ _ _ _ _ C') as [Li Lo]. destruct (cr_dmax _ _ _ _ _ _ C') as [Dd [Dl Dh]].
  pose proof (cr_low _ _ _ _ _ _ C') as Low. pose proof (two_pos (-990)).
  split; try apply C'.
  - split; [assumption|]. split; [lra|assumption].
  - intros i j p q N Ei Ej. pose proof (solving_apart g srt ax ax' S H i j p q N Ei Ej Li). unfold gap in *. lra.
Qed.

(** * What looks close is *)

Lemma double_above L x : 0 <= x -> double x <= L -> x <= L + 2 * rounding L.
Proof.
  intros P H. pose proof (double_bounds x P) as [B _]. unfold unit_roundoff, smallest, rounding in *.
  assert (Hs : 0 < 2 ^ (-1075)) by apply two_pos. set (s := 2 ^ (-1075)) in *. lra.
Qed.

Lemma close_really L a b : r_distance double a b <= L -> Qabs (a - b) <= L + 2 * rounding L.
Proof.
  intros H. apply double_above; [apply Qabs_nonneg|]. unfold r_distance in H.
  destruct (Qlt_le_dec (a - b) 0) as [N|N].
  - rewrite Qabs_neg in * by (try apply double_le; try apply is_double_0; lra). rewrite double_opp. assumption.
  - rewrite (Qabs_pos (a - b)) by assumption. rewrite Qabs_pos in H by (now apply double_nonneg). assumption.
Qed.

Lemma between_near a b x : between a b x -> Qabs (a - x) <= Qabs (a - b) /\ Qabs (b - x) <= Qabs (a - b).
Proof.
  intros [[H1 H2]|[H1 H2]].
  - rewrite !(Qabs_neg (a - _)) by lra. rewrite Qabs_pos by lra. lra.
  - rewrite !(Qabs_pos (a - _)) by lra. rewrite Qabs_neg by lra. lra.
Qed.

(** * Where the solution is *)

Lemma mid_near a b : Qabs (r_mid double a b - (a + b) / 2) <= 2 * rounding (Qabs (a + b)).
Proof.
  unfold r_mid. pose proof (double_error (a + b)) as E1. pose proof (double_error (double (a + b) / 2)) as E2.
  set (y := double (a + b)) in *. set (z := double (y / 2)) in *. set (x := a + b) in *. clearbody x y z.
  unfold unit_roundoff, smallest, rounding in *.
  assert (Hs : 0 < 2 ^ (-1075)) by apply two_pos. set (s := 2 ^ (-1075)) in *. clearbody s.
  assert (H2 : Qabs (y / 2) == Qabs y / 2) by (unfold Qdiv; rewrite Qabs_Qmult; reflexivity).
  rewrite H2 in E2.
  assert (T : Qabs y <= Qabs (y - x) + Qabs x).
  { assert (K : y == (y - x) + x) by ring. rewrite K at 1. apply Qabs_triangle. }
  assert (T2 : Qabs (z - x / 2) <= Qabs (z - y / 2) + Qabs (y - x) / 2).
  { assert (K : z - x / 2 == (z - y / 2) + (y - x) / 2) by field. rewrite K. eapply Qle_trans; [apply Qabs_triangle|].
    assert (H3 : Qabs ((y - x) / 2) == Qabs (y - x) / 2) by (unfold Qdiv; rewrite Qabs_Qmult; reflexivity). rewrite H3. lra. }
  pose proof (Qabs_nonneg x). unfold Qdiv in *. change (/ 2) with (1 # 2) in *. lra.
Qed.

Lemma merged_placed a b policy normal coord : r_merged double a b = Some (policy, normal, coord) ->
  (p_policy a = ONELINE -> p_policy b <> ONELINE -> coord = p_coord a) /\
  (p_policy b = ONELINE -> p_policy a <> ONELINE -> coord = p_coord b) /\
  ((p_policy a = ONELINE <-> p_policy b = ONELINE) ->
    Qabs (coord - (p_coord a + p_coord b) / 2) <= 2 * rounding (Qabs (p_coord a + p_coord b))).
Proof.
  intros E. pose proof (mid_near (p_coord a) (p_coord b)) as M. unfold r_merged in E.
  destruct (p_policy a), (p_policy b); try destruct (p_normal a), (p_normal b); inversion E; subst; clear E;
    (split; [intros; congruence|]); (split; [intros; congruence|]); intros H; try exact M; exfalso;
    destruct H as [H1 H2]; (discriminate (H1 eq_refl) || discriminate (H2 eq_refl)).
Qed.

Lemma solving_placed g srt ax ax' : solving g srt ax ax' -> all_consistent ax ->
  exists new, ax_conflicts ax' = ax_conflicts ax ++ new /\ Forall (well_placed (double (g_dmax g / 2)) ax') new.
Proof.
  intros H. induction H as [ax E|ax a b pa pb ax1 ax' E Ea Eb N T H IH]; intros C.
  - exists []. split; [now rewrite app_nil_r|constructor].
  - destruct (IH (turn_consistent _ _ _ _ _ _ _ T (proj1 Ea) (proj1 Eb) C)) as (new & Cn & F).
    destruct Ea as [Pa _], Eb as [Pb _]. rewrite all_consistent_at in C.
    destruct (merged_consistent pa pb (C _ _ Pa) (C _ _ Pb)) as (pol & nrm & co & M & I).
    pose proof (tu_new _ _ _ _ _ _ _ T) as New. rewrite M, I in New. destruct New as (_ & Pn & Cs).
    exists (mk_tc a b (Some (length (ax_policies ax))) :: new). split; [rewrite Cn, Cs, <- app_assoc; reflexivity|].
    constructor; [|assumption].
    assert (K : forall i p, policy_at ax1 i p -> exists p', policy_at ax' i p' /\ p_coord p' = p_coord p /\ p_policy p' = p_policy p /\ p_d p' = p_d p).
    { intros i p P. destruct (solving_frame _ _ _ _ H i p P) as [X|X]; eexists; (split; [exact X|repeat split]). }
    destruct (K _ _ (tu_a _ _ _ _ _ _ _ T)) as (pa' & Xa & Ca & Ka & _).
    destruct (K _ _ (tu_b _ _ _ _ _ _ _ T)) as (pb' & Xb & Cb & Kb & _).
    destruct (K _ _ Pn) as (pk & Xk & Ck & _ & Dk).
    exists (length (ax_policies ax)), pa', pb', pk. cbn [tc_a tc_b tc_solution].
    split; [reflexivity|]. split; [assumption|]. split; [assumption|]. split; [assumption|].
    rewrite Ca, Cb, Ck, Ka, Kb, Dk. cbn [p_coord p_d p_policy disable r_new_policy]. split; [reflexivity|]. exact (merged_placed _ _ _ _ _ M).
Qed.

(** * How far the replacement is *)

Definition fac (b : bool) : Q := if b then 2 else 1.

Lemma away_mid_near dl s t co x : 0 <= dl -> Qabs (s - t) <= Qabs (x - s) + dl -> Qabs (s - t) <= Qabs (x - t) + dl ->
  Qabs (co - (s + t) / 2) <= dl -> (3 # 2) * Qabs (s - t) <= Qabs (co - x) + 3 * dl.
Proof. intros D A B C. rewrite half_mid in C. qabs; lra. Qed.

Lemma mid_half dl s t co : Qabs (co - (s + t) / 2) <= dl -> Qabs (s - co) <= (1 # 2) * Qabs (s - t) + dl.
Proof. intros C. rewrite half_mid in C. qabs; lra. Qed.

(** What replaces [s], merged with [t], still stands for [c]. *)
Lemma stands L E dl c s t co os ot : 0 <= L -> 0 <= dl -> Qabs (s - t) <= L + dl ->
  Qabs (c - s) <= (5 # 2) * L + E -> Qabs (c - s) <= fac os * Qabs (s - t) + E ->
  (os = true -> ot = false -> co = s) -> (os = false -> ot = true -> co = t) -> (os = ot -> Qabs (co - (s + t) / 2) <= dl) ->
  Qabs (c - co) <= (5 # 2) * L + (E + 7 * dl) /\
  forall x, Qabs (s - t) <= Qabs (x - s) + dl -> Qabs (s - t) <= Qabs (x - t) + dl -> Qabs (c - s) <= fac os * Qabs (s - x) + E ->
    Qabs (c - co) <= fac (os || ot) * Qabs (co - x) + (E + 7 * dl).
Proof.
  intros L0 D0 G B1 B2 H1 H2 H3. pose proof (Qabs_nonneg (s - t)) as G0.
  assert (Tri : Qabs (c - co) <= Qabs (c - s) + Qabs (s - co)).
  { setoid_replace (c - co) with ((c - s) + (s - co)) by ring. apply Qabs_triangle. }
  destruct os, ot; cbn [fac orb] in *.
  - specialize (H3 eq_refl). pose proof (mid_half _ _ _ _ H3) as Hm. split; [lra|].
    intros x X1 X2 X3. pose proof (away_mid_near _ _ _ _ _ D0 X1 X2 H3). lra.
  - rewrite (H1 eq_refl eq_refl) in *. split; [lra|]. intros x X1 X2 X3. lra.
  - rewrite (H2 eq_refl eq_refl) in *. split; [lra|]. intros x X1 X2 X3. rewrite (Qabs_Qminus t x). lra.
  - specialize (H3 eq_refl). pose proof (mid_half _ _ _ _ H3) as Hm. split; [lra|].
    intros x X1 X2 X3. pose proof (away_mid_near _ _ _ _ _ D0 X1 X2 H3). lra.
Qed.

(** A policy away from the merged pair sees the new one no closer than the nearest of
    the two, up to rounding. *)
Lemma away_near dl s t co x : 0 <= dl -> Qabs (s - t) <= Qabs (x - s) + dl -> Qabs (s - t) <= Qabs (x - t) + dl ->
  co = s \/ co = t \/ Qabs (co - (s + t) / 2) <= dl ->
  Qabs (x - s) <= Qabs (x - co) + 2 * dl \/ Qabs (x - t) <= Qabs (x - co) + 2 * dl.
Proof.
  intros D A B [->|[->|C]]; [left; lra|right; lra|]. rewrite half_mid in C.
  destruct (Qlt_le_dec (Qabs (x - co) + 2 * dl) (Qabs (x - s))) as [H|H]; [right|left; exact H].
  qabs; lra.
Qed.

Definition near_by (L E c : Q) (ax : axis) (j : nat) (q : mlp) : Prop :=
  Qabs (c - p_coord q) <= (5 # 2) * L + E /\
  forall k r, k <> j -> enabled_at ax k r -> Qabs (c - p_coord q) <= fac (is_oneline (p_policy q)) * Qabs (p_coord q - p_coord r) + E.

Definition bounded (M : Q) (ax : axis) : Prop := forall i p, enabled_at ax i p -> - M <= p_coord p <= M.

Lemma rounding_mono x y : x <= y -> rounding x <= rounding y.
Proof. unfold rounding. intros H. lra. Qed.
Lemma rounding_pos x : 0 <= x -> 0 <= rounding x.
Proof. intros H. unfold rounding. pose proof (two_pos (-1075)). lra. Qed.

Lemma distance_error M x y : - M <= x <= M -> - M <= y <= M ->
  Qabs (x - y) <= r_distance double x y + rounding (2 * M) /\ r_distance double x y <= Qabs (x - y) + rounding (2 * M).
Proof.
  intros X Y. unfold r_distance. pose proof (double_error (x - y)) as E.
  assert (K : Qabs (x - y) <= 2 * M) by (apply Qabs_Qle_condition; lra).
  assert (R : Qabs (double (x - y) - (x - y)) <= rounding (2 * M)).
  { eapply Qle_trans; [exact E|]. unfold rounding, unit_roundoff, smallest. lra. }
  clear E K. set (d := double (x - y)) in *. set (u := x - y) in *. set (rr := rounding (2 * M)) in *. clearbody d u rr. qabs; lra.
Qed.

Lemma turn_bounded M g ax a b pa pb ax' : turn g ax a b pa pb ax' -> enabled_at ax a pa -> enabled_at ax b pb ->
  on_doubles ax -> bounded M ax -> bounded M ax'.
Proof.
  intros T Ea Eb Db B i p E. destruct (turn_enabled _ _ _ _ _ _ _ _ _ T E) as [(_ & _ & E0)|(pol & nrm & co & Me & I & -> & ->)]; [exact (B _ _ E0)|].
  exact (between_bounds _ _ _ _ (B _ _ Ea) (B _ _ Eb) (merged_between _ _ _ _ _ (Db _ _ (proj1 Ea)) (Db _ _ (proj1 Eb)) Me)).
Qed.

Lemma oneline_dec p : is_oneline p = true <-> p = ONELINE.
Proof. destruct p; cbn; split; congruence. Qed.

Lemma turn_near_by M g srt ax a b pa pb ax' c i E : sorts srt -> 0 <= g_proximity_limit g -> 0 <= M ->
  r_detect_closest double srt ax (g_proximity_limit g) = Some (a, b) ->
  enabled_at ax a pa -> enabled_at ax b pb -> a <> b -> turn g ax a b pa pb ax' -> all_consistent ax -> bounded M ax ->
  (exists j q, enabled_at ax j q /\ replaced_by ax i j /\ near_by (g_proximity_limit g) E c ax j q) ->
  exists j q, enabled_at ax' j q /\ replaced_by ax' i j /\ near_by (g_proximity_limit g) (E + 14 * rounding (2 * M)) c ax' j q.
Proof.
  intros So L0 M0 D Ea Eb N T C Bd (j & q & Ej & R & Nl & Ng).
  destruct (detect_closest_some _ _ _ _ _ So D) as (pa' & pb' & Ea' & Eb' & _ & _ & Gl & Gm).
  assert (pa' = pa) by (destruct Ea', Ea; unfold policy_at in *; congruence).
  assert (pb' = pb) by (destruct Eb', Eb; unfold policy_at in *; congruence). subst pa' pb'.
  rewrite all_consistent_at in C.
  destruct (merged_consistent pa pb (C _ _ (proj1 Ea)) (C _ _ (proj1 Eb))) as (pol & nrm & co & Me & I).
  pose proof (tu_new _ _ _ _ _ _ _ T) as New. rewrite Me, I in New. destruct New as (Len & Pn & Cs).
  set (n := length (ax_policies ax)) in *. set (m := r_new_policy double g pol nrm co true) in *.
  assert (En : enabled_at ax' n m) by (split; [assumption|reflexivity]).
  assert (R' : replaced_by ax' i j) by (eapply replaced_mono; eassumption).
  pose proof (rounding_pos (2 * M) ltac:(lra)) as R0.
  pose proof (Bd _ _ Ea) as Ba. pose proof (Bd _ _ Eb) as Bb.
  destruct (distance_error M _ _ Ba Bb) as [De1 _].
  destruct (merged_placed _ _ _ _ _ Me) as (Mp1 & Mp2 & Mp3).
  destruct (merged_kind _ _ _ _ _ (C _ _ (proj1 Ea)) (C _ _ (proj1 Eb)) Me) as [Mk _].
  assert (Om : is_oneline (p_policy m) = (is_oneline (p_policy pa) || is_oneline (p_policy pb))%bool).
  { apply eq_true_iff_eq. rewrite orb_true_iff, !oneline_dec. exact Mk. }
  assert (Mid : (p_policy pa = ONELINE <-> p_policy pb = ONELINE) -> Qabs (co - (p_coord pa + p_coord pb) / 2) <= 2 * rounding (2 * M)).
  { intros H. eapply Qle_trans; [apply Mp3, H|]. assert (rounding (Qabs (p_coord pa + p_coord pb)) <= rounding (2 * M)); [|lra].
    apply rounding_mono. apply Qabs_Qle_condition. lra. }
  assert (Far : forall k r, k <> a -> k <> b -> enabled_at ax k r ->
     Qabs (p_coord pa - p_coord pb) <= Qabs (p_coord r - p_coord pa) + 2 * rounding (2 * M) /\
     Qabs (p_coord pa - p_coord pb) <= Qabs (p_coord r - p_coord pb) + 2 * rounding (2 * M)).
  { intros k r Na Nb Ek. pose proof (Bd _ _ Ek) as Bk. pose proof (Gm k a r pa Na Ek Ea). pose proof (Gm k b r pb Nb Ek Eb).
    destruct (distance_error M _ _ Bk Ba) as [_ X1]. destruct (distance_error M _ _ Bk Bb) as [_ X2]. split; lra. }
  assert (Old : forall k r, k <> n -> enabled_at ax' k r -> k <> a /\ k <> b /\ enabled_at ax k r).
  { intros k r Nk Ek. destruct (turn_enabled _ _ _ _ _ _ _ _ _ T Ek) as [H|(? & ? & ? & _ & _ & H & _)]; [assumption|exfalso; exact (Nk H)]. }
  set (dl := 2 * rounding (2 * M)) in *. assert (D0 : 0 <= dl) by (unfold dl; lra).
  assert (Gd : Qabs (p_coord pa - p_coord pb) <= g_proximity_limit g + dl) by (unfold dl; lra).
  assert (H14 : E + 14 * rounding (2 * M) == E + 7 * dl) by (unfold dl; ring). unfold near_by.
  destruct (Nat.eq_dec j a) as [->|Nja]; [|destruct (Nat.eq_dec j b) as [->|Njb]].
  - assert (q = pa) by (destruct Ej, Ea; unfold policy_at in *; congruence). subst q.
    exists n, m. split; [assumption|]. split.
    { eapply replaced_trans; [exact R'|]. eapply replaced_step; [rewrite Cs; apply in_app_iff; right; left; reflexivity|left; reflexivity|reflexivity|constructor]. }
    rewrite Om. change (p_coord m) with co.
    destruct (stands (g_proximity_limit g) E dl c (p_coord pa) (p_coord pb) co (is_oneline (p_policy pa)) (is_oneline (p_policy pb))) as [S1 S2]; try assumption.
    + apply (Ng b); [congruence|assumption].
    + intros H1 H2. apply Mp1; [now apply oneline_dec|]. rewrite <- oneline_dec, H2. discriminate.
    + intros H1 H2. apply Mp2; [now apply oneline_dec|]. rewrite <- oneline_dec, H1. discriminate.
    + intros H. apply Mid. rewrite <- !oneline_dec, H. reflexivity.
    + rewrite H14. split; [exact S1|]. intros k r Nk Ek. destruct (Old k r Nk Ek) as (Na & Nb & Eo). destruct (Far k r Na Nb Eo) as [Fa Fb].
      rewrite H14. apply S2; [exact Fa|exact Fb|]. apply (Ng k); assumption.
  - assert (q = pb) by (destruct Ej, Eb; unfold policy_at in *; congruence). subst q.
    exists n, m. split; [assumption|]. split.
    { eapply replaced_trans; [exact R'|]. eapply replaced_step; [rewrite Cs; apply in_app_iff; right; left; reflexivity|right; reflexivity|reflexivity|constructor]. }
    rewrite Om, orb_comm. change (p_coord m) with co. rewrite (Qabs_Qminus (p_coord pa)) in Gd.
    destruct (stands (g_proximity_limit g) E dl c (p_coord pb) (p_coord pa) co (is_oneline (p_policy pb)) (is_oneline (p_policy pa))) as [S1 S2]; try assumption.
    + apply (Ng a); [congruence|assumption].
    + intros H1 H2. apply Mp2; [now apply oneline_dec|]. rewrite <- oneline_dec, H2. discriminate.
    + intros H1 H2. apply Mp1; [now apply oneline_dec|]. rewrite <- oneline_dec, H1. discriminate.
    + intros H. assert (X : p_coord pb + p_coord pa == p_coord pa + p_coord pb) by ring. rewrite X. apply Mid. rewrite <- !oneline_dec, H. reflexivity.
    + rewrite H14. split; [exact S1|]. intros k r Nk Ek. destruct (Old k r Nk Ek) as (Na & Nb & Eo). destruct (Far k r Na Nb Eo) as [Fa Fb].
      rewrite (Qabs_Qminus (p_coord pa) (p_coord pb)) in Fa, Fb. rewrite H14. apply S2; [exact Fb|exact Fa|]. apply (Ng k); assumption.
  - exists j, q. assert (Ej' : enabled_at ax' j q) by (split; [eapply turn_keeps; try eassumption; apply Ej|apply Ej]).
    split; [assumption|]. split; [assumption|]. split; [lra|].
    intros k r Nk Ek. destruct (turn_enabled _ _ _ _ _ _ _ _ _ T Ek) as [(Na & Nb & Eo)|(pol' & nrm' & co' & M' & _ & -> & ->)].
    + pose proof (Ng k r Nk Eo). lra.
    + rewrite Me in M'. inversion M'; subst pol' nrm' co'.
      destruct (Far j q Nja Njb Ej) as [Fa Fb].
      pose proof (Ng a pa ltac:(congruence) Ea) as Ha. pose proof (Ng b pb ltac:(congruence) Eb) as Hb. cbn [p_coord r_new_policy].
      assert (Wh : co = p_coord pa \/ co = p_coord pb \/ Qabs (co - (p_coord pa + p_coord pb) / 2) <= dl).
      { destruct (is_oneline (p_policy pa)) eqn:O1, (is_oneline (p_policy pb)) eqn:O2.
        - right. right. apply Mid. rewrite <- !oneline_dec, O1, O2. reflexivity.
        - left. apply Mp1; [now apply oneline_dec|]. rewrite <- oneline_dec, O2. discriminate.
        - right. left. apply Mp2; [now apply oneline_dec|]. rewrite <- oneline_dec, O1. discriminate.
        - right. right. apply Mid. rewrite <- !oneline_dec, O1, O2. reflexivity. }
      rewrite H14. destruct (away_near _ _ _ _ _ D0 Fa Fb Wh) as [Aw|Aw]; destruct (is_oneline (p_policy q)); cbn [fac] in *; lra.
Qed.

Lemma solving_near_by M g srt ax ax' : sorts srt -> 0 <= g_proximity_limit g -> 0 <= M -> solving g srt ax ax' ->
  all_consistent ax -> on_doubles ax -> bounded M ax -> forall c i E,
  (exists j q, enabled_at ax j q /\ replaced_by ax i j /\ near_by (g_proximity_limit g) E c ax j q) ->
  exists j q, enabled_at ax' j q /\ replaced_by ax' i j /\
    near_by (g_proximity_limit g) (E + inject_Z (Z.of_nat (length (ax_conflicts ax') - length (ax_conflicts ax))) * (14 * rounding (2 * M))) c ax' j q.
Proof.
  intros So L0 M0 H. induction H as [ax D|ax a b pa pb ax1 ax' D Ea Eb N T H IH]; intros C Db Bd c i E (j & q & Ej & R & Nl & Ng).
  - assert (X : E + inject_Z (Z.of_nat (length (ax_conflicts ax) - length (ax_conflicts ax))) * (14 * rounding (2 * M)) == E).
    { rewrite Nat.sub_diag. change (inject_Z (Z.of_nat 0)) with 0. ring. }
    exists j, q. split; [assumption|]. split; [assumption|]. unfold near_by. split; [rewrite X; assumption|].
    intros k r Nk Ek. rewrite X. now apply (Ng k).
  - pose proof (turn_consistent _ _ _ _ _ _ _ T (proj1 Ea) (proj1 Eb) C) as C1.
    pose proof (turn_doubles _ _ _ _ _ _ _ T (proj1 Ea) (proj1 Eb) Db) as Db1.
    pose proof (turn_bounded M _ _ _ _ _ _ _ T Ea Eb Db Bd) as Bd1.
    destruct (solving_other _ _ _ _ H) as (_ & _ & l & Cs).
    destruct (turn_count_consistent _ _ _ _ _ _ _ T N Ea Eb C) as [_ Ln].
    assert (Len : inject_Z (Z.of_nat (length (ax_conflicts ax') - length (ax_conflicts ax))) ==
                  inject_Z (Z.of_nat (length (ax_conflicts ax') - length (ax_conflicts ax1))) + 1).
    { rewrite Cs, app_length, Ln. replace (S (length (ax_conflicts ax)) + length l - length (ax_conflicts ax))%nat with (S (length l)) by lia.
      replace (S (length (ax_conflicts ax)) + length l - S (length (ax_conflicts ax)))%nat with (length l) by lia.
      rewrite Nat2Z.inj_succ. unfold Z.succ. rewrite inject_Z_plus. reflexivity. }
    pose proof (turn_near_by M g srt ax a b pa pb ax1 c i E So L0 M0 D Ea Eb N T C Bd (ex_intro _ j (ex_intro _ q (conj Ej (conj R (conj Nl Ng)))))) as K.
    destruct (IH C1 Db1 Bd1 c i _ K) as (j' & q' & Ej' & R' & Nl' & Ng').
    assert (X : E + inject_Z (Z.of_nat (length (ax_conflicts ax') - length (ax_conflicts ax))) * (14 * rounding (2 * M)) ==
      E + 14 * rounding (2 * M) + inject_Z (Z.of_nat (length (ax_conflicts ax') - length (ax_conflicts ax1))) * (14 * rounding (2 * M))) by (rewrite Len; ring).
    exists j', q'. split; [assumption|]. split; [assumption|]. split; [rewrite X; assumption|].
    intros k r Nk Ek. rewrite X. now apply (Ng' k).
Qed.

Lemma solving_moved_by M g srt ax ax' i p : sorts srt -> 0 <= g_proximity_limit g -> 0 <= M -> solving g srt ax ax' ->
  all_consistent ax -> on_doubles ax -> bounded M ax -> enabled_at ax i p ->
  exists j q, enabled_at ax' j q /\ replaced_by ax' i j /\
    Qabs (p_coord p - p_coord q) <= (5 # 2) * g_proximity_limit g
      + inject_Z (Z.of_nat (length (ax_conflicts ax') - length (ax_conflicts ax))) * (14 * rounding (2 * M)).
Proof.
  intros So L0 M0 H C Db Bd Ei. destruct (solving_near_by M g srt ax ax' So L0 M0 H C Db Bd (p_coord p) i 0) as (j & q & Ej & R & Nl & _).
  - exists i, p. split; [assumption|]. split; [constructor|].
    assert (X : Qabs (p_coord p - p_coord p) == 0) by (setoid_replace (p_coord p - p_coord p) with 0 by ring; reflexivity).
    split; [rewrite X; lra|]. intros k r _ _. rewrite X. pose proof (Qabs_nonneg (p_coord p - p_coord r)).
    destruct (is_oneline (p_policy p)); cbn [fac]; lra.
  - exists j, q. split; [assumption|]. split; [assumption|]. lra.
Qed.
