(** Lists seen through addresses, the closest pair, the loop on too close policies. *)
From Coq Require Import List Arith Bool Lia QArith Qabs Lqa Sorting.Sorted Sorting.Permutation.
From Verif Require Import IntervalModel IntervalSpec IntervalProofs ManagerModel ManagerSpec.
Import ListNotations.
Open Scope Q_scope.

(** * Reading and writing *)

Lemma read_done {A} (l : list A) i x : read l i = Done x <-> nth_error l i = Some x.
Proof. unfold read. destruct (nth_error l i); split; intros H; inversion H; reflexivity. Qed.

Lemma write_spec {A} (x : A) l : forall i, (i < length l)%nat ->
  exists l', write l i x = Done l' /\ length l' = length l /\ nth_error l' i = Some x /\
    forall j, j <> i -> nth_error l' j = nth_error l j.
Proof.
  induction l as [|y l IH]; intros i L; cbn in L; [lia|].
  destruct i as [|i]; cbn.
  - exists (x :: l). repeat split. intros [|j] N; [lia|reflexivity].
  - destruct (IH i) as (l' & E & Len & Here & There); [lia|]. rewrite E. cbn.
    exists (y :: l'). repeat split; [cbn; lia|assumption|].
    intros [|j] N; [reflexivity|]. cbn. apply There. lia.
Qed.

Lemma write_inv {A} (x : A) l i l' : write l i x = Done l' ->
  (i < length l)%nat /\ length l' = length l /\ nth_error l' i = Some x /\
    forall j, j <> i -> nth_error l' j = nth_error l j.
Proof.
  intros E. destruct (le_lt_dec (length l) i) as [L|L].
  - exfalso. revert i L E. clear. revert l'. induction l as [|y l IH]; intros l' i L E; [destruct i; discriminate|].
    destruct i as [|i]; [cbn in L; lia|]. cbn in E, L.
    destruct (write l i x) eqn:W; try discriminate. eapply IH; [|exact W]. lia.
  - destruct (write_spec x l i L) as (l2 & E2 & R). rewrite E in E2. inversion E2; subst. now split.
Qed.

Lemma write_forall {A} (P : A -> Prop) x l i l' : write l i x = Done l' -> Forall P l -> P x -> Forall P l'.
Proof.
  revert i l'. induction l as [|y l IH]; intros i l' E F X; [destruct i; discriminate|].
  inversion F; subst. destruct i; cbn in E; [inversion E; now constructor|].
  destruct (write l i x) eqn:W; try discriminate. inversion E; subst. constructor; [assumption|]. eapply IH; eassumption.
Qed.

Lemma nth_lt {A} (l : list A) i x : nth_error l i = Some x -> (i < length l)%nat.
Proof. intros E. apply nth_error_Some. congruence. Qed.

Lemma view_from {A} (l : list A) : forall k i x,
  In (i, x) (combine (seq k (length l)) l) <-> (k <= i)%nat /\ nth_error l (i - k) = Some x.
Proof.
  induction l as [|y l IH]; intros k i x; cbn.
  - split; [tauto|]. intros [_ H]. destruct (i - k)%nat; discriminate.
  - rewrite IH. split.
    + intros [E|[L E]].
      * inversion E; subst. rewrite Nat.sub_diag. now split.
      * split; [lia|]. replace (i - k)%nat with (S (i - S k)) by lia. assumption.
    + intros [L E]. destruct (Nat.eq_dec i k) as [->|N].
      * rewrite Nat.sub_diag in E. inversion E; subst. now left.
      * right. split; [lia|]. replace (i - k)%nat with (S (i - S k)) in E by lia. assumption.
Qed.

Lemma view_in {A} (l : list A) i x : In (i, x) (view l) <-> nth_error l i = Some x.
Proof. unfold view. rewrite view_from, Nat.sub_0_r. split; [tauto|]. intros H. split; [lia|assumption]. Qed.

Lemma view_fst {A} (l : list A) : map fst (view l) = seq 0 (length l).
Proof.
  unfold view. generalize 0%nat. induction l as [|y l IH]; intros k; cbn; [reflexivity|]. now rewrite IH.
Qed.

Lemma view_snd {A} (l : list A) : map snd (view l) = l.
Proof.
  unfold view. generalize 0%nat. induction l as [|y l IH]; intros k; cbn; [reflexivity|]. now rewrite IH.
Qed.

Lemma nodup_filter_fst {A} (f : nat * A -> bool) l : NoDup (map fst l) -> NoDup (map fst (filter f l)).
Proof.
  induction l as [|x l IH]; cbn; intros N; [constructor|]. inversion N; subst.
  destruct (f x); cbn; [|auto]. constructor; [|auto].
  intros H. apply H1. apply in_map_iff in H. destruct H as (y & E & I). apply filter_In in I.
  apply in_map_iff. exists y. tauto.
Qed.

(** * The enabled policies in order *)

Lemma dimension_in srt ax i p : sorts srt -> In (i, p) (dimension srt ax) <-> enabled_at ax i p.
Proof.
  intros S. unfold dimension. destruct (S _ (fun x => p_coord (snd x)) (filter (fun x => p_enabled (snd x)) (view (ax_policies ax)))) as [P _].
  rewrite <- (fun a => Permutation_in' (eq_refl a) P). rewrite filter_In, view_in. reflexivity.
Qed.

Lemma dimension_nodup srt ax : sorts srt -> NoDup (map fst (dimension srt ax)).
Proof.
  intros S. unfold dimension. destruct (S _ (fun x => p_coord (snd x)) (filter (fun x => p_enabled (snd x)) (view (ax_policies ax)))) as [P _].
  eapply Permutation_NoDup; [apply Permutation_map; exact P|].
  apply nodup_filter_fst. rewrite view_fst. apply seq_NoDup.
Qed.

Lemma dimension_sorted srt ax : sorts srt ->
  StronglySorted (fun x y => p_coord (snd x) <= p_coord (snd y)) (dimension srt ax).
Proof. intros S. apply S. Qed.

Lemma filter_view_length (l : list mlp) : forall k,
  length (filter (fun x => p_enabled (snd x)) (combine (seq k (length l)) l)) = length (filter p_enabled l).
Proof.
  induction l as [|y l IH]; intros k; cbn; [reflexivity|].
  destruct (p_enabled y); cbn; now rewrite IH.
Qed.

Lemma dimension_length srt ax : sorts srt -> length (dimension srt ax) = enabled_count ax.
Proof.
  intros S. unfold dimension, enabled_count.
  destruct (S _ (fun x => p_coord (snd x)) (filter (fun x => p_enabled (snd x)) (view (ax_policies ax)))) as [P _].
  rewrite <- (Permutation_length P). apply filter_view_length.
Qed.

(** * The closest pair *)

Notation dist x y := (coord_distance (p_coord (snd x)) (p_coord (snd y))).

Lemma closest_loop_cons x y l o : closest_loop (x :: y :: l) o =
  closest_loop (y :: l) match o with
                        | Some (s, _) => if Qltb (dist x y) s then Some (dist x y, (fst x, fst y)) else o
                        | None => Some (dist x y, (fst x, fst y))
                        end.
Proof. reflexivity. Qed.

Lemma closest_loop_keeps l : forall s q, exists s' q', closest_loop l (Some (s, q)) = Some (s', q') /\ s' <= s.
Proof.
  induction l as [|x [|y l] IH]; intros s q; [now exists s, q; split; [|lra]..|].
  rewrite closest_loop_cons. destruct (Qltb (dist x y) s) eqn:E.
  - destruct (IH (dist x y) (fst x, fst y)) as (s' & q' & E' & L). exists s', q'. split; [exact E'|].
    apply Qltb_lt in E. lra.
  - apply IH.
Qed.

(** Every adjacent pair is at least as far apart as what is found. *)
Inductive adjacent {A} (x y : A) : list A -> Prop :=
| adj_here l : adjacent x y (x :: y :: l)
| adj_later z l : adjacent x y l -> adjacent x y (z :: l).

Lemma closest_loop_min l : forall o s q, closest_loop l o = Some (s, q) ->
  forall x y, adjacent x y l -> s <= dist x y.
Proof.
  induction l as [|x [|y l] IH]; intros o s q E u v A; [inversion A|inversion A; subst; match goal with H : adjacent _ _ [] |- _ => inversion H end|].
  rewrite closest_loop_cons in E. inversion A; subst.
  - destruct o as [[s0 q0]|].
    + destruct (Qltb (dist x y) s0) eqn:C.
      * destruct (closest_loop_keeps (y :: l) (dist x y) (fst x, fst y)) as (s' & q' & E' & L).
        rewrite E' in E. inversion E; subst. assumption.
      * destruct (closest_loop_keeps (y :: l) s0 q0) as (s' & q' & E' & L).
        rewrite E' in E. inversion E; subst. apply Qltb_ge in C. lra.
    + destruct (closest_loop_keeps (y :: l) (dist x y) (fst x, fst y)) as (s' & q' & E' & L).
      rewrite E' in E. inversion E; subst. assumption.
  - eapply IH; eassumption.
Qed.

Lemma closest_loop_from l : forall o s q, closest_loop l o = Some (s, q) ->
  o = Some (s, q) \/ exists x y, adjacent x y l /\ s = dist x y /\ q = (fst x, fst y).
Proof.
  induction l as [|x [|y l] IH]; intros o s q E; [now left|now left|].
  rewrite closest_loop_cons in E. apply IH in E. destruct E as [E|(u & v & A & R)].
  - assert (C : o = Some (s, q) \/ Some (dist x y, (fst x, fst y)) = Some (s, q)).
    { destruct o as [[s0 q0]|]; [destruct (Qltb (dist x y) s0)|]; tauto. }
    destruct C as [C|C]; [now left|]. inversion C. right. exists x, y. split; [constructor|now split].
  - right. exists u, v. split; [now constructor|assumption].
Qed.

Lemma closest_loop_none l : closest_loop l None = None -> (length l <= 1)%nat.
Proof.
  destruct l as [|x [|y l]]; [cbn; lia..|]. rewrite closest_loop_cons.
  intros E. destruct (closest_loop_keeps (y :: l) (dist x y) (fst x, fst y)) as (s' & q' & E' & _).
  congruence.
Qed.

Lemma adjacent_in {A} (x y : A) l : adjacent x y l -> In x l /\ In y l.
Proof. induction 1; cbn; tauto. Qed.

Lemma adjacent_sorted {A} (R : A -> A -> Prop) x y l : adjacent x y l -> StronglySorted R l -> R x y.
Proof.
  induction 1; intros S; apply StronglySorted_inv in S; destruct S as [S F]; [|auto].
  inversion F; assumption.
Qed.

Lemma adjacent_nodup {A} (x y : A) l : adjacent x y l -> NoDup l -> x <> y.
Proof.
  induction 1; intros N; inversion N; subst; [|auto]. intros ->. apply H1. now left.
Qed.

(** In a sorted list, any two elements are at least as far as some adjacent pair. *)
Lemma sorted_pair l : StronglySorted (fun x y : nat * mlp => p_coord (snd x) <= p_coord (snd y)) l ->
  forall x y, In x l -> In y l -> x <> y -> exists u v, adjacent u v l /\ dist u v <= dist x y.
Proof.
  intros S. induction S as [|z l S IH F]; intros x y X Y N; [destruct X|].
  rewrite Forall_forall in F.
  assert (K : forall w, In w l -> exists u v, adjacent u v (z :: l) /\ dist u v <= Qabs (p_coord (snd z) - p_coord (snd w))).
  { intros w W. destruct l as [|v l]; [destruct W|].
    exists z, v. split; [constructor|]. apply StronglySorted_inv in S. destruct S as [_ G].
    rewrite Forall_forall in G. pose proof (F v (or_introl eq_refl)). pose proof (F w W).
    unfold coord_distance. destruct W as [->|W]; [apply Qle_refl|]. specialize (G w W).
    rewrite !Qabs_neg by lra. lra. }
  destruct X as [->|X], Y as [->|Y].
  - congruence.
  - apply K. assumption.
  - destruct (K x X) as (u & v & A & L). exists u, v. split; [assumption|]. unfold coord_distance at 2.
    rewrite Qabs_Qminus. assumption.
  - destruct (IH x y X Y N) as (u & v & A & L). exists u, v. split; [now constructor|assumption].
Qed.

Lemma nodup_fst {A} (l : list (nat * A)) : NoDup (map fst l) -> NoDup l.
Proof. apply NoDup_map_inv. Qed.

Lemma adjacent_map {A B} (f : A -> B) x y l : adjacent x y l -> adjacent (f x) (f y) (map f l).
Proof. induction 1; cbn; now constructor. Qed.

Lemma detect_closest_some srt ax limit a b : sorts srt -> detect_closest srt ax limit = Some (a, b) ->
  exists pa pb, enabled_at ax a pa /\ enabled_at ax b pb /\ a <> b /\ p_coord pa <= p_coord pb /\
    gap pa pb <= limit /\
    forall i j p q, i <> j -> enabled_at ax i p -> enabled_at ax j q -> gap pa pb <= gap p q.
Proof.
  intros S E. unfold detect_closest in E.
  destruct (closest_loop (dimension srt ax) None) as [[s q]|] eqn:L; [|discriminate].
  destruct (Qle_bool s limit) eqn:M; [|discriminate]. inversion E; subst q. apply Qle_bool_iff in M.
  pose proof (dimension_sorted srt ax S) as So. pose proof (dimension_nodup srt ax S) as Nd.
  destruct (closest_loop_from _ _ _ _ L) as [H|(x & y & A & Es & Eq)]; [discriminate|].
  destruct x as [i pi], y as [j pj]. cbn in Eq. inversion Eq; subst i j.
  destruct (adjacent_in _ _ _ A) as [Ia Ib].
  exists pi, pj. apply (dimension_in _ _ _ _ S) in Ia. apply (dimension_in _ _ _ _ S) in Ib. split; [assumption|]. split; [assumption|].
  split; [|split; [|split]].
  - apply (adjacent_map fst) in A. cbn in A. eapply adjacent_nodup; eassumption.
  - exact (adjacent_sorted _ _ _ _ A So).
  - subst s. assumption.
  - intros i j p q N Ei Ej. apply (dimension_in srt _ _ _ S) in Ei. apply (dimension_in srt _ _ _ S) in Ej.
    destruct (sorted_pair _ So (i, p) (j, q) Ei Ej) as (u & v & A' & D); [congruence|].
    pose proof (closest_loop_min _ _ _ _ L _ _ A'). subst s. unfold gap, coord_distance in *. cbn in *. lra.
Qed.

Lemma detect_closest_none srt ax limit : sorts srt -> detect_closest srt ax limit = None ->
  forall i j p q, i <> j -> enabled_at ax i p -> enabled_at ax j q -> limit < gap p q.
Proof.
  intros S E i j p q N Ei Ej. unfold detect_closest in E.
  apply (dimension_in srt _ _ _ S) in Ei. apply (dimension_in srt _ _ _ S) in Ej.
  destruct (closest_loop (dimension srt ax) None) as [[s q0]|] eqn:L.
  - destruct (Qle_bool s limit) eqn:M; [discriminate|].
    pose proof (dimension_sorted srt ax S) as So.
    destruct (sorted_pair _ So (i, p) (j, q) Ei Ej) as (u & v & A' & D); [congruence|].
    pose proof (closest_loop_min _ _ _ _ L _ _ A').
    assert (limit < s). { apply Qnot_le_lt. intros H'. apply Qle_bool_iff in H'. congruence. }
    unfold gap, coord_distance in *. cbn in *. lra.
  - apply closest_loop_none in L. destruct (dimension srt ax) as [|x [|y l]]; cbn in *; [tauto| |lia].
    destruct Ei as [->|[]], Ej as [Ej|[]]. congruence.
Qed.

(** * One turn of the loop on too close policies *)

Lemma in_conflict_spec ax i : in_conflict ax i = true <-> conflicting ax i.
Proof.
  unfold in_conflict, conflicting. rewrite existsb_exists.
  split; intros (c & I & H); exists c; (split; [assumption|]).
  - apply orb_true_iff in H. destruct H as [H|H]; apply Nat.eqb_eq in H; tauto.
  - apply orb_true_iff. destruct H as [H|H]; apply Nat.eqb_eq in H; tauto.
Qed.

Lemma in_conflict_false ax i : in_conflict ax i = false <-> ~ conflicting ax i.
Proof. rewrite <- in_conflict_spec. destruct (in_conflict ax i); split; intros H; congruence || (exfalso; apply H; reflexivity). Qed.

(** The axis after one conflict is added and solved. *)
Record turn (g : params) (ax : axis) (a b : nat) (pa pb : mlp) (ax' : axis) : Prop :=
  { tu_a : policy_at ax' a (disable pa);
    tu_b : policy_at ax' b (disable pb);
    tu_other : forall i, i <> a -> i <> b -> (i < length (ax_policies ax))%nat ->
      nth_error (ax_policies ax') i = nth_error (ax_policies ax) i;
    tu_new : match merged pa pb with
             | Some (policy, normal, coord) =>
                 if inconsistent policy normal
                 then length (ax_policies ax') = length (ax_policies ax) /\
                      ax_conflicts ax' = ax_conflicts ax ++ [mk_tc a b None]
                 else length (ax_policies ax') = S (length (ax_policies ax)) /\
                      policy_at ax' (length (ax_policies ax)) (new_policy g policy normal coord true) /\
                      ax_conflicts ax' = ax_conflicts ax ++ [mk_tc a b (Some (length (ax_policies ax)))]
             | None => length (ax_policies ax') = length (ax_policies ax) /\
                       ax_conflicts ax' = ax_conflicts ax ++ [mk_tc a b None]
             end;
    tu_segments : ax_segments ax' = ax_segments ax;
    tu_lines : ax_lines ax' = ax_lines ax }.

Lemma merged_disable a b : merged (disable a) (disable b) = merged a b.
Proof. reflexivity. Qed.

Lemma write_last {A} (l : list A) x y : write (l ++ [x]) (length l) y = Done (l ++ [y]).
Proof. induction l as [|z l IH]; cbn; [reflexivity|]. now rewrite IH. Qed.

Lemma turn_ok g ax a b pa pb : policy_at ax a pa -> policy_at ax b pb -> a <> b ->
  ~ conflicting ax a -> ~ conflicting ax b ->
  exists ax1 ax', add_too_close ax a b = Done (Some (ax1, length (ax_conflicts ax))) /\
    solve_too_close g ax1 (length (ax_conflicts ax)) = Done ax' /\ turn g ax a b pa pb ax'.
Proof.
  intros Pa Pb N Ca Cb. unfold policy_at in *.
  apply in_conflict_false in Ca. apply in_conflict_false in Cb.
  unfold add_too_close. rewrite Ca, Cb. cbn [orb].
  unfold read. rewrite Pa, Pb. cbn [bind].
  destruct (write_spec (disable pa) (ax_policies ax) a (nth_lt _ _ _ Pa)) as (l1 & W1 & Len1 & H1 & O1).
  rewrite W1. cbn [bind].
  destruct (write_spec (disable pb) l1 b) as (l2 & W2 & Len2 & H2 & O2).
  { rewrite Len1. eapply nth_lt; eassumption. }
  rewrite W2. cbn [bind].
  assert (A2 : nth_error l2 a = Some (disable pa)) by (rewrite O2; auto).
  exists (set_conflicts (set_policies ax l2) (ax_conflicts ax ++ [mk_tc a b None])).
  unfold solve_too_close, read. cbn [set_policies set_conflicts ax_conflicts ax_policies].
  rewrite nth_error_app2, Nat.sub_diag by lia. cbn [nth_error bind tc_a tc_b].
  rewrite A2, H2. cbn [bind]. rewrite merged_disable.
  destruct (merged pa pb) as [[[pol nrm] co]|] eqn:M.
  - unfold add_meshline_policy. cbn [ax_policies set_conflicts set_policies].
    destruct (inconsistent pol nrm) eqn:I; cbn [ax_conflicts set_policies set_conflicts ax_policies];
      rewrite write_last; cbn [bind]; eexists; (split; [reflexivity|]); (split; [reflexivity|]);
      split; unfold policy_at; cbn [ax_conflicts set_policies set_conflicts ax_policies ax_segments ax_lines];
      rewrite ?M, ?I; try reflexivity; try assumption.
    + intros i Na Nb L. rewrite O2, O1 by assumption. reflexivity.
    + split; [congruence|reflexivity].
    + rewrite nth_error_app1; [assumption|]. eapply nth_lt; eassumption.
    + rewrite nth_error_app1; [assumption|]. eapply nth_lt; eassumption.
    + intros i Na Nb L. rewrite nth_error_app1 by (rewrite Len2, Len1; assumption). rewrite O2, O1 by assumption. reflexivity.
    + rewrite app_length. cbn. rewrite <- Len1, <- Len2. split; [lia|]. split; [|reflexivity].
      rewrite nth_error_app2, Nat.sub_diag by lia. reflexivity.
  - eexists. split; [reflexivity|]. split; [reflexivity|].
    split; unfold policy_at; cbn [ax_conflicts set_policies set_conflicts ax_policies ax_segments ax_lines]; rewrite ?M;
      try reflexivity; try assumption.
    + intros i Na Nb L. rewrite O2, O1 by assumption. reflexivity.
    + split; [congruence|reflexivity].
Qed.

(** The number of enabled policies. *)
Lemma count_write l i x y l' : nth_error l i = Some y -> write l i x = Done l' ->
  (length (filter p_enabled l') + (if p_enabled y then 1 else 0)
   = length (filter p_enabled l) + (if p_enabled x then 1 else 0))%nat.
Proof.
  revert i l'. induction l as [|z l IH]; intros i l' E W; [destruct i; discriminate|].
  destruct i; cbn in E, W.
  - inversion E; inversion W; subst. cbn. destruct (p_enabled y), (p_enabled x); cbn; lia.
  - destruct (write l i x) as [l2| |] eqn:W2; try discriminate. inversion W; subst.
    specialize (IH _ _ E W2). cbn. destruct (p_enabled z); cbn; lia.
Qed.

Lemma nth_ext_eq {A} (l l' : list A) : length l = length l' -> (forall i, (i < length l)%nat -> nth_error l i = nth_error l' i) -> l = l'.
Proof.
  revert l'. induction l as [|x l IH]; intros [|y l'] L H; try discriminate; [reflexivity|].
  pose proof (H 0%nat ltac:(cbn; lia)) as E. cbn in E. inversion E; subst. f_equal. apply IH; [cbn in L; lia|].
  intros i Hi. apply (H (S i)). cbn. lia.
Qed.

Lemma count_turn g ax a b pa pb ax' : turn g ax a b pa pb ax' -> a <> b ->
  enabled_at ax a pa -> enabled_at ax b pb ->
  (enabled_count ax' + 2 = enabled_count ax + (length (ax_policies ax') - length (ax_policies ax)))%nat.
Proof.
  intros T N [Pa Ea] [Pb Eb]. unfold enabled_count, policy_at in *.
  destruct (write_spec (disable pa) (ax_policies ax) a (nth_lt _ _ _ Pa)) as (l1 & W1 & Len1 & H1 & O1).
  destruct (write_spec (disable pb) l1 b) as (l2 & W2 & Len2 & H2 & O2).
  { rewrite Len1. eapply nth_lt; eassumption. }
  pose proof (count_write _ _ _ _ _ Pa W1) as K1.
  assert (Pb1 : nth_error l1 b = Some pb) by (rewrite O1; auto).
  pose proof (count_write _ _ _ _ _ Pb1 W2) as K2. rewrite Ea in K1. rewrite Eb in K2. cbn in K1, K2.
  assert (Pre : forall i, (i < length l2)%nat -> nth_error (ax_policies ax') i = nth_error l2 i).
  { intros i L. destruct (Nat.eq_dec i b) as [->|Nb]; [rewrite H2; apply (tu_b _ _ _ _ _ _ _ T)|].
    rewrite O2 by assumption. destruct (Nat.eq_dec i a) as [->|Na]; [rewrite H1; apply (tu_a _ _ _ _ _ _ _ T)|].
    rewrite O1 by assumption. apply (tu_other _ _ _ _ _ _ _ T); try assumption. lia. }
  assert (L2 : length l2 = length (ax_policies ax)) by congruence.
  pose proof (tu_new _ _ _ _ _ _ _ T) as New.
  assert (Cases : length (ax_policies ax') = length (ax_policies ax) \/
    exists p, p_enabled p = true /\ length (ax_policies ax') = S (length (ax_policies ax)) /\
      nth_error (ax_policies ax') (length (ax_policies ax)) = Some p).
  { destruct (merged pa pb) as [[[pol nrm] co]|]; [|tauto]. destruct (inconsistent pol nrm); [tauto|].
    right. exists (new_policy g pol nrm co true). split; [reflexivity|]. unfold policy_at in New. tauto. }
  destruct Cases as [C|(p & Ep & C & Np)].
  - assert (ax_policies ax' = l2) as -> by (apply nth_ext_eq; [congruence|]; intros i L; apply Pre; congruence). lia.
  - assert (ax_policies ax' = l2 ++ [p]) as ->.
    { apply nth_ext_eq; [rewrite app_length; cbn; lia|]. intros i L.
      destruct (Nat.eq_dec i (length l2)) as [->|Ni].
      - rewrite nth_error_app2, Nat.sub_diag by lia. rewrite L2. assumption.
      - rewrite nth_error_app1 by lia. apply Pre. lia. }
    rewrite filter_app, !app_length. cbn. rewrite Ep. cbn. lia.
Qed.

(** Which policies are enabled afterwards. *)
Lemma turn_enabled g ax a b pa pb ax' i p : turn g ax a b pa pb ax' -> enabled_at ax' i p ->
  (i <> a /\ i <> b /\ enabled_at ax i p) \/
  exists policy normal coord, merged pa pb = Some (policy, normal, coord) /\
    inconsistent policy normal = false /\ i = length (ax_policies ax) /\ p = new_policy g policy normal coord true.
Proof.
  intros T [P E]. unfold policy_at in P.
  destruct (Nat.eq_dec i a) as [->|Na].
  { pose proof (tu_a _ _ _ _ _ _ _ T) as H. unfold policy_at in H. rewrite H in P. inversion P; subst. discriminate. }
  destruct (Nat.eq_dec i b) as [->|Nb].
  { pose proof (tu_b _ _ _ _ _ _ _ T) as H. unfold policy_at in H. rewrite H in P. inversion P; subst. discriminate. }
  destruct (le_lt_dec (length (ax_policies ax)) i) as [L|L].
  - right. pose proof (tu_new _ _ _ _ _ _ _ T) as New. pose proof (nth_lt _ _ _ P) as L'.
    destruct (merged pa pb) as [[[pol nrm] co]|]; [|lia]. destruct (inconsistent pol nrm) eqn:I; [lia|].
    exists pol, nrm, co. destruct New as (Len & Np & _). unfold policy_at in Np.
    assert (i = length (ax_policies ax)) by lia. subst i. rewrite Np in P. inversion P; subst. tauto.
  - left. split; [assumption|]. split; [assumption|]. split; [|assumption]. unfold policy_at.
    rewrite <- (tu_other _ _ _ _ _ _ _ T) by assumption. assumption.
Qed.

Lemma turn_keeps g ax a b pa pb ax' i p : turn g ax a b pa pb ax' -> i <> a -> i <> b -> policy_at ax i p -> policy_at ax' i p.
Proof.
  intros T Na Nb P. unfold policy_at in *. rewrite (tu_other _ _ _ _ _ _ _ T); try assumption. eapply nth_lt; eassumption.
Qed.

Lemma turn_length g ax a b pa pb ax' : turn g ax a b pa pb ax' ->
  (length (ax_policies ax) <= length (ax_policies ax') <= S (length (ax_policies ax)))%nat.
Proof.
  intros T. pose proof (tu_new _ _ _ _ _ _ _ T) as New.
  destruct (merged pa pb) as [[[pol nrm] co]|]; [|lia]. destruct (inconsistent pol nrm); lia.
Qed.

Lemma turn_conflicts g ax a b pa pb ax' : turn g ax a b pa pb ax' ->
  exists o, ax_conflicts ax' = ax_conflicts ax ++ [mk_tc a b o].
Proof.
  intros T. pose proof (tu_new _ _ _ _ _ _ _ T) as New.
  destruct (merged pa pb) as [[[pol nrm] co]|]; [destruct (inconsistent pol nrm)|]; eexists; apply New.
Qed.

Lemma turn_conflicting g ax a b pa pb ax' i : turn g ax a b pa pb ax' ->
  conflicting ax' i <-> conflicting ax i \/ i = a \/ i = b.
Proof.
  intros T. destruct (turn_conflicts _ _ _ _ _ _ _ T) as (o & E). unfold conflicting. rewrite E.
  split.
  - intros (c & I & H). apply in_app_iff in I. destruct I as [I|[<-|[]]]; [left; eauto|]. cbn in H. right. intuition congruence.
  - intros [(c & I & H)|H].
    + exists c. split; [apply in_app_iff; now left|assumption].
    + exists (mk_tc a b o). split; [apply in_app_iff; right; now left|]. cbn. intuition congruence.
Qed.

Lemma turn_settled g ax a b pa pb ax' : settled ax -> enabled_at ax a pa -> enabled_at ax b pb ->
  turn g ax a b pa pb ax' -> settled ax'.
Proof.
  intros [S1 S2] [Pa _] [Pb _] T. split.
  - intros i p E C. apply (turn_conflicting _ _ _ _ _ _ _ i T) in C.
    destruct (turn_enabled _ _ _ _ _ _ _ _ _ T E) as [(Na & Nb & E0)|(pol & nrm & co & _ & _ & -> & _)].
    + destruct C as [C|[C|C]]; [|congruence..]. exact (S1 _ _ E0 C).
    + assert (exists p, policy_at ax (length (ax_policies ax)) p) as (q & H).
      { destruct C as [C|[C|C]]; [apply S2; assumption|exists pa; congruence|exists pb; congruence]. }
      apply nth_lt in H. lia.
  - intros i C. apply (turn_conflicting _ _ _ _ _ _ _ i T) in C.
    assert (exists p, policy_at ax i p) as (q & H).
    { destruct C as [C|[C|C]]; [apply S2; assumption|exists pa; congruence|exists pb; congruence]. }
    apply nth_lt in H. destruct (nth_error (ax_policies ax') i) as [p|] eqn:X; [exists p; exact X|].
    apply nth_error_None in X. pose proof (turn_length _ _ _ _ _ _ _ T). lia.
Qed.

(** * The loop *)

(** The turns of a whole execution. *)
Inductive solving (g : params) (srt : sorter) : axis -> axis -> Prop :=
| solving_end ax : detect_closest srt ax (g_proximity_limit g) = None -> solving g srt ax ax
| solving_turn ax a b pa pb ax1 ax' :
    detect_closest srt ax (g_proximity_limit g) = Some (a, b) ->
    enabled_at ax a pa -> enabled_at ax b pb -> a <> b -> turn g ax a b pa pb ax1 ->
    solving g srt ax1 ax' -> solving g srt ax ax'.

Lemma solve_loop g srt : sorts srt -> forall n ax, (enabled_count ax <= n)%nat -> settled ax ->
  exists ax', solving g srt ax ax' /\
    forall m, (n < m)%nat -> detect_and_solve_too_close m g srt ax = Done ax'.
Proof.
  intros S. induction n as [|n IH]; intros ax L Se.
  - destruct (detect_closest srt ax (g_proximity_limit g)) as [[a b]|] eqn:D.
    + destruct (detect_closest_some _ _ _ _ _ S D) as (pa & pb & Ea & _).
      rewrite <- (dimension_in srt _ _ _ S) in Ea. pose proof (dimension_length srt ax S) as Le.
      destruct (dimension srt ax); [destruct Ea|cbn in Le; lia].
    + exists ax. split; [now constructor|]. intros [|m] H; [lia|]. cbn. now rewrite D.
  - destruct (detect_closest srt ax (g_proximity_limit g)) as [[a b]|] eqn:D.
    + destruct (detect_closest_some _ _ _ _ _ S D) as (pa & pb & Ea & Eb & N & _).
      destruct Se as [S1 S2].
      destruct (turn_ok g ax a b pa pb (proj1 Ea) (proj1 Eb) N (S1 _ _ Ea) (S1 _ _ Eb)) as (ax1 & ax2 & A & So & T).
      pose proof (count_turn _ _ _ _ _ _ _ T N Ea Eb) as C. pose proof (turn_length _ _ _ _ _ _ _ T) as Le.
      destruct (IH ax2) as (ax' & Sol & F); [lia|eapply (turn_settled g ax a b pa pb); [split|..]; eassumption|].
      exists ax'. split; [eapply solving_turn; eassumption|].
      intros [|m] H; [lia|]. cbn [detect_and_solve_too_close]. rewrite D, A. cbn [bind]. rewrite So. cbn [bind].
      apply F. lia.
    + exists ax. split; [now constructor|]. intros [|m] H; [lia|]. cbn. now rewrite D.
Qed.

Lemma solve_stuck g srt ax a b : detect_closest srt ax (g_proximity_limit g) = Some (a, b) ->
  conflicting ax a \/ conflicting ax b -> loops (fun n => detect_and_solve_too_close n g srt ax).
Proof.
  intros D C n. induction n as [|n IH]; [reflexivity|]. cbn [detect_and_solve_too_close]. rewrite D.
  assert (in_conflict ax a || in_conflict ax b = true) as E.
  { apply orb_true_iff. rewrite !in_conflict_spec. assumption. }
  unfold add_too_close. rewrite E. cbn [bind]. assumption.
Qed.

(** * What the loop keeps *)

Lemma solving_apart g srt ax ax' : sorts srt -> solving g srt ax ax' ->
  forall i j p q, i <> j -> enabled_at ax' i p -> enabled_at ax' j q -> g_proximity_limit g < gap p q.
Proof. intros S H. induction H; [now apply (detect_closest_none srt)|assumption]. Qed.

Lemma solving_settled g srt ax ax' : solving g srt ax ax' -> settled ax -> settled ax'.
Proof. intros H. induction H; intros Se; [assumption|]. apply IHsolving. exact (turn_settled _ _ _ _ _ _ _ Se H0 H1 H3). Qed.

Lemma consistent_dec p : inconsistent (p_policy p) (p_normal p) = false <-> consistent p.
Proof.
  unfold consistent. destruct (p_policy p), (p_normal p); cbn; split; intros H; try reflexivity; try discriminate;
    try (split; intros; congruence); destruct H as [H1 H2];
    (exfalso; apply (H1 eq_refl); reflexivity) || (specialize (H2 ltac:(discriminate)); discriminate).
Qed.

Lemma merged_consistent a b : consistent a -> consistent b ->
  exists policy normal coord, merged a b = Some (policy, normal, coord) /\ inconsistent policy normal = false.
Proof.
  unfold consistent, merged. intros Ca Cb.
  destruct (p_policy a), (p_policy b); try (do 3 eexists; split; [reflexivity|reflexivity]).
  destruct (p_normal a), (p_normal b); try (do 3 eexists; split; [reflexivity|reflexivity]).
  exfalso. now apply Ca.
Qed.

Lemma all_consistent_at ax : all_consistent ax <-> forall i p, policy_at ax i p -> consistent p.
Proof.
  unfold all_consistent, policy_at. rewrite Forall_forall. split.
  - intros H i p E. apply H. eapply nth_error_In; eassumption.
  - intros H p I. apply In_nth_error in I. destruct I as (i & E). eauto.
Qed.

Lemma turn_consistent g ax a b pa pb ax' : turn g ax a b pa pb ax' -> policy_at ax a pa -> policy_at ax b pb ->
  all_consistent ax -> all_consistent ax'.
Proof.
  rewrite !all_consistent_at. intros T Pa Pb C i p P.
  destruct (Nat.eq_dec i a) as [->|Na].
  { pose proof (tu_a _ _ _ _ _ _ _ T) as H. unfold policy_at in *. rewrite H in P. inversion P; subst. exact (C _ _ Pa). }
  destruct (Nat.eq_dec i b) as [->|Nb].
  { pose proof (tu_b _ _ _ _ _ _ _ T) as H. unfold policy_at in *. rewrite H in P. inversion P; subst. exact (C _ _ Pb). }
  destruct (le_lt_dec (length (ax_policies ax)) i) as [L|L].
  - pose proof (tu_new _ _ _ _ _ _ _ T) as New. pose proof (nth_lt _ _ _ P) as L'.
    destruct (merged pa pb) as [[[pol nrm] co]|]; [|lia]. destruct (inconsistent pol nrm) eqn:I; [lia|].
    destruct New as (Len & Np & _). assert (i = length (ax_policies ax)) by lia. subst i.
    unfold policy_at in *. rewrite Np in P. inversion P; subst. apply consistent_dec. assumption.
  - apply (C i). unfold policy_at in *. rewrite (tu_other _ _ _ _ _ _ _ T) in P by assumption. assumption.
Qed.

Lemma solving_consistent g srt ax ax' : solving g srt ax ax' -> all_consistent ax -> all_consistent ax'.
Proof.
  intros H. induction H; intros C; [assumption|]. apply IHsolving.
  eapply turn_consistent; try eassumption; [apply H0|apply H1].
Qed.

Lemma turn_count_consistent g ax a b pa pb ax' : turn g ax a b pa pb ax' -> a <> b ->
  enabled_at ax a pa -> enabled_at ax b pb -> all_consistent ax ->
  (enabled_count ax' + 1 = enabled_count ax)%nat /\ length (ax_conflicts ax') = S (length (ax_conflicts ax)).
Proof.
  intros T N Ea Eb C. pose proof (count_turn _ _ _ _ _ _ _ T N Ea Eb) as K.
  rewrite all_consistent_at in C.
  destruct (merged_consistent pa pb (C _ _ (proj1 Ea)) (C _ _ (proj1 Eb))) as (pol & nrm & co & M & I).
  pose proof (tu_new _ _ _ _ _ _ _ T) as New. rewrite M, I in New. destruct New as (Len & _ & Cs).
  rewrite Cs, app_length. cbn. lia.
Qed.

Lemma solving_count g srt ax ax' : solving g srt ax ax' -> all_consistent ax ->
  (length (ax_conflicts ax') + enabled_count ax' = length (ax_conflicts ax) + enabled_count ax)%nat.
Proof.
  intros H. induction H; intros C; [reflexivity|].
  destruct (turn_count_consistent _ _ _ _ _ _ _ H3 H2 H0 H1 C).
  rewrite IHsolving; [lia|]. eapply turn_consistent; try eassumption; [apply H0|apply H1].
Qed.

(** Old policies only lose their enabled flag. *)
Lemma turn_frame g ax a b pa pb ax' i p : turn g ax a b pa pb ax' -> policy_at ax a pa -> policy_at ax b pb ->
  policy_at ax i p -> policy_at ax' i p \/ policy_at ax' i (disable p).
Proof.
  intros T Pa Pb P.
  destruct (Nat.eq_dec i a) as [->|Na].
  { right. unfold policy_at in *. rewrite Pa in P. inversion P; subst. apply (tu_a _ _ _ _ _ _ _ T). }
  destruct (Nat.eq_dec i b) as [->|Nb].
  { right. unfold policy_at in *. rewrite Pb in P. inversion P; subst. apply (tu_b _ _ _ _ _ _ _ T). }
  left. eapply turn_keeps; eassumption.
Qed.

Lemma disable_disable p : disable (disable p) = disable p.
Proof. reflexivity. Qed.

Lemma solving_frame g srt ax ax' : solving g srt ax ax' -> forall i p, policy_at ax i p ->
  policy_at ax' i p \/ policy_at ax' i (disable p).
Proof.
  intros H. induction H; intros i p P; [now left|].
  destruct (turn_frame _ _ _ _ _ _ _ _ _ H3 (proj1 H0) (proj1 H1) P) as [Q|Q]; apply IHsolving in Q; [tauto|].
  rewrite disable_disable in Q. tauto.
Qed.

Lemma solving_other g srt ax ax' : solving g srt ax ax' ->
  ax_segments ax' = ax_segments ax /\ ax_lines ax' = ax_lines ax /\ exists l, ax_conflicts ax' = ax_conflicts ax ++ l.
Proof.
  intros H. induction H; [split; [reflexivity|]; split; [reflexivity|]; exists []; now rewrite app_nil_r|].
  destruct IHsolving as (A & B & l & C). rewrite A, B, C, (tu_segments _ _ _ _ _ _ _ H3), (tu_lines _ _ _ _ _ _ _ H3).
  split; [reflexivity|]. split; [reflexivity|].
  destruct (turn_conflicts _ _ _ _ _ _ _ H3) as (o & ->). rewrite <- app_assoc. eauto.
Qed.

(** * Replacement of a policy by another *)

Lemma replaced_trans ax i j k : replaced_by ax i j -> replaced_by ax j k -> replaced_by ax i k.
Proof. intros H. induction H; intros K; [assumption|]. eapply replaced_step; eauto. Qed.

Lemma replaced_mono ax ax' i j l : ax_conflicts ax' = ax_conflicts ax ++ l -> replaced_by ax i j -> replaced_by ax' i j.
Proof.
  intros E H. induction H; [constructor|]. eapply replaced_step; try eassumption. rewrite E. apply in_app_iff. now left.
Qed.

(** Where the merged policy is, and what it is. *)
Lemma merged_facts a b policy normal coord : merged a b = Some (policy, normal, coord) ->
  (p_policy a = ONELINE /\ p_policy b = ONELINE /\ policy = ONELINE /\ coord == (p_coord a + p_coord b) / 2) \/
  (p_policy a = ONELINE /\ p_policy b <> ONELINE /\ policy = ONELINE /\ coord == p_coord a) \/
  (p_policy a <> ONELINE /\ p_policy b = ONELINE /\ policy = ONELINE /\ coord == p_coord b) \/
  (p_policy a <> ONELINE /\ p_policy b <> ONELINE /\ policy <> ONELINE /\ coord == (p_coord a + p_coord b) / 2).
Proof.
  unfold merged, coord_mid. intros E.
  destruct (p_policy a), (p_policy b); try destruct (p_normal a), (p_normal b); inversion E; subst; clear E;
  first [ left; repeat split; try congruence; reflexivity
        | right; left; repeat split; try congruence; reflexivity
        | right; right; left; repeat split; try congruence; reflexivity
        | right; right; right; repeat split; try congruence; reflexivity ].
Qed.

Definition reach_factor (p : mlp) : Q := if is_oneline (p_policy p) then 2 else 1.

(** The invariant of the displacement: what stands for [i] is not far from it, in
    terms of the room around the replacement. *)
Definition near (limit c : Q) (ax : axis) (j : nat) (q : mlp) : Prop :=
  Qabs (c - p_coord q) <= (5 # 2) * limit /\
  forall k r, k <> j -> enabled_at ax k r -> Qabs (c - p_coord q) <= reach_factor q * gap q r.

Lemma is_oneline_true p : p = ONELINE -> is_oneline p = true.
Proof. now intros ->. Qed.
Lemma is_oneline_false p : p <> ONELINE -> is_oneline p = false.
Proof. destruct p; congruence || reflexivity. Qed.

Ltac qabs := repeat match goal with
  | |- context [Qabs ?x] => let H := fresh in destruct (Qlt_le_dec x 0) as [H|H];
      [ rewrite (Qabs_neg x) in * by (apply Qlt_le_weak; exact H) | rewrite (Qabs_pos x) in * by exact H ]
  | H0 : context [Qabs ?x] |- _ => let H := fresh in destruct (Qlt_le_dec x 0) as [H|H];
      [ rewrite (Qabs_neg x) in * by (apply Qlt_le_weak; exact H) | rewrite (Qabs_pos x) in * by exact H ]
  end.

Lemma reach_factor_ge p : 1 <= reach_factor p <= 2.
Proof. unfold reach_factor. destruct (is_oneline _); lra. Qed.

Lemma half_mid a b : (a + b) / 2 == a * (1 # 2) + b * (1 # 2).
Proof. field. Qed.

(** A policy away from the merged pair sees the new one no closer than the nearest of
    the two. *)
Lemma away a b c x : Qabs (a - b) <= Qabs (x - a) -> Qabs (a - b) <= Qabs (x - b) ->
  (c == a * (1 # 2) + b * (1 # 2) \/ c == a \/ c == b) ->
  Qabs (x - a) <= Qabs (x - c) \/ Qabs (x - b) <= Qabs (x - c).
Proof. intros A B C. destruct C as [C|[C|C]]; qabs; lra. Qed.

Lemma away_mid a b c x : Qabs (a - b) <= Qabs (x - a) -> Qabs (a - b) <= Qabs (x - b) ->
  c == a * (1 # 2) + b * (1 # 2) -> (3 # 2) * Qabs (a - b) <= Qabs (c - x).
Proof. intros A B C. qabs; lra. Qed.

Lemma turn_near g srt ax a b pa pb ax' c i : sorts srt ->
  detect_closest srt ax (g_proximity_limit g) = Some (a, b) ->
  enabled_at ax a pa -> enabled_at ax b pb -> a <> b -> turn g ax a b pa pb ax' -> all_consistent ax ->
  (exists j q, enabled_at ax j q /\ replaced_by ax i j /\ near (g_proximity_limit g) c ax j q) ->
  exists j q, enabled_at ax' j q /\ replaced_by ax' i j /\ near (g_proximity_limit g) c ax' j q.
Proof.
  intros S D Ea Eb N T C (j & q & Ej & R & Nr).
  destruct (detect_closest_some _ _ _ _ _ S D) as (pa' & pb' & Ea' & Eb' & _ & _ & Gl & Gm).
  assert (pa' = pa) by (destruct Ea', Ea; unfold policy_at in *; congruence).
  assert (pb' = pb) by (destruct Eb', Eb; unfold policy_at in *; congruence). subst pa' pb'.
  rewrite all_consistent_at in C.
  destruct (merged_consistent pa pb (C _ _ (proj1 Ea)) (C _ _ (proj1 Eb))) as (pol & nrm & co & M & I).
  pose proof (tu_new _ _ _ _ _ _ _ T) as New. rewrite M, I in New. destruct New as (Len & Pn & Cs).
  set (n := length (ax_policies ax)) in *. set (m := new_policy g pol nrm co true) in *.
  assert (En : enabled_at ax' n m) by (split; [assumption|reflexivity]).
  assert (R' : replaced_by ax' i j) by (eapply replaced_mono; eassumption).
  pose proof (merged_facts _ _ _ _ _ M) as MF.
  assert (MC : co == p_coord pa * (1 # 2) + p_coord pb * (1 # 2) \/ co == p_coord pa \/ co == p_coord pb).
  { rewrite half_mid in MF. tauto. }
  assert (Far : forall k r, k <> a -> k <> b -> enabled_at ax k r ->
     Qabs (p_coord pa - p_coord pb) <= Qabs (p_coord r - p_coord pa) /\
     Qabs (p_coord pa - p_coord pb) <= Qabs (p_coord r - p_coord pb)).
  { intros k r Na Nb Ek. split; [apply (Gm k a)|apply (Gm k b)]; assumption. }
  assert (G0 : 0 <= Qabs (p_coord pa - p_coord pb)) by apply Qabs_nonneg.
  unfold gap in Gl.
  destruct Nr as [Nl Ng].
  destruct (Nat.eq_dec j a) as [->|Nja]; [|destruct (Nat.eq_dec j b) as [->|Njb]].
  - (* a is replaced *)
    assert (q = pa) by (destruct Ej, Ea; unfold policy_at in *; congruence). subst q.
    exists n, m. split; [assumption|]. split.
    { eapply replaced_trans; [exact R'|]. eapply replaced_step; [rewrite Cs; apply in_app_iff; right; left; reflexivity|left; reflexivity|reflexivity|constructor]. }
    assert (B : Qabs (c - p_coord pa) <= reach_factor pa * Qabs (p_coord pa - p_coord pb)) by (apply (Ng b); [congruence|assumption]).
    assert (Old : forall k r, k <> n -> enabled_at ax' k r -> k <> a /\ k <> b /\ enabled_at ax k r).
    { intros k r Nk Ek. destruct (turn_enabled _ _ _ _ _ _ _ _ _ T Ek) as [H|(? & ? & ? & _ & _ & H & _)]; [assumption|exfalso; exact (Nk H)]. }
    assert (Tri : Qabs (c - co) <= Qabs (c - p_coord pa) + Qabs (p_coord pa - co)).
    { setoid_replace (c - co) with ((c - p_coord pa) + (p_coord pa - co)) by ring. apply Qabs_triangle. }
    unfold near. change (p_coord m) with co.
    rewrite half_mid in MF. destruct MF as [(A1 & A2 & A3 & A4)|[(A1 & A2 & A3 & A4)|[(A1 & A2 & A3 & A4)|(A1 & A2 & A3 & A4)]]].
    + assert (F : reach_factor pa = 2) by (unfold reach_factor; now rewrite A1).
      assert (F' : reach_factor m = 2) by (unfold reach_factor, m; cbn; now rewrite A3).
      rewrite F in B. rewrite F'.
      assert (Hh : Qabs (p_coord pa - co) == Qabs (p_coord pa - p_coord pb) * (1 # 2)).
      { rewrite A4. clear. qabs; lra. }
      split; [lra|]. intros k r Nk Ek. destruct (Old k r Nk Ek) as (Na & Nb & Eo).
      destruct (Far k r Na Nb Eo) as [Fa Fb]. pose proof (away_mid _ _ _ _ Fa Fb A4) as Aw. change (gap m r) with (Qabs (co - p_coord r)).
      lra.
    + assert (F' : reach_factor m = 2) by (unfold reach_factor, m; cbn; now rewrite A3).
      assert (F : reach_factor pa = 2) by (unfold reach_factor; now rewrite A1).
      rewrite F in *. rewrite F'.
      assert (Hh : Qabs (c - co) == Qabs (c - p_coord pa)) by (rewrite A4; reflexivity).
      split; [rewrite Hh; assumption|]. intros k r Nk Ek. destruct (Old k r Nk Ek) as (Na & Nb & Eo).
      change (gap m r) with (Qabs (co - p_coord r)). assert (Hg : Qabs (co - p_coord r) == Qabs (p_coord pa - p_coord r)) by (rewrite A4; reflexivity).
      rewrite Hh, Hg. apply (Ng k); assumption.
    + assert (F' : reach_factor m = 2) by (unfold reach_factor, m; cbn; now rewrite A3).
      assert (F : reach_factor pa = 1) by (unfold reach_factor; now rewrite is_oneline_false).
      rewrite F in *. rewrite F'.
      assert (Hh : Qabs (p_coord pa - co) == Qabs (p_coord pa - p_coord pb)) by (rewrite A4; reflexivity).
      split; [lra|]. intros k r Nk Ek. destruct (Old k r Nk Ek) as (Na & Nb & Eo).
      destruct (Far k r Na Nb Eo) as [Fa Fb].
      change (gap m r) with (Qabs (co - p_coord r)). assert (Hg : Qabs (co - p_coord r) == Qabs (p_coord r - p_coord pb)).
      { rewrite A4, Qabs_Qminus. reflexivity. }
      rewrite Hg. lra.
    + assert (F : reach_factor pa = 1) by (unfold reach_factor; now rewrite is_oneline_false).
      assert (F' : reach_factor m = 1) by (unfold reach_factor, m; cbn [p_policy]; now rewrite is_oneline_false).
      rewrite F in B. rewrite F'.
      assert (Hh : Qabs (p_coord pa - co) == Qabs (p_coord pa - p_coord pb) * (1 # 2)).
      { rewrite A4. clear. qabs; lra. }
      split; [lra|]. intros k r Nk Ek. destruct (Old k r Nk Ek) as (Na & Nb & Eo).
      destruct (Far k r Na Nb Eo) as [Fa Fb]. pose proof (away_mid _ _ _ _ Fa Fb A4) as Aw. change (gap m r) with (Qabs (co - p_coord r)).
      lra.
  - (* b is replaced *)
    assert (q = pb) by (destruct Ej, Eb; unfold policy_at in *; congruence). subst q.
    exists n, m. split; [assumption|]. split.
    { eapply replaced_trans; [exact R'|]. eapply replaced_step; [rewrite Cs; apply in_app_iff; right; left; reflexivity|right; reflexivity|reflexivity|constructor]. }
    assert (B : Qabs (c - p_coord pb) <= reach_factor pb * Qabs (p_coord pa - p_coord pb)).
    { rewrite (Qabs_Qminus (p_coord pa)). apply (Ng a); [congruence|assumption]. }
    assert (Old : forall k r, k <> n -> enabled_at ax' k r -> k <> a /\ k <> b /\ enabled_at ax k r).
    { intros k r Nk Ek. destruct (turn_enabled _ _ _ _ _ _ _ _ _ T Ek) as [H|(? & ? & ? & _ & _ & H & _)]; [assumption|exfalso; exact (Nk H)]. }
    assert (Tri : Qabs (c - co) <= Qabs (c - p_coord pb) + Qabs (p_coord pb - co)).
    { setoid_replace (c - co) with ((c - p_coord pb) + (p_coord pb - co)) by ring. apply Qabs_triangle. }
    unfold near. change (p_coord m) with co.
    rewrite half_mid in MF. destruct MF as [(A1 & A2 & A3 & A4)|[(A1 & A2 & A3 & A4)|[(A1 & A2 & A3 & A4)|(A1 & A2 & A3 & A4)]]].
    + assert (F : reach_factor pb = 2) by (unfold reach_factor; now rewrite A2).
      assert (F' : reach_factor m = 2) by (unfold reach_factor, m; cbn; now rewrite A3).
      rewrite F in B. rewrite F'.
      assert (Hh : Qabs (p_coord pb - co) == Qabs (p_coord pa - p_coord pb) * (1 # 2)).
      { rewrite A4. clear. qabs; lra. }
      split; [lra|]. intros k r Nk Ek. destruct (Old k r Nk Ek) as (Na & Nb & Eo).
      destruct (Far k r Na Nb Eo) as [Fa Fb]. pose proof (away_mid _ _ _ _ Fa Fb A4) as Aw. change (gap m r) with (Qabs (co - p_coord r)).
      lra.
    + assert (F' : reach_factor m = 2) by (unfold reach_factor, m; cbn; now rewrite A3).
      assert (F : reach_factor pb = 1) by (unfold reach_factor; now rewrite is_oneline_false).
      rewrite F in *. rewrite F'.
      assert (Hh : Qabs (p_coord pb - co) == Qabs (p_coord pa - p_coord pb)) by (rewrite A4, Qabs_Qminus; reflexivity).
      split; [lra|]. intros k r Nk Ek. destruct (Old k r Nk Ek) as (Na & Nb & Eo).
      destruct (Far k r Na Nb Eo) as [Fa Fb].
      change (gap m r) with (Qabs (co - p_coord r)). assert (Hg : Qabs (co - p_coord r) == Qabs (p_coord r - p_coord pa)).
      { rewrite A4, Qabs_Qminus. reflexivity. }
      rewrite Hg. lra.
    + assert (F' : reach_factor m = 2) by (unfold reach_factor, m; cbn; now rewrite A3).
      assert (F : reach_factor pb = 2) by (unfold reach_factor; now rewrite A2).
      rewrite F in *. rewrite F'.
      assert (Hh : Qabs (c - co) == Qabs (c - p_coord pb)) by (rewrite A4; reflexivity).
      split; [rewrite Hh; assumption|]. intros k r Nk Ek. destruct (Old k r Nk Ek) as (Na & Nb & Eo).
      change (gap m r) with (Qabs (co - p_coord r)). assert (Hg : Qabs (co - p_coord r) == Qabs (p_coord pb - p_coord r)) by (rewrite A4; reflexivity).
      rewrite Hh, Hg. apply (Ng k); assumption.
    + assert (F : reach_factor pb = 1) by (unfold reach_factor; now rewrite is_oneline_false).
      assert (F' : reach_factor m = 1) by (unfold reach_factor, m; cbn [p_policy]; now rewrite is_oneline_false).
      rewrite F in B. rewrite F'.
      assert (Hh : Qabs (p_coord pb - co) == Qabs (p_coord pa - p_coord pb) * (1 # 2)).
      { rewrite A4. clear. qabs; lra. }
      split; [lra|]. intros k r Nk Ek. destruct (Old k r Nk Ek) as (Na & Nb & Eo).
      destruct (Far k r Na Nb Eo) as [Fa Fb]. pose proof (away_mid _ _ _ _ Fa Fb A4) as Aw. change (gap m r) with (Qabs (co - p_coord r)).
      lra.
  - (* another one *)
    exists j, q. assert (Ej' : enabled_at ax' j q) by (split; [eapply turn_keeps; try eassumption; apply Ej|apply Ej]).
    split; [assumption|]. split; [assumption|]. split; [assumption|].
    intros k r Nk Ek. destruct (turn_enabled _ _ _ _ _ _ _ _ _ T Ek) as [(Na & Nb & Eo)|(pol' & nrm' & co' & M' & _ & -> & ->)].
    + apply (Ng k); assumption.
    + rewrite M in M'. inversion M'; subst pol' nrm' co'.
      destruct (Far j q Nja Njb Ej) as [Fa Fb].
      pose proof (Ng a pa ltac:(congruence) Ea) as Ha. pose proof (Ng b pb ltac:(congruence) Eb) as Hb.
      pose proof (reach_factor_ge q) as [F1 F2]. unfold gap in *. cbn [p_coord new_policy].
      destruct (away _ _ _ _ Fa Fb MC) as [Aw|Aw].
      * eapply Qle_trans; [exact Ha|]. apply Qmult_le_l with (z := reach_factor q) in Aw; [assumption|lra].
      * eapply Qle_trans; [exact Hb|]. apply Qmult_le_l with (z := reach_factor q) in Aw; [assumption|lra].
Qed.

Lemma solving_near g srt ax ax' : sorts srt -> solving g srt ax ax' -> all_consistent ax -> forall c i,
  (exists j q, enabled_at ax j q /\ replaced_by ax i j /\ near (g_proximity_limit g) c ax j q) ->
  exists j q, enabled_at ax' j q /\ replaced_by ax' i j /\ near (g_proximity_limit g) c ax' j q.
Proof.
  intros S H. induction H; intros C c i X; [assumption|]. apply IHsolving.
  - eapply turn_consistent; try eassumption; [apply H0|apply H1].
  - eapply turn_near; eassumption.
Qed.
