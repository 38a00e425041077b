(** Columns of policies and of too close policies. *)
From Coq Require Import List Arith Bool QArith Lia.
From Verif Require Import IntervalModel ManagerModel ManagerSpec ManagerProofs ManagerSafetyProofs GeomModel BoardModel BoardSpec SceneModel SceneSpec SceneProofs SceneWalkProofs SceneValidProofs.
Import ListNotations.
Open Scope nat_scope.

Definition maxl (l : list nat) : nat := fold_right Nat.max 0 l.
Lemma maxl_le l x : In x l -> x <= maxl l.
Proof. induction l as [|y l IH]; cbn; [intros []|]. fold (maxl l). intros [->|I]; [lia|apply IH in I; lia]. Qed.
Lemma maxl_in l : l <> [] -> In (maxl l) l.
Proof.
  induction l as [|y l IH]; [contradiction|]. intros _. destruct l as [|z l]; [cbn; left; lia|]. assert (I : In (maxl (z :: l)) (z :: l)) by now apply IH.
  change (maxl (y :: z :: l)) with (Nat.max y (maxl (z :: l))). destruct (Nat.max_spec y (maxl (z :: l))) as [[_ ->]|[_ ->]]; [now right|now left].
Qed.
Lemma maxl_least l n : (forall x, In x l -> x <= n) -> maxl l <= n.
Proof. induction l as [|y l IH]; intros H; [cbn; lia|]. change (maxl (y :: l)) with (Nat.max y (maxl l)). assert (y <= n) by (apply H; now left). assert (maxl l <= n) by (apply IH; intros x I; apply H; now right). lia. Qed.

Section Levels.
Context (sc : scene) (rk : nat -> nat).
Let isP := is_policy_node sc.
Let isC := is_close sc.
Definition preds (n : nat) : list nat :=
  if is_policy_node sc n then filter (is_close sc) (input_nodes sc n) else if is_close sc n then filter (is_policy_node sc) (input_nodes sc n) else [].
Context (Rank : forall m n, In m (preds n) -> rk m < rk n).
Context (Apart : forall n, is_policy_node sc n = true -> is_close sc n = false).
Context (Some_policy : forall n, is_close sc n = true -> exists m, In m (preds n)).

Fixpoint level (r : nat) (n : nat) : nat := match r with O => 0 | S r => maxl (map (fun m => S (level r m)) (preds n)) end.
Lemma level_stable r : forall r' n, rk n < r -> rk n < r' -> level r n = level r' n.
Proof.
  induction r as [|r IH]; intros [|r'] n L L'; try lia. cbn [level]. f_equal. apply map_ext_in. intros m M. f_equal. apply Rank in M. apply IH; lia.
Qed.
Definition lev (n : nat) : nat := level (S (rk n)) n.
Lemma lev_eq n : lev n = maxl (map (fun m => S (lev m)) (preds n)).
Proof. unfold lev at 1. cbn [level]. f_equal. apply map_ext_in. intros m M. f_equal. unfold lev. apply Rank in M. apply level_stable; lia. Qed.
Lemma lev_lt m n : In m (preds n) -> lev m < lev n.
Proof. intros I. rewrite (lev_eq n). apply (maxl_le (map _ _) (S (lev m))). apply in_map_iff. now exists m. Qed.
Lemma lev_some n : preds n <> [] -> exists m, In m (preds n) /\ lev n = S (lev m).
Proof.
  intros N. assert (I : In (lev n) (map (fun m => S (lev m)) (preds n))) by (rewrite (lev_eq n); apply maxl_in; destruct (preds n); [contradiction|discriminate]).
  apply in_map_iff in I. destruct I as (m & E & I). now exists m.
Qed.
Lemma lev_none n : preds n = [] -> lev n = 0.
Proof. intros E. now rewrite lev_eq, E. Qed.

Lemma loop_max (f : nat -> run nat) (g : nat -> nat) l : (forall m, In m l -> f m = Done (g m)) -> forall a,
  for_each (fun deep m => let! d := f m in Done (Nat.max deep (d + 2))) l a = Done (Nat.max a (maxl (map (fun m => g m + 2) l))).
Proof.
  induction l as [|m l IH]; intros H a; cbn [for_each map maxl fold_right]; [f_equal; lia|]. rewrite (H m (or_introl eq_refl)). cbn [bind]. rewrite IH by (intros x X; apply H; now right).
  f_equal. fold (maxl (map (fun m => g m + 2) l)). lia.
Qed.

Lemma preds_policy n m : is_policy_node sc n = true -> In m (preds n) <-> In m (input_nodes sc n) /\ is_close sc m = true.
Proof. intros P. unfold preds. rewrite P. apply filter_In. Qed.
Lemma preds_close n m : is_close sc n = true -> In m (preds n) <-> In m (input_nodes sc n) /\ is_policy_node sc m = true.
Proof. intros C. unfold preds. destruct (is_policy_node sc n) eqn:P; [apply Apart in P; congruence|]. rewrite C. apply filter_In. Qed.

Lemma found_spec first second n p : In p (filter (second sc) (flat_map (input_nodes sc) (filter (first sc) (input_nodes sc n)))) <->
  exists c, In c (input_nodes sc n) /\ first sc c = true /\ In p (input_nodes sc c) /\ second sc p = true.
Proof.
  rewrite filter_In, in_flat_map. split.
  - intros [(c & C & P) S']. apply filter_In in C. exists c. tauto.
  - intros (c & A & B & C & D). split; [exists c; split; [now apply filter_In|exact C]|exact D].
Qed.

Lemma policy_deepness fuel : forall n, is_policy_node sc n = true -> rk n < fuel -> deepness is_close is_policy_node fuel sc n = Done (lev n).
Proof.
  induction fuel as [|fuel IH]; intros n P L; [lia|]. cbn [deepness].
  set (found := filter (is_policy_node sc) _).
  assert (G : forall p, In p found -> exists c, In c (preds n) /\ In p (preds c)).
  { intros p I. apply found_spec in I. destruct I as (c & A & B & C & D). exists c. split; [now apply preds_policy|now apply preds_close]. }
  rewrite (loop_max _ lev).
  - f_equal. cbn [Nat.max]. apply Nat.le_antisymm.
    + apply maxl_least. intros x X. apply in_map_iff in X. destruct X as (p & <- & I). destruct (G p I) as (c & A & B). apply lev_lt in A. apply lev_lt in B. lia.
    + destruct (preds n) as [|c0 r] eqn:E; [rewrite (lev_none n E); lia|]. destruct (lev_some n) as (c & A & Ec); [congruence|].
      assert (Cc : is_close sc c = true) by (apply preds_policy in A; tauto).
      destruct (Some_policy c Cc) as (p0 & P0). destruct (lev_some c) as (p & B & Ep); [intros N; rewrite N in P0; destruct P0|].
      apply (maxl_le (map (fun m => lev m + 2) found) (lev n)). apply in_map_iff. exists p. split; [lia|]. apply found_spec. exists c.
      apply preds_policy in A; [|exact P]. apply preds_close in B; [|exact Cc]. tauto.
  - intros p I. destruct (G p I) as (c & A & B). apply Rank in A. pose proof (Rank _ _ B). apply IH; [|lia].
    apply found_spec in I. destruct I as (c' & _ & _ & _ & D). exact D.
Qed.

Lemma close_deepness fuel : forall n, is_close sc n = true -> rk n < fuel -> deepness is_policy_node is_close fuel sc n = Done (lev n - 1).
Proof.
  induction fuel as [|fuel IH]; intros n P L; [lia|]. cbn [deepness].
  set (found := filter (is_close sc) _).
  assert (G : forall p, In p found -> exists c, In c (preds n) /\ In p (preds c)).
  { intros p I. apply found_spec in I. destruct I as (c & A & B & C & D). exists c. split; [now apply preds_close|now apply preds_policy]. }
  assert (Pos : forall m, is_close sc m = true -> 1 <= lev m) by (intros m M; destruct (Some_policy m M) as (p & I); apply lev_lt in I; lia).
  rewrite (loop_max _ (fun m => lev m - 1)).
  - f_equal. cbn [Nat.max]. apply Nat.le_antisymm.
    + apply maxl_least. intros x X. apply in_map_iff in X. destruct X as (p & <- & I). assert (1 <= lev p) by (apply Pos; apply found_spec in I; destruct I as (c' & _ & _ & _ & D); exact D). destruct (G p I) as (c & A & B). apply lev_lt in A. apply lev_lt in B. lia.
    + destruct (Some_policy n P) as (q & Q). destruct (lev_some n) as (c & A & Ec); [intros N; rewrite N in Q; destruct Q|].
      assert (Cc : is_policy_node sc c = true) by (apply preds_close in A; tauto).
      destruct (preds c) as [|p0 r] eqn:E; [rewrite (lev_none c E) in Ec; lia|]. destruct (lev_some c) as (p & B & Ep); [congruence|].
      assert (Ip : In p found) by (apply found_spec; exists c; apply preds_close in A; [|exact P]; apply preds_policy in B; [|exact Cc]; tauto).
      assert (Cp : is_close sc p = true) by (apply preds_policy in B; tauto). specialize (Pos p Cp).
      apply (maxl_le (map (fun m => lev m - 1 + 2) found) (lev n - 1)). apply in_map_iff. exists p. split; [lia|exact Ip].
  - intros p I. destruct (G p I) as (c & A & B). apply Rank in A. pose proof (Rank _ _ B). apply IH; [|lia].
    apply found_spec in I. destruct I as (c' & _ & _ & _ & D). exact D.
Qed.

Lemma columns fuel n : rk n < fuel ->
  (is_policy_node sc n = true -> policy_column fuel sc n = Done (1 + lev n)) /\ (is_close sc n = true -> close_column fuel sc n = Done (1 + lev n)).
Proof.
  intros L. split; intros P.
  - unfold policy_column. now rewrite policy_deepness.
  - unfold close_column. rewrite close_deepness by assumption. cbn [bind]. f_equal. destruct (Some_policy n P) as (p & I). apply lev_lt in I. lia.
Qed.
End Levels.

(** ** On the board *)

Lemma policy_node_spec sc n : is_policy_node sc n = true <-> exists a i, stands_for sc n (EPolicy a i).
Proof.
  unfold is_policy_node, stands_for, is_kind. destruct (nth_error (sc_nodes sc) n) as [nd|]; [|split; [discriminate|intros (a & i & nd & E & _); discriminate]].
  split.
  - destruct (nd_what nd) as [?|?|x] eqn:W; try discriminate. destruct x; try discriminate. intros _. eauto 6.
  - intros (a & i & nd' & E & W). injection E as <-. now rewrite W.
Qed.
Lemma close_node_spec sc n : is_close sc n = true <-> exists a i, stands_for sc n (EClose a i).
Proof.
  unfold is_close, stands_for, is_kind. destruct (nth_error (sc_nodes sc) n) as [nd|]; [|split; [discriminate|intros (a & i & nd & E & _); discriminate]].
  split.
  - destruct (nd_what nd) as [?|?|x] eqn:W; try discriminate. destruct x; try discriminate. intros _. eauto 6.
  - intros (a & i & nd' & E & W). injection E as <-. now rewrite W.
Qed.

Definition rank (b : board) (sc : scene) (n : nat) : nat :=
  match nth_error (sc_nodes sc) n with
  | Some nd => match nd_what nd with
               | Thing (EPolicy a i) => 2 * i + 1
               | Thing (EClose a j) => match nth_error (ax_conflicts (on_axis (b_axes b) a)) j with Some c => 2 * Nat.max (tc_a c) (tc_b c) + 2 | None => 0 end
               | _ => 0
               end
  | None => 0
  end.
Lemma rank_policy b sc n a i : stands_for sc n (EPolicy a i) -> rank b sc n = 2 * i + 1.
Proof. intros (nd & E & W). unfold rank. now rewrite E, W. Qed.
Lemma rank_close b sc n a j c : stands_for sc n (EClose a j) -> nth_error (ax_conflicts (on_axis (b_axes b) a)) j = Some c -> rank b sc n = 2 * Nat.max (tc_a c) (tc_b c) + 2.
Proof. intros (nd & E & W) C. unfold rank. now rewrite E, W, C. Qed.

Lemma rank_lt b k sc : populate b k = Done sc -> (forall a, sane (on_axis (b_axes b) a)) -> solutions_sound b k -> forall m n, In m (preds sc n) -> rank b sc m < rank b sc n.
Proof.
  intros P Sa So m n I. unfold preds in I. destruct (is_policy_node sc n) eqn:Pn.
  - apply filter_In in I. destruct I as [I Cm]. apply input_spec in I. apply policy_node_spec in Pn. destruct Pn as (a & i & Pn). apply close_node_spec in Cm. destruct Cm as (c & j & Cm).
    assert (C : on_board b (EClose c j) /\ on_board b (EPolicy a i) /\ comes_from b k (EPolicy a i) (EClose c j)) by (apply (wires_are_links b k sc P); eauto).
    destruct C as (_ & Oi & C). inversion C as [| | | | | | |a' i' p x E J| | | |]; subst. destruct (So a i c j Oi J) as (-> & t & T & S').
    rewrite (rank_policy b _ _ _ _ Pn), (rank_close b _ _ _ _ _ Cm T). destruct (Sa a) as (_ & R & _). destruct (R t i (nth_error_In _ _ T) S'). lia.
  - destruct (is_close sc n) eqn:Cn; [|destruct I]. apply filter_In in I. destruct I as [I Pm]. apply input_spec in I. apply policy_node_spec in Pm. destruct Pm as (a & i & Pm).
    apply close_node_spec in Cn. destruct Cn as (c & j & Cn).
    assert (C : on_board b (EPolicy a i) /\ on_board b (EClose c j) /\ comes_from b k (EClose c j) (EPolicy a i)) by (apply (wires_are_links b k sc P); eauto).
    destruct C as (_ & _ & C). inversion C as [| | | | |a' i' t x E J| | | | | |]; subst. rewrite (rank_policy b _ _ _ _ Pm), (rank_close b _ _ _ _ _ Cn E). lia.
Qed.

Lemma some_policy b k sc : populate b k = Done sc -> NoDup (concat (map g_edges (b_polygons b))) -> (forall a, sane (on_axis (b_axes b) a)) ->
  (forall m n x, stands_for sc m x -> stands_for sc n x -> m = n) -> forall n, is_close sc n = true -> exists m, In m (preds sc n).
Proof.
  intros P D Sa U n Cn. pose proof Cn as Cn'. apply close_node_spec in Cn. destruct Cn as (a & j & Cn).
  assert (O : on_board b (EClose a j)).
  { destruct (nodes_made _ _ _ (populate_nodes _ _ _ P)) as [_ H]. apply H. destruct Cn as (nd & E & W). exists nd. split; [now apply nth_error_In in E|exact W]. }
  cbn in O. destruct (nth_error (ax_conflicts (on_axis (b_axes b) a)) j) as [c|] eqn:E; [|apply nth_error_None in E; lia].
  destruct (Sa a) as [[_ G] _]. destruct (G c (nth_error_In _ _ E)) as [[La _] _].
  assert (C : exists m n, stands_for sc m (EPolicy a (tc_a c)) /\ stands_for sc n (EClose a j) /\ wired sc m n).
  { apply (wires_are_links b k sc P). split; [exact La|]. split; [exact O|]. apply close_from_policy with c; [exact E|now left]. }
  destruct C as (m & n' & Sm & Sn & W). rewrite (U n' n _ Sn Cn) in W. exists m. unfold preds. destruct (is_policy_node sc n) eqn:Pn.
  - apply policy_node_spec in Pn. destruct Pn as (a' & i & nd & E1 & W1). destruct Cn as (nd' & E2 & W2). congruence.
  - rewrite Cn'. apply filter_In. split; [now apply input_spec|]. apply policy_node_spec. eauto.
Qed.
