(** From nodes to the objects they stand for. *)
From Coq Require Import List Arith Bool QArith Lia Relations.Relation_Operators Relations.Operators_Properties.
From Verif Require Import IntervalModel ManagerModel ManagerSpec GeomModel BoardModel BoardSpec SceneModel SceneSpec SceneProofs SceneWalkProofs SceneValidProofs SceneOnceProofs SceneColumnProofs.
Import ListNotations.
Open Scope nat_scope.

Section Things.
Context (b : board) (k : links) (sc : scene) (P : populate b k = Done sc).
Lemma things_on_board n x : stands_for sc n x -> on_board b x.
Proof. intros (nd & I & W). destruct (nodes_made _ _ _ (populate_nodes _ _ _ P)) as [_ H]. apply H. exists nd. split; [now apply nth_error_In in I|exact W]. Qed.
Lemma on_board_thing x : on_board b x -> exists n, stands_for sc n x.
Proof.
  intros O. destruct (nodes_made _ _ _ (populate_nodes _ _ _ P)) as [_ H]. apply H in O. destruct O as (nd & I & W). apply In_nth_error in I. destruct I as (i & I). exists i. now exists nd.
Qed.
Lemma wired_things m n : wired sc m n -> exists x y, stands_for sc m x /\ stands_for sc n y.
Proof.
  intros (w & I & <- & <-). apply (proj2 (populate_wires _ _ _ P)) in I. destruct I as (nd & E & _ & x & X & J). apply index_some in J. destruct J as (nm & Em & T).
  destruct (nodes_made _ _ _ (populate_nodes _ _ _ P)) as [F _]. rewrite Forall_forall in F. pose proof (F nd (nth_error_In _ _ E)) as M. unfold made in M.
  destruct (nd_what nd) as [p|a|y] eqn:Y; [rewrite M in X; destruct X..|]. exists x, y. split; [now exists nm|now exists nd].
Qed.
Lemma leads_ends m n : leads_to sc m n -> exists x y, stands_for sc m x /\ stands_for sc n y.
Proof.
  intros H. induction H as [m n W|m p n W _ (u & y & _ & Sn)]; [now apply wired_things|]. apply wired_things in W. destruct W as (x & v & Sm & _). eauto.
Qed.
Context (U : forall m n x, stands_for sc m x -> stands_for sc n x -> m = n).
Lemma one_thing n x y : stands_for sc n x -> stands_for sc n y -> x = y.
Proof. intros (nd & E & W) (nd' & E' & W'). congruence. Qed.
Lemma wired_made m n x y : stands_for sc m x -> stands_for sc n y -> wired sc m n <-> made_of b k y x.
Proof.
  intros Sm Sn. pose proof (wires_are_links _ _ _ P x y) as W. unfold made_of. split.
  - intros Q. assert (Z : exists m n, stands_for sc m x /\ stands_for sc n y /\ wired sc m n) by eauto. apply W in Z. tauto.
  - intros (A & B & C). destruct (proj2 W (conj B (conj A C))) as (m' & n' & Sm' & Sn' & Q). now rewrite (U m m' x Sm Sm'), (U n n' y Sn Sn').
Qed.
Lemma leads_descends m n x y : stands_for sc m x -> stands_for sc n y -> leads_to sc m n <-> descends_from b k y x.
Proof.
  intros Sm Sn. split.
  - intros H. apply Operators_Properties.clos_trans_t1n. revert x y Sm Sn. induction H as [m n W|m p n W H IH]; intros x y Sm Sn.
    + apply t_step. now apply (wired_made m n).
    + destruct (wired_things _ _ W) as (x' & z & _ & Sz). apply t_trans with z; [now apply IH|]. apply t_step. now apply (wired_made m p).
  - intros H. apply Operators_Properties.clos_trans_t1n. revert m n Sm Sn. induction H as [y x W|y z x W H IH]; intros m n Sm Sn.
    + apply t_step. now apply (wired_made m n x y).
    + destruct W as (O1 & O2 & C). destruct (on_board_thing z O2) as (p & Sp). apply t_trans with p; [now apply IH|]. apply t_step. now apply (wired_made p n z y).
Qed.
End Things.

Lemma board_columns b k sc : populate b k = Done sc -> NoDup (concat (map g_edges (b_polygons b))) -> (forall a, sane (on_axis (b_axes b) a)) -> solutions_sound b k ->
  exists column N, forall fuel n y, N < fuel -> stands_for sc n y ->
    (a_policy y -> policy_column fuel sc n = Done (column y)
       /\ (forall z, too_close_ones z -> made_of b k y z -> column z < column y)
       /\ (column y = 1 \/ exists z, too_close_ones z /\ made_of b k y z /\ column y = column z + 1))
    /\ (too_close_ones y -> close_column fuel sc n = Done (column y)
       /\ (forall z, a_policy z -> made_of b k y z -> column z < column y)
       /\ exists z, a_policy z /\ made_of b k y z /\ column y = column z + 1).
Proof.
  intros P D Sa So. pose proof (fun m n x => stands_once b k D sc m n x P) as U. pose proof (rank_lt b k sc P Sa So) as Rk. pose proof (some_policy b k sc P D Sa U) as Sp.
  set (rk := rank b sc) in *. set (lv := lev sc rk).
  assert (Ap : forall n, is_policy_node sc n = true -> is_close sc n = false).
  { intros n A. destruct (is_close sc n) eqn:C; [|reflexivity]. apply policy_node_spec in A. apply close_node_spec in C. destruct A as (a & i & A), C as (a' & i' & C). pose proof (one_thing sc n _ _ A C). discriminate. }
  exists (fun e => match index (sc_nodes sc) e with Some n => 1 + lv n | None => 0 end), (maxl (map rk (seq 0 (length (sc_nodes sc))))).
  assert (Col : forall n e, stands_for sc n e -> match index (sc_nodes sc) e with Some m => 1 + lv m | None => 0 end = 1 + lv n).
  { intros n e Sn. destruct (index (sc_nodes sc) e) as [m|] eqn:J.
    - apply index_some in J. assert (m = n) as -> by exact (U m n e J Sn). reflexivity.
    - destruct Sn as (nd & E & W). exfalso. apply (index_none _ _ J). exists nd. split; [now apply nth_error_In in E|exact W]. }
  intros fuel n y F Sn.
  assert (L : rk n < fuel).
  { apply Nat.le_lt_trans with (2 := F). apply maxl_le, in_map, in_seq. destruct Sn as (nd & E & _). apply nth_lt in E. lia. }
  destruct (columns sc rk Rk Ap Sp fuel n L) as [Cp Cc]. rewrite (Col n y Sn).
  assert (G : forall z, made_of b k y z -> (is_policy_node sc n = true /\ too_close_ones z) \/ (is_close sc n = true /\ a_policy z) -> 1 + match index (sc_nodes sc) z with Some m => 1 + lv m | None => 0 end <= 1 + lv n).
  { intros z M K. destruct (on_board_thing b k sc P z) as (m & Sm); [exact (proj1 (proj2 M))|]. rewrite (Col m z Sm). apply (wired_made b k sc P U m n z y Sm Sn) in M.
    assert (lv m < lv n); [|lia]. apply lev_lt; [exact Rk|]. apply input_spec in M. destruct K as [[Pn K]|[Cn K]].
    - apply preds_policy; [exact Pn|]. split; [exact M|]. apply close_node_spec. destruct z; try destruct K. eauto.
    - apply preds_close; [exact Ap|exact Cn|]. split; [exact M|]. apply policy_node_spec. destruct z; try destruct K. eauto. }
  assert (E : forall m, In m (preds sc n) -> exists z, stands_for sc m z /\ made_of b k y z /\ ((is_policy_node sc n = true /\ too_close_ones z) \/ (is_close sc n = true /\ a_policy z))).
  { intros m M. unfold preds in M. destruct (is_policy_node sc n) eqn:Pn; [|destruct (is_close sc n) eqn:Cn; [|destruct M]]; apply filter_In in M; destruct M as [M K].
    - apply close_node_spec in K. destruct K as (a & i & K). exists (EClose a i). split; [exact K|]. split; [apply input_spec in M; now apply (wired_made b k sc P U m n)|]. left. split; [reflexivity|exact I].
    - apply policy_node_spec in K. destruct K as (a & i & K). exists (EPolicy a i). split; [exact K|]. split; [apply input_spec in M; now apply (wired_made b k sc P U m n)|]. right. split; [reflexivity|exact I]. }
  split; intros K.
  - assert (Pn : is_policy_node sc n = true) by (apply policy_node_spec; destruct y; try destruct K; eauto). split; [now apply Cp|]. split; [intros z Z M; specialize (G z M (or_introl (conj Pn Z))); lia|].
    destruct (preds sc n) as [|m r] eqn:Pr; [left; unfold lv; now rewrite (lev_none sc rk Rk n Pr)|right]. destruct (lev_some sc rk Rk n) as (m' & M & Em); [congruence|].
    destruct (E m') as (z & Sz & Mz & [[_ Z]|[Cn _]]); [rewrite <- Pr; exact M| |apply Ap in Pn; congruence]. exists z. split; [exact Z|]. split; [exact Mz|]. rewrite (Col m' z Sz). unfold lv in *. lia.
  - assert (Cn : is_close sc n = true) by (apply close_node_spec; destruct y; try destruct K; eauto). split; [now apply Cc|]. split; [intros z Z M; specialize (G z M (or_intror (conj Cn Z))); lia|].
    destruct (Sp n Cn) as (q & Q). destruct (lev_some sc rk Rk n) as (m' & M & Em); [intros N; rewrite N in Q; destruct Q|].
    destruct (E m' M) as (z & Sz & Mz & [[Pn _]|[_ Z]]); [apply Ap in Pn; congruence|]. exists z. split; [exact Z|]. split; [exact Mz|]. rewrite (Col m' z Sz). unfold lv in *. lia.
Qed.
