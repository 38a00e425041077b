(** C86: the items of a container of the graph view are put in columns, in the container, and never
    one on the other; so are the containers of a scene; a node cannot be moved out of its container. *)
From Coq Require Import List Bool Arith QArith Lia Lqa.
From Verif Require Import IntervalModel GeomModel LayoutModel LayoutSpec LayoutProofs.
Import ListNotations.
Open Scope Q_scope.

(** ** Lemmas *)

Lemma fit_size s mw mh l m ys : sizes mh [] l = (m, ys) -> f_w (fit s mw mh l) = width_from mw mw m /\ f_h (fit s mw mh l) = height m.
Proof. intros Z. unfold fit. now rewrite Z. Qed.
Lemma put_at_length xs shift : forall l ys, length ys = length l -> length (put_at xs shift l ys) = length l.
Proof. induction l as [|i l IH]; intros [|y ys] E; try discriminate E; [reflexivity|]. cbn. f_equal. apply IH. cbn in E. congruence. Qed.
Lemma put_under_length xs gaps : forall l tops, length (put_under xs gaps tops l) = length l.
Proof. induction l as [|i l IH]; intros tops; [reflexivity|]. cbn. now rewrite IH. Qed.
(** Everything known of an item that is placed. *)
Lemma placed_at s mw mh l m ys n i x y : sizes mh [] l = (m, ys) -> placed l (f_at (fit s mw mh l)) n i x y -> let k := i_column i in
  exists c, find k m = Some c /\ find k (lefts mw mw m) = Some x
  /\ y == first_top mh s (height m) c + total (mine k (firstn n l)) + number (mine k (firstn n l)) * between mh s (height m) c.
Proof. intros Z [E P] k. destruct (fit_at mw mh s l m ys n i Z E) as (c & x' & y' & A & B & C & D). rewrite C in P. injection P as -> ->. exists c. now repeat split. Qed.
Lemma sized_widths mh l m ys : sized l -> sizes mh [] l = (m, ys) -> forall k c, find k m = Some c -> 0 <= k_w c.
Proof. intros H Z k c C. destruct (sizes_find _ _ _ _ _ Z) as (_ & _ & F). destruct (F k) as [_ (_ & _ & W & _)]. rewrite C in W. cbn [or_new find k_w] in W. exact W. Qed.
Lemma item_width mh l m ys k c n i : sizes mh [] l = (m, ys) -> find k m = Some c -> nth_error l n = Some i -> i_column i = k -> i_w i <= k_w c.
Proof.
  intros Z C E K. destruct (sizes_find _ _ _ _ _ Z) as (_ & _ & F). destruct (F k) as [_ (_ & _ & _ & W & _)]. rewrite C in W. apply W. apply filter_In. split; [now apply nth_error_In in E|]. now apply Nat.eqb_eq.
Qed.
Lemma later_mine k n n' (l : list item) i : nth_error l n = Some i -> i_column i = k -> (n < n')%nat -> exists r, mine k (firstn n' l) = mine k (firstn n l) ++ i :: r.
Proof.
  intros E K L. destruct (firstn_mine k n (firstn n' l) i) as [r R]; [|exact K|].
  - rewrite <- E. clear -L. revert n' l L. induction n as [|n IH]; intros [|n'] [|j l] L; try lia; try reflexivity. cbn. apply IH. lia.
  - rewrite firstn_firstn, Nat.min_l in R by lia. now exists r.
Qed.
Lemma stacked_total mh l k : stacked mh l k == total (mine k l) + number (mine k l) * mh.
Proof.
  induction l as [|i l IH]; cbn [stacked mine filter]; [change (total []) with 0; change (number []) with 0; lra|]. fold (mine k l). rewrite IH. destruct (Nat.eqb (i_column i) k); [|lra].
  rewrite number_cons. change (total (i :: mine k l)) with (i_h i + total (mine k l)). lra.
Qed.
Lemma mine_none k (l : list item) : (forall j, ~ of_column l k j) -> mine k l = [].
Proof.
  intros H. destruct (mine k l) as [|i r] eqn:E; [reflexivity|]. assert (I : In i (mine k l)) by (rewrite E; now left). apply filter_In in I as [I K]. apply In_nth_error in I as [j J]. apply Nat.eqb_eq in K.
  destruct (H j). exists i. now split.
Qed.
Lemma nth_firstn {X} : forall n j (l : list X) x, nth_error (firstn n l) j = Some x -> (j < n)%nat /\ nth_error l j = Some x.
Proof. induction n as [|n IH]; intros j l x E; [now destruct j|]. destruct l as [|y l]; [now destruct j|]. destruct j as [|j]; [cbn in *; split; [lia|exact E]|]. cbn in *. destruct (IH _ _ _ E). split; [lia|assumption]. Qed.
Lemma split_between k (l : list item) n i : nth_error l n = Some i -> i_column i = k ->
  forall n', (n < n')%nat -> (forall j, (n < j < n')%nat -> ~ of_column l k j) -> mine k (firstn n' l) = mine k (firstn n l) ++ [i].
Proof.
  intros E K n' L H. destruct (nth_error_split _ _ E) as (a & b & -> & A). rewrite !firstn_app. subst n. rewrite Nat.sub_diag, firstn_all, firstn_O, app_nil_r.
  rewrite firstn_all2 by lia. destruct (n' - length a)%nat as [|q] eqn:Q; [lia|]. cbn [firstn]. rewrite mine_app. cbn [mine filter]. rewrite K, Nat.eqb_refl. do 2 f_equal. fold (mine k (firstn q b)).
  apply mine_none. intros j (x & X & XK). apply nth_firstn in X as [J X]. apply (H (length a + S j)%nat); [lia|]. exists x. split; [|exact XK].
  rewrite nth_error_app2 by lia. replace (length a + S j - length a)%nat with (S j) by lia. exact X.
Qed.
Lemma spaced_by s mw mh l m ys k c t g b : sizes mh [] l = (m, ys) -> find k m = Some c ->
  t == first_top mh s (height m) c -> g == between mh s (height m) c ->
  first_top mh s (height m) c + total (mine k l) + (number (mine k l) - 1) * between mh s (height m) c + b == height m -> spaced l (fit s mw mh l) k t g b.
Proof.
  intros Z C T G B. destruct (fit_size s mw mh l m ys Z) as [_ FH].
  assert (P : forall n i x y, placed l (f_at (fit s mw mh l)) n i x y -> i_column i = k -> y == t + total (mine k (firstn n l)) + number (mine k (firstn n l)) * g).
  { intros n i x y H K. destruct (placed_at s mw mh l m ys n i x y Z H) as (c' & C' & _ & Y). rewrite K in *. assert (c' = c) by congruence. subst c'. rewrite T, G. exact Y. }
  split; [|split].
  - intros n i x y H K N. rewrite (P n i x y H K). replace (mine k (firstn n l)) with (@nil item); [change (total []) with 0; change (number []) with 0; lra|]. symmetry. apply mine_none. intros j (z & J & ZK).
    apply nth_firstn in J as [J J']. apply (N j J). exists z. now split.
  - intros n i x y n' i' x' y' H H' K K' L N. rewrite (P _ _ _ _ H K), (P _ _ _ _ H' K'). rewrite (split_between k l n i (proj1 H) K n' L N), total_app, number_app, number_cons. change (total [i]) with (i_h i + 0). change (number []) with 0. lra.
  - intros n i x y H K N. rewrite FH, <- B, (P _ _ _ _ H K), <- T, <- G. assert (E : mine k l = mine k (firstn n l) ++ [i]).
    { rewrite <- (firstn_all l) at 1. apply (split_between k l n i (proj1 H) K); [apply nth_error_Some; destruct H; congruence|]. intros j J. apply N. lia. }
    rewrite E, total_app, number_app, number_cons. change (total [i]) with (i_h i + 0). change (number []) with 0. lra.
Qed.
Lemma spaced_absent s mw mh l m ys k t g b : sizes mh [] l = (m, ys) -> find k m = None -> spaced l (fit s mw mh l) k t g b.
Proof.
  intros Z C. assert (P : forall n i x y, placed l (f_at (fit s mw mh l)) n i x y -> i_column i = k -> False).
  { intros n i x y H K. destruct (placed_at s mw mh l m ys n i x y Z H) as (c & C' & _). congruence. }
  split; [|split]; intros; exfalso; eauto.
Qed.

(** * C86 *)

(** Every item is put somewhere, one time. *)
Theorem C86_placed : forall s mw mh l, length (f_at (fit s mw mh l)) = length l
  /\ forall n i, nth_error l n = Some i -> exists x y, placed l (f_at (fit s mw mh l)) n i x y.
Proof.
  intros s mw mh l. destruct (sizes mh [] l) as [m ys] eqn:Z. split.
  - destruct (sizes_find _ _ _ _ _ Z) as (_ & Y & _). unfold fit. rewrite Z. cbn [f_at]. destruct s; [now apply put_at_length|now apply put_at_length|apply put_under_length|apply put_under_length].
  - intros n i E. destruct (fit_at mw mh s l m ys n i Z E) as (c & x & y & _ & _ & P & _). exists x, y. now split.
Qed.
(** It is in the container, with the margins around. *)
Theorem C86_inside : forall s mw mh l n i x y, 0 <= mw -> 0 <= mh -> sized l -> let f := fit s mw mh l in
  placed l (f_at f) n i x y -> mw <= x /\ x + i_w i + mw <= f_w f /\ mh <= y /\ y + i_h i + mh <= f_h f.
Proof.
  intros s mw mh l n i x y Mw Mh H f P. subst f. destruct (sizes mh [] l) as [m ys] eqn:Z. destruct (fit_size s mw mh l m ys Z) as [-> ->].
  destruct (placed_at s mw mh l m ys n i x y Z P) as (c & C & X & Y). destruct (sizes_find _ _ _ _ _ Z) as (D & _ & _). specialize (D I).
  destruct (lefts_range mw mh Mw m mw (sized_widths mh l m ys H Z) D _ _ X) as [X1 X2]. rewrite C in X2. cbn [or_new] in X2. pose proof (item_width mh l m ys _ c n i Z C (proj1 P) eq_refl) as W.
  destruct (gaps_ok mh s l m ys _ c Z C) as (S1 & G1 & B). destruct (firstn_mine (i_column i) n l i (proj1 P) eq_refl) as [r R]. set (k := i_column i) in *.
  assert (Hr : sized r). { intros j J. apply (mine_sized k l H j). rewrite R. apply in_or_app. right. now right. }
  rewrite R, total_app, number_app, number_cons in B. change (total (i :: r)) with (i_h i + total r) in B.
  set (G := between mh s (height m) c) in *. set (T := total (mine k (firstn n l))) in *. set (N := number (mine k (firstn n l))) in *. assert (0 <= N * G) by (apply Qmult_le_0_compat; [apply number_pos|lra]).
  assert (0 <= number r * G) by (apply Qmult_le_0_compat; [apply number_pos|lra]). pose proof (total_pos r Hr). assert (0 <= T). { apply total_pos. intros j J. apply (mine_sized k l H j). rewrite R. apply in_or_app. now left. }
  split; [lra|]. split; [lra|]. split; lra.
Qed.
(** Items of a column are one under the other, in their order; columns are one right of the other, in
    their order. *)
Theorem C86_under : forall s mw mh l n i x y n' i' x' y', 0 <= mw -> 0 <= mh -> sized l -> let f := fit s mw mh l in
  placed l (f_at f) n i x y -> placed l (f_at f) n' i' x' y' -> i_column i = i_column i' -> (n < n')%nat -> x' = x /\ y + i_h i + mh <= y'.
Proof.
  intros s mw mh l n i x y n' i' x' y' Mw Mh H f P P' K L. subst f. destruct (sizes mh [] l) as [m ys] eqn:Z.
  destruct (placed_at s mw mh l m ys n i x y Z P) as (c & C & X & Y). destruct (placed_at s mw mh l m ys n' i' x' y' Z P') as (c' & C' & X' & Y'). rewrite <- K in *. assert (c' = c) by congruence. subst c'. split; [congruence|].
  destruct (gaps_ok mh s l m ys _ c Z C) as (S1 & G1 & _). destruct (later_mine (i_column i) n n' l i (proj1 P) eq_refl L) as [r R]. set (k := i_column i) in *.
  assert (Hr : sized r). { intros j J. assert (I : In j (mine k (firstn n' l))) by (rewrite R; apply in_or_app; right; now right). apply filter_In in I as [I _]. apply H. rewrite <- (firstn_skipn n' l). apply in_or_app. now left. }
  rewrite R, total_app, number_app, number_cons in Y'. change (total (i :: r)) with (i_h i + total r) in Y'. set (G := between mh s (height m) c) in *.
  assert (0 <= number r * G) by (apply Qmult_le_0_compat; [apply number_pos|lra]). pose proof (total_pos r Hr). lra.
Qed.
Theorem C86_beside : forall s mw mh l n i x y n' i' x' y', 0 <= mw -> sized l -> let f := fit s mw mh l in
  placed l (f_at f) n i x y -> placed l (f_at f) n' i' x' y' -> (i_column i < i_column i')%nat -> x + i_w i + mw <= x'.
Proof.
  intros s mw mh l n i x y n' i' x' y' Mw H f P P' L. subst f. destruct (sizes mh [] l) as [m ys] eqn:Z.
  destruct (placed_at s mw mh l m ys n i x y Z P) as (c & C & X & _). destruct (placed_at s mw mh l m ys n' i' x' y' Z P') as (c' & C' & X' & _).
  destruct (sizes_find _ _ _ _ _ Z) as (D & _ & _). pose proof (lefts_order mw mh Mw m mw (sized_widths mh l m ys H Z) (D I) _ _ _ _ L X X') as O. rewrite C in O. cbn [or_new] in O.
  pose proof (item_width mh l m ys _ c n i Z C (proj1 P) eq_refl). lra.
Qed.
(** The container is no larger than that takes. *)
Theorem C86_empty : forall s mw mh, f_w (fit s mw mh []) = 0 /\ f_h (fit s mw mh []) = 0.
Proof. intros [] mw mh; now split. Qed.
Lemma widest_item mh l m ys k c : sized l -> sizes mh [] l = (m, ys) -> find k m = Some c -> exists n i, nth_error l n = Some i /\ i_column i = k /\ i_w i == k_w c.
Proof.
  intros H Z C. destruct (summed_total mh l m ys k c Z C) as (_ & _ & N & _). destruct (sizes_find _ _ _ _ _ Z) as (_ & _ & F). destruct (F k) as [_ (_ & _ & _ & W & V)]. rewrite C in W, V. cbn [or_new find k_w] in W, V.
  assert (A : exists i, In i (mine k l) /\ i_w i == k_w c).
  { destruct V as [V|(i & I & V)]; [|exists i; split; [exact I|rewrite V; reflexivity]]. destruct (mine k l) as [|i r] eqn:E; [cbn in N; lia|]. exists i. split; [now left|]. pose proof (W i (or_introl eq_refl)) as W'.
    destruct (mine_sized k l H i) as [W0 _]; [rewrite E; now left|]. rewrite V in *. lra. }
  destruct A as (i & I & A). apply filter_In in I as [I K]. apply Nat.eqb_eq in K. apply In_nth_error in I as [n E]. now exists n, i.
Qed.
Theorem C86_width : forall s mw mh l, sized l -> l <> [] -> let f := fit s mw mh l in
  (exists n i x y, placed l (f_at f) n i x y /\ x + i_w i + mw == f_w f)
  /\ forall n i x y, placed l (f_at f) n i x y -> x = mw \/ exists n' i' x' y', placed l (f_at f) n' i' x' y' /\ x == x' + i_w i' + mw.
Proof.
  intros s mw mh l H N f. subst f. destruct (sizes mh [] l) as [m ys] eqn:Z. destruct (fit_size s mw mh l m ys Z) as [-> _]. destruct (sizes_find _ _ _ _ _ Z) as (D & _ & F). specialize (D I).
  assert (A : forall k a c, find k (lefts mw mw m) = Some a -> find k m = Some c -> exists n i y, placed l (f_at (fit s mw mh l)) n i a y /\ i_w i == k_w c).
  { intros k a c A C. destruct (widest_item mh l m ys k c H Z C) as (n & i & E & K & W). destruct (fit_at mw mh s l m ys n i Z E) as (c' & x & y & C' & X & P & _). rewrite K in *. assert (x = a) by congruence. subst x. exists n, i, y. now repeat split. }
  split.
  - destruct (width_tight mw m mw D) as (k & a & c & X & C & W).
    + intros ->. destruct l as [|i l]; [congruence|]. destruct (fit_at mw mh s (i :: l) [] ys 0 i Z eq_refl) as (c & _ & _ & C & _). discriminate C.
    + destruct (A k a c X C) as (n & i & y & P & V). exists n, i, a, y. split; [exact P|]. rewrite W, V. reflexivity.
  - intros n i x y P. destruct (placed_at s mw mh l m ys n i x y Z P) as (c & C & X & _). destruct (lefts_tight mw m mw _ _ D X) as [->|(k' & a' & c' & A' & C' & E)]; [now left|right].
    destruct (A k' a' c' A' C') as (n' & i' & y' & P' & V). exists n', i', a', y'. split; [exact P'|]. rewrite V, E. reflexivity.
Qed.
Theorem C86_height : forall s mw mh l, 0 <= mh -> sized l -> l <> [] -> let f := fit s mw mh l in
  (forall k n, of_column l k n -> mh + stacked mh l k <= f_h f) /\ exists k n, of_column l k n /\ f_h f == mh + stacked mh l k.
Proof.
  intros s mw mh l Mh H N f. subst f. destruct (sizes mh [] l) as [m ys] eqn:Z. destruct (fit_size s mw mh l m ys Z) as [_ ->]. destruct (height_step m 0) as (A & B & C). destruct (sizes_find _ _ _ _ _ Z) as (D & _ & F). specialize (C (D I)).
  assert (U : forall k n, of_column l k n -> exists c, find k m = Some c /\ k_h c == mh + stacked mh l k).
  { intros k n (i & E & <-). destruct (fit_at mw mh s l m ys n i Z E) as (c & _ & _ & Fc & _). exists c. split; [exact Fc|]. destruct (summed_total mh l m ys _ c Z Fc) as (K & _). rewrite K, stacked_total. lra. }
  split.
  - intros k n O. destruct (U k n O) as (c & Fc & E). rewrite <- E. exact (B k c Fc).
  - change (height m = 0 \/ exists k c, find k m = Some c /\ height m = k_h c) in C. change (forall k c, find k m = Some c -> k_h c <= height m) in B. destruct C as [C|(k & c & Fc & C)].
    + destruct l as [|i l]; [congruence|]. assert (O : of_column (i :: l) (i_column i) 0) by (exists i; now split). exists (i_column i), 0%nat. split; [exact O|]. destruct (U _ _ O) as (c & Fc & E). apply B in Fc. rewrite C in Fc. rewrite C.
      rewrite stacked_total in *. pose proof (total_pos _ (mine_sized (i_column i) _ H)). assert (0 <= number (mine (i_column i) (i :: l)) * mh) by (apply Qmult_le_0_compat; [apply number_pos|exact Mh]). lra.
    + destruct (widest_item mh l m ys k c H Z Fc) as (n & i & E & K & _). assert (O : of_column l k n) by (exists i; now split). exists k, n. split; [exact O|]. destruct (U _ _ O) as (c' & Fc' & E'). assert (c' = c) by congruence. subst c'. rewrite C. exact E'.
Qed.

(** What each way of spacing does in a column. *)
Theorem C86_up : forall mw mh l k, 0 <= mh -> exists b, mh <= b /\ spaced l (fit PACKED_UP mw mh l) k mh mh b.
Proof.
  intros mw mh l k Mh. destruct (sizes mh [] l) as [m ys] eqn:Z. destruct (find k m) as [c|] eqn:C; [|exists mh; split; [lra|now apply (spaced_absent PACKED_UP mw mh l m ys)]].
  destruct (gaps_ok mh PACKED_UP l m ys k c Z C) as (_ & _ & B). set (t := first_top mh PACKED_UP (height m) c + total (mine k l) + (number (mine k l) - 1) * between mh PACKED_UP (height m) c) in *.
  exists (height m - t). split; [lra|]. apply (spaced_by PACKED_UP mw mh l m ys k c); [exact Z|exact C|reflexivity|reflexivity|]. fold t. lra.
Qed.
Theorem C86_down : forall mw mh l k, 0 <= mh -> exists t, mh <= t /\ spaced l (fit PACKED_DOWN mw mh l) k t mh mh.
Proof.
  intros mw mh l k Mh. destruct (sizes mh [] l) as [m ys] eqn:Z. destruct (find k m) as [c|] eqn:C; [|exists mh; split; [lra|now apply (spaced_absent PACKED_DOWN mw mh l m ys)]].
  destruct (gaps_ok mh PACKED_DOWN l m ys k c Z C) as (A & _ & _). exists (first_top mh PACKED_DOWN (height m) c). split; [exact A|]. apply (spaced_by PACKED_DOWN mw mh l m ys k c); [exact Z|exact C|reflexivity|reflexivity|].
  destruct (summed_total mh l m ys k c Z C) as (E & _). unfold first_top, between. cbn [gap]. rewrite E. lra.
Qed.
Theorem C86_max : forall mw mh l k, 0 <= mh -> exists g b, mh <= g /\ mh <= b /\ spaced l (fit UNPACKED_MAX mw mh l) k mh g b
  /\ ((exists n n', (n < n')%nat /\ of_column l k n /\ of_column l k n') -> b == mh).
Proof.
  intros mw mh l k Mh. destruct (sizes mh [] l) as [m ys] eqn:Z. destruct (find k m) as [c|] eqn:C; [|exists mh, mh; split; [lra|split; [lra|split; [now apply (spaced_absent UNPACKED_MAX mw mh l m ys)|reflexivity]]]].
  destruct (gaps_ok mh UNPACKED_MAX l m ys k c Z C) as (_ & A & B). set (t := first_top mh UNPACKED_MAX (height m) c + total (mine k l) + (number (mine k l) - 1) * between mh UNPACKED_MAX (height m) c) in *.
  exists (between mh UNPACKED_MAX (height m) c), (height m - t). split; [exact A|]. split; [lra|]. split.
  - apply (spaced_by UNPACKED_MAX mw mh l m ys k c); [exact Z|exact C|reflexivity|reflexivity|]. fold t. lra.
  - intros (n & n' & L & (i & E & K) & (i' & E' & K')). destruct (summed_total mh l m ys k c Z C) as (_ & N & _ & T). destruct (later_mine k n n' l i E K L) as [r R]. destruct (firstn_mine k n' l i' E' K') as [r' R'].
    assert (N2 : (2 <= k_n c)%nat) by (rewrite N, R', R, !app_length; cbn; lia). unfold t, first_top, between. cbn [gap]. destruct (Nat.eqb_spec (k_n c) 1) as [O|O]; [lia|]. rewrite N. fold (number (mine k l)).
    assert (Q : 1 < number (mine k l)) by (unfold number; change 1 with (inject_Z 1); rewrite <- Zlt_Qlt; lia). rewrite T. field. lra.
Qed.
Theorem C86_regular : forall mw mh l k, 0 <= mh -> exists g, mh <= g /\ spaced l (fit UNPACKED_REGULAR mw mh l) k g g g.
Proof.
  intros mw mh l k Mh. destruct (sizes mh [] l) as [m ys] eqn:Z. destruct (find k m) as [c|] eqn:C; [|exists mh; split; [lra|now apply (spaced_absent UNPACKED_REGULAR mw mh l m ys)]].
  destruct (gaps_ok mh UNPACKED_REGULAR l m ys k c Z C) as (_ & A & _). exists (between mh UNPACKED_REGULAR (height m) c). split; [exact A|]. apply (spaced_by UNPACKED_REGULAR mw mh l m ys k c); [exact Z|exact C|reflexivity|reflexivity|].
  destruct (summed_total mh l m ys k c Z C) as (_ & N & L & T). unfold first_top, between. cbn [gap]. rewrite N. fold (number (mine k l)). assert (Q : 0 < number (mine k l)) by (unfold number; change 0 with (inject_Z 0); rewrite <- Zlt_Qlt; lia). rewrite T. field. lra.
Qed.

(** ** Moves *)

Lemma side_in a b x : a <= b -> side_contains a b x = true -> a <= x <= b.
Proof.
  intros L H. unfold side_contains in H. destruct (qltb_case b a) as [[_ M]|[E _]]; [lra|]. rewrite E in H. apply andb_prop in H as [H H2]. apply andb_prop in H as [_ H1]. split; now apply Qle_bool_iff.
Qed.
(** A node that is not larger than what contains it stays in there, wherever it is sent; and it goes
    where it is sent if it fits. *)
Theorem C86_held : forall r w h p, w <= r_right r - r_left r -> h <= r_bottom r - r_top r -> within r w h (moved r w h p).
Proof.
  intros r w h [x y] W H. unfold moved. destruct (contains _ _) eqn:E.
  - apply andb_prop in E as [E1 E2]. cbn in E1, E2. apply side_in in E1; [|lra]. apply side_in in E2; [|lra]. unfold within. cbn. lra.
  - unfold within. cbn [r_left r_top r_right r_bottom fst snd]. destruct (qmax_case x (r_left r)) as [[-> ?]|[-> ?]], (qmax_case y (r_top r)) as [[-> ?]|[-> ?]];
    repeat match goal with |- context [qmin ?a ?b] => destruct (qmin_case a b) as [[-> ?]|[-> ?]] end; lra.
Qed.
Theorem C86_free : forall r w h p, within r w h p -> fst (moved r w h p) == fst p /\ snd (moved r w h p) == snd p.
Proof.
  intros r w h [x y] (A & B & C & D). cbn in A, B, C, D. unfold moved. destruct (contains _ _); [split; reflexivity|]. cbn [r_left r_top r_right r_bottom fst snd].
  destruct (qmax_case x (r_left r)) as [[-> ?]|[-> ?]], (qmax_case y (r_top r)) as [[-> ?]|[-> ?]];
    repeat match goal with |- context [qmin ?a ?b] => destruct (qmin_case a b) as [[-> ?]|[-> ?]] end; lra.
Qed.
(** One that is larger goes where it is sent if that leaves no side of the parent uncovered; otherwise its
    right and lower sides are put on those of the parent. *)
Theorem C86_larger : forall r w h p, r_right r - r_left r < w -> r_bottom r - r_top r < h -> let q := moved r w h p in
  (fst p <= r_left r /\ r_right r <= fst p + w /\ snd p <= r_top r /\ r_bottom r <= snd p + h -> q = p)
  /\ (q <> p -> fst q + w == r_right r /\ snd q + h == r_bottom r).
Proof.
  intros r w h [x y] W H. cbn [fst snd]. unfold moved. destruct (contains _ _) eqn:E; [split; [reflexivity|congruence]|]. cbn [r_left r_top r_right r_bottom fst snd] in *. split.
  - intros (A & B & C & D). exfalso. unfold contains, side_contains in E. cbn [r_left r_top r_right r_bottom fst snd] in E.
    destruct (qltb_case (r_right r - w) (r_left r)) as [[Q1 L1]|[_ L1]]; [|lra]. destruct (qltb_case (r_bottom r - h) (r_top r)) as [[Q2 L2]|[_ L2]]; [|lra]. rewrite Q1, Q2 in E.
    assert (F : forall a b, a <= b -> Qle_bool a b = true) by (intros; now apply Qle_bool_iff). rewrite !F in E by lra.
    assert (G : forall a b, b < a -> Qeq_bool a b = false) by (intros a b L; destruct (Qeq_bool a b) eqn:K; [apply Qeq_bool_iff in K; lra|reflexivity]). rewrite !G in E by lra. discriminate E.
  - intros _. destruct (qmax_case x (r_left r)) as [[-> ?]|[-> ?]], (qmax_case y (r_top r)) as [[-> ?]|[-> ?]];
    repeat match goal with |- context [qmin ?a ?b] => destruct (qmin_case a b) as [[-> ?]|[-> ?]] end; lra.
Qed.
(** So the items go where the container puts them, [e] being what its pen adds around it. *)
Theorem C86_kept : forall s mw mh l n i x y e, 0 <= mw -> 0 <= mh -> 0 <= e -> sized l -> let f := fit s mw mh l in
  placed l (f_at f) n i x y -> let p := moved (mkRect (- e) (- e) (f_w f + e) (f_h f + e)) (i_w i) (i_h i) (x, y) in fst p == x /\ snd p == y.
Proof.
  intros s mw mh l n i x y e Mw Mh E H f P. destruct (C86_inside s mw mh l n i x y Mw Mh H P) as (A & B & C & D). apply C86_free. unfold within. cbn [r_left r_top r_right r_bottom fst snd]. fold f in B, D. lra.
Qed.

(** ** Scenes *)

Lemma stack_nth : forall l x y n b a c, (forall b, In b l -> 0 <= b_h b) -> shown_at l (stack x y l) n b a c -> a = x /\ y <= c /\ b_shown b = true.
Proof.
  induction l as [|b l IH]; intros x y n b' a c H [E F]; [now destruct n|]. assert (H' : forall b, In b l -> 0 <= b_h b) by (intros; apply H; now right). specialize (H b (or_introl eq_refl)). cbn in F. destruct (b_shown b) eqn:B; destruct n as [|n]; cbn in E, F.
  - injection E as <-. injection F as <- <-. repeat split; [lra|exact B].
  - destruct (IH _ _ n b' a c H' (conj E F)) as (A & C & D). repeat split; [exact A|lra|exact D].
  - discriminate F.
  - destruct (IH _ _ n b' a c H' (conj E F)) as (A & C & D). repeat split; [exact A|lra|exact D].
Qed.
Lemma stack_order : forall l x y n b a c n' b' a' c', (forall b, In b l -> 0 <= b_h b) -> shown_at l (stack x y l) n b a c -> shown_at l (stack x y l) n' b' a' c' -> (n < n')%nat -> c + b_h b + 100 <= c'.
Proof.
  induction l as [|b l IH]; intros x y n b1 a c n' b' a' c' H [E F] [E' F'] L; [now destruct n|]. assert (H' : forall b, In b l -> 0 <= b_h b) by (intros; apply H; now right). destruct n' as [|n']; [lia|]. cbn in E', F, F'. destruct (b_shown b) eqn:B; destruct n as [|n]; cbn in E, F, F'.
  - injection E as <-. injection F as <- <-. destruct (stack_nth l x _ n' b' a' c' H' (conj E' F')) as (_ & G & _). lra.
  - apply (IH _ _ n b1 a c n' b' a' c' H' (conj E F) (conj E' F')). lia.
  - discriminate F.
  - apply (IH _ _ n b1 a c n' b' a' c' H' (conj E F) (conj E' F')). lia.
Qed.
Lemma widest_all : forall l w, w <= fold_left (fun n b => if b_shown b then qmax n (b_w b) else n) l w
  /\ forall b, In b l -> b_shown b = true -> b_w b <= fold_left (fun n b => if b_shown b then qmax n (b_w b) else n) l w.
Proof.
  induction l as [|b l IH]; intros w; cbn [fold_left]; [split; [lra|easy]|]. destruct (IH (if b_shown b then qmax w (b_w b) else w)) as [A B].
  assert (Q : w <= (if b_shown b then qmax w (b_w b) else w) /\ (b_shown b = true -> b_w b <= (if b_shown b then qmax w (b_w b) else w))).
  { destruct (b_shown b); [|split; [lra|discriminate]]. destruct (qmax_case w (b_w b)) as [[-> ?]|[-> ?]]; split; intros; lra. }
  destruct Q as [Q1 Q2]. split; [lra|]. intros b' [<-|J] S; [specialize (Q2 S); lra|now apply B].
Qed.
(** Planes and axes that are shown are all put somewhere, those hidden are not; planes are one under the other,
    so are axes, and axes are right of all planes. *)
Theorem C86_scene : forall planes axes, (forall b, In b (planes ++ axes) -> 0 <= b_h b) -> let (ps, xs) := fit_scene planes axes in
  (forall n b x y n' b' x' y', shown_at planes ps n b x y -> shown_at planes ps n' b' x' y' -> (n < n')%nat -> y + b_h b + 100 <= y')
  /\ (forall n b x y n' b' x' y', shown_at axes xs n b x y -> shown_at axes xs n' b' x' y' -> (n < n')%nat -> y + b_h b + 100 <= y')
  /\ (forall n b x y n' b' x' y', shown_at planes ps n b x y -> shown_at axes xs n' b' x' y' -> x + b_w b + 1000 <= x').
Proof.
  intros planes axes H. cbn. assert (HP : forall b, In b planes -> 0 <= b_h b) by (intros; apply H, in_or_app; now left). assert (HA : forall b, In b axes -> 0 <= b_h b) by (intros; apply H, in_or_app; now right). split; [|split].
  - intros n b x y n' b' x' y' P P' L. exact (stack_order _ _ _ _ _ _ _ _ _ _ _ HP P P' L).
  - intros n b x y n' b' x' y' P P' L. exact (stack_order _ _ _ _ _ _ _ _ _ _ _ HA P P' L).
  - intros n b x y n' b' x' y' P P'. destruct (stack_nth _ _ _ _ _ _ _ HP P) as (-> & _ & S). destruct (stack_nth _ _ _ _ _ _ _ HA P') as (-> & _ & _). unfold widest.
    pose proof (proj2 (widest_all planes 0) b (nth_error_In _ _ (proj1 P)) S). lra.
Qed.
Theorem C86_shown : forall planes axes n b, let (ps, xs) := fit_scene planes axes in
  (nth_error planes n = Some b -> b_shown b = true <-> exists x y, nth_error ps n = Some (Some (x, y)))
  /\ (nth_error axes n = Some b -> b_shown b = true <-> exists x y, nth_error xs n = Some (Some (x, y))).
Proof.
  intros planes axes n b. cbn. assert (A : forall l n x y, nth_error l n = Some b -> b_shown b = true <-> exists a c, nth_error (stack x y l) n = Some (Some (a, c))).
  { induction l as [|q l IH]; intros k x y E; [now destruct k|]. cbn [stack]. destruct k as [|k]; cbn in E.
    - injection E as ->. destruct (b_shown b); cbn; split; [intros _; now exists x, y|reflexivity|discriminate|intros (a & c & [=])].
    - destruct (b_shown q); apply IH; exact E. }
  split; apply A.
Qed.

(** Hidden ones leave no room: the others are put where they would be without these. *)
Theorem C86_hidden : forall planes axes, let (ps, xs) := fit_scene planes axes in
  fit_scene (filter b_shown planes) (filter b_shown axes) = (filter (fun p => match p with Some _ => true | None => false end) ps, filter (fun p => match p with Some _ => true | None => false end) xs).
Proof.
  intros planes axes. unfold fit_scene. assert (A : forall l x y, stack x y (filter b_shown l) = filter (fun p => match p with Some _ => true | None => false end) (stack x y l)).
  { induction l as [|b l IH]; intros x y; cbn [stack filter]; [reflexivity|]. destruct (b_shown b) eqn:B; cbn [stack filter]; [rewrite B, IH; reflexivity|apply IH]. }
  assert (W : forall l w, fold_left (fun n b => if b_shown b then qmax n (b_w b) else n) (filter b_shown l) w = fold_left (fun n b => if b_shown b then qmax n (b_w b) else n) l w).
  { induction l as [|b l IH]; intros w; cbn [filter fold_left]; [reflexivity|]. destruct (b_shown b) eqn:B; cbn [fold_left]; [rewrite B|]; apply IH. }
  unfold widest. now rewrite W, !A.
Qed.

(** ** A container *)

(** Two items in the first column and one, taller, in another. *)
Definition some_items : list item := [mkItem 0 40 20; mkItem 7 30 100; mkItem 0 60 20].
Example C86_example : sized some_items /\ let f := fit UNPACKED_REGULAR 50 10 some_items in
  f_w f == 240 /\ f_h f == 120 /\ (exists x y, placed some_items (f_at f) 2 (mkItem 0 60 20) x y /\ x == 50 /\ y == 220 # 3) /\ exists x y, placed some_items (f_at f) 1 (mkItem 7 30 100) x y /\ x == 160 /\ y == 10.
Proof.
  split; [intros i [<-|[<-|[<-|[]]]]; cbn; lra|]. cbv zeta. split; [reflexivity|]. split; [reflexivity|]. split; eexists _, _; split; try (split; reflexivity); split; reflexivity.
Qed.
Example C86_one_each : exists x y, placed some_items (f_at (fit UNPACKED_MAX 50 10 some_items)) 1 (mkItem 7 30 100) x y /\ y == 10 /\ gap UNPACKED_MAX 10 120 (mkCol 30 120 1) = None.
Proof. eexists _, _. split; [split; reflexivity|]. split; reflexivity. Qed.
Example C86_scene_example : fit_scene [mkBox true 300 200; mkBox false 900 50; mkBox true 400 100] [mkBox true 10 10] = ([Some (0, 0); None; Some (0, 0 + (200 + 100))], [Some (400 + 1000, 0)]).
Proof. reflexivity. Qed.
Example C86_held_example : moved (mkRect 0 0 100 100) 30 30 (200, - (5)) = (100 - 30, 0).
Proof. reflexivity. Qed.

Example C86_larger_example : moved (mkRect 0 0 100 100) 130 130 (- (5), - (30)) = (- (5), - (30)) /\ moved (mkRect 0 0 100 100) 130 130 (5, - (30)) = (100 - 130, 100 - 130).
Proof. split; reflexivity. Qed.

Print Assumptions C86_hidden.
Print Assumptions C86_larger.
Print Assumptions C86_placed.
Print Assumptions C86_inside.
Print Assumptions C86_under.
Print Assumptions C86_beside.
Print Assumptions C86_empty.
Print Assumptions C86_width.
Print Assumptions C86_height.
Print Assumptions C86_up.
Print Assumptions C86_down.
Print Assumptions C86_max.
Print Assumptions C86_regular.
Print Assumptions C86_held.
Print Assumptions C86_free.
Print Assumptions C86_kept.
Print Assumptions C86_scene.
Print Assumptions C86_shown.
