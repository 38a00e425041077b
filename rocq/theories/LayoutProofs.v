(** The layout of a container. *)
From Coq Require Import List Bool Arith QArith Lia Lqa.
From Verif Require Import IntervalModel GeomModel LayoutModel LayoutSpec.
Import ListNotations.
Open Scope Q_scope.

Lemma qltb_case a b : (Qltb a b = true /\ a < b) \/ (Qltb a b = false /\ b <= a).
Proof.
  unfold Qltb. destruct (Qle_bool b a) eqn:E; cbn; [right|left]; (split; [reflexivity|]).
  - now apply Qle_bool_iff.
  - apply Qnot_le_lt. intros L. apply Qle_bool_iff in L. congruence.
Qed.
Lemma qmax_case a b : (qmax a b = b /\ a < b) \/ (qmax a b = a /\ b <= a).
Proof. unfold qmax. destruct (qltb_case a b) as [[-> L]|[-> L]]; [now left|now right]. Qed.
Lemma qmin_case a b : (qmin a b = b /\ b < a) \/ (qmin a b = a /\ a <= b).
Proof. unfold qmin. destruct (qltb_case b a) as [[-> L]|[-> L]]; [now left|now right]. Qed.

(** ** Maps *)

Lemma find_put {X} k (x : X) m j : find j (put k x m) = if Nat.eqb k j then Some x else find j m.
Proof.
  induction m as [|[i y] m IH]; cbn [put find]; [reflexivity|]. destruct (Nat.eqb i k) eqn:E; cbn [put find].
  - apply Nat.eqb_eq in E. subst i. now destruct (Nat.eqb k j).
  - destruct (Nat.ltb k i); cbn [find]; [reflexivity|]. rewrite IH. destruct (Nat.eqb i j) eqn:F; [|reflexivity].
    apply Nat.eqb_eq in F. subst j. apply Nat.eqb_neq in E. destruct (Nat.eqb_spec k i); congruence.
Qed.
Fixpoint increasing {X} (m : list (nat * X)) : Prop :=
  match m with [] => True | (k, _) :: r => (forall j x, find j r = Some x -> (k < j)%nat) /\ increasing r end.
Lemma increasing_put {X} k (x : X) m : increasing m -> increasing (put k x m).
Proof.
  induction m as [|[i y] m IH]; intros H; [cbn; split; [easy|exact I]|]. cbn [put]. destruct (Nat.eqb_spec i k) as [E|E].
  - subst i. exact H.
  - destruct (Nat.ltb_spec k i) as [L|L].
    + split; [|exact H]. intros j z. cbn. destruct (Nat.eqb_spec i j) as [F|F]; [intros _; lia|]. intros J. apply (proj1 H) in J. lia.
    + destruct H as [H1 H2]. split; [|now apply IH]. intros j z. rewrite find_put. destruct (Nat.eqb_spec k j); [intros _; lia|apply H1].
Qed.

(** ** Sizes *)

Section Layout.
Context (mw mh : Q) (mw_pos : 0 <= mw) (mh_pos : 0 <= mh).

Definition mine (k : nat) (l : list item) : list item := filter (fun i => Nat.eqb (i_column i) k) l.
Definition total (l : list item) : Q := fold_right (fun i t => i_h i + t) 0 l.
Definition number (l : list item) : Q := inject_Z (Z.of_nat (length l)).
Lemma number_cons i l : number (i :: l) == 1 + number l.
Proof. unfold number. cbn [length]. rewrite Nat2Z.inj_succ, <- Z.add_1_l, inject_Z_plus. reflexivity. Qed.
Lemma number_app l l' : number (l ++ l') == number l + number l'.
Proof. unfold number. rewrite app_length, Nat2Z.inj_add, inject_Z_plus. reflexivity. Qed.
Lemma number_pos l : 0 <= number l.
Proof. unfold number. change 0 with (inject_Z 0). rewrite <- Zle_Qle. lia. Qed.
Lemma total_app l l' : total (l ++ l') == total l + total l'.
Proof. unfold total. induction l as [|i l IH]; cbn [app fold_right]; [lra|]. rewrite IH. lra. Qed.
Lemma total_pos l : sized l -> 0 <= total l.
Proof. induction l as [|i l IH]; intros H; [unfold total; cbn [fold_right]; lra|]. change (total (i :: l)) with (i_h i + total l). assert (0 <= total l) by (apply IH; intros j J; apply H; now right). destruct (H i (or_introl eq_refl)). lra. Qed.
Lemma mine_app k l l' : mine k (l ++ l') = mine k l ++ mine k l'.
Proof. apply filter_app. Qed.
Lemma mine_sized k l : sized l -> sized (mine k l).
Proof. intros H i I. apply filter_In in I as [I _]. now apply H. Qed.

Definition or_new (c : option col) : col := match c with Some c => c | None => mkCol 0 mh 0 end.
(** What a column has become. *)
Definition grown (c c' : col) (l : list item) : Prop :=
  k_h c' == k_h c + total l + number l * mh /\ k_n c' = (k_n c + length l)%nat
  /\ k_w c <= k_w c' /\ (forall i, In i l -> i_w i <= k_w c') /\ (k_w c' = k_w c \/ exists i, In i l /\ k_w c' = i_w i).
Lemma grown_refl c : grown c c [].
Proof.
  split; [|split; [|split; [|split]]].
  - change (total []) with 0. change (number []) with 0. lra.
  - cbn. lia.
  - lra.
  - easy.
  - now left.
Qed.
Lemma sizes_find : forall l m m' ys, sizes mh m l = (m', ys) -> (increasing m -> increasing m') /\ length ys = length l
  /\ forall k, (find k m' = None <-> find k m = None /\ mine k l = []) /\ grown (or_new (find k m)) (or_new (find k m')) (mine k l).
Proof.
  induction l as [|i l IH]; intros m m' ys E; cbn in E.
  - injection E as <- <-. split; [easy|]. split; [reflexivity|]. intros k. split; [tauto|apply grown_refl].
  - destruct (sizes mh _ l) as [m2 ys2] eqn:F in E. injection E as <- <-. destruct (IH _ _ _ F) as (I1 & I2 & I3). clear IH F. split; [intros H; apply I1, increasing_put, H|]. split; [cbn; congruence|].
    intros k. destruct (I3 k) as [A B]. rewrite find_put in A, B. cbn [mine filter]. fold (mine k l). destruct (Nat.eqb_spec (i_column i) k) as [C|C].
    + subst k. split.
      * split; [intros N; apply A in N as [N _]; discriminate N|intros [_ N]; discriminate N].
      * destruct (find (i_column i) m) as [c|]; cbn [or_new] in *.
        -- destruct B as (B1 & B2 & B3 & B4 & B5). unfold grown. cbn [k_h k_n k_w] in *. pose proof (number_cons i (mine (i_column i) l)) as N. destruct (qmax_case (k_w c) (i_w i)) as [[W W']|[W W']]; rewrite W in *;
           (split; [rewrite B1; cbn [total fold_right]; fold (total (mine (i_column i) l)); rewrite N; lra|]; split; [cbn [length]; lia|]; split; [lra|]; split; [intros j [<-|J]; [lra|now apply B4]|]);
           (destruct B5 as [B5|(j & J & B5)]; [|right; exists j; split; [now right|exact B5]]).
           ++ right. exists i. split; [now left|exact B5].
           ++ now left.
        -- destruct B as (B1 & B2 & B3 & B4 & B5). unfold grown. cbn [k_h k_n k_w] in *. pose proof (number_cons i (mine (i_column i) l)) as N. destruct (qmax_case 0 (i_w i)) as [[W W']|[W W']]; rewrite W in *;
           (split; [rewrite B1; cbn [total fold_right]; fold (total (mine (i_column i) l)); rewrite N; lra|]; split; [cbn [length]; lia|]; split; [lra|]; split; [intros j [<-|J]; [lra|now apply B4]|]);
           (destruct B5 as [B5|(j & J & B5)]; [|right; exists j; split; [now right|exact B5]]).
           ++ right. exists i. split; [now left|exact B5].
           ++ now left.
    + split; [exact A|exact B].
Qed.
Lemma sizes_ys : forall l m m' ys n i y, sizes mh m l = (m', ys) -> nth_error l n = Some i -> nth_error ys n = Some y ->
  let k := i_column i in y == k_h (or_new (find k m)) + total (mine k (firstn n l)) + number (mine k (firstn n l)) * mh.
Proof.
  induction l as [|i l IH]; intros m m' ys n j y E I Y; [now destruct n|]. cbn in E. destruct (sizes mh _ l) as [m2 ys2] eqn:F in E. injection E as <- <-. destruct n as [|n].
  - cbn in I, Y. injection I as <-. injection Y as <-. cbn [firstn mine filter]. change (total []) with 0. change (number []) with 0. transitivity (k_h (or_new (find (i_column i) m))); [reflexivity|]. cbn zeta. lra.
  - cbn in I, Y. specialize (IH _ _ _ _ _ _ F I Y). cbn in IH. cbn zeta. rewrite IH. rewrite find_put. cbn [firstn mine filter]. fold (mine (i_column j) (firstn n l)).
    destruct (Nat.eqb_spec (i_column i) (i_column j)) as [C|C].
    + cbn [or_new k_h]. rewrite <- C. fold (or_new (find (i_column i) m)). rewrite number_cons. cbn [total fold_right]. fold (total (mine (i_column i) (firstn n l))). lra.
    + lra.
Qed.

(** ** Columns *)

Lemma lefts_find : forall m x k, (exists a, find k (lefts mw x m) = Some a) <-> exists c, find k m = Some c.
Proof.
  induction m as [|[j c] m IH]; intros x k; cbn; [split; intros [? H]; discriminate H|]. destruct (Nat.eqb j k); [|apply IH]. split; intros _; [now exists c|now exists x].
Qed.
Lemma lefts_range : forall m x, (forall k c, find k m = Some c -> 0 <= k_w c) -> increasing m ->
  forall k a, find k (lefts mw x m) = Some a -> x <= a /\ a + k_w (or_new (find k m)) + mw <= width_from mw x m.
Proof.
  induction m as [|[j c] m IH]; intros x W D k a; cbn [lefts find]; [easy|]. destruct D as [D0 D]. assert (Wc : 0 <= k_w c) by (apply (W j); cbn; now rewrite Nat.eqb_refl).
  assert (W' : forall k c, find k m = Some c -> 0 <= k_w c). { intros k' c' F. apply (W k'). cbn. destruct (Nat.eqb_spec j k'); [|exact F]. subst. apply D0 in F. lia. }
  destruct (Nat.eqb j k).
  - intros [= <-]. cbn [or_new]. split; [lra|]. cbn [width_from]. destruct m as [|[j' c'] m']; [lra|]. specialize (IH (x + k_w c + mw) W' D j' (x + k_w c + mw)).
    cbn [lefts find] in IH. rewrite Nat.eqb_refl in IH. destruct (IH eq_refl) as [_ H]. cbn [or_new] in H. assert (0 <= k_w c') by (apply (W' j'); cbn; now rewrite Nat.eqb_refl). lra.
  - intros F. destruct (IH _ W' D _ _ F) as [A B]. split; [lra|]. cbn [width_from]. destruct m as [|q m']; [discriminate F|exact B].
Qed.
Lemma lefts_order : forall m x, (forall k c, find k m = Some c -> 0 <= k_w c) -> increasing m ->
  forall k k' a a', (k < k')%nat -> find k (lefts mw x m) = Some a -> find k' (lefts mw x m) = Some a' -> a + k_w (or_new (find k m)) + mw <= a'.
Proof.
  induction m as [|[j c] m IH]; intros x W D k k' a a' L; cbn [lefts find]; [easy|]. destruct D as [D0 D].
  assert (W' : forall k c, find k m = Some c -> 0 <= k_w c). { intros q c' F. apply (W q). cbn. destruct (Nat.eqb_spec j q); [|exact F]. subst. apply D0 in F. lia. }
  destruct (Nat.eqb_spec j k) as [E|E], (Nat.eqb_spec j k') as [E'|E'].
  - lia.
  - intros [= <-] F. cbn [or_new]. destruct (lefts_range _ _ W' D _ _ F). lra.
  - intros F _. assert (X : exists c, find k m = Some c) by (apply (lefts_find m (x + k_w c + mw)); now exists a). destruct X as [c' X]. apply D0 in X. lia.
  - apply IH; assumption.
Qed.
(** A column is at the left, or just behind another one; one is at the right. *)
Lemma lefts_tight : forall m x k a, increasing m -> find k (lefts mw x m) = Some a ->
  a = x \/ exists k' a' c', find k' (lefts mw x m) = Some a' /\ find k' m = Some c' /\ a = a' + k_w c' + mw.
Proof.
  induction m as [|[j c] m IH]; intros x k a D F; cbn [lefts find] in F; [discriminate F|]. destruct D as [D0 D]. destruct (Nat.eqb_spec j k) as [E|E]; [left; congruence|]. right.
  destruct (IH _ _ _ D F) as [->|(k' & a' & c' & A & B & C)].
  - exists j, x, c. cbn. rewrite Nat.eqb_refl. now repeat split.
  - exists k', a', c'. cbn. assert (L := D0 _ _ B). destruct (Nat.eqb_spec j k'); [lia|]. now repeat split.
Qed.
Lemma width_tight : forall m x, increasing m -> m <> [] -> exists k a c, find k (lefts mw x m) = Some a /\ find k m = Some c /\ width_from mw x m = a + k_w c + mw.
Proof.
  induction m as [|[j c] m IH]; intros x D N; [congruence|]. destruct D as [D0 D]. cbn [width_from]. destruct m as [|q m'].
  - exists j, x, c. cbn. rewrite Nat.eqb_refl. now repeat split.
  - destruct (IH (x + k_w c + mw) D) as (k & a & c' & A & B & C); [discriminate|]. exists k, a, c'. change (lefts mw x ((j, c) :: q :: m')) with ((j, x) :: lefts mw (x + k_w c + mw) (q :: m')). cbn [find] in *.
    assert (L := D0 _ _ B). destruct (Nat.eqb_spec j k); [lia|]. now repeat split.
Qed.

Lemma height_step : forall m h, h <= fold_left (fun h kc => qmax h (k_h (snd kc))) m h /\ (forall k c, find k m = Some c -> k_h c <= fold_left (fun h kc => qmax h (k_h (snd kc))) m h)
  /\ (increasing m -> fold_left (fun h (kc : nat * col) => qmax h (k_h (snd kc))) m h = h \/ exists k c, find k m = Some c /\ fold_left (fun h kc => qmax h (k_h (snd kc))) m h = k_h c).
Proof.
  induction m as [|[j c] m IH]; intros h; cbn [fold_left find snd].
  - split; [lra|]. split; [easy|now left].
  - destruct (IH (qmax h (k_h c))) as (A & B & C). assert (Q : h <= qmax h (k_h c) /\ k_h c <= qmax h (k_h c)) by (destruct (qmax_case h (k_h c)) as [[-> ?]|[-> ?]]; lra). split; [lra|]. split.
    + intros k c'. destruct (Nat.eqb j k); [intros [= <-]; lra|apply B].
    + intros [D0 D]. destruct (C D) as [E|(k & c' & F & E)].
      * rewrite E. destruct (qmax_case h (k_h c)) as [[-> ?]|[-> ?]]; [right|now left]. exists j, c. now rewrite Nat.eqb_refl.
      * right. exists k, c'. split; [|exact E]. assert (L := D0 _ _ F). destruct (Nat.eqb_spec j k); [lia|exact F].
Qed.

(** ** Places *)

Lemma put_at_nth : forall xs shift l ys n i, length ys = length l -> nth_error l n = Some i ->
  exists y, nth_error ys n = Some y /\ nth_error (put_at xs shift l ys) n = Some (at_xy (find (i_column i) xs) (plus (Some y) (shift (i_column i)))).
Proof.
  intros xs shift. induction l as [|i l IH]; intros ys n j L E; [now destruct n|]. destruct ys as [|y ys]; [discriminate L|]. destruct n as [|n].
  - cbn in E. injection E as <-. exists y. now split.
  - cbn in E. exact (IH ys n j ltac:(cbn in L; congruence) E).
Qed.
Lemma put_under_nth : forall xs gaps l tops n i t g, nth_error l n = Some i -> let k := i_column i in
  tops k = Some t -> gaps k = Some g \/ mine k (firstn n l) = [] ->
  exists y, nth_error (put_under xs gaps tops l) n = Some (at_xy (find k xs) (Some y)) /\ y == t + total (mine k (firstn n l)) + number (mine k (firstn n l)) * g.
Proof.
  intros xs gaps. induction l as [|i l IH]; intros tops n j t g E; [now destruct n|]. destruct n as [|n].
  - cbn in E. injection E as <-. cbn. intros -> _. exists t. split; [reflexivity|]. change (number []) with 0. lra.
  - cbn in E. cbn [firstn mine filter]. fold (mine (i_column j) (firstn n l)). intros T G. cbn [put_under nth_error].
    destruct (Nat.eqb_spec (i_column i) (i_column j)) as [C|C].
    + destruct G as [G|G]; [|discriminate G]. destruct (IH (fun q => if Nat.eqb q (i_column i) then plus (tops q) (plus (Some (i_h i)) (gaps q)) else tops q) n j (t + (i_h i + g)) g E) as (y & A & B).
      * rewrite <- C, Nat.eqb_refl. rewrite <- C in T, G. rewrite T, G. reflexivity.
      * now left.
      * exists y. split; [exact A|]. rewrite B, number_cons. cbn [total fold_right]. fold (total (mine (i_column j) (firstn n l))). lra.
    + apply IH; [exact E| |exact G]. destruct (Nat.eqb_spec (i_column j) (i_column i)); [congruence|exact T].
Qed.

(** Where the first item of a column is, and what is between items. *)
Definition first_top (s : Spacement) (h : Q) (c : col) : Q :=
  match s with PACKED_UP | UNPACKED_MAX => mh | PACKED_DOWN => mh + (h - k_h c) | UNPACKED_REGULAR => match gap s mh h c with Some g => g | None => mh end end.
Definition between (s : Spacement) (h : Q) (c : col) : Q := match gap s mh h c with Some g => g | None => mh end.

Lemma firstn_mine k n (l : list item) i : nth_error l n = Some i -> i_column i = k -> exists r, mine k l = mine k (firstn n l) ++ i :: r.
Proof.
  intros E K. destruct (nth_error_split _ _ E) as (a & b & -> & <-). rewrite firstn_app, firstn_all, Nat.sub_diag, firstn_O, app_nil_r, mine_app. cbn [mine filter].
  rewrite K, Nat.eqb_refl. now exists (mine k b).
Qed.

Lemma fit_at s l m ys n i : sizes mh [] l = (m, ys) -> nth_error l n = Some i -> let k := i_column i in
  exists c x y, find k m = Some c /\ find k (lefts mw mw m) = Some x /\ nth_error (f_at (fit s mw mh l)) n = Some (Some (x, y))
  /\ y == first_top s (height m) c + total (mine k (firstn n l)) + number (mine k (firstn n l)) * between s (height m) c.
Proof.
  intros Z E k. destruct (sizes_find _ _ _ _ Z) as (_ & Y & F). destruct (firstn_mine k n l i E eq_refl) as [r R].
  destruct (F k) as [A (_ & N & _)]. destruct (find k m) as [c|] eqn:C; [|destruct (proj1 A eq_refl) as [_ M]; rewrite M in R; destruct (mine k (firstn n l)); discriminate R].
  destruct (proj2 (lefts_find m mw k)) as [x X]; [now exists c|]. exists c, x. cbn [or_new find k_n] in N. unfold fit. rewrite Z. cbn [f_at].
  assert (U : exists y, nth_error ys n = Some y /\ y == mh + total (mine k (firstn n l)) + number (mine k (firstn n l)) * mh).
  { destruct (nth_error ys n) as [y|] eqn:W; [|apply nth_error_None in W; assert (n < length l)%nat by (apply nth_error_Some; congruence); lia]. exists y. split; [reflexivity|]. exact (sizes_ys _ _ _ _ _ _ _ Z E W). }
  destruct U as (y0 & U0 & U).
  destruct s.
  - destruct (put_at_nth (lefts mw mw m) (fun q => match find q m with Some _ => Some 0 | None => None end) l ys n i Y E) as (y & V & P). fold k in P. rewrite C, X in P. cbn [plus at_xy] in P.
    exists (y + 0). split; [reflexivity|]. split; [exact X|]. split; [exact P|]. assert (y = y0) by congruence. subst y. rewrite U. unfold first_top, between. cbn. lra.
  - destruct (put_at_nth (lefts mw mw m) (fun q => match find q m with Some c => Some (height m - k_h c) | None => None end) l ys n i Y E) as (y & V & P). fold k in P. rewrite C, X in P. cbn [plus at_xy] in P.
    exists (y + (height m - k_h c)). split; [reflexivity|]. split; [exact X|]. split; [exact P|]. assert (y = y0) by congruence. subst y. rewrite U. unfold first_top, between. cbn. lra.
  - destruct (put_under_nth (lefts mw mw m) (fun q => match find q m with Some c => gap UNPACKED_MAX mh (height m) c | None => None end) l (fun q => match find q m with Some c => start UNPACKED_MAX mh (height m) c | None => None end) n i mh (between UNPACKED_MAX (height m) c) E) as (y & P & V).
    + fold k. now rewrite C.
    + fold k. rewrite C. unfold between. cbn. destruct (Nat.eqb_spec (k_n c) 1) as [O|O]; [right|now left]. rewrite R in N. rewrite app_length in N. cbn in N. destruct (mine k (firstn n l)); [reflexivity|cbn in N; lia].
    + fold k in P, V. rewrite X in P. cbn [at_xy] in P. exists y. split; [reflexivity|]. split; [exact X|]. split; [exact P|]. exact V.
  - destruct (put_under_nth (lefts mw mw m) (fun q => match find q m with Some c => gap UNPACKED_REGULAR mh (height m) c | None => None end) l (fun q => match find q m with Some c => start UNPACKED_REGULAR mh (height m) c | None => None end) n i (first_top UNPACKED_REGULAR (height m) c) (between UNPACKED_REGULAR (height m) c) E) as (y & P & V).
    + fold k. now rewrite C.
    + fold k. rewrite C. now left.
    + fold k in P, V. rewrite X in P. cbn [at_xy] in P. exists y. split; [reflexivity|]. split; [exact X|]. split; [exact P|]. exact V.
Qed.

(** The margins are kept. *)
Lemma summed_total l m ys k c : sizes mh [] l = (m, ys) -> find k m = Some c ->
  k_h c == mh + total (mine k l) + number (mine k l) * mh /\ k_n c = length (mine k l) /\ (0 < length (mine k l))%nat /\ summed mh c == total (mine k l).
Proof.
  intros Z C. destruct (sizes_find _ _ _ _ Z) as (_ & _ & F). destruct (F k) as [A (H & N & _)]. rewrite C in *. cbn [or_new find k_h k_n] in *.
  split; [exact H|]. split; [exact N|]. split.
  - destruct (mine k l); [|cbn; lia]. discriminate (proj2 A (conj eq_refl eq_refl)).
  - unfold summed. rewrite H, N. cbn [Nat.add]. fold (number (mine k l)). lra.
Qed.
Lemma gaps_ok s l m ys k c : sizes mh [] l = (m, ys) -> find k m = Some c ->
  let h := height m in mh <= first_top s h c /\ mh <= between s h c /\ first_top s h c + total (mine k l) + (number (mine k l) - 1) * between s h c + mh <= h.
Proof.
  intros Z C h. destruct (summed_total _ _ _ _ _ Z C) as (H & N & L & T). assert (M : k_h c <= h) by (apply (proj1 (proj2 (height_step m 0)) k c C)). clearbody h.
  assert (L' : 1 <= number (mine k l)) by (unfold number; change 1 with (inject_Z 1); rewrite <- Zle_Qle; lia).
  set (t := total (mine k l)) in *. set (q := number (mine k l)) in *.
  destruct s; unfold first_top, between; cbn [gap].
  - split; [lra|]. split; [lra|]. lra.
  - split; [lra|]. split; [lra|]. lra.
  - destruct (Nat.eqb_spec (k_n c) 1) as [O|O].
    + assert (Q : q == 1) by (unfold q, number; rewrite <- N, O; reflexivity). split; [lra|]. split; [lra|]. rewrite Q in *. lra.
    + assert (Q : 1 < q) by (unfold q, number; change 1 with (inject_Z 1); rewrite <- Zlt_Qlt; lia). rewrite N. fold (number (mine k l)). fold q.
      assert (E : (h - summed mh c - 2 * mh) / (q - 1) * (q - 1) == h - t - 2 * mh) by (rewrite T; field; lra). set (g := (h - summed mh c - 2 * mh) / (q - 1)) in *. clearbody g.
      split; [lra|]. split; [|lra]. apply (Qmult_le_r _ _ (q - 1)); [lra|]. rewrite E. lra.
  - rewrite N. fold (number (mine k l)). fold q. assert (E : (h - summed mh c) / (q + 1) * (q + 1) == h - t) by (rewrite T; field; lra). set (g := (h - summed mh c) / (q + 1)) in *. clearbody g.
    assert (G : mh <= g) by (apply (Qmult_le_r _ _ (q + 1)); [lra|]; rewrite E; lra). split; [exact G|]. split; [exact G|]. lra.
Qed.
End Layout.
