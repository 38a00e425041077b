(** Moving the policies and zones of an axis moves its lines. *)
From Coq Require Import List Arith Bool Lia QArith Qabs Lqa.
From Verif Require Import IntervalModel IntervalSpec IntervalProofs ManagerModel GeomModel BoardModel OrderSpec OrderValueProofs ShiftSpec.
Import ListNotations.
Local Open Scope Q_scope.

(** ** Runs that end in the same way *)

Lemma end_bind {A B C D} (R : A -> B -> Prop) (T : C -> D -> Prop) m m' f f' : same_end R m m' -> (forall x y, R x y -> same_end T (f x) (f' y)) -> same_end T (bind m f) (bind m' f').
Proof. destruct m, m'; cbn; try contradiction; auto. Qed.
Section Runs.
Context {A B : Type}.
Lemma end_mono (R T : A -> B -> Prop) m m' : same_end R m m' -> (forall x y, R x y -> T x y) -> same_end T m m'.
Proof. destruct m, m'; cbn; try contradiction; auto. Qed.
Lemma end_read (R : A -> B -> Prop) l l' i : Forall2 R l l' -> same_end R (read l i) (read l' i).
Proof. intros F. unfold read. revert i. induction F as [|x y l l' E F IH]; intros [|i]; cbn; [exact I|exact I|exact E|apply IH]. Qed.
Lemma end_write (R : A -> B -> Prop) l l' i x x' : Forall2 R l l' -> R x x' -> same_end (Forall2 R) (write l i x) (write l' i x').
Proof.
  intros F E. revert i. induction F as [|y y' l l' Ey F IH]; intros [|i]; cbn; [exact I|exact I|now constructor|].
  apply (end_bind _ _ _ _ _ _ (IH i)). intros u u' U. now constructor.
Qed.
Lemma end_lift (R : A -> B -> Prop) m m' : orel R m m' -> same_end R (lift m) (lift m').
Proof. destruct m, m'; cbn; auto. Qed.
Lemma end_each {C D} (R : A -> B -> Prop) (T : C -> D -> Prop) f f' l l' : Forall2 R l l' -> (forall b b' x x', T b b' -> R x x' -> same_end T (f b x) (f' b' x')) ->
  forall b b', T b b' -> same_end T (for_each f l b) (for_each f' l' b').
Proof. intros F H. induction F as [|x x' l l' E F IH]; intros b b' Tb; [exact Tb|]. cbn [for_each]. apply (end_bind T T); [now apply H|exact IH]. Qed.
Lemma end_collect {C D} (R : A -> B -> Prop) (T : C -> D -> Prop) f f' l l' : Forall2 R l l' -> (forall x x', R x x' -> same_end T (f x) (f' x')) -> same_end (Forall2 T) (collect f l) (collect f' l').
Proof.
  intros F H. induction F as [|x x' l l' E F IH]; [constructor|]. cbn [collect]. apply (end_bind _ _ _ _ _ _ (H _ _ E)). intros y y' Y. apply (end_bind _ _ _ _ _ _ IH). intros u u' U. now constructor.
Qed.
Lemma filter_rel (R : A -> B -> Prop) f f' l l' : Forall2 R l l' -> (forall x x', R x x' -> f x = f' x') -> Forall2 R (filter f l) (filter f' l').
Proof. intros F H. induction F as [|x x' l l' E F IH]; [constructor|]. cbn. rewrite (H _ _ E). destruct (f' x'); [now constructor|exact IH]. Qed.
Lemma map_rel {C D} (R : A -> B -> Prop) (T : C -> D -> Prop) f f' l l' : Forall2 R l l' -> (forall x x', R x x' -> T (f x) (f' x')) -> Forall2 T (map f l) (map f' l').
Proof. intros F H. induction F; cbn; constructor; auto. Qed.
Lemma rel_length (R : A -> B -> Prop) l l' : Forall2 R l l' -> length l = length l'.
Proof. intros F. induction F; cbn; congruence. Qed.
Lemma exists_rel (R : A -> B -> Prop) f f' l l' : Forall2 R l l' -> (forall x x', R x x' -> f x = f' x') -> existsb f l = existsb f' l'.
Proof. intros F H. induction F as [|x x' l l' E F IH]; [reflexivity|]. cbn. now rewrite (H _ _ E), IH. Qed.
Lemma all_rel (R : A -> B -> Prop) f f' l l' : Forall2 R l l' -> (forall x x', R x x' -> f x = f' x') -> forallb f l = forallb f' l'.
Proof. intros F H. induction F as [|x x' l l' E F IH]; [reflexivity|]. cbn. now rewrite (H _ _ E), IH. Qed.
Lemma rel_mono (R T : A -> B -> Prop) l l' : Forall2 R l l' -> (forall x y, R x y -> T x y) -> Forall2 T l l'.
Proof. intros F H. induction F; constructor; auto. Qed.
Lemma rev_rel (R : A -> B -> Prop) l l' : Forall2 R l l' -> Forall2 R (rev l) (rev l').
Proof. intros F. induction F as [|x y l l' E F IH]; cbn; [constructor|]. apply Forall2_app; [exact IH|]. now constructor. Qed.
Definition at_same (R : A -> B -> Prop) (x : nat * A) (y : nat * B) : Prop := fst x = fst y /\ R (snd x) (snd y).
Lemma view_rel (R : A -> B -> Prop) l l' : Forall2 R l l' -> Forall2 (at_same R) (view l) (view l').
Proof.
  intros F. unfold view. rewrite <- (rel_length _ _ _ F). generalize 0%nat. induction F as [|x y l l' E F IH]; intros n; cbn; [constructor|]. constructor; [now split|apply IH].
Qed.
End Runs.
Lemma same_list {A} (l : list A) : Forall2 eq l l.
Proof. induction l; constructor; auto. Qed.
Lemma list_same {A} (l l' : list A) : Forall2 eq l l' -> l = l'.
Proof. intros F. induction F; congruence. Qed.

(** ** Comparisons do not see the displacement *)

Lemma shift_ltb t a b a' b' : a' == a + t -> b' == b + t -> Qltb a b = Qltb a' b'.
Proof. intros A B. apply eq_true_iff_eq. unfold Qltb. rewrite !negb_true_iff, <- !not_true_iff_false, !Qle_bool_iff. split; intros H C; apply H; lra. Qed.
Lemma shift_leb t a b a' b' : a' == a + t -> b' == b + t -> Qle_bool a b = Qle_bool a' b'.
Proof. intros A B. apply eq_true_iff_eq. rewrite !Qle_bool_iff. split; intros H; lra. Qed.
Lemma shift_distance t a b a' b' : a' == a + t -> b' == b + t -> coord_distance a b == coord_distance a' b'.
Proof. intros A B. unfold coord_distance. apply Qabs_wd. lra. Qed.
Lemma shift_eqb t a b a' b' : a' == a + t -> b' == b + t -> coord_eqb a b = coord_eqb a' b'.
Proof. intros A B. unfold coord_eqb. apply Qltb_m; [apply Qabs_wd; lra|reflexivity]. Qed.
Lemma shift_mid t a b a' b' : a' == a + t -> b' == b + t -> coord_mid a' b' == coord_mid a b + t.
Proof. intros A B. unfold coord_mid. rewrite A, B. field. Qed.

(** ** Intervals *)

Section Shift.
Context (t : Q).
Notation mp := (moved_policy t).

Definition mv (i j : interval) : Prop := iv_h i == iv_h j /\ iv_m j == iv_m i + t /\ iv_dmax i == iv_dmax j /\ ss (iv_before i) (iv_before j) /\ ss (iv_after i) (iv_after j).
Definition ms (s s' : segment) : Prop := sg_before s = sg_before s' /\ sg_after s = sg_after s' /\ mv (sg_iv s) (sg_iv s').
Record ma (ax ax' : axis) : Prop := mk_ma
  { ma_policies : Forall2 mp (ax_policies ax) (ax_policies ax');
    ma_conflicts : ax_conflicts ax = ax_conflicts ax';
    ma_segments : Forall2 ms (ax_segments ax) (ax_segments ax');
    ma_lines : moved_lines t (ax_lines ax) (ax_lines ax') }.

(** Solving an interval does not look at the coordinates. *)
Definition at0 (p : mlp) : mlp := mk_mlp 0 (p_policy p) (p_normal p) (p_enabled p) (p_d p).
Definition iv0 (i : interval) : interval := mk_interval (iv_h i) 0 (iv_dmax i) (iv_before i) (iv_after i).
Lemma mp_at0 p q : mp p q -> ps (at0 p) (at0 q).
Proof. intros (A & B & C & D & E). split; [reflexivity|]. split; [now symmetry|]. split; [now symmetry|]. split; now symmetry. Qed.
Lemma mv_iv0 i j : mv i j -> is (iv0 i) (iv0 j).
Proof. intros (A & B & C & D & E). split; [exact A|]. split; [reflexivity|]. split; [exact C|]. now split. Qed.

Lemma adjust_at0 n f h m p s : (forall d, f (at0 p) d = f p d) -> adjust_d n f h m (at0 p) s = adjust_d n f h m p s.
Proof.
  intros H. unfold adjust_d. cbn [p_d at0]. generalize (qmin (p_d p) m) (sd_ls s). induction n as [|n IH]; intros d l; [reflexivity|]. cbn [adjust_d_loop]. rewrite H.
  destruct (is_ls_valid _ _ _ _ _); [reflexivity|]. destruct (find_ls _ _ _ _ _); [apply IH|reflexivity].
Qed.
Lemma smooth_at0 n f h m p s : (forall d, f (at0 p) d = f p d) -> adjust_smoothness n f h m (at0 p) s = adjust_smoothness n f h m p s.
Proof.
  intros H. unfold adjust_smoothness. generalize (length (sd_ls s)) (sd_smoothness s). intros k. induction n as [|n IH]; intros c; [reflexivity|]. cbn [adjust_smoothness_loop p_d at0]. rewrite H.
  destruct (find_ls _ _ _ _ _); [|reflexivity]. destruct (_ <? _)%nat; [reflexivity|]. destruct (Qeq_bool _ 1); [reflexivity|apply IH].
Qed.

Lemma solve_d_at0 n b a i : auto_solve_d n b a i =
  option_map (fun r => (set_d b (p_d (fst (fst r))), set_d a (p_d (snd (fst r))), mk_interval (iv_h (snd r)) (iv_m i) (iv_dmax (snd r)) (iv_before (snd r)) (iv_after (snd r))))
    (auto_solve_d n (at0 b) (at0 a) (iv0 i)).
Proof.
  unfold auto_solve_d. cbn zeta. cbn [iv_h iv_dmax iv_before iv_after iv_m iv0].
  change (update_ls n d_init_before (iv_h i) (iv_dmax i) (at0 b)) with (update_ls n d_init_before (iv_h i) (iv_dmax i) b).
  change (update_ls n d_init_after (iv_h i) (iv_dmax i) (at0 a)) with (update_ls n d_init_after (iv_h i) (iv_dmax i) a).
  destruct (update_ls n d_init_before (iv_h i) (iv_dmax i) b (iv_before i)) as [s|]; [|reflexivity]. destruct (update_ls n d_init_after (iv_h i) (iv_dmax i) a (iv_after i)) as [s'|]; [|reflexivity].
  destruct (update_ls n d_init_before (iv_h i) (iv_dmax i) b s) as [u|]; [|reflexivity]. destruct (update_ls n d_init_after (iv_h i) (iv_dmax i) a s') as [u'|]; [|reflexivity].
  rewrite !adjust_at0 by reflexivity.
  destruct (adjust_d n d_init_before (iv_h i) (iv_dmax i) b u) as [x|]; [|reflexivity].
  change (update_ls n d_init_before (iv_h i) (iv_dmax i) (set_d (at0 b) x)) with (update_ls n d_init_before (iv_h i) (iv_dmax i) (set_d b x)).
  destruct (update_ls n d_init_before (iv_h i) (iv_dmax i) (set_d b x) u) as [v|]; [|reflexivity].
  rewrite ?adjust_at0 by reflexivity.
  destruct (adjust_d n d_init_after (iv_h i) (iv_dmax i) a u') as [x'|]; [|reflexivity].
  change (update_ls n d_init_after (iv_h i) (iv_dmax i) (set_d (at0 a) x')) with (update_ls n d_init_after (iv_h i) (iv_dmax i) (set_d a x')).
  destruct (update_ls n d_init_after (iv_h i) (iv_dmax i) (set_d a x') u') as [v'|]; reflexivity.
Qed.
Lemma solve_smooth_at0 n b a i : auto_solve_smoothness n b a i =
  option_map (fun r => mk_interval (iv_h r) (iv_m i) (iv_dmax r) (iv_before r) (iv_after r)) (auto_solve_smoothness n (at0 b) (at0 a) (iv0 i)).
Proof.
  unfold auto_solve_smoothness. cbn zeta. cbn [iv_h iv_dmax iv_before iv_after iv_m iv0].
  change (update_ls n d_init_before (iv_h i) (iv_dmax i) (at0 b)) with (update_ls n d_init_before (iv_h i) (iv_dmax i) b).
  change (update_ls n d_init_after (iv_h i) (iv_dmax i) (at0 a)) with (update_ls n d_init_after (iv_h i) (iv_dmax i) a).
  destruct (update_ls n d_init_before (iv_h i) (iv_dmax i) b (iv_before i)) as [s|]; [|reflexivity]. destruct (update_ls n d_init_after (iv_h i) (iv_dmax i) a (iv_after i)) as [s'|]; [|reflexivity].
  rewrite !smooth_at0 by reflexivity.
  destruct (adjust_smoothness n d_init_before (iv_h i) (iv_dmax i) b s) as [x|]; [|reflexivity]. rewrite ?smooth_at0 by reflexivity.
  destruct (adjust_smoothness n d_init_after (iv_h i) (iv_dmax i) a s') as [x'|]; [|reflexivity].
  destruct (update_ls n d_init_before _ _ b (set_smoothness s x)) as [u|]; [|reflexivity]. destruct (update_ls n d_init_after _ _ a (set_smoothness s' x')) as [u'|]; reflexivity.
Qed.

Lemma mp_set_d p q d d' : mp p q -> d == d' -> mp (set_d p d) (set_d q d').
Proof. intros (A & B & C & D & E) F. repeat split; cbn; try assumption. now symmetry. Qed.

Lemma solve_d_moved n b a i b' a' i' : mp b b' -> mp a a' -> mv i i' ->
  orel (fun x y => mp (fst (fst x)) (fst (fst y)) /\ mp (snd (fst x)) (snd (fst y)) /\ mv (snd x) (snd y)) (auto_solve_d n b a i) (auto_solve_d n b' a' i').
Proof.
  intros B A V. rewrite (solve_d_at0 n b a i), (solve_d_at0 n b' a' i'). pose proof (solve_d_m n _ _ _ _ _ _ (mp_at0 _ _ B) (mp_at0 _ _ A) (mv_iv0 _ _ V)) as H.
  destruct (auto_solve_d n (at0 b) (at0 a) (iv0 i)) as [[[x y] j]|], (auto_solve_d n (at0 b') (at0 a') (iv0 i')) as [[[x' y'] j']|]; cbn in H |- *; try contradiction; [|exact I].
  destruct H as (H1 & H2 & H3 & _ & H4 & H5 & H6). destruct H1 as (_ & _ & _ & _ & H1), H2 as (_ & _ & _ & _ & H2). split; [now apply mp_set_d|]. split; [now apply mp_set_d|].
  split; [exact H3|]. split; [apply V|]. split; [exact H4|]. now split.
Qed.
Lemma solve_smooth_moved n b a i b' a' i' : mp b b' -> mp a a' -> mv i i' -> orel mv (auto_solve_smoothness n b a i) (auto_solve_smoothness n b' a' i').
Proof.
  intros B A V. rewrite (solve_smooth_at0 n b a i), (solve_smooth_at0 n b' a' i'). pose proof (solve_smooth_m n _ _ _ _ _ _ (mp_at0 _ _ B) (mp_at0 _ _ A) (mv_iv0 _ _ V)) as H.
  destruct (auto_solve_smoothness n (at0 b) (at0 a) (iv0 i)) as [j|], (auto_solve_smoothness n (at0 b') (at0 a') (iv0 i')) as [j'|]; cbn in H |- *; try contradiction; [|exact I].
  destruct H as (H3 & _ & H4 & H5 & H6). split; [exact H3|]. split; [apply V|]. split; [exact H4|]. now split.
Qed.

Lemma d_before_moved p q : mp p q -> d_init_before q (p_d q) == d_init_before p (p_d p).
Proof. intros (_ & A & B & _ & D). unfold d_init_before. rewrite A, B. destruct (p_policy p); [reflexivity|now rewrite D|destruct (p_normal p); now rewrite D]. Qed.
Lemma d_after_moved p q : mp p q -> d_init_after q (p_d q) == d_init_after p (p_d p).
Proof. intros (_ & A & B & _ & D). unfold d_init_after. rewrite A, B. destruct (p_policy p); [reflexivity|now rewrite D|destruct (p_normal p); now rewrite D]. Qed.

Lemma mesh_moved b a i b' a' i' : mp b b' -> mp a a' -> mv i i' -> moved_lines t (mesh_interval b a i) (mesh_interval b' a' i').
Proof.
  intros B A (_ & M & _ & (_ & _ & L) & (_ & _ & L')). unfold mesh_interval, moved_lines. cbn zeta. pose proof (d_before_moved _ _ B) as DB. pose proof (d_after_moved _ _ A) as DA.
  destruct B as (B1 & B2 & _), A as (A1 & A2 & _). rewrite B2, A2. apply removelast_m in L, L'.
  repeat apply Forall2_app.
  - destruct (is_oneline _); constructor; [|constructor]. rewrite B1, DB. ring.
  - apply (map_rel Qeq); [exact L|]. intros x x' E. rewrite B1, DB, E. ring.
  - constructor; [exact M|constructor].
  - apply rev_rel. apply (map_rel Qeq); [exact L'|]. intros x x' E. rewrite A1, DA, E. ring.
  - destruct (is_oneline _); constructor; [|constructor]. rewrite A1, DA. ring.
Qed.

(** ** One axis *)

Lemma make_moved g p q p' q' : mp p p' -> mp q q' -> let '(a, b, iv) := make_interval g p q in let '(a', b', iv') := make_interval g p' q' in mp a a' /\ mp b b' /\ mv iv iv'.
Proof.
  intros P R. cbn. pose proof P as (A & _). pose proof R as (B & _). assert (H : calc_h (p_coord p) (p_coord q) == calc_h (p_coord p') (p_coord q')) by (unfold calc_h; now rewrite (shift_distance t _ _ _ _ A B)).
  assert (C : forall u u', mp u u' -> mp (clamp_d (calc_h (p_coord p) (p_coord q)) u) (clamp_d (calc_h (p_coord p') (p_coord q')) u')).
  { intros u u' U. unfold clamp_d. pose proof U as (_ & _ & _ & _ & D). assert (D' : p_d u == p_d u') by now symmetry. rewrite (Qltb_m _ _ H _ _ D'). destruct (Qltb _ _); [now apply mp_set_d|exact U]. }
  split; [now apply C|]. split; [now apply C|]. split; [exact H|]. split; [now apply shift_mid|]. repeat split; cbn; try reflexivity; constructor.
Qed.

Lemma ma_set_policies ax ax' l l' : ma ax ax' -> Forall2 mp l l' -> ma (set_policies ax l) (set_policies ax' l').
Proof. intros [P C S L] F. now split. Qed.
Lemma ma_set_conflicts ax ax' l : ma ax ax' -> ma (set_conflicts ax l) (set_conflicts ax' l).
Proof. intros [P C S L]. now split. Qed.
Lemma ma_set_segments ax ax' l l' : ma ax ax' -> Forall2 ms l l' -> ma (set_segments ax l) (set_segments ax' l').
Proof. intros [P C S L] F. now split. Qed.
Lemma ma_set_lines ax ax' l l' : ma ax ax' -> moved_lines t l l' -> ma (set_lines ax l) (set_lines ax' l').
Proof. intros [P C S L] F. now split. Qed.

Lemma add_moved g ax ax' policy normal x x' en : ma ax ax' -> x' == x + t ->
  ma (fst (add_meshline_policy g ax policy normal x en)) (fst (add_meshline_policy g ax' policy normal x' en))
  /\ snd (add_meshline_policy g ax policy normal x en) = snd (add_meshline_policy g ax' policy normal x' en).
Proof.
  intros M X. unfold add_meshline_policy. destruct (inconsistent policy normal); [now split|]. cbn. split; [|now rewrite (rel_length _ _ _ (ma_policies _ _ M))].
  apply ma_set_policies; [exact M|]. apply Forall2_app; [apply M|]. constructor; [|constructor]. now repeat split.
Qed.

Context (srt : sorter) (Oc : only_compares_keys srt).

Lemma dimension_moved ax ax' : ma ax ax' -> Forall2 (at_same mp) (dimension srt ax) (dimension srt ax').
Proof.
  intros M. unfold dimension. apply Oc.
  - apply filter_rel; [apply view_rel, M|]. intros x x' (_ & (_ & _ & _ & E & _)). now symmetry.
  - intros x x' y y' (_ & (X & _)) (_ & (Y & _)). rewrite X, Y. split; intros H; lra.
Qed.

Definition same_closest (x y : Q * (nat * nat)) : Prop := fst x == fst y /\ snd x = snd y.
Lemma closest_moved l l' : Forall2 (at_same mp) l l' -> forall s s', orel same_closest s s' -> orel same_closest (closest_loop l s) (closest_loop l' s').
Proof.
  intros F. induction F as [|x x' l l' [Ex (X & _)] F IH]; intros s s' Es; [exact Es|]. destruct F as [|y y' l l' [Ey (Y & _)] F]; [exact Es|].
  cbn [closest_loop]. apply IH. rewrite Ex, Ey. pose proof (shift_distance t _ _ _ _ X Y) as D.
  destruct s as [[s c]|], s' as [[s' c']|]; cbn in Es; try contradiction; [|cbn; now split]. destruct Es as [E1 E2]. cbn in E1, E2. subst c'. rewrite (Qltb_m _ _ D _ _ E1). destruct (Qltb _ s'); cbn; now split.
Qed.

Lemma detect_closest_moved ax ax' limit : ma ax ax' -> detect_closest srt ax limit = detect_closest srt ax' limit.
Proof.
  intros M. unfold detect_closest. pose proof (closest_moved _ _ (dimension_moved _ _ M) None None I) as H. destruct (closest_loop (dimension srt ax) None) as [[s c]|], (closest_loop (dimension srt ax') None) as [[s' c']|]; cbn in H; try contradiction; [|reflexivity].
  destruct H as [E1 E2]. cbn in E1, E2. subst c'. assert (E : Qle_bool s limit = Qle_bool s' limit) by (apply eq_true_iff_eq; now rewrite !Qle_bool_iff, E1). now rewrite E.
Qed.

Lemma disable_moved p q : mp p q -> mp (disable p) (disable q).
Proof. intros (A & B & C & D & E). now repeat split. Qed.

Lemma add_too_close_moved ax ax' a b : ma ax ax' -> same_end (orel (fun x y => ma (fst x) (fst y) /\ snd x = snd y)) (add_too_close ax a b) (add_too_close ax' a b).
Proof.
  intros M. unfold add_too_close, in_conflict. rewrite <- (ma_conflicts _ _ M). destruct (_ || _); [exact I|].
  apply (end_bind mp); [apply end_read, M|]. intros pa pa' Pa. apply (end_bind mp); [apply end_read, M|]. intros pb pb' Pb.
  apply (end_bind (Forall2 mp)); [apply end_write; [apply M|now apply disable_moved]|]. intros l l' L. apply (end_bind (Forall2 mp)); [apply end_write; [exact L|now apply disable_moved]|]. intros k k' K.
  cbn. split; [|reflexivity]. now apply ma_set_conflicts, ma_set_policies.
Qed.

Lemma merged_moved a b a' b' : mp a a' -> mp b b' -> orel (fun x y => fst x = fst y /\ snd y == snd x + t) (merged a b) (merged a' b').
Proof.
  intros (A1 & A2 & A3 & _) (B1 & B2 & B3 & _). unfold merged. cbn zeta. rewrite A2, B2, A3, B3. pose proof (shift_mid t _ _ _ _ A1 B1) as E.
  destruct (p_policy a), (p_policy b); cbn; auto; destruct (p_normal a), (p_normal b); cbn; auto.
Qed.

Lemma solve_too_close_moved g ax ax' c : ma ax ax' -> same_end ma (solve_too_close g ax c) (solve_too_close g ax' c).
Proof.
  intros M. unfold solve_too_close. rewrite <- (ma_conflicts _ _ M). apply (end_bind eq); [apply end_read, same_list|]. intros k k' <-.
  apply (end_bind mp); [apply end_read, M|]. intros pa pa' Pa. apply (end_bind mp); [apply end_read, M|]. intros pb pb' Pb.
  pose proof (merged_moved _ _ _ _ Pa Pb) as H. destruct (merged pa pb) as [[[po no] x]|], (merged pa' pb') as [[[po' no'] x']|]; cbn in H; try contradiction; [|exact M]. destruct H as [E X]. injection E as <- <-.
  destruct (add_moved g ax ax' po no x x' true M X) as [M1 E]. destruct (add_meshline_policy g ax po no x true) as [ax1 s], (add_meshline_policy g ax' po no x' true) as [ax1' s']. cbn in M1, E. subst s'.
  rewrite <- (ma_conflicts _ _ M1). apply (end_bind eq); [apply (end_mono (Forall2 eq)); [apply end_write; [apply same_list|reflexivity]|intros ? ?; apply list_same]|]. intros l l' <-. cbn. now apply ma_set_conflicts.
Qed.

Lemma too_close_moved g n : forall ax ax', ma ax ax' -> same_end ma (detect_and_solve_too_close n g srt ax) (detect_and_solve_too_close n g srt ax').
Proof.
  induction n as [|n IH]; intros ax ax' M; [exact I|]. cbn [detect_and_solve_too_close]. rewrite <- (detect_closest_moved _ _ _ M). destruct (detect_closest srt ax _) as [[a b]|]; [|exact M].
  apply (end_bind _ _ _ _ _ _ (add_too_close_moved ax ax' a b M)). intros [[x c]|] [[x' c']|] H; cbn in H; try contradiction; [|now apply IH]. destruct H as [H <-].
  apply (end_bind _ _ _ _ _ _ (solve_too_close_moved g x x' c H)). exact IH.
Qed.

Lemma new_segment_moved g ax ax' b a : ma ax ax' -> same_end ma (new_segment g ax b a) (new_segment g ax' b a).
Proof.
  intros M. unfold new_segment. apply (end_bind mp); [apply end_read, M|]. intros pb pb' Pb. apply (end_bind mp); [apply end_read, M|]. intros pa pa' Pa.
  pose proof (make_moved g _ _ _ _ Pb Pa) as H. destruct (make_interval g pb pa) as [[x y] iv], (make_interval g pb' pa') as [[x' y'] iv']. destruct H as (H1 & H2 & H3).
  apply (end_bind (Forall2 mp)); [apply end_write; [apply M|exact H1]|]. intros l l' L. apply (end_bind (Forall2 mp)); [apply end_write; [exact L|exact H2]|]. intros k k' K.
  cbn. apply ma_set_segments; [now apply ma_set_policies|]. apply Forall2_app; [apply M|]. constructor; [|constructor]. split; [reflexivity|now split].
Qed.
Lemma intervals_loop_moved g l : forall ax ax', ma ax ax' -> same_end ma (detect_intervals_loop g ax l) (detect_intervals_loop g ax' l).
Proof.
  induction l as [|b l IH]; intros ax ax' M; [exact M|]. destruct l as [|a l]; [exact M|]. cbn [detect_intervals_loop]. apply (end_bind _ _ _ _ _ _ (new_segment_moved g ax ax' b a M)). intros x y H. now apply IH.
Qed.
Lemma intervals_moved g ax ax' : ma ax ax' -> same_end ma (detect_intervals g srt ax) (detect_intervals g srt ax').
Proof.
  intros M. unfold detect_intervals. assert (E : map fst (dimension srt ax) = map fst (dimension srt ax')) by (apply list_same, (map_rel (at_same mp)); [now apply dimension_moved|now intros x y [? _]]).
  rewrite <- E. now apply intervals_loop_moved.
Qed.

Lemma zones_moved zs zs' ax ax' : Forall2 (moved_zone t) zs zs' -> ma ax ax' -> ma (apply_zones zs ax) (apply_zones zs' ax').
Proof.
  intros F M. unfold apply_zones. apply ma_set_segments; [exact M|]. pose proof (ma_segments _ _ M) as G. revert G. generalize (ax_segments ax) (ax_segments ax'). clear M.
  induction F as [|z z' zs zs' (Z1 & Z2 & Z3) F IH]; intros l l' G; [exact G|]. cbn. apply IH. apply (map_rel ms); [exact G|]. intros s s' (A & B & V).
  pose proof V as (H & Mi & D & S1 & S2). unfold apply_zone, in_zone. rewrite (shift_leb t _ _ _ _ Z1 Mi), (shift_leb t _ _ _ _ Mi Z2). destruct (_ && _); [|now split].
  split; [exact A|]. split; [exact B|]. split; [exact H|]. split; [exact Mi|]. split; [cbn; now symmetry|]. now split.
Qed.

Lemma solve_d_at_moved n ax ax' i : ma ax ax' -> same_end ma (auto_solve_d_at n ax i) (auto_solve_d_at n ax' i).
Proof.
  intros M. unfold auto_solve_d_at. apply (end_bind ms); [apply end_read, M|]. intros s s' (<- & <- & V). apply (end_bind mp); [apply end_read, M|]. intros pb pb' Pb. apply (end_bind mp); [apply end_read, M|]. intros pa pa' Pa.
  apply (end_bind _ _ _ _ _ _ (end_lift _ _ _ (solve_d_moved n _ _ _ _ _ _ Pb Pa V))). intros [[x y] iv] [[x' y'] iv'] (H1 & H2 & H3). cbn [fst snd] in *.
  apply (end_bind (Forall2 mp)); [apply end_write; [apply M|exact H1]|]. intros l l' L. apply (end_bind (Forall2 mp)); [apply end_write; [exact L|exact H2]|]. intros k k' K.
  apply (end_bind (Forall2 ms)); [apply end_write; [apply M|split; [reflexivity|now split]]|]. intros u u' U. cbn. now apply ma_set_segments, U; try apply ma_set_policies.
Qed.
Lemma solve_smooth_at_moved n ax ax' i : ma ax ax' -> same_end ma (auto_solve_smoothness_at n ax i) (auto_solve_smoothness_at n ax' i).
Proof.
  intros M. unfold auto_solve_smoothness_at. apply (end_bind ms); [apply end_read, M|]. intros s s' (<- & <- & V). apply (end_bind mp); [apply end_read, M|]. intros pb pb' Pb. apply (end_bind mp); [apply end_read, M|]. intros pa pa' Pa.
  apply (end_bind _ _ _ _ _ _ (end_lift _ _ _ (solve_smooth_moved n _ _ _ _ _ _ Pb Pa V))). intros iv iv' H.
  apply (end_bind (Forall2 ms)); [apply end_write; [apply M|split; [reflexivity|now split]]|]. intros u u' U. cbn. now apply ma_set_segments.
Qed.
Lemma mesh_segment_moved ax ax' i : ma ax ax' -> same_end (moved_lines t) (mesh_segment ax i) (mesh_segment ax' i).
Proof.
  intros M. unfold mesh_segment. apply (end_bind ms); [apply end_read, M|]. intros s s' (<- & <- & V). apply (end_bind mp); [apply end_read, M|]. intros pb pb' Pb. apply (end_bind mp); [apply end_read, M|]. intros pa pa' Pa.
  now apply mesh_moved.
Qed.

Lemma first_moved n l : forall ax ax', ma ax ax' -> same_end ma (first_pass n ax l) (first_pass n ax' l).
Proof. induction l as [|i l IH]; intros ax ax' M; [exact M|]. cbn [first_pass]. apply (end_bind _ _ _ _ _ _ (solve_d_at_moved n ax ax' i M)). exact IH. Qed.
Lemma second_moved n l : forall ax ax', ma ax ax' -> same_end (fun x y => ma (fst x) (fst y) /\ Forall2 (moved_lines t) (snd x) (snd y)) (second_pass n ax l) (second_pass n ax' l).
Proof.
  induction l as [|i l IH]; intros ax ax' M; [split; [exact M|constructor]|]. cbn [second_pass]. apply (end_bind _ _ _ _ _ _ (solve_d_at_moved n ax ax' i M)). intros x x' X.
  apply (end_bind _ _ _ _ _ _ (solve_smooth_at_moved n x x' i X)). intros y y' Y. apply (end_bind _ _ _ _ _ _ (mesh_segment_moved y y' i Y)). intros k k' K.
  apply (end_bind _ _ _ _ _ _ (IH y y' Y)). intros [u m] [u' m'] [U Um]. cbn in *. split; [exact U|now constructor].
Qed.

Lemma order_moved ax ax' : ma ax ax' -> visiting_order srt ax = visiting_order srt ax'.
Proof.
  intros M. unfold visiting_order. apply list_same, (map_rel (at_same ms)); [|now intros x y [? _]]. apply Oc; [apply view_rel, M|].
  intros x x' y y' (_ & _ & _ & (X & _)) (_ & _ & _ & (Y & _)). now rewrite X, Y.
Qed.

Lemma flat_rel {A B C D} (R : A -> B -> Prop) (T : C -> D -> Prop) f f' l l' : Forall2 R l l' -> (forall x x', R x x' -> Forall2 T (f x) (f' x')) -> Forall2 T (flat_map f l) (flat_map f' l').
Proof. intros F H. induction F; cbn; [constructor|]. apply Forall2_app; auto. Qed.
Lemma concat_rel {A B} (R : A -> B -> Prop) l l' : Forall2 (Forall2 R) l l' -> Forall2 R (concat l) (concat l').
Proof. intros F. induction F; cbn; [constructor|]. now apply Forall2_app. Qed.

Lemma mesh_axis_moved n ax ax' : ma ax ax' -> same_end ma (mesh_axis n srt ax) (mesh_axis n srt ax').
Proof.
  intros M. unfold mesh_axis. rewrite <- (order_moved _ _ M). apply (end_bind _ _ _ _ _ _ (first_moved n _ ax ax' M)). intros x x' X.
  apply (end_bind _ _ _ _ _ _ (second_moved n _ x x' X)). intros [y m] [y' m'] [Y Ym]. cbn in *. apply ma_set_lines; [exact Y|]. unfold moved_lines. apply Oc.
  - apply Forall2_app; [apply Y|]. apply Forall2_app; [now apply concat_rel|]. apply (flat_rel mp); [apply Y|]. intros p q (A & B & _ & D & _). unfold mesh_policy. rewrite B, D. destruct (_ && _); [|constructor]. now constructor.
  - intros a a' b b' E F. rewrite E, F. split; intros H; lra.
Qed.

Lemma add_fixed_moved g ax ax' x x' : ma ax ax' -> x' == x + t -> ma (add_fixed_policy g ax x) (add_fixed_policy g ax' x').
Proof.
  intros M X. unfold add_fixed_policy.
  rewrite (exists_rel mp (fun p => is_oneline (p_policy p) && match p_normal p with NNONE => true | _ => false end && coord_eqb (p_coord p) x)
    (fun p => is_oneline (p_policy p) && match p_normal p with NNONE => true | _ => false end && coord_eqb (p_coord p) x') _ _ (ma_policies _ _ M)).
  - destruct (existsb _ _); [exact M|]. now apply add_moved.
  - intros p q (A & B & C & _). rewrite B, C. now rewrite (shift_eqb t _ _ _ _ A X).
Qed.
Lemma add_fixeds_moved g l l' : Forall2 (fun x y => y == x + t) l l' -> forall ax ax', ma ax ax' -> ma (add_fixed_policies g ax l) (add_fixed_policies g ax' l').
Proof. intros F. induction F as [|x x' l l' X F IH]; intros ax ax' M; [exact M|]. cbn. apply IH. now apply add_fixed_moved. Qed.

Lemma finish_moved n g zs zs' ax ax' : Forall2 (moved_zone t) zs zs' -> ma ax ax' -> same_end ma (finish_axis n g srt zs ax) (finish_axis n g srt zs' ax').
Proof.
  intros Z M. unfold finish_axis. apply (end_bind _ _ _ _ _ _ (too_close_moved g n ax ax' M)). intros x x' X. apply (end_bind _ _ _ _ _ _ (intervals_moved g x x' X)). intros y y' Y. now apply mesh_axis_moved, zones_moved.
Qed.
End Shift.
