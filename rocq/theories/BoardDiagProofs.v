(** Angles and zones of diagonal edges. *)
From Coq Require Import List Arith Bool Lia QArith Qabs Lqa Sorting.Sorted Sorting.Permutation.
From Verif Require Import IntervalModel IntervalProofs ManagerModel ManagerProofs GeomModel GeomSpec GeomProofs BoardModel BoardSpec BoardProofs BoardColinearProofs BoardSolveProofs BoardCoverProofs.
From Verif Require Import BoardDetectProofs BoardBuiltProofs BoardIndividualProofs BoardRunProofs.
Import ListNotations.
Open Scope Q_scope.

Lemma collect_done {A B} (f : A -> run B) l : forall r, collect f l = Done r <-> Forall2 (fun x y => f x = Done y) l r.
Proof.
  induction l as [|x l IH]; intros r; cbn.
  - split; [intros E; injection E as <-; constructor|intros H; inversion H; reflexivity].
  - split.
    + destruct (f x) as [y| |] eqn:F; cbn [bind]; try discriminate. destruct (collect f l) as [t| |]; cbn [bind]; try discriminate.
      intros E. injection E as <-. constructor; [assumption|now apply IH].
    + intros H. inversion H as [|? y ? t F H']; subst. rewrite F. cbn [bind]. apply IH in H'. now rewrite H'.
Qed.

Lemma collect_ends {A B} (f : A -> run B) l : (forall x, In x l -> exists y, f x = Done y) -> exists r, collect f l = Done r.
Proof.
  induction l as [|x l IH]; intros H; cbn; [eauto|]. destruct (H x (or_introl eq_refl)) as (y & ->). cbn [bind].
  destruct IH as (r & ->); [intros z I; apply H; now right|]. cbn. eauto.
Qed.

Lemma is_diagonal_spec e : is_diagonal e = true <-> diagonal e.
Proof. unfold is_diagonal, diagonal. destruct (seg_axis (e_seg e)); cbn; split; congruence. Qed.

(** * Angles *)

Fixpoint pairs (prev : nat) (l : list nat) : list (nat * nat) := match l with [] => [] | i :: r => (prev, i) :: pairs i r end.

Lemma pairs_in l : forall prev i j, In (i, j) (pairs prev l) <-> (exists r, l = j :: r /\ prev = i) \/ exists l1 l2, l = l1 ++ i :: j :: l2.
Proof.
  induction l as [|k l IH]; intros prev i j; cbn.
  - split; [intros []|]. intros [(r & E & _)|(l1 & l2 & E)]; [discriminate|destruct l1; discriminate].
  - rewrite IH. split.
    + intros [E|[(r & -> & ->)|(l1 & l2 & ->)]].
      * injection E as -> ->. left. now exists l.
      * right. now exists [], r.
      * right. now exists (k :: l1), l2.
    + intros [(r & E & ->)|(l1 & l2 & E)].
      * injection E as -> ->. now left.
      * destruct l1 as [|k' l1]; cbn in E; injection E as <- ->; [right; left; now exists l2|right; right; now exists l1, l2].
Qed.

Lemma follows_pairs l i j : follows l i j <-> match l with [] => False | h :: _ => In (i, j) (pairs (last l h) l) end.
Proof.
  unfold follows. destruct l as [|h l]; [split; [intros [(l1 & l2 & E)|(r & E & _)]; [destruct l1; discriminate|discriminate]|intros []]|].
  rewrite pairs_in. split.
  - intros [H|(r & E & L)]; [now right|]. left. exists r. split; [assumption|]. injection E as -> _. exact L.
  - intros [(r & E & L)|H]; [|now left]. right. exists r. split; [assumption|]. injection E as -> _. exact L.
Qed.

Lemma polygon_angles_spec ang b l : forall prev r, polygon_angles ang b prev l = Done r ->
  forall a, In a r <-> exists i j ei, In (i, j) (pairs prev l) /\ edge_at b i ei /\ angle_between ang b (s1 (e_seg ei)) i j a.
Proof.
  induction l as [|k l IH]; intros prev r E a; cbn in E.
  - injection E as <-. split; [intros []|]. intros (i & j & ei & [] & _).
  - unfold read in E. destruct (nth_error (b_edges b) prev) as [ep|] eqn:Ep; cbn [bind] in E; [|discriminate].
    destruct (nth_error (b_edges b) k) as [ek|] eqn:Ek; cbn [bind] in E; [|discriminate].
    destruct (polygon_angles ang b k l) as [rest| |] eqn:Er; cbn [bind] in E; try discriminate. specialize (IH k rest Er a).
    assert (Here : is_diagonal ep || is_diagonal ek = true <-> diagonal ep \/ diagonal ek) by now rewrite orb_true_iff, !is_diagonal_spec.
    unfold new_angle, read in E. rewrite Ep, Ek in E. cbn [bind] in E. cbn [pairs]. destruct (is_diagonal ep || is_diagonal ek) eqn:D; injection E as <-.
    + cbn [In]. rewrite IH. split.
      * intros [<-|(i & j & ei & I & H)]; [|exists i, j, ei; split; [now right|assumption]]. exists prev, k, ep. split; [now left|]. split; [assumption|].
        exists ep, ek. split; [assumption|]. split; [assumption|]. split; [now apply Here|reflexivity].
      * intros (i & j & ei & [I|I] & Ei & H); [|right; now exists i, j, ei]. injection I as <- <-. left. destruct H as (e1 & e2 & E1 & E2 & _ & ->).
        unfold edge_at in *. congruence.
    + rewrite IH. split.
      * intros (i & j & ei & I & H). exists i, j, ei. split; [now right|assumption].
      * intros (i & j & ei & [I|I] & Ei & H); [|now exists i, j, ei]. injection I as <- <-. exfalso. destruct H as (e1 & e2 & E1 & E2 & Dg & _).
        assert (e1 = ep) as -> by (unfold edge_at in *; congruence). assert (e2 = ek) as -> by (unfold edge_at in *; congruence).
        apply Here in Dg. discriminate.
Qed.

Lemma polygon_angles_ends ang b l : (forall i, In i l -> exists e, edge_at b i e) -> forall prev, (exists e, edge_at b prev e) -> exists r, polygon_angles ang b prev l = Done r.
Proof.
  induction l as [|k l IH]; intros H prev (ep & Ep); cbn; [eauto|]. destruct (H k (or_introl eq_refl)) as (ek & Ek). unfold read. unfold edge_at in *.
  rewrite Ep, Ek. cbn [bind]. destruct (IH (fun i I => H i (or_intror I)) k (ex_intro _ ek Ek)) as (r & ->). cbn [bind].
  unfold new_angle, read. rewrite Ep, Ek. cbn [bind]. destruct (is_diagonal ep || is_diagonal ek); eauto.
Qed.

Definition cross_at (ang : point -> point -> Q) (b : board) (i j : nat) (a : angle) : Prop :=
  exists ei ej q, edge_at b i ei /\ edge_at b j ej /\ overlap2_strict (seg_bounding (e_seg ei)) (seg_bounding (e_seg ej)) = true
    /\ relation_seg (e_seg ei) (e_seg ej) = CROSSING /\ intersection (e_seg ei) (e_seg ej) = Some q /\ angle_between ang b q i j a.

Lemma crossing_angle_spec ang b i j r : crossing_angle ang b i j = Done r -> forall a, In a r <-> cross_at ang b i j a.
Proof.
  unfold crossing_angle, read, cross_at. destruct (nth_error (b_edges b) i) as [ei|] eqn:Ei; cbn [bind]; [|discriminate].
  destruct (nth_error (b_edges b) j) as [ej|] eqn:Ej; cbn [bind]; [|discriminate]. intros E a.
  assert (Un : forall (P : edge -> edge -> point -> Prop), (exists e f q, edge_at b i e /\ edge_at b j f /\ P e f q) <-> exists q, P ei ej q).
  { intros P. split; [intros (e & f & q & E1 & E2 & H)|intros (q & H); exists ei, ej, q; now repeat split]. unfold edge_at in *.
    assert (e = ei) by congruence. assert (f = ej) by congruence. subst. now exists q. }
  rewrite Un. destruct (negb (is_diagonal ei) && negb (is_diagonal ej)) eqn:D.
  { injection E as <-. split; [intros []|]. intros (q & _ & _ & _ & (e1 & e2 & E1 & E2 & Dg & _)). unfold edge_at in *. assert (e1 = ei) by congruence. assert (e2 = ej) by congruence. subst.
    rewrite <- !is_diagonal_spec in Dg. destruct Dg as [Dg|Dg]; rewrite Dg in D; [discriminate|]. rewrite andb_false_r in D. discriminate. }
  assert (Dg : diagonal ei \/ diagonal ej).
  { rewrite <- !is_diagonal_spec. destruct (is_diagonal ei), (is_diagonal ej); cbn in D; try discriminate; tauto. }
  destruct (overlap2_strict _ _) eqn:O; cbn [negb] in E; [|injection E as <-; split; [intros []|intros (q & X & _); discriminate]].
  destruct (relation_seg (e_seg ei) (e_seg ej)) eqn:R;
    try (injection E as <-; split; [intros []|intros (q & _ & X & _); discriminate]).
  destruct (intersection (e_seg ei) (e_seg ej)) as [q|] eqn:I; [|injection E as <-; split; [intros []|intros (q & _ & _ & X & _); discriminate]].
  unfold new_angle, read in E. rewrite Ei, Ej in E. cbn [bind] in E. injection E as <-. split.
  - intros [<-|[]]. exists q. split; [reflexivity|]. split; [reflexivity|]. split; [reflexivity|]. exists ei, ej. now repeat split.
  - intros (q' & _ & _ & X & (e1 & e2 & E1 & E2 & _ & ->)). left. injection X as <-. unfold edge_at in *. congruence.
Qed.

Lemma crossing_angle_ends ang b i j : (exists e, edge_at b i e) -> (exists e, edge_at b j e) -> exists r, crossing_angle ang b i j = Done r.
Proof.
  intros (ei & Ei) (ej & Ej). unfold crossing_angle, new_angle, read. unfold edge_at in *. rewrite Ei, Ej. cbn [bind].
  destruct (_ && _); [eauto|]. destruct (negb _); [eauto|]. destruct (relation_seg _ _); eauto. destruct (intersection _ _); cbn; eauto.
Qed.

Lemma in_concat_forall2 {A B} (P : A -> list B -> Prop) (Q : A -> B -> Prop) l r : Forall2 P l r -> (forall x y, P x y -> forall a, In a y <-> Q x a) ->
  forall a, In a (concat r) <-> exists x, In x l /\ Q x a.
Proof.
  intros F H a. induction F as [|x y l r Px F IH]; cbn; [split; [intros []|intros (x & [] & _)]|]. rewrite in_app_iff, IH, (H x y Px). split.
  - intros [K|(z & I & K)]; [exists x; split; [now left|assumption]|exists z; split; [now right|assumption]].
  - intros (z & [<-|I] & K); [now left|right; now exists z].
Qed.

Lemma crossing_angles_spec ang b l : forall r, crossing_angles ang b l = Done r ->
  forall a, In a r <-> exists k k' g g' i j, (k < k')%nat /\ nth_error l k = Some g /\ nth_error l k' = Some g' /\ In i (g_edges g) /\ In j (g_edges g') /\ cross_at ang b i j a.
Proof.
  induction l as [|g l IH]; intros r E a; cbn in E.
  - injection E as <-. split; [intros []|]. intros (k & k' & g & g' & i & j & _ & H & _). destruct k; discriminate.
  - destruct (collect (fun i => collect (crossing_angle ang b i) (flat_map g_edges l)) (g_edges g)) as [here| |] eqn:H; cbn [bind] in E; try discriminate.
    destruct (crossing_angles ang b l) as [rest| |] eqn:R; cbn [bind] in E; try discriminate. injection E as <-. rewrite in_app_iff, (IH rest eq_refl).
    apply collect_done in H.
    assert (Hh : In a (concat (map (@concat _) here)) <-> exists i j, In i (g_edges g) /\ In j (flat_map g_edges l) /\ cross_at ang b i j a).
    { transitivity (exists i, In i (g_edges g) /\ exists j, In j (flat_map g_edges l) /\ cross_at ang b i j a).
      - apply (in_concat_forall2 (fun i r => exists r', collect (crossing_angle ang b i) (flat_map g_edges l) = Done r' /\ r = concat r')
          (fun i a => exists j, In j (flat_map g_edges l) /\ cross_at ang b i j a)).
        + clear - H. induction H; cbn; constructor; eauto.
        + intros i r (r' & C & ->). intros a'. apply collect_done in C. apply (in_concat_forall2 _ _ _ _ C). intros j t Ct. now apply crossing_angle_spec.
      - split; [intros (i & I & j & J & K); exists i, j; now repeat split|intros (i & j & I & J & K); exists i; split; [assumption|]; exists j; now split]. }
    rewrite Hh. split.
    + intros [(i & j & I & J & K)|(k & k' & g1 & g2 & i & j & L & K1 & K2 & I & J & K)].
      * apply in_flat_map in J. destruct J as (g' & Ig & J). apply In_nth_error in Ig. destruct Ig as (n & Ig). exists 0%nat, (S n), g, g', i, j.
        split; [lia|]. now repeat split.
      * exists (S k), (S k'), g1, g2, i, j. split; [lia|]. now repeat split.
    + intros (k & k' & g1 & g2 & i & j & L & K1 & K2 & I & J & K). destruct k' as [|k']; [lia|]. cbn in K2. destruct k as [|k]; cbn in K1.
      * injection K1 as <-. left. exists i, j. split; [assumption|]. split; [|assumption]. apply in_flat_map. exists g2. split; [eapply nth_error_In; exact K2|assumption].
      * right. exists k, k', g1, g2, i, j. split; [lia|]. now repeat split.
Qed.

Lemma crossing_angles_ends ang b l : (forall g i, In g l -> In i (g_edges g) -> exists e, edge_at b i e) -> exists r, crossing_angles ang b l = Done r.
Proof.
  induction l as [|g l IH]; intros H; cbn; [eauto|].
  destruct (collect_ends (fun i => collect (crossing_angle ang b i) (flat_map g_edges l)) (g_edges g)) as (here & ->).
  { intros i I. apply collect_ends. intros j J. apply crossing_angle_ends; [apply (H g i); [now left|assumption]|].
    apply in_flat_map in J. destruct J as (g' & Ig & J). apply (H g' j); [now right|assumption]. }
  cbn [bind]. destruct IH as (r & ->); [intros g' i I; apply H; now right|]. cbn. eauto.
Qed.

Lemma nth_filter {A} (f : A -> bool) l k k' x y : (k < k')%nat -> nth_error (filter f l) k = Some x -> nth_error (filter f l) k' = Some y ->
  exists n n', (n < n')%nat /\ nth_error l n = Some x /\ nth_error l n' = Some y.
Proof.
  revert k k'. induction l as [|a l IH]; intros k k' L X Y; cbn in X; [destruct k; discriminate|]. cbn in Y. destruct (f a) eqn:F.
  - destruct k' as [|k']; [lia|]. cbn in Y. destruct k as [|k]; cbn in X.
    + injection X as <-. apply nth_error_In, filter_In in Y. destruct Y as [Y _]. apply In_nth_error in Y. destruct Y as (n & Y). exists 0%nat, (S n). split; [lia|]. now split.
    + destruct (IH k k') as (n & n' & L' & X' & Y'); [lia|assumption|assumption|]. exists (S n), (S n'). split; [lia|]. now split.
  - destruct (IH k k') as (n & n' & L' & X' & Y'); [lia|assumption|assumption|]. exists (S n), (S n'). split; [lia|]. now split.
Qed.
Lemma filter_nth {A} (f : A -> bool) l n n' x y : (n < n')%nat -> nth_error l n = Some x -> nth_error l n' = Some y -> f x = true -> f y = true ->
  exists k k', (k < k')%nat /\ nth_error (filter f l) k = Some x /\ nth_error (filter f l) k' = Some y.
Proof.
  revert n n'. induction l as [|a l IH]; intros n n' L X Y Fx Fy; [destruct n; discriminate|]. destruct n' as [|n']; [lia|]. cbn in Y. cbn [filter]. destruct n as [|n]; cbn in X.
  - injection X as <-. rewrite Fx. assert (In y (filter f l)) as I by (apply filter_In; split; [eapply nth_error_In; exact Y|assumption]). apply In_nth_error in I. destruct I as (k & I).
    exists 0%nat, (S k). split; [lia|]. now split.
  - destruct (IH n n') as (k & k' & L' & X' & Y'); [lia|assumption..|]. destruct (f a); [exists (S k), (S k')|exists k, k']; (split; [lia|]); now split.
Qed.

Lemma diagonal_angles_spec ang b p : edges_in_place b -> exists new, detect_diagonal_angles ang b p = Done (set_angles b (b_angles b ++ new))
  /\ forall a, In a new <-> corner_angle ang b p a \/ cross_angle ang b p a.
Proof.
  intros Pl. unfold detect_diagonal_angles. set (l := filter _ (b_polygons b)).
  assert (Ex : forall g i, In g l -> In i (g_edges g) -> exists e, edge_at b i e).
  { intros g i I J. apply filter_In in I. destruct I as [I _]. apply In_nth_error in I. destruct I as (k & G). destruct (Pl k g G i J) as (e & E & _). eauto. }
  assert (Lp : forall g, In g l <-> exists k, nth_error (b_polygons b) k = Some g /\ g_plane g = p).
  { intros g. unfold l. rewrite filter_In, plane_eqb_eq. split; [intros [I P]; apply In_nth_error in I; destruct I as (k & G); eauto|intros (k & G & P); split; [eapply nth_error_In; exact G|assumption]]. }
  set (f := fun g => match g_edges g with [] => Done [] | i :: _ => polygon_angles ang b (last (g_edges g) i) (g_edges g) end).
  destruct (collect_ends f l) as (corners & C).
  { intros g I. unfold f. pose proof (Ex g) as Ex'. destruct (g_edges g) as [|i r] eqn:Eg; [eauto|]. apply polygon_angles_ends; [intros j J; now apply (Ex' j I)|].
    apply (Ex' _ I). now apply last_in. }
  rewrite C. cbn [bind]. destruct (crossing_angles_ends ang b l Ex) as (cr & Cr). rewrite Cr. cbn [bind]. exists (concat corners ++ cr). split; [reflexivity|].
  intros a. rewrite in_app_iff, (crossing_angles_spec ang b l cr Cr a). apply collect_done in C.
  rewrite (in_concat_forall2 _ (fun g a => exists i j ei, follows (g_edges g) i j /\ edge_at b i ei /\ angle_between ang b (s1 (e_seg ei)) i j a) _ _ C).
  - split; (intros [H|H]; [left|right]).
    + destruct H as (g & I & i & j & ei & F & Ei & A). apply Lp in I. destruct I as (k & G & P). exists k, g, i, j, ei. now repeat split.
    + destruct H as (k & k' & g & g' & i & j & L & K & K' & I & J & (ei & ej & q & Ei & Ej & O & R & X & A)). unfold l in K, K'.
      pose proof (proj1 (Lp g) (nth_error_In _ _ K)) as (m & _ & P). pose proof (proj1 (Lp g') (nth_error_In _ _ K')) as (m' & _ & P').
      destruct (nth_filter _ _ _ _ _ _ L K K') as (n & n' & L' & N & N'). exists n, n', g, g', i, j, ei, ej, q. now repeat split.
    + destruct H as (k & g & i & j & ei & G & P & F & Ei & A). exists g. split; [apply Lp; eauto|]. exists i, j, ei. now repeat split.
    + destruct H as (n & n' & g & g' & i & j & ei & ej & q & L & N & N' & P & P' & I & J & Ei & Ej & O & R & X & A).
      destruct (filter_nth (fun g => plane_eqb (g_plane g) p) _ _ _ _ _ L N N') as (k & k' & L' & K & K'); [now apply plane_eqb_eq..|].
      exists k, k', g, g', i, j. do 5 (split; [assumption|]). exists ei, ej, q. now repeat split.
  - intros g r Fr a'. unfold f in Fr. destruct (g_edges g) as [|h t] eqn:Eg.
    + injection Fr as <-. split; [intros []|]. intros (i & j & ei & F & _). now apply follows_pairs in F.
    + rewrite (polygon_angles_spec ang b _ _ _ Fr a'). split; intros (i & j & ei & F & H); exists i, j, ei; (split; [|assumption]); now apply (follows_pairs (h :: t)).
Qed.

(** * Runs *)

Lemma runs_head {A} (f : A -> bool) x l rs : f x = true -> maximal_runs f (x :: l) rs -> exists r t, rs = (x :: r) :: t.
Proof.
  intros F H. inversion H as [g G E|g r G N R E|g r y rest rs' G N R Fy M E]; subst.
  - inversion G; congruence.
  - destruct g as [|z g]; cbn in E; [subst; eauto|]. injection E as -> _. inversion G; congruence.
  - destruct g as [|z g]; cbn in E; [destruct r as [|z r]; [congruence|]; injection E as -> _; eauto|]. injection E as -> _. inversion G; congruence.
Qed.

Lemma runs_gap {A} (f : A -> bool) x l rs : f x = false -> maximal_runs f (x :: l) rs -> maximal_runs f l rs.
Proof.
  intros F H. rewrite (runs_unique f _ _ H _ (gap_more f x l _ F (proj1 (matches_runs f l)))). apply matches_runs.
Qed.

Lemma runs_start {A} (f : A -> bool) x l rs : f x = true -> match l with [] => True | y :: _ => f y = false end -> maximal_runs f l rs -> maximal_runs f (x :: l) ([x] :: rs).
Proof.
  intros F L M. destruct l as [|y l].
  - inversion M as [g G E|g r G N R E|g r y rest rs' G N R Fy M' E]; subst.
    + apply (runs_last f [] [x]); [constructor|discriminate|now repeat constructor].
    + destruct g, r; cbn in E; try discriminate. now contradiction N.
    + destruct g; [destruct r|]; cbn in E; discriminate.
  - apply (runs_more f [] [x]); [constructor|discriminate|now repeat constructor|assumption|]. now apply (runs_gap f y).
Qed.

Lemma runs_extend {A} (f : A -> bool) x y l r rs : f x = true -> f y = true -> maximal_runs f (y :: l) ((y :: r) :: rs) -> maximal_runs f (x :: y :: l) ((x :: y :: r) :: rs).
Proof.
  intros F Fy M. inversion M as [|g r' G N R E E'|g r' z rest rs' G N R Fz M' E E']; subst.
  - destruct g as [|z g]; [|cbn in E; injection E as -> _; inversion G; congruence]. cbn in E. injection E as ->.
    apply (runs_last f [] (x :: y :: l)); [constructor|discriminate|now constructor].
  - destruct g as [|w g]; [|cbn in E; injection E as -> _; inversion G; congruence]. cbn in E. injection E as <-.
    apply (runs_more f [] (x :: y :: r)); [constructor|discriminate|now constructor|assumption|assumption].
Qed.

(** The list cut between the elements that are not bridged. *)
Section Blocks.
Context {A : Type} (br : A -> A -> bool).
Fixpoint blocks (l : list A) : list (list A) :=
  match l with
  | [] => []
  | x :: r => match blocks r with
              | (y :: b) :: t => if br x y then (x :: y :: b) :: t else [x] :: (y :: b) :: t
              | _ => [[x]]
              end
  end.

Lemma blocks_head x l : exists b t, blocks (x :: l) = (x :: b) :: t.
Proof. cbn. destruct (blocks l) as [|[|y b] t]; [eauto..|]. destruct (br x y); eauto. Qed.
Lemma blocks_two x y l : exists b t, blocks (y :: l) = (y :: b) :: t /\ blocks (x :: y :: l) = if br x y then (x :: y :: b) :: t else [x] :: (y :: b) :: t.
Proof.
  destruct (blocks_head y l) as (b & t & E). exists b, t. split; [assumption|].
  remember (y :: l) as r. cbn. rewrite E. reflexivity.
Qed.

Lemma blocks_concat l : concat (blocks l) = l.
Proof.
  induction l as [|x l IH]; [reflexivity|]. destruct l as [|y l]; [reflexivity|]. destruct (blocks_two x y l) as (b & t & E & ->). rewrite E in IH. cbn in IH.
  destruct (br x y); cbn; now rewrite IH.
Qed.
Lemma blocks_some l : Forall (fun b => b <> []) (blocks l).
Proof.
  induction l as [|x l IH]; [constructor|]. destruct l as [|y l]; [now repeat constructor|]. destruct (blocks_two x y l) as (b & t & E & ->). rewrite E in IH.
  inversion IH; subst. destruct (br x y); repeat constructor; try discriminate; assumption.
Qed.

Lemma blocks_consecutive l : NoDup l -> forall x y, consecutive l x y ->
  (br x y = true <-> exists b, In b (blocks l) /\ In x b /\ In y b).
Proof.
  induction l as [|z l IH]; intros N x y (l1 & l2 & E); [destruct l1; discriminate|]. inversion N as [|? ? Nz Nl]; subst. destruct l1 as [|z' l1]; cbn in E; injection E as <- E.
  - subst l. destruct (blocks_two z y l2) as (b & t & Eb & ->). destruct (br z y) eqn:Br.
    + split; [|reflexivity]. intros _. exists (z :: y :: b). split; [now left|]. split; [now left|right; now left].
    + split; [discriminate|]. intros (B & I & Iz & Iy). exfalso. destruct I as [<-|I].
      * destruct Iy as [<-|[]]. apply Nz. now left.
      * rewrite <- Eb in I. apply Nz. rewrite <- (blocks_concat (y :: l2)). apply in_concat. now exists B.
  - assert (C : consecutive l x y) by now exists l1, l2. specialize (IH Nl x y C). assert (Ix : In x l) by (subst l; apply in_or_app; right; now left).
    assert (Iy : In y l) by (subst l; apply in_or_app; right; right; now left). assert (x <> z) by (intros ->; contradiction). assert (y <> z) by (intros ->; contradiction).
    rewrite IH. destruct l as [|w l]; [destruct Ix|]. destruct (blocks_two z w l) as (b & t & Eb & ->). rewrite Eb. destruct (br z w).
    + split.
      * intros (B & [<-|I] & X & Y); [exists (z :: w :: b); split; [now left|]; split; now right|]. exists B. split; [now right|]. now split.
      * intros (B & [<-|I] & X & Y); [|exists B; split; [now right|]; now split]. exists (w :: b). split; [now left|]. destruct X; [congruence|]. destruct Y; [congruence|]. now split.
    + split.
      * intros (B & I & X & Y). exists B. split; [now right|]. now split.
      * intros (B & [<-|I] & X & Y); [destruct X as [X|[]]; congruence|]. exists B. now repeat split.
Qed.
End Blocks.

(** * Zones *)

Definition bridged (v : ViewAxis) (ds : list edge) (x y : nat * angle) : bool :=
  existsb (fun e => overlap_coord (box_side v (seg_bounding (e_seg e))) (coord_mid (pt_coord (a_point (snd x)) v) (pt_coord (a_point (snd y)) v))) ds.
Definition long {A} (l : list A) : bool := (2 <=? length l)%nat.

Lemma ranges_two v ds x y l : angle_ranges v ds (x :: y :: l) = (fst x, fst y, bridged v ds x y) :: angle_ranges v ds (y :: l).
Proof. reflexivity. Qed.

Lemma blocks_runs v ds l : maximal_runs (fun x : nat * nat * bool => snd x) (angle_ranges v ds l) (map (angle_ranges v ds) (filter long (blocks (bridged v ds) l)))
  /\ match l with x :: y :: _ => bridged v ds x y = true -> exists b t, blocks (bridged v ds) l = (x :: y :: b) :: t | _ => True end.
Proof.
  induction l as [|x l [IH S]]; [split; [constructor; constructor|exact I]|]. destruct l as [|y l]; [split; [constructor; constructor|exact I]|].
  destruct (blocks_two (bridged v ds) x y l) as (b & t & E & E'). rewrite ranges_two, E'. rewrite E in IH. destruct (bridged v ds x y) eqn:Br.
  2: { split; [|discriminate]. apply gap_more; [reflexivity|exact IH]. }
  split; [|intros _; eauto]. cbn [filter long length Nat.leb map]. destruct l as [|z l].
  - cbn in E. injection E as <- <-. rewrite (ranges_two v ds x y []), Br. cbn. apply runs_start; [reflexivity|exact I|constructor; constructor].
  - destruct (blocks_two (bridged v ds) y z l) as (b' & t' & F & F'). rewrite F' in E. rewrite (ranges_two v ds y z l) in *. destruct (bridged v ds y z) eqn:Bz.
    + injection E as <- <-. cbn [filter long length Nat.leb map] in IH. rewrite (ranges_two v ds y z b'), Bz in IH.
      rewrite (ranges_two v ds x y (z :: b')), Br, (ranges_two v ds y z b'), Bz. now apply runs_extend.
    + injection E as <- <-. cbn [filter long length Nat.leb map] in IH. rewrite (ranges_two v ds x y []), Br. apply runs_start; [reflexivity|reflexivity|]. exact IH.
Qed.

Lemma unique_ranges v ds l : NoDup (map fst l) -> long l = true -> unique_nat (flat_map (fun x : nat * nat * bool => [fst (fst x); snd (fst x)]) (angle_ranges v ds l)) = map fst l.
Proof.
  induction l as [|x l IH]; [discriminate|]. destruct l as [|y l]; [discriminate|]. intros N _. rewrite ranges_two. cbn [flat_map fst snd app].
  inversion N as [|? ? Nx Nl]; subst. assert (fst x <> fst y) by (intros E; apply Nx; left; now rewrite E). destruct l as [|z l].
  - cbn. now destruct (Nat.eqb_spec (fst x) (fst y)).
  - specialize (IH Nl eq_refl). cbn [unique_nat]. rewrite IH. cbn [map]. rewrite Nat.eqb_refl. now destruct (Nat.eqb_spec (fst x) (fst y)).
Qed.

Lemma bridged_spec v b p x y : bridged v (filter (fun e => plane_eqb (e_plane e) p && (e_to_mesh e && is_diagonal e)) (b_edges b)) x y = true
  <-> diagonal_over b p v ((along v (a_point (snd x)) + along v (a_point (snd y))) / 2).
Proof.
  unfold bridged, diagonal_over. rewrite existsb_exists.
  assert (M : forall e, overlap_coord (box_side v (seg_bounding (e_seg e))) (coord_mid (pt_coord (a_point (snd x)) v) (pt_coord (a_point (snd y)) v)) = true
    <-> passes v (e_seg e) ((along v (a_point (snd x)) + along v (a_point (snd y))) / 2)).
  { intros e. unfold overlap_coord. rewrite andb_true_iff, !Qle_bool_iff. replace (coord_mid _ _) with ((along v (a_point (snd x)) + along v (a_point (snd y))) / 2) by (now destruct v).
    generalize ((along v (a_point (snd x)) + along v (a_point (snd y))) / 2). intros m. unfold passes, seg_bounding, box_side, along. destruct v; cbn [lo hi xmin xmax ymin ymax].
    - destruct (Qltb (px (s0 (e_seg e))) (px (s1 (e_seg e)))) eqn:C1; destruct (Qltb (px (s1 (e_seg e))) (px (s0 (e_seg e)))) eqn:C2; rewrite ?Qltb_lt in *; rewrite ?Qltb_ge in *; split.
      all: try (intros; lra); try (intros H; left; lra); try (intros H; right; lra); try (intros [H|H]; lra).
    - destruct (Qltb (py (s0 (e_seg e))) (py (s1 (e_seg e)))) eqn:C1; destruct (Qltb (py (s1 (e_seg e))) (py (s0 (e_seg e)))) eqn:C2; rewrite ?Qltb_lt in *; rewrite ?Qltb_ge in *; split.
      all: try (intros; lra); try (intros H; left; lra); try (intros H; right; lra); try (intros [H|H]; lra). }
  split.
  - intros (e & I & O). apply filter_In in I. destruct I as [I K]. rewrite !andb_true_iff, plane_eqb_eq, is_diagonal_spec in K. apply In_nth_error in I. destruct I as (i & I).
    exists i, e. split; [exact I|]. split; [tauto|]. split; [tauto|]. split; [tauto|]. now apply M.
  - intros (i & e & I & P & T & D & Sp). exists e. split; [|now apply M]. apply filter_In. split; [eapply nth_error_In; exact I|].
    rewrite !andb_true_iff, plane_eqb_eq, is_diagonal_spec. tauto.
Qed.

Definition zone_for (g : params) (d : diag_params) (srt : sort_by) (v : ViewAxis) (l : list (nat * angle)) : diag_zone :=
  mk_diag_zone (dp_dmax d) (g_lmin g) (dp_minimal d) (map fst (srt _ (fun x y => Qltb (pt_coord (a_point (snd x)) v) (pt_coord (a_point (snd y)) v)) l)).
Definition real_angles (b : board) (p : Plane) (l : list (nat * angle)) : Prop := forall x, In x l -> nth_error (b_angles b) (fst x) = Some (snd x) /\ a_plane (snd x) = p.

Lemma collect_angles b p l : real_angles b p l -> collect (fun i => let! a := read (b_angles b) i in Done (i, a)) (map fst l) = Done l.
Proof.
  induction l as [|[i a] l IH]; intros H; cbn; [reflexivity|]. unfold read at 1. destruct (H (i, a) (or_introl eq_refl)) as [E _]. cbn in E. rewrite E. cbn [bind].
  rewrite IH; [reflexivity|]. intros x I. apply H. now right.
Qed.

Lemma view_of_table p v : view_of_axis p (axes_table p v) = Some v.
Proof. now destruct p, v. Qed.

Lemma add_zone_spec g d srt b p v l : l <> [] -> real_angles b p l ->
  add_diagonal_zone g d srt (axes_table p v) b (map fst l)
  = Done (set_zones b (set_axis (b_zones b) (axes_table p v) (on_axis (b_zones b) (axes_table p v) ++ [zone_for g d srt v l]))).
Proof.
  intros N H. unfold add_diagonal_zone. rewrite (collect_angles b p l H). cbn [bind]. destruct l as [|[i a] l]; [congruence|].
  destruct (H (i, a) (or_introl eq_refl)) as [_ P]. cbn in P.
  rewrite (proj2 (forallb_forall _ _)).
  - rewrite P, view_of_table. reflexivity.
  - intros x I. apply plane_eqb_eq. rewrite P. now apply (H x I).
Qed.

Lemma set_zones_same b : set_zones b (b_zones b) = b.
Proof. now destruct b. Qed.
Lemma set_axis_same {A} (s : space A) ax : set_axis s ax (on_axis s ax) = s.
Proof. now destruct s, ax. Qed.
Lemma set_axis_twice {A} (s : space A) ax x y : set_axis (set_axis s ax x) ax y = set_axis s ax y.
Proof. now destruct s, ax. Qed.

Lemma add_zones_spec g d srt p v ls : forall b, Forall (fun l => l <> [] /\ real_angles b p l) ls ->
  for_each (add_diagonal_zone g d srt (axes_table p v)) (map (map fst) ls) b
  = Done (set_zones b (set_axis (b_zones b) (axes_table p v) (on_axis (b_zones b) (axes_table p v) ++ map (zone_for g d srt v) ls))).
Proof.
  induction ls as [|l ls IH]; intros b F; cbn.
  - rewrite app_nil_r, set_axis_same, set_zones_same. reflexivity.
  - inversion F as [|? ? [N R] F']; subst. rewrite (add_zone_spec g d srt b p v l N R). cbn [bind]. rewrite IH; [|exact F'].
    cbn [b_zones set_zones]. rewrite set_axis_twice, on_set_axis, <- app_assoc. reflexivity.
Qed.

Lemma nodup_concat_filter {A} (f : list A -> bool) ls : NoDup (concat ls) -> NoDup (concat (filter f ls)).
Proof.
  induction ls as [|l ls IH]; cbn; intros N; [constructor|]. assert (N' : NoDup (concat ls)) by (clear - N; induction l; cbn in N; [assumption|inversion N; auto]).
  destruct (f l); [|auto]. cbn. specialize (IH N'). clear N'. induction l as [|x l IHl]; cbn in *; [assumption|]. inversion N as [|? ? Nx Nl]; subst.
  constructor; [|now apply IHl]. intros I. apply Nx. rewrite in_app_iff in *. destruct I as [I|I]; [now left|right].
  apply in_concat in I. destruct I as (y & Iy & I). apply filter_In in Iy. apply in_concat. exists y. tauto.
Qed.

Lemma perm_concat {A B} (f h : A -> list B) ls : (forall l, In l ls -> Permutation (f l) (h l)) -> Permutation (concat (map f ls)) (concat (map h ls)).
Proof. induction ls as [|l ls IH]; cbn; intros H; [constructor|]. apply Permutation_app; [apply H; now left|apply IH; intros; apply H; now right]. Qed.

Lemma nodup_app_l {A} (l l' : list A) : NoDup (l ++ l') -> NoDup l.
Proof. induction l as [|x l IH]; cbn; intros N; [constructor|]. inversion N as [|? ? Nx Nl]; subst. constructor; [|auto]. intros I. apply Nx. apply in_or_app. now left. Qed.
Lemma nodup_app_r {A} (l l' : list A) : NoDup (l ++ l') -> NoDup l'.
Proof. induction l as [|x l IH]; cbn; intros N; [assumption|]. inversion N; auto. Qed.
Lemma sorted_map {A B} (f : A -> B) (R : B -> B -> Prop) l : StronglySorted (fun x y => R (f x) (f y)) l -> StronglySorted R (map f l).
Proof. induction 1 as [|x l S IH F]; cbn; constructor; [assumption|]. clear - F. induction F; cbn; constructor; assumption. Qed.
Lemma sorted_weaken {A} (R R' : A -> A -> Prop) l : (forall x y, In x l -> In y l -> R x y -> R' x y) -> StronglySorted R l -> StronglySorted R' l.
Proof.
  induction l as [|x l IH]; intros H S; [constructor|]. inversion S as [|? ? S' F]; subst. constructor.
  - apply IH; [|assumption]. intros y z Iy Iz. apply H; now right.
  - apply Forall_forall. intros y I. rewrite Forall_forall in F. apply H; [now left|now right|auto].
Qed.

Lemma zones_view g d srt p v b l : sorts_by srt -> NoDup (map fst l) -> (forall i a, In (i, a) l <-> nth_error (b_angles b) i = Some a /\ a_plane a = p) ->
  exists zs l', detect_zones_view g d srt p (b, l) v = Done (set_zones b (set_axis (b_zones b) (axes_table p v) (on_axis (b_zones b) (axes_table p v) ++ zs)), l')
    /\ zoned g d b p v zs /\ NoDup (map fst l') /\ (forall i a, In (i, a) l' <-> nth_error (b_angles b) i = Some a /\ a_plane a = p).
Proof.
  intros Srt N H. unfold detect_zones_view. set (less := fun x y : nat * angle => Qltb (pt_coord (a_point (snd x)) v) (pt_coord (a_point (snd y)) v)).
  set (S := srt _ less l). set (ds := filter _ (b_edges b)).
  destruct (Srt _ less l) as [Pm Sorted]; [apply (weak_order_key (fun x : nat * angle => pt_coord (a_point (snd x)) v))|]. fold S in Pm, Sorted.
  assert (NS : NoDup (map fst S)) by (eapply Permutation_NoDup; [apply Permutation_map; exact Pm|exact N]).
  assert (HS : forall i a, In (i, a) S <-> nth_error (b_angles b) i = Some a /\ a_plane a = p).
  { intros i a. rewrite <- H. split; apply Permutation_in; [now apply Permutation_sym|assumption]. }
  set (bl := blocks (bridged v ds) S). assert (Cb : concat bl = S) by apply blocks_concat.
  assert (Sub : forall B, In B bl -> exists l1 l2, S = l1 ++ B ++ l2).
  { intros B I. apply in_split in I. destruct I as (c1 & c2 & E). exists (concat c1), (concat c2). rewrite <- Cb, E, concat_app. reflexivity. }
  assert (NB : forall B, In B bl -> NoDup (map fst B)).
  { intros B I. destruct (Sub B I) as (l1 & l2 & E). rewrite E, !map_app in NS. apply nodup_app_r in NS. now apply nodup_app_l in NS. }
  assert (RB : forall B, In B bl -> real_angles b p B).
  { intros B I [i a] J. apply HS. destruct (Sub B I) as (l1 & l2 & ->). rewrite !in_app_iff. tauto. }
  replace (find_consecutive_matches (fun x : nat * nat * bool => snd x) (angle_ranges v ds S)) with (map (angle_ranges v ds) (filter long bl)).
  2: { apply (runs_unique _ _ _ (proj1 (blocks_runs v ds S))). apply matches_runs. }
  rewrite map_map. rewrite (map_ext_in _ (map fst)).
  2: { intros B I. apply filter_In in I. destruct I as [I L]. apply unique_ranges; [now apply NB|assumption]. }
  rewrite (add_zones_spec g d srt p v).
  2: { apply Forall_forall. intros B I. apply filter_In in I. destruct I as [I L]. split; [intros ->; discriminate|now apply RB]. }
  cbn [bind]. exists (map (zone_for g d srt v) (filter long bl)), S. split; [reflexivity|]. split; [|now split].
  assert (Zp : forall B, Permutation (map fst B) (dz_angles (zone_for g d srt v B))).
  { intros B. cbn. apply Permutation_map. apply Srt. apply (weak_order_key (fun x : nat * angle => pt_coord (a_point (snd x)) v)). }
  assert (Al : forall q, pt_coord q v = along v q) by now destruct v.
  exists S. split; [|split; [|split]].
  - split; [assumption|]. split; [assumption|]. revert Sorted. apply sorted_weaken. intros x y _ _ L. unfold less in L. apply Qltb_ge in L. now rewrite !Al in L.
  - rewrite map_map. eapply Permutation_NoDup; [apply perm_concat; intros B _; apply Zp|]. rewrite <- concat_map.
    assert (NM : NoDup (concat (map (map fst) bl))) by (rewrite <- concat_map, Cb; assumption).
    apply (nodup_concat_filter (fun l => (2 <=? length l)%nat)) in NM. rewrite concat_map.
    replace (map (map fst) (filter long bl)) with (filter (fun l : list nat => (2 <=? length l)%nat) (map (map fst) bl)); [exact NM|].
    clear. induction bl as [|B bl IH]; cbn [map filter]; [reflexivity|]. rewrite map_length. unfold long at 1. destruct (2 <=? length B)%nat; cbn [map]; now rewrite IH.
  - intros z Iz. apply in_map_iff in Iz. destruct Iz as (B & <- & I). apply filter_In in I. destruct I as [I L]. cbn [dz_dmax dz_lmin dz_minimal zone_for].
    do 3 (split; [reflexivity|]). split.
    + cbn [dz_angles]. destruct (Srt _ less B) as [Pb Sb]; [apply (weak_order_key (fun x : nat * angle => pt_coord (a_point (snd x)) v))|]. fold less. apply sorted_map.
      revert Sb. apply sorted_weaken. intros [i a] [j c] Ia Ic K. unfold less in K. apply Qltb_ge in K. cbn [fst snd] in *. rewrite !Al in K.
      apply (Permutation_in _ (Permutation_sym Pb)) in Ia, Ic. destruct (RB B I _ Ia) as [A1 A2]. destruct (RB B I _ Ic) as [C1 C2]. exists a, c. now repeat split.
    + destruct (Sub B I) as (l1 & l2 & E). exists l1, B, l2. split; [assumption|]. split; [now apply Nat.leb_le|apply Zp].
  - intros x y C. unfold ds in *. rewrite <- bridged_spec. fold ds. rewrite (blocks_consecutive (bridged v ds) S (NoDup_map_inv _ _ NS) x y C). fold bl.
    assert (Mem : forall B w, In B bl -> In w S -> In (fst w) (map fst B) -> In w B).
    { intros B w I Iw K. apply in_map_iff in K. destruct K as (w' & Ew & I'). replace w with w'; [assumption|]. destruct (RB B I w' I') as [X _].
      destruct w as [i a], w' as [i' a']. cbn in *. subst i'. apply HS in Iw. destruct Iw as [Y _]. congruence. }
    assert (Ix : In x S) by (destruct C as (l1 & l2 & ->); rewrite in_app_iff; cbn; tauto). assert (Iy : In y S) by (destruct C as (l1 & l2 & ->); rewrite in_app_iff; cbn; tauto).
    assert (Ne : x <> y).
    { destruct C as (l1 & l2 & E). intros ->. apply NoDup_map_inv in NS. rewrite E in NS. apply NoDup_remove_2 in NS. apply NS. rewrite in_app_iff. cbn. tauto. }
    split.
    + intros (z & Iz & X & Y). apply in_map_iff in Iz. destruct Iz as (B & <- & I). apply filter_In in I. destruct I as [I L]. exists B. split; [assumption|].
      split; (apply Mem; [assumption|assumption|]); (eapply Permutation_in; [apply Permutation_sym, Zp|eassumption]).
    + intros (B & I & X & Y). exists (zone_for g d srt v B). split.
      * apply in_map, filter_In. split; [assumption|]. apply Nat.leb_le. destruct B as [|u [|w B]]; [destruct X|destruct X as [<-|[]]; destruct Y as [<-|[]]; congruence|cbn; lia].
      * split; (eapply Permutation_in; [apply Zp|]); now apply in_map.
Qed.

Lemma axes_differ p : axes_table p VV <> axes_table p VH.
Proof. now destruct p. Qed.

Lemma zoned_same g d b b' p v zs : b_angles b' = b_angles b -> b_edges b' = b_edges b -> zoned g d b p v zs -> zoned g d b' p v zs.
Proof. unfold zoned, angles_along, diagonal_over, edge_at. intros -> ->. tauto. Qed.

Lemma diagonal_zones_spec g d srt b p : sorts_by srt ->
  exists zh zv s, detect_diagonal_zones g d srt b p = Done (set_zones b s) /\ zoned g d b p VH zh /\ zoned g d b p VV zv
    /\ on_axis s (axes_table p VH) = on_axis (b_zones b) (axes_table p VH) ++ zh /\ on_axis s (axes_table p VV) = on_axis (b_zones b) (axes_table p VV) ++ zv
    /\ forall ax, view_of_axis p ax = None -> on_axis s ax = on_axis (b_zones b) ax.
Proof.
  intros Srt. unfold detect_diagonal_zones. set (l := filter _ (view (b_angles b))).
  assert (N : NoDup (map fst l)).
  { unfold l. assert (M : NoDup (map fst (view (b_angles b)))) by (rewrite view_fst; apply seq_NoDup). revert M. generalize (view (b_angles b)). clear. intros m.
    induction m as [|x m IH]; cbn; intros M; [constructor|]. inversion M; subst. destruct (plane_eqb _ p); cbn; [|auto]. constructor; [|auto].
    intros I. apply in_map_iff in I. destruct I as (y & E & I). apply filter_In in I. apply H1. rewrite <- E. apply in_map. tauto. }
  assert (H : forall i a, In (i, a) l <-> nth_error (b_angles b) i = Some a /\ a_plane a = p).
  { intros i a. unfold l. rewrite filter_In, view_in. cbn. now rewrite plane_eqb_eq. }
  destruct (zones_view g d srt p VH b l Srt N H) as (zh & l' & E & Zh & N' & H'). cbn [for_each]. rewrite E. cbn [bind].
  set (b1 := set_zones b _) in *.
  destruct (zones_view g d srt p VV b1 l' Srt N' H') as (zv & l'' & E' & Zv & _ & _). rewrite E'. cbn [bind]. unfold b1 at 1. cbn [set_zones b_polygons b_edges b_angles b_background b_ce b_eip b_zones b_axes].
  exists zh, zv. eexists. split; [reflexivity|]. split; [assumption|]. split; [now apply (zoned_same g d b1)|]. unfold b1. cbn [b_zones set_zones]. split; [|split].
  - rewrite on_set_other by (apply not_eq_sym, axes_differ). apply on_set_axis.
  - rewrite on_set_axis, on_set_other by apply axes_differ. reflexivity.
  - intros ax X. rewrite !on_set_other; [reflexivity|..]; intros ->; rewrite view_of_table in X; discriminate.
Qed.

(** * What the zones cover *)

Lemma nodup_concat_same {A} (ls : list (list A)) l l' x : NoDup (concat ls) -> In l ls -> In l' ls -> In x l -> In x l' -> l = l'.
Proof.
  induction ls as [|m ls IH]; cbn; [intros _ []|]. intros N I I' X X'.
  assert (D : forall y, In y m -> In y (concat ls) -> False).
  { clear - N. induction m as [|z m IHm]; cbn in *; [intros y []|]. inversion N as [|? ? Nz Nm]; subst. intros y [<-|I] J; [apply Nz; apply in_or_app; now right|exact (IHm Nm y I J)]. }
  destruct I as [->|I], I' as [->|I']; [reflexivity| | |now apply IH; [apply nodup_app_r in N|..]].
  - exfalso. apply (D x X). apply in_concat. now exists l'.
  - exfalso. apply (D x X'). apply in_concat. now exists l.
Qed.

Lemma consecutive_app {A} (l1 l l2 : list A) x y : consecutive l x y -> consecutive (l1 ++ l ++ l2) x y.
Proof. intros (a & b & ->). exists (l1 ++ a), (b ++ l2). now rewrite <- !app_assoc. Qed.

Lemma share_chain (zs : list diag_zone) (w : nat * angle) : NoDup (concat (map dz_angles zs)) -> forall m u,
  (forall x y, consecutive (u :: m ++ [w]) x y -> exists z, In z zs /\ In (fst x) (dz_angles z) /\ In (fst y) (dz_angles z)) ->
  exists z, In z zs /\ In (fst u) (dz_angles z) /\ In (fst w) (dz_angles z).
Proof.
  intros N. induction m as [|y m IH]; intros u H.
  - apply H. now exists [], [].
  - destruct (H u y) as (z & Iz & U & Y); [now exists [], (m ++ [w])|].
    destruct (IH y) as (z' & Iz' & Y' & W).
    { intros a b (l1 & l2 & E). apply H. exists (u :: l1), l2. cbn in *. now rewrite E. }
    assert (dz_angles z = dz_angles z') as K by (apply (nodup_concat_same (map dz_angles zs) _ _ (fst y)); [assumption|now apply in_map|now apply in_map|assumption|assumption]).
    exists z. split; [assumption|]. split; [assumption|]. now rewrite K.
Qed.

Lemma sorted_bracket {A} (key : A -> Q) s : StronglySorted (fun a b => key a <= key b) s -> (2 <= length s)%nat -> forall lo hi x, In lo s -> In hi s -> key lo <= x <= key hi ->
  exists a b, consecutive s a b /\ key a <= x <= key b.
Proof.
  induction s as [|a s IH]; cbn; [lia|]. intros S L lo hi x I J X. inversion S as [|? ? S' F]; subst. rewrite Forall_forall in F.
  destruct s as [|b s]; [cbn in L; lia|]. assert (Ha : key a <= x) by (destruct I as [->|I]; [lra|specialize (F lo I); lra]).
  destruct (Qlt_le_dec (key b) x) as [B|B].
  - destruct s as [|c s].
    + exfalso. destruct J as [<-|[<-|[]]]; [specialize (F b (or_introl eq_refl))|]; lra.
    + destruct (IH S') with (lo := b) (hi := hi) (x := x) as (u & w & (l1 & l2 & E) & K); [cbn; lia|now left| |split; [lra|lra]|].
      * destruct J as [->|J]; [|assumption]. specialize (F b (or_introl eq_refl)). lra.
      * exists u, w. split; [|assumption]. exists (a :: l1), l2. cbn. now rewrite E.
  - exists a, b. split; [now exists [], s|]. split; assumption.
Qed.

Lemma sorted_split {A} (R : A -> A -> Prop) l1 x l2 y : StronglySorted R (l1 ++ x :: l2) -> (In y l1 -> R y x) /\ (In y l2 -> R x y).
Proof.
  induction l1 as [|a l1 IH]; cbn; intros S; inversion S as [|? ? S' F]; subst; rewrite Forall_forall in F.
  - split; [intros []|auto].
  - destruct (IH S') as [H1 H2]. split; [|assumption]. intros [->|I]; [apply F; apply in_or_app; right; now left|auto].
Qed.

Lemma diagonal_wide e v : diagonal e -> ~ along v (s0 (e_seg e)) == along v (s1 (e_seg e)).
Proof.
  unfold diagonal. pose proof (seg_axis_cases (e_seg e)) as H. intros D. rewrite D in H. destruct H as [H1 H2]. unfold seg_vec, pt_sub in *. cbn [px py] in *.
  unfold equality_tolerance in *. intros E. destruct v; cbn in E.
  - assert (Qabs (px (s1 (e_seg e)) - px (s0 (e_seg e))) == 0) as K by (rewrite E, Qabs_pos; lra). rewrite K in H1. lra.
  - assert (Qabs (py (s1 (e_seg e)) - py (s0 (e_seg e))) == 0) as K by (rewrite E, Qabs_pos; lra). rewrite K in H2. lra.
Qed.

Definition ends_known (b : board) (p : Plane) : Prop := forall i e q, edge_at b i e -> e_plane e = p -> diagonal e -> q = s0 (e_seg e) \/ q = s1 (e_seg e) ->
  exists j a, nth_error (b_angles b) j = Some a /\ a_plane a = p /\ a_point a = q.

Lemma zone_cover g d b p v zs : zoned g d b p v zs -> ends_known b p -> forall x,
  (exists z, In z zs /\ in_zone_range b (axes_table p v) z x) <-> diagonal_over b p v x.
Proof.
  intros (l & (Nl & Hl & Sl) & Nz & Hz & Hc) En x. set (key := fun w : nat * angle => along v (a_point (snd w))) in *.
  assert (Kc : forall w c, In w l -> angle_coord b (axes_table p v) (fst w) c -> c = key w).
  { intros [i a] c I (a' & v' & A & V & ->). apply Hl in I. destruct I as [I P]. cbn in *. assert (a' = a) as -> by congruence. rewrite P, view_of_table in V. injection V as <-. reflexivity. }
  assert (Kd : forall w, In w l -> angle_coord b (axes_table p v) (fst w) (key w)).
  { intros [i a] I. apply Hl in I. destruct I as [I P]. exists a, v. cbn. split; [assumption|]. rewrite P, view_of_table. now split. }
  split.
  - intros (z & Iz & (i & j & y & y' & I & J & Cy & Cy' & X)). destruct (Hz z Iz) as (_ & _ & _ & _ & l1 & s & l2 & El & Ls & Pz).
    apply (Permutation_in _ (Permutation_sym Pz)) in I, J. apply in_map_iff in I, J. destruct I as (wi & <- & Ii). destruct J as (wj & <- & Ij).
    assert (Il : forall w, In w s -> In w l) by (intros w W; rewrite El, !in_app_iff; tauto).
    apply Kc in Cy; [|auto]. apply Kc in Cy'; [|auto]. subst y y'.
    assert (Ss : StronglySorted (fun a b => key a <= key b) s).
    { clear - Sl El. rewrite El in Sl. clear El. induction l1 as [|a l1 IH]; cbn in Sl; [|inversion Sl; auto]. induction s as [|a s IHs]; cbn in Sl; [constructor|].
      inversion Sl as [|? ? S' F]; subst. constructor; [auto|]. rewrite Forall_forall in *. intros w W. apply F. apply in_or_app. now left. }
    destruct (sorted_bracket key s Ss Ls wi wj x Ii Ij X) as (a & c & Cs & Xa).
    assert (Cl : consecutive l a c) by (rewrite El; now apply consecutive_app).
    assert (Ia : In a s) by (destruct Cs as (u & w & ->); rewrite in_app_iff; cbn; tauto). assert (Ic : In c s) by (destruct Cs as (u & w & ->); rewrite in_app_iff; cbn; tauto).
    destruct (proj1 (Hc a c Cl)) as (k & e & E & P & T & D & Pa).
    { exists z. split; [assumption|]. split; (eapply Permutation_in; [exact Pz|]); now apply in_map. }
    change (along v (a_point (snd a))) with (key a) in Pa. change (along v (a_point (snd c))) with (key c) in Pa.
    exists k, e. do 4 (split; [assumption|]).
    (* no end of the edge is strictly between the two angles *)
    assert (Out : forall q, q = s0 (e_seg e) \/ q = s1 (e_seg e) -> along v q <= key a \/ key c <= along v q).
    { intros q Q. destruct (En k e q E P D Q) as (j & aj & Aj & Pj & Eq). assert (Iq : In (j, aj) l) by (apply Hl; now split).
      destruct Cl as (m1 & m2 & El'). rewrite El' in Iq, Sl. rewrite in_app_iff in Iq. cbn in Iq. destruct Iq as [Iq|[->|[->|Iq]]].
      - left. rewrite <- Eq. exact (proj1 (sorted_split _ _ _ _ (j, aj) Sl) Iq).
      - left. unfold key. cbn. rewrite Eq. lra.
      - right. unfold key. cbn. rewrite Eq. lra.
      - right. rewrite <- Eq. replace (m1 ++ a :: c :: m2) with ((m1 ++ [a]) ++ c :: m2) in Sl by (now rewrite <- app_assoc). exact (proj2 (sorted_split _ _ _ _ (j, aj) Sl) Iq). }
    pose proof (Out _ (or_introl eq_refl)) as O0. pose proof (Out _ (or_intror eq_refl)) as O1. unfold passes in *.
    set (e0 := along v (s0 (e_seg e))) in *. set (e1 := along v (s1 (e_seg e))) in *. set (ka := key a) in *. set (kc := key c) in *.
    assert (M : ka <= (ka + kc) / 2 <= kc) by (split; [apply Qle_shift_div_l|apply Qle_shift_div_r]; lra).
    assert (M' : ~ ka == kc -> ka < (ka + kc) / 2 < kc).
    { intros Ne. assert (ka < kc) by (destruct (Qlt_le_dec ka kc); [assumption|exfalso; apply Ne; lra]). split; [apply Qlt_shift_div_l|apply Qlt_shift_div_r]; lra. }
    destruct (Qeq_dec ka kc) as [Q|Q]; [|specialize (M' Q); clear M; set (m := (ka + kc) / 2) in *].
    + set (m := (ka + kc) / 2) in *. destruct Pa as [Pa|Pa]; [left|right]; lra.
    + destruct Pa as [Pa|Pa]; [left|right]; destruct O0, O1; lra.
  - intros (k & e & E & P & T & D & Pa).
    destruct (En k e _ E P D (or_introl eq_refl)) as (j0 & a0 & A0 & P0 & E0). destruct (En k e _ E P D (or_intror eq_refl)) as (j1 & a1 & A1 & P1 & E1).
    pose proof (diagonal_wide e v D) as W.
    assert (Main : forall u w, In u l -> In w l -> key u <= x <= key w -> key u < key w -> (forall y, key u <= y <= key w -> passes v (e_seg e) y) ->
      exists z, In z zs /\ in_zone_range b (axes_table p v) z x).
    { intros u w Iu Iw X L Sp.
      assert (Bef : exists l1 m l2, l = l1 ++ u :: m ++ w :: l2).
      { apply in_split in Iu. destruct Iu as (l1 & r & El). rewrite El in Iw. apply in_app_iff in Iw. rewrite El in Sl. destruct Iw as [Iw|[<-|Iw]].
        - exfalso. pose proof (proj1 (sorted_split _ _ _ _ w Sl) Iw) as K. cbn in K. fold (key u) (key w) in K. lra.
        - lra.
        - apply in_split in Iw. destruct Iw as (m & l2 & ->). now exists l1, m, l2. }
      destruct Bef as (l1 & m & l2 & El).
      assert (El' : l = l1 ++ (u :: m ++ [w]) ++ l2) by (rewrite El; cbn; now rewrite <- app_assoc).
      assert (Rg : forall y, In y (u :: m ++ [w]) -> key u <= key y <= key w).
      { intros y Iy. rewrite El in Sl. pose proof (proj2 (sorted_split _ _ _ _ y Sl)) as Hu. replace (l1 ++ u :: m ++ w :: l2) with ((l1 ++ u :: m) ++ w :: l2) in Sl by (now rewrite <- app_assoc).
        pose proof (proj1 (sorted_split _ _ _ _ y Sl)) as Hw. cbn in Hu, Hw. fold (key u) (key y) in Hu. fold (key w) (key y) in Hw. cbn in Iy. rewrite !in_app_iff in *. cbn in *.
        destruct Iy as [<-|[Iy|[<-|[]]]]; [lra| |lra]. split; [apply Hu|apply Hw]; tauto. }
      destruct (share_chain zs w Nz m u) as (z & Iz & U & V).
      { intros a c Cs. assert (Ia : In a (u :: m ++ [w])) by (destruct Cs as (q & r & ->); rewrite in_app_iff; cbn; tauto).
        assert (Ic : In c (u :: m ++ [w])) by (destruct Cs as (q & r & ->); rewrite in_app_iff; cbn; tauto).
        apply Hc; [rewrite El'; now apply consecutive_app|]. exists k, e. do 4 (split; [assumption|]). apply Sp. apply Rg in Ia, Ic. fold (key a) (key c).
        split; [apply Qle_shift_div_l|apply Qle_shift_div_r]; lra. }
      exists z. split; [assumption|]. exists (fst u), (fst w), (key u), (key w). split; [assumption|]. split; [assumption|]. split; [now apply Kd|]. split; [now apply Kd|assumption]. }
    assert (I0 : In (j0, a0) l) by (apply Hl; now split). assert (I1 : In (j1, a1) l) by (apply Hl; now split).
    assert (K0 : key (j0, a0) = along v (s0 (e_seg e))) by (unfold key; cbn; now rewrite E0). assert (K1 : key (j1, a1) = along v (s1 (e_seg e))) by (unfold key; cbn; now rewrite E1).
    unfold passes in *. destruct Pa as [Pa|Pa].
    + apply (Main _ _ I0 I1); rewrite K0, K1; [assumption| |tauto]. destruct (Qlt_le_dec (along v (s0 (e_seg e))) (along v (s1 (e_seg e)))); [assumption|exfalso; apply W; lra].
    + apply (Main _ _ I1 I0); rewrite K0, K1; [assumption| |tauto]. destruct (Qlt_le_dec (along v (s1 (e_seg e))) (along v (s0 (e_seg e)))); [assumption|exfalso; apply W; lra].
Qed.

(** The end points of the diagonal edges of a board as built are angles. *)
Lemma follows_next l i : In i l -> exists j, follows l i j.
Proof.
  intros I. apply in_split in I. destruct I as (l1 & l2 & ->). destruct l2 as [|j l2]; [|exists j; left; now exists l1, l2].
  destruct (l1 ++ [i]) as [|h t] eqn:E; [destruct l1; discriminate|]. exists h. right. exists t. split; [reflexivity|]. rewrite <- E. clear. induction l1 as [|a [|c l1] IH]; [reflexivity..|exact IH].
Qed.
Lemma follows_prev l j : In j l -> exists i, follows l i j.
Proof.
  intros I. apply in_split in I. destruct I as (l1 & l2 & ->). destruct l1 as [|a l1].
  - exists (last (j :: l2) j). right. now exists l2.
  - destruct (@exists_last _ (a :: l1)) as (r & i & E); [discriminate|]. rewrite E. exists i. left. exists r, l2. now rewrite <- app_assoc.
Qed.
Lemma follows_in l i j : follows l i j -> In i l /\ In j l.
Proof.
  intros [(l1 & l2 & ->)|(r & -> & L)]; [rewrite !in_app_iff; cbn; tauto|]. split; [|now left]. rewrite <- L. now apply last_in.
Qed.

Lemma last_default {A} (a : A) l x y : last (a :: l) x = last (a :: l) y.
Proof. revert a. induction l as [|c l IH]; intros a; [reflexivity|]. exact (IH c). Qed.
Lemma chain_follow pts : forall prev l1 a c l2, chain prev pts = l1 ++ a :: c :: l2 -> snd a = fst c.
Proof.
  induction pts as [|q pts IH]; intros prev l1 a c l2 E; cbn in E; [destruct l1; discriminate|]. destruct l1 as [|x l1]; cbn in E.
  - injection E as <- E. destruct pts; cbn in E; [discriminate|]. injection E as <- _. reflexivity.
  - injection E as _ E. now apply IH in E.
Qed.
Lemma chain_last pts : forall prev q, pts <> [] -> snd (last (chain prev pts) q) = last pts (fst q).
Proof.
  induction pts as [|x pts IH]; intros prev q N; [congruence|]. destruct pts as [|y pts]; [reflexivity|].
  transitivity (snd (last (chain x (y :: pts)) q)); [reflexivity|]. rewrite IH; [reflexivity|discriminate].
Qed.

Lemma forall2_split {A B} (R : A -> B -> Prop) l1 x y l2 l' : Forall2 R (l1 ++ x :: y :: l2) l' -> exists m1 a c m2, l' = m1 ++ a :: c :: m2 /\ R x a /\ R y c.
Proof.
  intros F. apply Forall2_app_inv_l in F. destruct F as (m1 & m & _ & F & ->). inversion F as [|? a ? m' Ra F']; subst. inversion F' as [|? c ? m2 Rc F'']; subst. now exists m1, a, c, m2.
Qed.
Lemma forall2_last {A B} (R : A -> B -> Prop) l l' x y : Forall2 R l l' -> l <> [] -> R (last l x) (last l' y).
Proof. induction 1 as [|a c l l' H F IH]; [congruence|]. intros _. destruct F as [|a' c' l l' H' F]; [exact H|]. apply IH. discriminate. Qed.

Lemma follows_joined b gp i j ei ej : proper_polygon b gp -> follows (g_edges gp) i j -> edge_at b i ei -> edge_at b j ej -> s1 (e_seg ei) = s0 (e_seg ej).
Proof.
  intros (_ & _ & es & Es & _ & Sg & _) F Ei Ej. destruct F as [(l1 & l2 & E)|(r & E & L)].
  - rewrite E in Es. destruct (forall2_split _ _ _ _ _ _ Es) as (m1 & a & c & m2 & Em & Ra & Rc). unfold edge_at in *. assert (a = ei) as -> by congruence. assert (c = ej) as -> by congruence.
    rewrite Em, map_app in Sg. cbn in Sg. destruct (g_points gp) as [|q pts]; [destruct m1; discriminate|]. unfold sides in Sg.
    symmetry in Sg. apply map_eq_app in Sg. destruct Sg as (c1 & c2 & Ec & _ & E2). apply map_eq_cons in E2. destruct E2 as (pq & c3 & -> & Epq & E3). apply map_eq_cons in E3.
    destruct E3 as (rs & c4 & -> & Ers & _). apply chain_follow in Ec. rewrite <- Epq, <- Ers. cbn. exact Ec.
  - rewrite E in Es. pose proof (forall2_last _ _ _ j ej Es ltac:(discriminate)) as La. rewrite E in L. rewrite L in La. inversion Es as [|? c ? m Rc F' X Y]; subst.
    unfold edge_at in *. assert (c = ej) as -> by congruence. assert (last (ej :: m) ej = ei) as La' by congruence. clear La.
    destruct (g_points gp) as [|q pts]; [discriminate|]. unfold sides in Sg. set (prev := last (q :: pts) q) in *.
    assert (Hd : e_seg ej = mk_seg prev q) by (cbn in Sg; injection Sg as Sg _; exact Sg). rewrite Hd. cbn [s0].
    assert (Lm : forall (f : edge -> seg) l x, last (map f l) (f x) = f (last l x)) by (clear; intros f l; induction l as [|a [|c l] IH]; intros x; [reflexivity..|exact (IH x)]).
    assert (Lp : forall (f : point * point -> seg) l x, last (map f l) (f x) = f (last l x)) by (clear; intros f l; induction l as [|a [|c l] IH]; intros x; [reflexivity..|exact (IH x)]).
    rewrite <- La', <- (Lm e_seg), Sg, Hd. rewrite (Lp (fun pq => mk_seg (fst pq) (snd pq)) _ (prev, q)). cbn [s1].
    rewrite chain_last by discriminate. cbn [fst]. apply last_default.
Qed.

(** * All planes *)

Lemma angles_all ang b : edges_in_place b -> exists new, for_each (detect_diagonal_angles ang) all_planes b = Done (set_angles b (b_angles b ++ new))
  /\ forall a, In a new <-> exists p, corner_angle ang b p a \/ cross_angle ang b p a.
Proof.
  intros Pl. unfold all_planes. cbn [for_each].
  destruct (diagonal_angles_spec ang b PYZ Pl) as (n1 & E1 & H1). rewrite E1. cbn [bind]. set (b1 := set_angles b _).
  destruct (diagonal_angles_spec ang b1 PZX Pl) as (n2 & E2 & H2). rewrite E2. cbn [bind]. set (b2 := set_angles b1 _).
  destruct (diagonal_angles_spec ang b2 PXY Pl) as (n3 & E3 & H3). rewrite E3. cbn [bind]. exists (n1 ++ n2 ++ n3). split.
  - unfold b2, b1, set_angles. cbn. now rewrite <- !app_assoc.
  - intros a. rewrite !in_app_iff, H1, H2, H3. split.
    + intros [H|[H|H]]; [exists PYZ|exists PZX|exists PXY]; exact H.
    + intros ([] & H); [left|right; left|right; right]; exact H.
Qed.

Lemma zones_all g d srt b : sorts_by srt -> exists (zs : Plane -> ViewAxis -> list diag_zone) s, for_each (detect_diagonal_zones g d srt) all_planes b = Done (set_zones b s)
  /\ (forall p v, zoned g d b p v (zs p v))
  /\ forall ax, on_axis s ax = on_axis (b_zones b) ax ++ flat_map (fun p => match view_of_axis p ax with Some v => zs p v | None => [] end) all_planes.
Proof.
  intros So. unfold all_planes. cbn [for_each].
  destruct (diagonal_zones_spec g d srt b PYZ So) as (h1 & v1 & s1 & E1 & H1 & V1 & Ah1 & Av1 & Ao1). rewrite E1. cbn [bind]. set (b1 := set_zones b _) in *.
  destruct (diagonal_zones_spec g d srt b1 PZX So) as (h2 & v2 & s2 & E2 & H2 & V2 & Ah2 & Av2 & Ao2). rewrite E2. cbn [bind]. set (b2 := set_zones b1 _) in *.
  destruct (diagonal_zones_spec g d srt b2 PXY So) as (h3 & v3 & s3 & E3 & H3 & V3 & Ah3 & Av3 & Ao3). rewrite E3. cbn [bind].
  exists (fun p v => match p, v with PYZ, VH => h1 | PYZ, VV => v1 | PZX, VH => h2 | PZX, VV => v2 | PXY, VH => h3 | PXY, VV => v3 end), s3.
  split; [reflexivity|]. split; [intros [] []; assumption|]. specialize (Ao1 AX eq_refl). specialize (Ao2 AY eq_refl). specialize (Ao3 AZ eq_refl).
  unfold b2, b1 in *. cbn in *. intros []; cbn; rewrite ?app_nil_r.
  - rewrite Ah3, Av2, Ao1, <- app_assoc. reflexivity.
  - rewrite Av3, Ao2, Ah1, <- app_assoc. reflexivity.
  - rewrite Ao3, Ah2, Av1, <- app_assoc. reflexivity.
Qed.

(** * Solving the angles *)

Definition mesh_flag (v : ViewAxis) (a : angle) : bool := match v with VH => a_h a | VV => a_v a end.
Definition meshed_on (ax : Axis3) (f : nat -> angle -> option bool) (l l' : list angle) : Prop :=
  length l' = length l /\ forall i a, nth_error l i = Some a ->
    nth_error l' i = Some match f i a, view_of_axis (a_plane a) ax with Some x, Some v => set_angle_mesh v x a | _, _ => a end.
(** Not looking at the flags. *)
Definition blind {A} (f : angle -> A) : Prop := forall v x a, f (set_angle_mesh v x a) = f a.

Lemma set_mesh_twice v x y a : set_angle_mesh v x (set_angle_mesh v y a) = set_angle_mesh v x a.
Proof. now destruct v. Qed.
Lemma set_mesh_plane v x a : a_plane (set_angle_mesh v x a) = a_plane a.
Proof. now destruct v. Qed.

Lemma meshed_none ax l : meshed_on ax (fun _ _ => None) l l.
Proof. split; [reflexivity|]. intros i a E. exact E. Qed.
Lemma meshed_trans ax f h l m r : (forall i, blind (h i)) -> meshed_on ax f l m -> meshed_on ax h m r ->
  meshed_on ax (fun i a => match h i a with Some x => Some x | None => f i a end) l r.
Proof.
  intros Bl [L1 H1] [L2 H2]. split; [congruence|]. intros i a E. specialize (H1 i a E). specialize (H2 i _ H1). rewrite H2. f_equal.
  destruct (f i a) as [x|]; [|destruct (h i a); reflexivity]. destruct (view_of_axis (a_plane a) ax) as [v|] eqn:V.
  - rewrite Bl, set_mesh_plane, V. destruct (h i a); [apply set_mesh_twice|reflexivity].
  - rewrite V. destruct (h i a); reflexivity.
Qed.
Lemma meshed_ext ax f h l l' : (forall i a, nth_error l i = Some a -> f i a = h i a) -> meshed_on ax f l l' -> meshed_on ax h l l'.
Proof. intros H [L E]. split; [assumption|]. intros i a I. rewrite <- H by assumption. auto. Qed.

Lemma solve_angle_spec ax f b i : (i < length (b_angles b))%nat -> exists l, solve_angle ax f b i = Done (set_angles b l)
  /\ meshed_on ax (fun j a => if (j =? i)%nat then Some (f a) else None) (b_angles b) l.
Proof.
  intros L. destruct (nth_error (b_angles b) i) as [a|] eqn:E; [|apply nth_error_None in E; lia]. unfold solve_angle, read. rewrite E. cbn [bind].
  destruct (view_of_axis (a_plane a) ax) as [v|] eqn:V.
  - unfold update_angle, read. rewrite E. cbn [bind]. destruct (write_spec (set_angle_mesh v (f a) a) (b_angles b) i L) as (l & W & Len & At & Oth). rewrite W. cbn [bind].
    exists l. split; [reflexivity|]. split; [assumption|]. intros j c J. destruct (Nat.eqb_spec j i) as [->|N].
    + assert (c = a) as -> by congruence. rewrite V. exact At.
    + rewrite Oth by assumption. exact J.
  - exists (b_angles b). split; [now destruct b|]. split; [reflexivity|]. intros j c J. destruct (Nat.eqb_spec j i) as [->|N]; [|exact J].
    assert (c = a) as -> by congruence. now rewrite V.
Qed.

Lemma solve_angles_spec ax f L : blind f -> forall b, Forall (fun i => (i < length (b_angles b))%nat) L -> exists l, for_each (solve_angle ax f) L b = Done (set_angles b l)
  /\ meshed_on ax (fun j a => if existsb (Nat.eqb j) L then Some (f a) else None) (b_angles b) l.
Proof.
  intros Bl. induction L as [|i L IH]; intros b F; cbn [for_each].
  - exists (b_angles b). split; [now destruct b|apply meshed_none].
  - inversion F as [|? ? Li F']; subst. destruct (solve_angle_spec ax f b i Li) as (l & E & M). rewrite E. cbn [bind].
    destruct (IH (set_angles b l)) as (l' & E' & M'). { cbn. destruct M as [-> _]. assumption. } rewrite E'. exists l'. split; [reflexivity|]. cbn [b_angles set_angles] in M'.
    eapply meshed_ext; [|eapply meshed_trans; [|exact M|exact M']].
    + intros j a _. cbn. destruct (existsb (Nat.eqb j) L), (j =? i)%nat; reflexivity.
    + intros j v x a. now rewrite Bl.
Qed.

Definition zone_flag (d : diag_params) (z : diag_zone) (i : nat) (a : angle) : option bool :=
  if existsb (Nat.eqb i) (dz_angles z) then
    Some (match dz_angles z with [] => false | first :: _ => (i =? first)%nat || (i =? last (dz_angles z) first)%nat || Qle_bool (dp_minimal d) (a_value a) end)
  else None.
Lemma zone_flag_blind d z i : blind (zone_flag d z i).
Proof. intros [] x a; reflexivity. Qed.

Lemma existsb_nat i l : existsb (Nat.eqb i) l = true <-> In i l.
Proof. rewrite existsb_exists. split; [intros (x & I & E); apply Nat.eqb_eq in E; now subst|intros I; exists i; split; [assumption|apply Nat.eqb_refl]]. Qed.

Lemma zone_flag_spec d z i a : zone_flag d z i a = Some true <-> zone_meshes d z i a.
Proof.
  unfold zone_flag, zone_meshes. rewrite <- (existsb_nat i (dz_angles z)). destruct (existsb (Nat.eqb i) (dz_angles z)) eqn:X; [|split; [discriminate|intros [? _]; discriminate]].
  destruct (dz_angles z) as [|first r]; [discriminate|].
  assert (Iff : (i =? first)%nat || (i =? last (first :: r) first)%nat || Qle_bool (dp_minimal d) (a_value a) = true
    <-> hd_error (first :: r) = Some i \/ last (first :: r) i = i \/ dp_minimal d <= a_value a).
  { rewrite !orb_true_iff, !Nat.eqb_eq, Qle_bool_iff, (last_default first r first i). cbn [hd_error]. split.
    - intros [[->| ->]|H]; [now left| |now right; right]. right. left. now rewrite <- (last_default first r (last (first :: r) i) i) at 2.
    - intros [E|[E|H]]; [injection E as ->; now left; left|left; right; congruence|now right]. }
  split; [intros E; split; [reflexivity|]; apply Iff; congruence|intros [_ H]; apply Iff in H; now rewrite H].
Qed.

Lemma solve_zone_spec d ax b z : (2 <= length (dz_angles z))%nat -> NoDup (dz_angles z) -> Forall (fun i => (i < length (b_angles b))%nat) (dz_angles z) ->
  exists l, solve_zone_angles d ax b z = Done (set_angles b l) /\ meshed_on ax (zone_flag d z) (b_angles b) l.
Proof.
  intros Len N F. unfold solve_zone_angles, zone_flag. destruct (dz_angles z) as [|first r] eqn:Ez; [cbn in Len; lia|].
  assert (Nr : r <> []) by (intros ->; cbn in Len; lia). destruct (exists_last Nr) as (mid & en & Er).
  assert (La : last (first :: r) first = en) by (subst r; clear; rewrite app_comm_cons; apply last_last).
  assert (Rm : removelast r = mid) by (subst r; apply removelast_last).
  assert (Ff : Forall (fun i => (i < length (b_angles b))%nat) [first; last (first :: r) first]).
  { rewrite Forall_forall in *. intros i [<-|[<-|[]]]; apply F; [now left|now apply last_in]. }
  destruct (solve_angles_spec ax (fun _ => true) _ ltac:(intros ? ? ?; reflexivity) b Ff) as (l & E & M). rewrite E. cbn [bind].
  destruct (solve_angles_spec ax (fun a => Qle_bool (dp_minimal d) (a_value a)) (removelast r)) with (b := set_angles b l) as (l' & E' & M').
  { intros [] ? ?; reflexivity. }
  { cbn. destruct M as [-> _]. rewrite Rm. rewrite Forall_forall in *. intros i I. apply F. right. subst r. apply in_or_app. now left. }
  rewrite E'. exists l'. split; [reflexivity|]. cbn [b_angles set_angles] in M'. eapply meshed_ext; [|eapply meshed_trans; [|exact M|exact M']].
  2: { intros i [] x a; reflexivity. }
  intros i a _. cbn beta. rewrite La, Rm, Er. cbn [existsb]. rewrite existsb_app. cbn [existsb]. rewrite !orb_false_r.
  assert (Mid : existsb (Nat.eqb i) mid = true -> (i =? first)%nat = false /\ (i =? en)%nat = false).
  { intros I. apply existsb_nat in I. rewrite Er in N. inversion N as [|? ? Nf Nr']; subst. split; apply Nat.eqb_neq; intros ->.
    - apply Nf. apply in_or_app. now left.
    - apply NoDup_remove_2 in Nr'. rewrite app_nil_r in Nr'. contradiction. }
  destruct (existsb (Nat.eqb i) mid); [destruct (Mid eq_refl) as [-> ->]; reflexivity|]. destruct (i =? first)%nat, (i =? en)%nat; reflexivity.
Qed.

(** What the zones of the axis ask of the angle. *)
Definition zones_flag (d : diag_params) (zs : list diag_zone) (i : nat) (a : angle) : option bool :=
  match find (fun z => existsb (Nat.eqb i) (dz_angles z)) zs with Some z => zone_flag d z i a | None => None end.
Lemma zones_flag_spec d zs i a : NoDup (concat (map dz_angles zs)) -> (zones_flag d zs i a = Some true <-> exists z, In z zs /\ zone_meshes d z i a).
Proof.
  intros N. unfold zones_flag. destruct (find _ zs) as [z|] eqn:F.
  - apply find_some in F. destruct F as [I X]. rewrite zone_flag_spec. split; [eauto|]. intros (z' & I' & M). pose proof M as [X' R]. apply existsb_nat in X.
    assert (dz_angles z = dz_angles z') as K by (apply (nodup_concat_same (map dz_angles zs) _ _ i); auto using in_map). unfold zone_meshes. rewrite K. exact M.
  - split; [discriminate|]. intros (z & I & X & _). apply (find_none _ _ F) in I. apply existsb_nat in X. congruence.
Qed.
Lemma zones_flag_blind d zs i : blind (zones_flag d zs i).
Proof. intros v x a. unfold zones_flag. destruct (find _ zs); [apply zone_flag_blind|reflexivity]. Qed.

Lemma solve_axis_spec d ax zs : NoDup (concat (map dz_angles zs)) -> forall b, (forall z, In z zs -> (2 <= length (dz_angles z))%nat /\ Forall (fun i => (i < length (b_angles b))%nat) (dz_angles z)) ->
  exists l, for_each (solve_zone_angles d ax) zs b = Done (set_angles b l) /\ meshed_on ax (zones_flag d zs) (b_angles b) l.
Proof.
  induction zs as [|z zs IH]; intros N b H; cbn [for_each].
  - exists (b_angles b). split; [now destruct b|apply meshed_none].
  - cbn in N. destruct (H z (or_introl eq_refl)) as [L F]. destruct (solve_zone_spec d ax b z L (nodup_app_l _ _ N) F) as (l & E & M). rewrite E. cbn [bind].
    destruct (IH (nodup_app_r _ _ N) (set_angles b l)) as (l' & E' & M').
    { intros z' I. cbn. destruct M as [-> _]. apply H. now right. }
    rewrite E'. exists l'. split; [reflexivity|]. cbn [b_angles set_angles] in M'. eapply meshed_ext; [|eapply meshed_trans; [|exact M|exact M']].
    + intros i a _. unfold zones_flag. cbn [find]. destruct (existsb (Nat.eqb i) (dz_angles z)) eqn:X; [|unfold zone_flag at 2; rewrite X; now destruct (find _ zs) as [z'|]; [destruct (zone_flag d z' i a)|]].
      replace (find (fun z0 => existsb (Nat.eqb i) (dz_angles z0)) zs) with (@None diag_zone); [reflexivity|]. symmetry. destruct (find _ zs) as [z'|] eqn:Fz; [|reflexivity].
      exfalso. apply find_some in Fz. destruct Fz as [I X']. apply existsb_nat in X, X'. clear - N X X' I.
      assert (J : In i (concat (map dz_angles zs))) by (apply in_concat; exists (dz_angles z'); split; [now apply in_map|assumption]).
      induction (dz_angles z) as [|y r IHr]; [destruct X|]. inversion N as [|? ? Ny Nr]; subst. destruct X as [->|X]; [apply Ny; apply in_or_app; now right|auto].
    + intros i. apply zones_flag_blind.
Qed.

Definition flagless (a : angle) : angle := mk_angle (a_plane a) (a_point a) (a_e0 a) (a_e1 a) (a_value a) false false (a_policy a).
Definition zones_valid (b : board) : Prop := forall ax, NoDup (concat (map dz_angles (on_axis (b_zones b) ax)))
  /\ forall z, In z (on_axis (b_zones b) ax) -> (2 <= length (dz_angles z))%nat /\ Forall (fun i => (i < length (b_angles b))%nat) (dz_angles z).

Definition va_eqb (v w : ViewAxis) : bool := match v, w with VH, VH | VV, VV => true | _, _ => false end.
Lemma meshed_flag ax f l l' i a : meshed_on ax f l l' -> nth_error l i = Some a -> exists a', nth_error l' i = Some a' /\ flagless a' = flagless a
  /\ forall v, mesh_flag v a' = match view_of_axis (a_plane a) ax, f i a with Some w, Some x => if va_eqb v w then x else mesh_flag v a | _, _ => mesh_flag v a end.
Proof.
  intros [_ M] I. eexists. split; [exact (M i a I)|]. destruct (f i a) as [x|], (view_of_axis (a_plane a) ax) as [w|]; (split; [destruct a; try destruct w; reflexivity|]); intros v; try reflexivity.
  now destruct v, w.
Qed.
Lemma flagless_plane a a' : flagless a' = flagless a -> a_plane a' = a_plane a.
Proof. intros E. now injection E. Qed.
Lemma zones_flag_less d zs i a a' : flagless a' = flagless a -> zones_flag d zs i a' = zones_flag d zs i a.
Proof. intros E. injection E as _ _ _ _ E _. unfold zones_flag, zone_flag. now rewrite E. Qed.

Lemma solve_all_angles d b : zones_valid b -> exists l, for_each (solve_diagonal_angles d) all_axes b = Done (set_angles b l)
  /\ length l = length (b_angles b)
  /\ forall i a, nth_error (b_angles b) i = Some a -> exists a', nth_error l i = Some a' /\ flagless a' = flagless a /\ forall ax v, view_of_axis (a_plane a) ax = Some v ->
       mesh_flag v a' = match zones_flag d (on_axis (b_zones b) ax) i a with Some x => x | None => mesh_flag v a end.
Proof.
  intros V. unfold all_axes, solve_diagonal_angles. cbn [for_each].
  destruct (V AX) as [Nx Hx]. destruct (solve_axis_spec d AX (on_axis (b_zones b) AX) Nx b Hx) as (l1 & E1 & M1). rewrite E1. cbn [bind]. pose proof M1 as [L1 _].
  destruct (V AY) as [Ny Hy]. destruct (solve_axis_spec d AY (on_axis (b_zones b) AY) Ny (set_angles b l1)) as (l2 & E2 & M2).
  { intros z I. cbn. rewrite L1. now apply Hy. } change (b_zones (set_angles b l1)) with (b_zones b). rewrite E2. cbn [bind]. pose proof M2 as [L2 _].
  destruct (V AZ) as [Nz Hz]. destruct (solve_axis_spec d AZ (on_axis (b_zones b) AZ) Nz (set_angles (set_angles b l1) l2)) as (l3 & E3 & M3).
  { intros z I. cbn in *. rewrite L2, L1. now apply Hz. } change (b_zones (set_angles (set_angles b l1) l2)) with (b_zones b). rewrite E3. cbn [bind]. pose proof M3 as [L3 _].
  cbn [b_angles set_angles] in *. exists l3. split; [reflexivity|]. split; [congruence|].
  intros i a I. destruct (meshed_flag _ _ _ _ i a M1 I) as (a1 & I1 & S1 & F1). destruct (meshed_flag _ _ _ _ i a1 M2 I1) as (a2 & I2 & S2 & F2).
  destruct (meshed_flag _ _ _ _ i a2 M3 I2) as (a3 & I3 & S3 & F3). exists a3. split; [assumption|]. split; [congruence|].
  rewrite (zones_flag_less _ _ _ _ _ S1), (flagless_plane _ _ S1) in F2.
  assert (S02 : flagless a2 = flagless a) by congruence. rewrite (zones_flag_less _ _ _ _ _ S02), (flagless_plane _ _ S02) in F3.
  intros ax v W. rewrite F3, F2, F1. destruct (a_plane a), ax; try discriminate; injection W as <-; cbn [view_of_axis va_eqb];
    repeat match goal with |- context [zones_flag d ?zs i a] => destruct (zones_flag d zs i a) end; reflexivity.
Qed.

(** * The whole run *)

Definition still (b b' : board) : Prop := b_polygons b' = b_polygons b /\ map without_reverse (b_edges b') = map without_reverse (b_edges b).
Lemma still_sym b b' : still b b' -> still b' b.
Proof. intros [E F]. now split. Qed.
Lemma still_edge b b' i e : still b b' -> edge_at b i e -> exists e', edge_at b' i e' /\ without_reverse e' = without_reverse e.
Proof. intros [_ S] E. destruct (map_at _ _ _ _ _ S E) as (e' & E' & W). eauto. Qed.
Lemma between_still ang b b' q i j a : still b b' -> angle_between ang b q i j a -> angle_between ang b' q i j a.
Proof.
  intros S (ei & ej & Ei & Ej & D & ->). destruct (still_edge _ _ _ _ S Ei) as (ei' & Ei' & Wi). destruct (still_edge _ _ _ _ S Ej) as (ej' & Ej' & Wj).
  injection Wi as Pi Si _ _ _ _ _. injection Wj as _ Sj _ _ _ _ _. exists ei', ej'. split; [assumption|]. split; [assumption|]. unfold diagonal in *. rewrite Pi, Si, Sj. now split.
Qed.
Lemma corner_still ang b b' p a : still b b' -> corner_angle ang b p a -> corner_angle ang b' p a.
Proof.
  intros S (k & gp & i & j & ei & G & P & F & Ei & A). destruct (still_edge _ _ _ _ S Ei) as (ei' & Ei' & Wi). exists k, gp, i, j, ei'. destruct S as [Sp Se]. rewrite Sp.
  do 3 (split; [assumption|]). split; [assumption|]. injection Wi as _ Si _ _ _ _ _. rewrite Si. now apply (between_still ang b).
Qed.
Lemma cross_still ang b b' p a : still b b' -> cross_angle ang b p a -> cross_angle ang b' p a.
Proof.
  intros S (k & k' & gp & gp' & i & j & ei & ej & q & L & G & G' & P & P' & I & J & Ei & Ej & O & R & X & A).
  destruct (still_edge _ _ _ _ S Ei) as (ei' & Ei' & Wi). destruct (still_edge _ _ _ _ S Ej) as (ej' & Ej' & Wj). exists k, k', gp, gp', i, j, ei', ej', q. pose proof S as [Sp Se]. rewrite Sp.
  injection Wi as _ Si _ _ _ _ _. injection Wj as _ Sj _ _ _ _ _. rewrite Si, Sj. do 9 (split; [assumption|]). split; [assumption|]. split; [assumption|]. split; [assumption|]. now apply (between_still ang b).
Qed.
Lemma over_still b b' p v x : still b b' -> diagonal_over b p v x -> diagonal_over b' p v x.
Proof.
  intros S (i & e & E & P & T & D & Pa). destruct (still_edge _ _ _ _ S E) as (e' & E' & W). injection W as Wp Ws _ Wt _ _ _. exists i, e'. split; [assumption|].
  unfold diagonal in *. rewrite Wp, Ws, Wt. now repeat split.
Qed.
Lemma zoned_still g d b b' p v zs : still b b' -> b_angles b' = b_angles b -> zoned g d b p v zs -> zoned g d b' p v zs.
Proof.
  intros S A (l & Al & N & Z & C). exists l. unfold angles_along in *. rewrite A. do 3 (split; [assumption|]). intros x y K. rewrite (C x y K).
  split; apply over_still; [assumption|now apply still_sym].
Qed.

Lemma between_bare ang b q i j a : angle_between ang b q i j a -> bare a = a /\ a_point a = q /\ exists ei, edge_at b i ei /\ a_plane a = e_plane ei.
Proof. intros (ei & ej & Ei & _ & _ & ->). split; [reflexivity|]. split; [reflexivity|]. now exists ei. Qed.

Record diagonals (g : params) (d : diag_params) (ang : point -> point -> Q) (b0 b : board) : Prop := {
  dg_angles : forall a, In a (map bare (b_angles b)) <-> exists p, corner_angle ang b0 p a \/ cross_angle ang b0 p a;
  dg_zones : exists zs : Plane -> ViewAxis -> list diag_zone, (forall p v, zoned g d (with_angles b0 (b_angles b)) p v (zs p v))
    /\ forall ax, on_axis (b_zones b) ax = flat_map (fun p => match view_of_axis p ax with Some v => zs p v | None => [] end) all_planes;
  dg_flags : forall i a ax v, nth_error (b_angles b) i = Some a -> view_of_axis (a_plane a) ax = Some v ->
    (a_to_mesh a v = true <-> exists z, In z (on_axis (b_zones b) ax) /\ zone_meshes d z i a);
}.

Lemma zoned_angle g d b p v zs z i : zoned g d b p v zs -> In z zs -> In i (dz_angles z) -> exists a, nth_error (b_angles b) i = Some a /\ a_plane a = p.
Proof.
  intros (l & (_ & Hl & _) & _ & Hz & _) Iz I. destruct (Hz z Iz) as (_ & _ & _ & _ & l1 & s & l2 & El & _ & Pm). apply (Permutation_in _ (Permutation_sym Pm)) in I.
  apply in_map_iff in I. destruct I as ([j a] & <- & I). exists a. apply Hl. rewrite El, !in_app_iff. tauto.
Qed.

Lemma all_zones_valid g d b (zs : Plane -> ViewAxis -> list diag_zone) : (forall p v, zoned g d b p v (zs p v)) ->
  (forall ax, on_axis (b_zones b) ax = flat_map (fun p => match view_of_axis p ax with Some v => zs p v | None => [] end) all_planes) -> zones_valid b.
Proof.
  intros Z E ax. rewrite E. split.
  - assert (Ap : forall p v p' v', p <> p' -> NoDup (concat (map dz_angles (zs p v ++ zs p' v')))).
    { intros p v p' v' N. rewrite map_app, concat_app. pose proof (Z p v) as Z1. pose proof (Z p' v') as Z2.
      destruct Z1 as (l1 & A1 & N1 & Q1). destruct Z2 as (l2 & A2 & N2 & Q2).
      assert (Dis : forall i, In i (concat (map dz_angles (zs p v))) -> In i (concat (map dz_angles (zs p' v'))) -> False).
      { intros i I J. apply in_concat in I, J. destruct I as (x & Ix & I). destruct J as (y & Iy & J). apply in_map_iff in Ix, Iy. destruct Ix as (z & <- & Iz). destruct Iy as (z' & <- & Iz').
        destruct (zoned_angle _ _ _ _ _ _ _ _ (Z p v) Iz I) as (a & A & P). destruct (zoned_angle _ _ _ _ _ _ _ _ (Z p' v') Iz' J) as (a' & A' & P'). congruence. }
      revert N1 Dis. clear - N2. generalize (concat (map dz_angles (zs p v))). intros m N1 Dis. induction m as [|x m IH]; cbn; [assumption|]. inversion N1; subst. constructor.
      - rewrite in_app_iff. intros [I|I]; [contradiction|]. apply (Dis x); [now left|assumption].
      - apply IH; [assumption|]. intros i I. apply Dis. now right. }
    unfold all_planes. destruct ax; cbn; rewrite app_nil_r; apply Ap; discriminate.
  - intros z I. apply in_flat_map in I. destruct I as (p & _ & I). destruct (view_of_axis p ax) as [v|]; [|destruct I]. split.
    + destruct (Z p v) as (l & _ & _ & Hz & _). destruct (Hz z I) as (_ & _ & _ & _ & l1 & s & l2 & _ & L & Pm). apply Permutation_length in Pm. rewrite map_length in Pm. lia.
    + apply Forall_forall. intros i J. destruct (zoned_angle _ _ _ _ _ _ _ _ (Z p v) I J) as (a & A & _). apply nth_error_Some. congruence.
Qed.

(** The three steps end, for a board with no angle and no zone yet. *)
Lemma diagonal_steps g d srt ang b0 b1 : sorts_by srt -> edges_in_place b1 -> still b0 b1 -> b_angles b1 = [] -> b_zones b1 = mk_space [] [] [] ->
  exists b2 b3 b4, for_each (detect_diagonal_angles ang) all_planes b1 = Done b2 /\ for_each (detect_diagonal_zones g d srt) all_planes b2 = Done b3
    /\ for_each (solve_diagonal_angles d) all_axes b3 = Done b4 /\ diagonals g d ang b0 b4.
Proof.
  intros So Pl St An Zo. destruct (angles_all ang b1 Pl) as (new & E2 & H2). rewrite An in E2. cbn [app] in E2. set (b2 := set_angles b1 new) in *.
  destruct (zones_all g d srt b2 So) as (zs & s & E3 & Z3 & A3). set (b3 := set_zones b2 s) in *.
  assert (V3 : zones_valid b3).
  { apply (all_zones_valid g d b3 zs); [intros p v; apply (zoned_same g d b2); [reflexivity|reflexivity|apply Z3]|]. intros ax. cbn. rewrite A3. cbn. rewrite Zo. now destruct ax. }
  destruct (solve_all_angles d b3 V3) as (l & E4 & Len & H4). exists b2, b3, (set_angles b3 l). do 3 (split; [assumption|]). change (b_angles b3) with new in *.
  assert (Bare : map bare l = new).
  { apply nth_ext with (d := mk_angle PXY (mk_pt 0 0) 0 0 0 false false None) (d' := mk_angle PXY (mk_pt 0 0) 0 0 0 false false None); [now rewrite map_length|].
    intros i L. rewrite map_length, Len in L. destruct (nth_error new i) as [a|] eqn:A; [|apply nth_error_None in A; lia]. destruct (H4 i a A) as (a' & A' & F & _).
    rewrite (nth_error_nth _ _ _ A). apply nth_error_nth. rewrite nth_error_map, A'. cbn. f_equal.
    pose proof (proj1 (H2 a) (nth_error_In _ _ A)) as (p & Ha). assert (Ba : bare a = a).
    { destruct Ha as [(k & gp & i0 & j & ei & _ & _ & _ & _ & Ha)|(k & k' & gp & gp' & i0 & j & ei & ej & q & _ & _ & _ & _ & _ & _ & _ & _ & _ & _ & _ & _ & Ha)]; now apply between_bare in Ha. }
    rewrite <- Ba. injection F as F1 F2 F3 F4 F5 F6. unfold bare. congruence. }
  constructor; cbn [b_angles set_angles b_zones].
  - rewrite Bare. intros a. rewrite H2. split; intros (p & [H|H]); exists p; [left; apply (corner_still ang b1)|right; apply (cross_still ang b1)|left; apply (corner_still ang b0)|right; apply (cross_still ang b0)]; try assumption; now apply still_sym.
  - exists zs. split.
    + intros p v. apply (zoned_still g d b2); [now apply still_sym|cbn; now rewrite Bare|apply Z3].
    + intros ax. cbn. rewrite A3. cbn. rewrite Zo. now destruct ax.
  - intros i a' ax v A' W. assert (L : (i < length new)%nat) by (rewrite <- Len; apply nth_error_Some; congruence). destruct (nth_error new i) as [a|] eqn:A; [|apply nth_error_None in A; lia].
    destruct (H4 i a A) as (a'' & A'' & F & Fl). assert (a'' = a') as -> by congruence. rewrite (flagless_plane _ _ F) in W. specialize (Fl ax v W). change (mesh_flag v a') with (a_to_mesh a' v) in Fl. rewrite Fl.
    destruct (V3 ax) as [N _]. change (b_zones b3) with s in *.
    assert (Ze : forall z, zone_meshes d z i a' <-> zone_meshes d z i a) by (intros z; unfold zone_meshes; injection F as _ _ _ _ F5 _; now rewrite F5).
    assert (Ba : mesh_flag v a = false).
    { assert (Eb : nth_error (map bare l) i = Some a) by now rewrite Bare. rewrite nth_error_map, A'' in Eb. cbn in Eb. injection Eb as <-. now destruct v. }
    rewrite Ba. transitivity (zones_flag d (on_axis s ax) i a = Some true); [destruct (zones_flag d (on_axis s ax) i a); split; congruence|].
    rewrite (zones_flag_spec d _ i a N). split; intros (z & Iz & M); exists z; (split; [assumption|]); now apply Ze.
Qed.

Lemma bare_same l l' : map without_policy_a l' = map without_policy_a l -> map bare l' = map bare l.
Proof.
  revert l'. induction l as [|a l IH]; intros [|a' l'] E; cbn in E; try discriminate; [reflexivity|]. injection E as E1 E2 E3 E4 E5 E6 E7 E. cbn. rewrite (IH l' E). unfold bare. congruence.
Qed.

Lemma diagonals_policies g d ang b0 b b' : b_zones b' = b_zones b -> map without_policy_a (b_angles b') = map without_policy_a (b_angles b) -> diagonals g d ang b0 b -> diagonals g d ang b0 b'.
Proof.
  intros Z A [H1 H2 H3]. pose proof (bare_same _ _ A) as Ba. constructor; unfold with_angles in *; rewrite ?Ba, ?Z; [assumption|assumption|]. intros i a' ax v I W. symmetry in A.
  destruct (map_at _ _ _ _ _ A I) as (a & Ia & E). injection E as E1 E2 E3 E4 E5 E6 E7. rewrite <- E1 in W. specialize (H3 i a ax v Ia W).
  assert (a_to_mesh a' v = a_to_mesh a v) as -> by (unfold a_to_mesh; destruct v; congruence). rewrite H3. unfold zone_meshes. now rewrite E5.
Qed.

Lemma run_diagonals fuel g d srt ang fixed b0 b : sorts_by srt -> built b0 -> policies_of_board fuel g d srt ang fixed b0 = Done b -> diagonals g d ang b0 b.
Proof.
  intros So Bu E. destruct (run_steps _ _ _ _ _ _ _ _ E) as (b1 & b4 & b5 & b6 & b7 & b8 & b9 & H).
  destruct (run_result_of _ _ _ _ _ _ _ _ _ _ _ _ _ _ _ So Bu H) as (_ & S1 & _ & _ & _ & _ & _ & _ & _ & Z & A). destruct (sp_zones _ _ _ _ _ _ _ _ _ _ _ _ _ _ _ H) as (b2 & b3 & E2 & E3 & E4).
  pose proof S1 as (D1 & P1 & G1 & B1 & C1 & I1 & Z1 & A1). destruct (built_sound b0 Bu) as [_ _ _ _ (An & _ & _ & Zo & _)].
  destruct (diagonal_steps g d srt ang b0 b1 So) as (b2' & b3' & b4' & E2' & E3' & E4' & K).
  - now apply (in_place_reverse b0); [|apply built_in_place].
  - now split.
  - congruence.
  - congruence.
  - assert (b2' = b2) as -> by congruence. assert (b3' = b3) as -> by congruence. assert (b4' = b4) as -> by congruence. now apply (diagonals_policies g d ang b0 b4).
Qed.

Lemma built_ends ang b0 l p : built b0 -> (forall a, In a (map bare l) <-> exists p, corner_angle ang b0 p a \/ cross_angle ang b0 p a) -> ends_known (with_angles b0 l) p.
Proof.
  intros Bu Hl i e q E P D Q. change (edge_at b0 i e) in E. destruct (built_sound b0 Bu) as [Fr Pr [Ow Un] Ra Re]. destruct (Ow i e E) as (k & gp & G & I). pose proof (built_in_place b0 Bu) as Pl.
  destruct (Pl k gp G i I) as (e' & E' & Pg). assert (e' = e) as -> by (unfold edge_at in *; congruence).
  assert (Use : forall i' j' ei ej, follows (g_edges gp) i' j' -> edge_at b0 i' ei -> edge_at b0 j' ej -> diagonal ei \/ diagonal ej -> s1 (e_seg ei) = q ->
     exists j a, nth_error (b_angles (with_angles b0 l)) j = Some a /\ a_plane a = p /\ a_point a = q).
  { intros i' j' ei ej F Ei Ej Dg Eq. set (a := mk_angle (e_plane ei) q i' j' (ang (seg_vec (e_seg ei)) (seg_vec (e_seg ej))) false false None).
    assert (Ia : In a (map bare l)).
    { apply Hl. exists p. left. exists k, gp, i', j', ei. split; [assumption|]. split; [congruence|]. split; [assumption|]. split; [assumption|]. rewrite Eq. exists ei, ej. now repeat split. }
    apply In_nth_error in Ia. destruct Ia as (j & Ia). exists j, a. split; [exact Ia|]. split; [|reflexivity]. cbn.
    destruct (follows_in _ _ _ F) as [Ii _]. destruct (Pl k gp G i' Ii) as (ei' & Ei' & Pi). unfold edge_at in *. congruence. }
  destruct Q as [->| ->].
  - destruct (follows_prev _ _ I) as (i' & F). destruct (follows_in _ _ _ F) as [I' _]. destruct (Pl k gp G i' I') as (ei & Ei & _).
    apply (Use i' i ei e F Ei E); [now right|]. exact (follows_joined b0 gp i' i ei e (Pr k gp G) F Ei E).
  - destruct (follows_next _ _ I) as (j' & F). destruct (follows_in _ _ _ F) as [_ J']. destruct (Pl k gp G j' J') as (ej & Ej & _). apply (Use i j' e ej F E Ej); [now left|reflexivity].
Qed.

Lemma coord_bare b0 b ax i x : angle_coord b ax i x <-> angle_coord (with_angles b0 (b_angles b)) ax i x.
Proof.
  unfold angle_coord, with_angles. cbn [b_angles set_angles]. rewrite nth_error_map. split.
  - intros (a & v & A & V & ->). rewrite A. exists (bare a), v. now repeat split.
  - intros (a & v & A & V & ->). destruct (nth_error (b_angles b) i) as [c|]; [|discriminate]. cbn in A. injection A as <-. exists c, v. now repeat split.
Qed.

Lemma diagonals_cover g d ang b0 b : built b0 -> diagonals g d ang b0 b -> forall ax x,
  (exists z, In z (on_axis (b_zones b) ax) /\ in_zone_range b ax z x) <-> exists p v, view_of_axis p ax = Some v /\ diagonal_over b0 p v x.
Proof.
  intros Bu [Ha (zs & Z & E) _] ax x.
  assert (Rg : forall z, in_zone_range b ax z x <-> in_zone_range (with_angles b0 (b_angles b)) ax z x).
  { intros z. unfold in_zone_range. split; intros (i & j & y & y' & I & J & C & C' & X); exists i, j, y, y'; (split; [assumption|]); (split; [assumption|]).
    - now rewrite <- !(coord_bare b0 b). - now rewrite !(coord_bare b0 b). }
  assert (Cv : forall p v, (exists z, In z (zs p v) /\ in_zone_range (with_angles b0 (b_angles b)) (axes_table p v) z x) <-> diagonal_over b0 p v x).
  { intros p v. exact (zone_cover g d _ p v (zs p v) (Z p v) (built_ends ang b0 (b_angles b) p Bu Ha) x). }
  assert (Ta : forall p v, view_of_axis p ax = Some v -> ax = axes_table p v) by (intros [] [] W; destruct ax; try discriminate; reflexivity).
  split.
  - intros (z & I & R). rewrite E in I. apply in_flat_map in I. destruct I as (p & _ & I). destruct (view_of_axis p ax) as [v|] eqn:V; [|destruct I]. exists p, v. split; [assumption|].
    apply Cv. exists z. split; [assumption|]. rewrite <- (Ta p v V). now apply Rg.
  - intros (p & v & V & O). apply Cv in O. destruct O as (z & I & R). exists z. rewrite <- (Ta p v V) in R. split; [|now apply Rg]. rewrite E. apply in_flat_map. exists p. split; [now destruct p; cbn; tauto|]. now rewrite V.
Qed.
