(** The pointers of the board lead to objects of the board, whatever the steps and dialogs. *)
From Coq Require Import List Arith Bool QArith Lia Sorting.Permutation.
From Verif Require Import IntervalModel ManagerModel ManagerSpec ManagerProofs ManagerMoreProofs ManagerSafetyProofs GeomModel BoardModel BoardSpec BoardColinearProofs BoardSolveProofs.
From Verif Require Import BoardBuiltProofs BoardDiagProofs BoardRunProofs.
From Verif Require AppModel.
From Verif Require Import EditModel SceneModel SceneSpec SceneProofs.
Import AppModel(Step(..), Step_eqb, next, that_and_after).
Import ListNotations.
Open Scope nat_scope.

(** ** Too close policies come before the one that replaces them *)

Definition ranked (ax : axis) : Prop :=
  forall c k, In c (ax_conflicts ax) -> tc_solution c = Some k -> tc_a c < k /\ tc_b c < k.
Definition tidy (ax : axis) : Prop := good ax /\ ranked ax.

Lemma write_in {A} (l : list A) i x l' : write l i x = Done l' -> length l' = length l /\ i < length l /\ forall y, In y l' -> y = x \/ In y l.
Proof.
  intros W. destruct (write_inv _ _ _ _ W) as (L & Len & H & O). split; [exact Len|]. split; [exact L|]. intros y Y. apply In_nth_error in Y. destruct Y as (j & Y).
  destruct (Nat.eq_dec j i) as [->|N]; [rewrite H in Y; left; congruence|]. rewrite O in Y by exact N. right. now apply nth_error_In in Y.
Qed.

Lemma ranked_same ax ax' : ax_conflicts ax' = ax_conflicts ax -> ranked ax -> ranked ax'.
Proof. unfold ranked. now intros ->. Qed.

Lemma ranked_add g ax policy normal coord enabled : ranked ax -> ranked (fst (add_meshline_policy g ax policy normal coord enabled)).
Proof. apply ranked_same. unfold add_meshline_policy. now destruct (inconsistent policy normal). Qed.

Lemma tidy_add g ax policy normal coord enabled : tidy ax -> tidy (fst (add_meshline_policy g ax policy normal coord enabled)).
Proof. intros [G R]. split; [now apply good_add|now apply ranked_add]. Qed.

Lemma tidy_fixed g coords ax : tidy ax -> tidy (add_fixed_policies g ax coords).
Proof.
  intros [G R]. split; [now apply good_fixed|]. revert ax G R. unfold add_fixed_policies. induction coords as [|x r IH]; intros ax G R; [exact R|]. cbn [fold_left].
  unfold add_fixed_policy at 2. destruct (existsb _ _); [now apply IH|]. apply IH; [now apply good_add|now apply ranked_add].
Qed.

Lemma ranked_close ax a b ax' c : add_too_close ax a b = Done (Some (ax', c)) -> ranked ax -> ranked ax' /\ c = length (ax_conflicts ax).
Proof.
  unfold add_too_close. destruct (in_conflict ax a || in_conflict ax b); [discriminate|]. intros H R.
  repeat (apply bind_done in H; destruct H as (? & ? & H)). injection H as <- <-. split; [|reflexivity]. intros d k I S.
  cbn in I. apply in_app_or in I. destruct I as [I|[<-|[]]]; [now apply R|discriminate].
Qed.

Lemma ranked_solve g ax c ax' : solve_too_close g ax c = Done ax' -> tidy ax -> ranked ax'.
Proof.
  unfold solve_too_close. intros H [G R]. apply bind_done in H. destruct H as (cf & Rc & H). apply read_some in Rc. apply bind_done in H. destruct H as (pa & Ra & H).
  apply bind_done in H. destruct H as (pb & Rb & H). destruct (merged pa pb) as [[[policy normal] x]|]; [|injection H as <-; exact R].
  destruct (add_meshline_policy g ax policy normal x true) as [ax1 sol] eqn:E. apply bind_done in H. destruct H as (cs & W & H). injection H as <-.
  assert (C1 : ax_conflicts ax1 = ax_conflicts ax) by (unfold add_meshline_policy in E; destruct (inconsistent policy normal); injection E as <- _; reflexivity).
  destruct (write_in _ _ _ _ W) as (_ & _ & I). intros d k D S. cbn in D. destruct (I d D) as [->|D']; [|rewrite C1 in D'; now apply R].
  cbn in S |- *. unfold add_meshline_policy in E. destruct (inconsistent policy normal); injection E as _ <-; [discriminate|]. injection S as <-.
  destruct G as [_ G]. destruct (G cf (nth_error_In _ _ Rc)) as (L & _). exact L.
Qed.

Lemma tidy_detect_and_solve n g srt : sorts srt -> forall ax ax', tidy ax -> detect_and_solve_too_close n g srt ax = Done ax' -> tidy ax'.
Proof.
  intros S ax ax' [G R] H. split; [exact (ok_done _ _ _ (good_detect_and_solve n g srt S ax G) H)|].
  revert ax G R H. induction n as [|n IH]; intros ax G R H; [discriminate|]. cbn [detect_and_solve_too_close] in H.
  destruct (detect_closest srt ax (g_proximity_limit g)) as [[a b]|] eqn:E; [|injection H as <-; exact R].
  destruct (detect_closest_some _ _ _ _ _ S E) as (pa & pb & [Pa _] & [Pb _] & _). unfold policy_at in *.
  apply bind_done in H. destruct H as ([[ax1 c]|] & A & H).
  - destruct (ranked_close _ _ _ _ _ A R) as [R1 ->].
    pose proof (good_close ax a b G (nth_lt _ _ _ Pa) (nth_lt _ _ _ Pb)) as K. rewrite A in K. destruct K as [G1 L].
    apply bind_done in H. destruct H as (ax2 & Sv & H). pose proof (ok_done _ _ _ (good_solve g ax1 _ G1 L) Sv) as G2. apply (IH ax2 G2); [|exact H].
    exact (ranked_solve _ _ _ _ Sv (conj G1 R1)).
  - now apply (IH ax).
Qed.

Lemma conflicts_intervals_loop g l : forall ax ax', detect_intervals_loop g ax l = Done ax' -> ax_conflicts ax' = ax_conflicts ax.
Proof.
  induction l as [|b l IH]; intros ax ax' H; [now injection H as <-|]. destruct l as [|a l]; [now injection H as <-|].
  change (bind (new_segment g ax b a) (fun ax => detect_intervals_loop g ax (a :: l)) = Done ax') in H. apply bind_done in H. destruct H as (ax1 & H1 & H).
  rewrite (IH _ _ H). unfold new_segment in H1. apply bind_done in H1. destruct H1 as (pb & _ & H1). apply bind_done in H1. destruct H1 as (pa & _ & H1).
  destruct (make_interval g pb pa) as [[pb' pa'] iv]. apply bind_done in H1. destruct H1 as (l1 & _ & H1). apply bind_done in H1. destruct H1 as (l2 & _ & H1). now injection H1 as <-.
Qed.

Lemma tidy_intervals g srt ax ax' : sorts srt -> tidy ax -> detect_intervals g srt ax = Done ax' -> tidy ax'.
Proof.
  intros S [G R] H. split; [exact (ok_done _ _ _ (good_detect_intervals g srt ax S G) H)|]. unfold detect_intervals in H.
  apply (ranked_same ax); [|exact R]. exact (conflicts_intervals_loop _ _ _ _ H).
Qed.
Lemma tidy_zones zs ax : tidy ax -> tidy (apply_zones zs ax).
Proof. intros [G R]. split; [now apply good_zones|]. apply (ranked_same ax); [|exact R]. reflexivity. Qed.

Lemma conflicts_d_at n ax i ax' : auto_solve_d_at n ax i = Done ax' -> ax_conflicts ax' = ax_conflicts ax.
Proof.
  unfold auto_solve_d_at. intros H. repeat (apply bind_done in H; destruct H as (? & ? & H)).
  repeat match type of H with (let '_ := ?x in _) = _ => destruct x end. repeat (apply bind_done in H; destruct H as (? & ? & H)). now injection H as <-.
Qed.
Lemma conflicts_s_at n ax i ax' : auto_solve_smoothness_at n ax i = Done ax' -> ax_conflicts ax' = ax_conflicts ax.
Proof.
  unfold auto_solve_smoothness_at. intros H. repeat (apply bind_done in H; destruct H as (? & ? & H)).
  repeat match type of H with (let '_ := ?x in _) = _ => destruct x end. repeat (apply bind_done in H; destruct H as (? & ? & H)). now injection H as <-.
Qed.
Lemma conflicts_first n order : forall ax ax', first_pass n ax order = Done ax' -> ax_conflicts ax' = ax_conflicts ax.
Proof.
  induction order as [|i r IH]; intros ax ax' H; [now injection H as <-|]. cbn [first_pass] in H. apply bind_done in H. destruct H as (ax1 & H1 & H).
  rewrite (IH _ _ H). now apply conflicts_d_at in H1.
Qed.
Lemma conflicts_second n order : forall ax ax' l, second_pass n ax order = Done (ax', l) -> ax_conflicts ax' = ax_conflicts ax.
Proof.
  induction order as [|i r IH]; intros ax ax' l H; [now injection H as <- _|]. cbn [second_pass] in H. apply bind_done in H. destruct H as (ax1 & H1 & H).
  repeat (match type of H with bind _ _ = _ => apply bind_done in H; destruct H as (? & ? & H) | (let '_ := ?x in _) = _ => destruct x end). injection H as <- _.
  apply conflicts_d_at in H1. match goal with E : auto_solve_smoothness_at _ _ _ = Done _ |- _ => apply conflicts_s_at in E end.
  match goal with E : second_pass _ _ _ = Done _ |- _ => apply IH in E; congruence end.
Qed.
Lemma tidy_mesh n srt ax ax' : sorts srt -> tidy ax -> mesh_axis n srt ax = Done ax' -> tidy ax'.
Proof.
  intros S [G R] H. split; [exact (ok_done _ _ _ (good_mesh n srt ax S G) H)|]. unfold mesh_axis in H. apply bind_done in H. destruct H as (ax1 & H1 & H).
  apply bind_done in H. destruct H as ([ax2 l] & H2 & H). apply conflicts_first in H1. apply conflicts_second in H2. injection H as <-. apply (ranked_same ax); [cbn; congruence|exact R].
Qed.

Lemma tidy_edit ax i policy normal enabled d ax' : tidy ax -> ManagerModel.edit_policy ax i policy normal enabled d = Done ax' -> tidy ax'.
Proof.
  intros [[G1 G2] R] H. unfold ManagerModel.edit_policy in H. destruct (inconsistent policy normal); [injection H as <-; exact (conj (conj G1 G2) R)|].
  apply bind_done in H. destruct H as (p & _ & H). apply bind_done in H. destruct H as (l & W & H). injection H as <-. destruct (write_in _ _ _ _ W) as (Len & _).
  split; [|exact R]. split; cbn [set_policies ax_policies ax_segments ax_conflicts]; rewrite Len; assumption.
Qed.
Lemma tidy_edit_interval ax i dmax lb sb la sa ax' : tidy ax -> ManagerModel.edit_interval ax i dmax lb sb la sa = Done ax' -> tidy ax'.
Proof.
  intros [G R] H. pose proof H as H0. unfold ManagerModel.edit_interval in H. apply bind_done in H. destruct H as (s & Rd & H). apply read_some in Rd.
  split; [exact (ok_done _ _ _ (good_edit_interval ax i dmax lb sb la sa G (nth_lt _ _ _ Rd)) H0)|]. cbn zeta in H. apply bind_done in H. destruct H as (l & _ & H). now injection H as <-.
Qed.

(** ... and a policy looks to a side if and only if it is THIRDS. *)
Definition sane (ax : axis) : Prop := good ax /\ ranked ax /\ all_consistent ax.

Lemma sane_add g ax policy normal coord enabled : sane ax -> sane (fst (add_meshline_policy g ax policy normal coord enabled)).
Proof. intros (G & R & C). destruct (tidy_add g ax policy normal coord enabled (conj G R)) as [G' R']. split; [exact G'|]. split; [exact R'|]. now apply add_policy_consistent. Qed.
Lemma sane_fixed g coords ax : sane ax -> sane (add_fixed_policies g ax coords).
Proof.
  intros (G & R & C). destruct (tidy_fixed g coords ax (conj G R)) as [G' R']. split; [exact G'|]. split; [exact R'|]. clear G R G' R'.
  unfold add_fixed_policies. revert ax C. induction coords as [|x r IH]; intros ax C; [exact C|]. cbn [fold_left]. unfold add_fixed_policy at 2. destruct (existsb _ _); [now apply IH|]. apply IH. now apply add_policy_consistent.
Qed.
Lemma sane_detect_and_solve n g srt : sorts srt -> forall ax ax', sane ax -> detect_and_solve_too_close n g srt ax = Done ax' -> sane ax'.
Proof.
  intros S ax ax' (G & R & C) H. destruct (tidy_detect_and_solve n g srt S ax ax' (conj G R) H) as [G' R']. split; [exact G'|]. split; [exact R'|]. eapply solving_consistent; [|exact C]. eapply solve_done; eassumption.
Qed.
Lemma sane_intervals g srt ax ax' : sorts srt -> sane ax -> detect_intervals g srt ax = Done ax' -> sane ax'.
Proof. intros S (G & R & C) H. destruct (tidy_intervals g srt ax ax' S (conj G R) H) as [G' R']. split; [exact G'|]. split; [exact R'|]. eapply detect_consistent; eassumption. Qed.
Lemma sane_zones zs ax : sane ax -> sane (apply_zones zs ax).
Proof. intros (G & R & C). destruct (tidy_zones zs ax (conj G R)) as [G' R']. split; [exact G'|]. split; [exact R'|exact C]. Qed.
Lemma sane_mesh n srt ax ax' : sorts srt -> sane ax -> mesh_axis n srt ax = Done ax' -> sane ax'.
Proof.
  intros S (G & R & C) H. destruct (tidy_mesh n srt ax ax' S (conj G R) H) as [G' R']. split; [exact G'|]. split; [exact R'|]. unfold mesh_axis in H. apply bind_done in H. destruct H as (ax1 & H1 & H).
  apply bind_done in H. destruct H as ([ax2 l] & H2 & H). injection H as <-. change (all_consistent ax2). eapply second_pass_consistent; [exact H2|]. eapply first_pass_consistent; eassumption.
Qed.
Lemma sane_edit ax i policy normal enabled d ax' : sane ax -> ManagerModel.edit_policy ax i policy normal enabled d = Done ax' -> sane ax'.
Proof.
  intros (G & R & C) H. destruct (tidy_edit ax i policy normal enabled d ax' (conj G R) H) as [G' R']. split; [exact G'|]. split; [exact R'|]. unfold ManagerModel.edit_policy in H.
  destruct (inconsistent policy normal) eqn:I; [injection H as <-; exact C|]. apply bind_done in H. destruct H as (p & _ & H). apply bind_done in H. destruct H as (l & W & H). injection H as <-.
  eapply write_forall; [exact W|exact C|]. now apply consistent_dec.
Qed.
Lemma sane_edit_interval ax i dmax lb sb la sa ax' : sane ax -> ManagerModel.edit_interval ax i dmax lb sb la sa = Done ax' -> sane ax'.
Proof.
  intros (G & R & C) H. destruct (tidy_edit_interval ax i dmax lb sb la sa ax' (conj G R) H) as [G' R']. split; [exact G'|]. split; [exact R'|]. unfold ManagerModel.edit_interval in H.
  apply bind_done in H. destruct H as (s & _ & H). apply bind_done in H. destruct H as (l & _ & H). injection H as <-. exact C.
Qed.

(** ** The board *)

Definition there (b : board) (c : cref) : Prop :=
  match c with InCE a i => i < length (on_axis (b_ce b) a) | InEIP p i => i < length (on_plane (b_eip b) p) end.
Definition angle_ok (n : nat) (a : angle) : Prop := a_e0 a < n /\ a_e1 a < n.
Definition ce_ok (n : nat) (c : colinear) : Prop := forall i, In i (ce_edges c) -> i < n.
Definition eip_ok (n m : nat) (c : in_polygon) : Prop := ei_edge c < n /\ forall o, In o (ei_overlaps c) -> ov_polygon o < m /\ forall j, ov_edge o = Some j -> j < n.
Definition zone_ok (n : nat) (z : diag_zone) : Prop := forall i, In i (dz_angles z) -> i < n.

(** Boards with [n] edges, shared out as [es], and [m] angles at least; [P] if the conflicts that edges
    remember are on the board. *)
Record valid (P : Prop) (n m : nat) (es : list (list nat)) (b : board) : Prop := {
  va_len : length (b_edges b) = n;
  va_polys : map g_edges (b_polygons b) = es;
  va_solves : P -> forall e, In e (b_edges b) -> forall c, e_solves e = Some c -> there b c;
  va_angles : forall a, In a (b_angles b) -> angle_ok n a;
  va_ce : forall ax c, In c (on_axis (b_ce b) ax) -> ce_ok n c;
  va_eip : forall p c, In c (on_plane (b_eip b) p) -> eip_ok n (length es) c;
  va_zones : forall ax z, In z (on_axis (b_zones b) ax) -> zone_ok (length (b_angles b)) z;
  va_axes : forall ax, sane (on_axis (b_axes b) ax);
  va_more : m <= length (b_angles b);
}.

Section Valid.
Context (P : Prop) (n count : nat) (es : list (list nat)).
Notation V := (valid P n count es).

Lemma valid_edge b i f b' : update_edge b i f = Done b' -> V b ->
  (P -> forall e, edge_at b i e -> forall c, e_solves (f e) = Some c -> there b c) -> V b'.
Proof.
  intros H [A B C D E F G K M] S. unfold update_edge in H. apply bind_done in H. destruct H as (e & R & H). apply read_some in R. apply bind_done in H. destruct H as (l & W & H).
  injection H as <-. destruct (write_in _ _ _ _ W) as (Len & _ & I). constructor; cbn; auto; [congruence|]. intros Pr e' I' c Ec. destruct (I e' I') as [->|J]; [now apply (S Pr e R)|now apply (C Pr e')].
Qed.

Lemma valid_polygon b i f b' : update_polygon b i f = Done b' -> V b -> (forall g, g_edges (f g) = g_edges g) -> V b'.
Proof.
  intros H [A B C D E F G K M] S. unfold update_polygon in H. apply bind_done in H. destruct H as (g & R & H). apply read_some in R. apply bind_done in H. destruct H as (l & W & H).
  injection H as <-. constructor; cbn; auto. rewrite <- B. clear - R W S. revert i R l W. induction (b_polygons b) as [|h t IH]; intros i R l W; [destruct i; discriminate|].
  destruct i; cbn in R, W; [injection R as ->; injection W as <-; cbn; now rewrite S|]. destruct (write t i (f g)) as [l1| |] eqn:W1; try discriminate. injection W as <-.
  cbn. now rewrite (IH i R l1 W1).
Qed.

Lemma there_ce b ax l c : length (on_axis (b_ce b) ax) <= length l -> there b c -> there (set_ce b (set_axis (b_ce b) ax l)) c.
Proof.
  intros L. destruct c as [a i|p i]; cbn; [|auto]. destruct (axis_dec a ax) as [->|N]; [rewrite on_set_axis; lia|rewrite on_set_other by exact N; auto].
Qed.
Lemma valid_ce b ax l : V b -> length (on_axis (b_ce b) ax) <= length l -> (forall c, In c l -> ce_ok n c) -> V (set_ce b (set_axis (b_ce b) ax l)).
Proof.
  intros [A B C D E F G K M] L O. constructor; cbn; auto.
  - intros Pr e I c Ec. apply there_ce; [exact L|now apply (C Pr e)].
  - intros a c I. destruct (axis_dec a ax) as [->|N]; [rewrite on_set_axis in I; auto|rewrite on_set_other in I by exact N; now apply (E a)].
Qed.

Lemma on_set_plane {A} (s : space A) p x : on_plane (set_plane s p x) p = x.
Proof. now destruct p. Qed.
Lemma on_set_other_plane {A} (s : space A) p q x : q <> p -> on_plane (set_plane s p x) q = on_plane s q.
Proof. destruct p, q; intro H; try reflexivity; congruence. Qed.
Lemma plane_dec (p q : Plane) : {p = q} + {p <> q}.
Proof. decide equality. Qed.
Lemma there_eip b p l c : length (on_plane (b_eip b) p) <= length l -> there b c -> there (set_eip b (set_plane (b_eip b) p l)) c.
Proof.
  intros L. destruct c as [a i|q i]; cbn; [auto|]. destruct (plane_dec q p) as [->|N]; [rewrite on_set_plane; lia|rewrite on_set_other_plane by exact N; auto].
Qed.
Lemma valid_eip b p l : V b -> length (on_plane (b_eip b) p) <= length l -> (forall c, In c l -> eip_ok n (length es) c) -> V (set_eip b (set_plane (b_eip b) p l)).
Proof.
  intros [A B C D E F G K M] L O. constructor; cbn; auto.
  - intros Pr e I c Ec. apply there_eip; [exact L|now apply (C Pr e)].
  - intros a c I. destruct (plane_dec a p) as [->|N]; [rewrite on_set_plane in I; auto|rewrite on_set_other_plane in I by exact N; now apply (F a)].
Qed.
Lemma valid_zones b ax l : V b -> (forall z, In z l -> zone_ok (length (b_angles b)) z) -> V (set_zones b (set_axis (b_zones b) ax l)).
Proof.
  intros [A B C D E F G K M] O. constructor; cbn; auto. intros a z I.
  destruct (axis_dec a ax) as [->|N]; [rewrite on_set_axis in I; auto|rewrite on_set_other in I by exact N; now apply (G a)].
Qed.
Lemma valid_angles b l : V b -> length (b_angles b) <= length l -> (forall a, In a l -> angle_ok n a) -> V (set_angles b l).
Proof.
  intros [A B C D E F G K M] L O. constructor; cbn; auto; [|lia]. intros ax z I i J. specialize (G ax z I i J). lia.
Qed.
Lemma valid_angle b i f b' : update_angle b i f = Done b' -> V b -> (forall a, a_e0 (f a) = a_e0 a /\ a_e1 (f a) = a_e1 a) -> V b'.
Proof.
  intros H X S. unfold update_angle in H. apply bind_done in H. destruct H as (a & R & H). apply read_some in R. apply bind_done in H. destruct H as (l & W & H). injection H as <-.
  destruct (write_in _ _ _ _ W) as (Len & _ & I). apply valid_angles; [exact X|lia|]. intros a' I'. pose proof (va_angles _ _ _ _ _ X) as O.
  destruct (I a' I') as [->|J]; [|auto]. destruct (S a) as [S0 S1]. unfold angle_ok. rewrite S0, S1. apply O. now apply nth_error_In in R.
Qed.
Lemma valid_axis b ax y : V b -> sane y -> V (set_axes b (set_axis (b_axes b) ax y)).
Proof.
  intros [A B C D E F G K M] O. constructor; cbn; auto. intros a. destruct (axis_dec a ax) as [->|N]; [now rewrite on_set_axis|rewrite on_set_other by exact N; auto].
Qed.

Lemma each_valid {A} (f : board -> A -> run board) l : (forall x b b', f b x = Done b' -> V b -> V b') -> forall b b', for_each f l b = Done b' -> V b -> V b'.
Proof. intros H. apply (for_each_rel (fun b b' => V b -> V b')); [auto|auto|]. intros x b b' _. apply H. Qed.

(** Steps. *)

Lemma valid_adjust srt p b b' : adjust_edges_to_materials srt b p = Done b' -> V b -> V b'.
Proof.
  unfold adjust_edges_to_materials. apply each_valid. clear b b'. intros j b b' H. apply bind_done in H. destruct H as (g & _ & H). revert H. apply each_valid. clear b b'.
  intros i b b' H X. unfold adjust_edge in H. apply bind_done in H. destruct H as (e & _ & H). apply bind_done in H. destruct H as (o & _ & H).
  destruct (fst o); [|now injection H as <-]. cbn [snd] in H. destruct (g_material g); [|discriminate]. destruct (mat_gtb _ _); [|now injection H as <-].
  apply (valid_edge _ _ _ _ H X). intros Pr e0 E0 c. cbn. apply (va_solves _ _ _ _ _ X Pr). now apply nth_error_In in E0.
Qed.

Lemma pushed b c : V b -> P -> forall i e, edge_at b i e -> forall d, e_solves (push_conflict c e) = Some d -> there b d.
Proof. intros X Pr i e E d. cbn. apply (va_solves _ _ _ _ _ X Pr). now apply nth_error_In in E. Qed.

Lemma find_colinear_in i j l : forall k m c, find_colinear i j l k = Some (m, c) -> In c l.
Proof. induction l as [|d r IH]; cbn; intros k m c H; [discriminate|]. destruct (_ || _); [injection H as _ ->; now left|right; now apply (IH (S k) m)]. Qed.

Lemma valid_add_ce b i j b' : add_colinear_edges b i j = Done b' -> V b -> V b'.
Proof.
  unfold add_colinear_edges. intros H X. apply bind_done in H. destruct H as (ei & Ri & H). apply read_some in Ri. apply bind_done in H. destruct H as (ej & Rj & H). apply read_some in Rj.
  pose proof (nth_lt _ _ _ Ri) as Li. pose proof (nth_lt _ _ _ Rj) as Lj. rewrite (va_len _ _ _ _ _ X) in Li, Lj.
  destruct (_ && _); [|now injection H as <-]. destruct (axis_of_seg _ _) as [ax|]; [|now injection H as <-].
  destruct (find_colinear i j (on_axis (b_ce b) ax) 0) as [[m c]|] eqn:Fc.
  - apply find_colinear_in in Fc. pose proof (va_ce _ _ _ _ _ X ax c Fc) as Oc.
    assert (Ap : forall x l, x < n -> write (on_axis (b_ce b) ax) m (ce_append c x) = Done l -> V (set_ce b (set_axis (b_ce b) ax l))).
    { intros x l Lx W. destruct (write_in _ _ _ _ W) as (Len & _ & I). apply valid_ce; [exact X|lia|]. intros d D. destruct (I d D) as [->|D']; [|now apply (va_ce _ _ _ _ _ X ax)].
      intros y Y. cbn in Y. apply in_app_or in Y. destruct Y as [Y|[<-|[]]]; [now apply Oc|exact Lx]. }
    destruct (memb i (ce_edges c)); [destruct (memb j (ce_edges c)); [now injection H as <-|]|]; apply bind_done in H; destruct H as (l & W & H);
      apply Ap in W; try assumption; apply (valid_edge _ _ _ _ H W); intros Pr e0; now apply pushed.
  - apply bind_done in H. destruct H as (b1 & H1 & H).
    assert (X0 : V (set_ce b (set_axis (b_ce b) ax (on_axis (b_ce b) ax ++ [mk_colinear [i; j] None false])))).
    { apply valid_ce; [exact X|rewrite app_length; lia|]. intros c I. apply in_app_or in I. destruct I as [I|[<-|[]]]; [now apply (va_ce _ _ _ _ _ X ax)|].
      intros y [<-|[<-|[]]]; assumption. }
    assert (X1 : V b1) by (apply (valid_edge _ _ _ _ H1 X0); intros Pr e0; now apply pushed). apply (valid_edge _ _ _ _ H X1). intros Pr e0; now apply pushed.
Qed.

Lemma valid_colinear p b b' : detect_colinear_edges b p = Done b' -> V b -> V b'.
Proof.
  unfold detect_colinear_edges. generalize (edges_of b p) as l. intros l. revert b. induction l as [|i r IH]; intros b H X; cbn [detect_colinear_loop] in H; [now injection H as <-|].
  apply bind_done in H. destruct H as (e & _ & H). apply bind_done in H. destruct H as (b1 & H1 & H). apply (IH b1 H). destruct (segaxis_eqb _ SDIAG); [now injection H1 as <-|].
  revert H1 X. apply each_valid. clear. intros j b b' H X. unfold detect_colinear_pair in H. apply bind_done in H. destruct H as (ei & _ & H). apply bind_done in H. destruct H as (ej & _ & H).
  destruct (segaxis_eqb _ _); [|now injection H as <-]. destruct (axis_of_seg _ _); [|now injection H as <-].
  destruct (_ && _); [now apply (valid_add_ce _ _ _ _ H)|]. destruct (_ && _); [now apply (valid_add_ce _ _ _ _ H)|now injection H as <-].
Qed.

Lemma find_in_polygon_in i l : forall k m c, find_in_polygon i l k = Some (m, c) -> In c l.
Proof. induction l as [|d r IH]; cbn; intros k m c H; [discriminate|]. destruct (_ =? _); [injection H as _ ->; now left|right; now apply (IH (S k) m)]. Qed.

Lemma polys_len b : V b -> length (b_polygons b) = length es.
Proof. intros X. rewrite <- (va_polys _ _ _ _ _ X). now rewrite map_length. Qed.

Lemma valid_add_eip b a g range other b' : add_edge_in_polygon b a g range other = Done b' -> (forall j, other = Some j -> j < n) -> V b -> V b'.
Proof.
  unfold add_edge_in_polygon. intros H Ot X. apply bind_done in H. destruct H as (ea & Ra & H). apply read_some in Ra. apply bind_done in H. destruct H as (poly & Rg & H). apply read_some in Rg.
  pose proof (nth_lt _ _ _ Ra) as La. rewrite (va_len _ _ _ _ _ X) in La. pose proof (nth_lt _ _ _ Rg) as Lg. rewrite (polys_len b X) in Lg.
  apply bind_done in H. destruct H as (wrong & _ & H). destruct wrong; [now injection H as <-|]. cbn zeta in H.
  destruct (find_in_polygon a (on_plane (b_eip b) (e_plane ea)) 0) as [[m c]|] eqn:Fc.
  - apply find_in_polygon_in in Fc. destruct (va_eip _ _ _ _ _ X _ c Fc) as [Oe Oo]. destruct (existsb _ _); [now injection H as <-|]. apply bind_done in H. destruct H as (l & W & H).
    assert (X0 : V (set_eip b (set_plane (b_eip b) (e_plane ea) l))).
    { destruct (write_in _ _ _ _ W) as (Len & _ & I). apply valid_eip; [exact X|lia|]. intros d D. destruct (I d D) as [->|D']; [|now apply (va_eip _ _ _ _ _ X (e_plane ea))].
      split; [exact Oe|]. intros o Y. cbn in Y. apply in_app_or in Y. destruct Y as [Y|[<-|[]]]; [now apply Oo|split; [exact Lg|exact Ot]]. }
    destruct (existsb _ _); [now injection H as <-|]. now apply (valid_polygon _ _ _ _ H X0).
  - apply bind_done in H. destruct H as (b1 & H1 & H).
    assert (X0 : V (set_eip b (set_plane (b_eip b) (e_plane ea) (on_plane (b_eip b) (e_plane ea) ++ [mk_in_polygon a [(g, range, other)] false])))).
    { apply valid_eip; [exact X|rewrite app_length; lia|]. intros c I. apply in_app_or in I. destruct I as [I|[<-|[]]]; [now apply (va_eip _ _ _ _ _ X (e_plane ea))|].
      split; [exact La|]. intros o [<-|[]]. split; [exact Lg|exact Ot]. }
    assert (X1 : V b1) by (apply (valid_edge _ _ _ _ H1 X0); intros Pr e0; now apply pushed). now apply (valid_polygon _ _ _ _ H X1).
Qed.

Lemma valid_meet i g l : forall b x y b' x' y', for_each (meet_edge i g) l (b, x, y) = Done (b', x', y') -> V b -> V b'.
Proof.
  induction l as [|j r IH]; intros b x y b' x' y' H X; cbn [for_each] in H; [now injection H as <- _ _|]. apply bind_done in H. destruct H as ([[b1 x1] y1] & H1 & H).
  apply (IH _ _ _ _ _ _ H). unfold meet_edge in H1. apply bind_done in H1. destruct H1 as (ea & _ & H1). apply bind_done in H1. destruct H1 as (eb & Rb & H1). apply read_some in Rb. apply nth_lt in Rb. rewrite (va_len _ _ _ _ _ X) in Rb.
  destruct (relation_seg _ _); try (injection H1 as <- _ _; exact X).
  - destruct (intersection _ _); injection H1 as <- _ _; exact X.
  - destruct (overlap _ _) as [s|]; [|injection H1 as <- _ _; exact X].
    destruct (seg_axis s); try (injection H1 as <- _ _; exact X); apply bind_done in H1; destruct H1 as (b2 & A & H1); injection H1 as <- _ _; (apply (valid_add_eip _ _ _ _ _ _ A); [intros j' E; now injection E as <-|exact X]).
Qed.

Lemma valid_detect_eip fuel srt p b b' : detect_edges_in_polygons fuel srt b p = Done b' -> V b -> V b'.
Proof.
  unfold detect_edges_in_polygons. apply each_valid. clear b b'. intros i b b'. apply each_valid. clear b b'. intros j b b' H. unfold polygon_in_polygon in H.
  apply bind_done in H. destruct H as (pa & _ & H). apply bind_done in H. destruct H as (pb & _ & H). destruct (j =? i); [now injection H as <-|].
  destruct (_ <? _); [now injection H as <-|]. destruct (negb _); [now injection H as <-|]. revert H. apply each_valid. clear. intros i b b' H X. unfold edge_in_polygon in H.
  apply bind_done in H. destruct H as (poly & _ & H). apply bind_done in H. destruct H as (ea & _ & H). apply bind_done in H. destruct H as ([[b1 inter] ranges] & M & H).
  apply valid_meet in M; [|exact X]. apply bind_done in H. destruct H as (r0 & _ & H). apply bind_done in H. destruct H as (r1 & _ & H). destruct inter as [|q0 inter].
  - destruct (_ && _); [apply (valid_add_eip _ _ _ _ _ _ H); [discriminate|assumption]|now injection H as <-].
  - cbn zeta in H. apply bind_done in H. destruct H as (fi & _ & H). apply bind_done in H. destruct H as (la & _ & H). revert H M. apply each_valid. clear.
    intros [[s r] m] b b' H X. unfold register_range in H. apply bind_done in H. destruct H as (poly & _ & H). apply bind_done in H. destruct H as (at_ & _ & H).
    destruct (_ || _); [apply (valid_add_eip _ _ _ _ _ _ H); [discriminate|assumption]|now injection H as <-].
Qed.

Lemma in_sort_overlaps srt v l o : permutes srt -> In o (sort_overlaps srt v l) -> In o l.
Proof. intros Pe. unfold sort_overlaps. destruct (before v); [|auto]. intros I. exact (Permutation_in _ (Permutation_sym (Pe _ _ _)) I). Qed.

Lemma valid_solve_eip srt p b b' : permutes srt -> auto_solve_all_edge_in_polygon srt b p = Done b' -> V b -> V b'.
Proof.
  intros Pm. unfold auto_solve_all_edge_in_polygon. apply each_valid. clear b b'. intros m b b' H X. unfold solve_in_polygon in H.
  apply bind_done in H. destruct H as (c & Rc & H). apply read_some in Rc. apply bind_done in H. destruct H as (e & Re & H). apply read_some in Re. cbn zeta in H.
  destruct (sort_overlaps srt (seg_vec (e_seg e)) (ei_overlaps c)) as [|o r] eqn:So; [discriminate|]. apply bind_done in H. destruct H as (mg & _ & H). apply bind_done in H. destruct H as (l & W & H).
  destruct (write_in _ _ _ _ W) as (Len & Lm & I). destruct (va_eip _ _ _ _ _ X p c (nth_error_In _ _ Rc)) as [Oe Oo].
  assert (X0 : V (set_eip b (set_plane (b_eip b) p l))).
  { apply valid_eip; [exact X|lia|]. intros d D. destruct (I d D) as [->|D']; [|now apply (va_eip _ _ _ _ _ X p)]. split; [exact Oe|]. intros o' Y. apply Oo.
    cbn [ei_overlaps] in Y. rewrite <- So in Y. exact (in_sort_overlaps _ _ _ _ Pm Y). }
  apply (valid_edge _ _ _ _ H X0). intros Pr e0 _ d. cbn. intros E. injection E as <-. cbn. rewrite on_set_plane. lia.
Qed.

Lemma valid_solve_ce g ax b b' : auto_solve_all_colinear_edges g b ax = Done b' -> V b -> V b'.
Proof.
  unfold auto_solve_all_colinear_edges. apply each_valid. clear b b'. intros m b b' H X. unfold solve_colinear in H.
  apply bind_done in H. destruct H as (c & Rc & H). apply read_some in Rc. apply bind_done in H. destruct H as (l & _ & H). destruct l as [|e l]; [discriminate|].
  destruct (seg_coord _ _) as [x|]; [|now injection H as <-]. destruct (colinear_policy _) as [[po no]|]; [|now injection H as <-].
  destruct (add_meshline_policy g (on_axis (b_axes b) ax) po no x true) as [y ad] eqn:Ad. apply bind_done in H. destruct H as (l' & W & H). injection H as <-.
  assert (Sy : sane y) by (replace y with (fst (add_meshline_policy g (on_axis (b_axes b) ax) po no x true)) by (now rewrite Ad); apply sane_add, (va_axes _ _ _ _ _ X)).
  pose proof (valid_axis b ax y X Sy) as X1. destruct (write_in _ _ _ _ W) as (Len & _ & I).
  apply (valid_ce (set_axes b (set_axis (b_axes b) ax y)) ax l' X1); [cbn; lia|]. intros d D. destruct (I d D) as [->|D']; [|now apply (va_ce _ _ _ _ _ X ax)].
  exact (va_ce _ _ _ _ _ X ax c (nth_error_In _ _ Rc)).
Qed.

Lemma valid_individual g p b b' : detect_individual_edges g b p = Done b' -> V b -> V b'.
Proof.
  unfold detect_individual_edges. intros H X. apply bind_done in H. destruct H as (b1 & H1 & H). revert H. assert (X1 : V b1).
  { revert H1 X. apply each_valid. clear. intros i b b' H X. unfold individual_edge in H. apply bind_done in H. destruct H as (e & Re & H).
    destruct (seg_coord _ _) as [x|]; [|now injection H as <-]. destruct (axis_of_seg _ _) as [ax|]; [|now injection H as <-]. destruct (_ && _); [|now injection H as <-].
    match type of H with (let '_ := add_meshline_policy g ?y ?po ?no ?x ?m in _) = _ =>
      assert (Sy : sane (fst (add_meshline_policy g y po no x m))) by apply sane_add, (va_axes _ _ _ _ _ X); destruct (add_meshline_policy g y po no x m) as [y1 ad] end.
    pose proof (valid_axis b ax y1 X Sy) as X1. apply (valid_edge _ _ _ _ H X1). intros Pr e0 E0 d. cbn. apply (va_solves _ _ _ _ _ X Pr). now apply nth_error_In in E0. }
  clear - X1. intros H. revert H X1. apply each_valid. clear. intros i b b'. unfold individual_angle. apply each_valid. clear. intros v b b' H X. unfold individual_angle_axis in H.
  apply bind_done in H. destruct H as (a & Ra & H). cbn zeta in H.
  match type of H with (let '_ := add_meshline_policy g ?y ?po ?no ?x ?m in _) = _ =>
    assert (Sy : sane (fst (add_meshline_policy g y po no x m))) by apply sane_add, (va_axes _ _ _ _ _ X); destruct (add_meshline_policy g y po no x m) as [y1 ad] end.
  pose proof (valid_axis b (axes_table p v) y1 X Sy) as X1. apply (valid_angle _ _ _ _ H X1). intros a0. split; reflexivity.
Qed.

Lemma new_angle_ok ang b q i j a : V b -> new_angle ang b q i j = Done a -> angle_ok n a.
Proof.
  intros X H. unfold new_angle in H. apply bind_done in H. destruct H as (ei & Ri & H). apply read_some in Ri. apply bind_done in H. destruct H as (ej & Rj & H). apply read_some in Rj.
  injection H as <-. pose proof (nth_lt _ _ _ Ri). pose proof (nth_lt _ _ _ Rj). rewrite (va_len _ _ _ _ _ X) in *. split; assumption.
Qed.
Lemma in_collect {A B} (f : A -> run B) l r y : collect f l = Done r -> In y r -> exists x, In x l /\ f x = Done y.
Proof.
  intros H. apply collect_done in H. induction H as [|x y' l r Hx H IH]; intros I; [destruct I|]. destruct I as [<-|I]; [exists x; split; [now left|exact Hx]|].
  destruct (IH I) as (x' & X' & E). exists x'. split; [now right|exact E].
Qed.

Lemma valid_angles_step ang p b b' : detect_diagonal_angles ang b p = Done b' -> V b -> V b'.
Proof.
  unfold detect_diagonal_angles. intros H X. cbn zeta in H. apply bind_done in H. destruct H as (co & Hc & H). apply bind_done in H. destruct H as (cr & Hx & H). injection H as <-.
  apply valid_angles; [exact X|rewrite app_length; lia|]. intros a I. apply in_app_or in I. destruct I as [I|I]; [now apply (va_angles _ _ _ _ _ X)|]. apply in_app_or in I. destruct I as [I|I].
  - apply in_concat in I. destruct I as (l & L & I). destruct (in_collect _ _ _ _ Hc L) as (g & _ & E). destruct (g_edges g) as [|i0 r0]; [injection E as <-; destruct I|].
    revert E I. generalize (last (i0 :: r0) i0) as prev. generalize (i0 :: r0) as ls. clear - X. intros ls. revert l. induction ls as [|i r IH]; intros l prev E I; cbn [polygon_angles] in E; [injection E as <-; destruct I|].
    apply bind_done in E. destruct E as (ep & _ & E). apply bind_done in E. destruct E as (ei & _ & E). apply bind_done in E. destruct E as (rest & R & E).
    destruct (_ || _).
    + apply bind_done in E. destruct E as (a0 & Na & E). injection E as <-. destruct I as [<-|I]; [exact (new_angle_ok _ _ _ _ _ _ X Na)|exact (IH _ _ R I)].
    + injection E as <-. exact (IH _ _ R I).
  - revert cr Hx I. generalize (filter (fun g => plane_eqb (g_plane g) p) (b_polygons b)) as l. clear - X. induction l as [|g r IH]; intros cr Hx I; cbn [crossing_angles] in Hx; [injection Hx as <-; destruct I|].
    apply bind_done in Hx. destruct Hx as (here & Hh & Hx). apply bind_done in Hx. destruct Hx as (rest & R & Hx). injection Hx as <-. apply in_app_or in I. destruct I as [I|I]; [|exact (IH _ R I)].
    apply in_concat in I. destruct I as (l1 & L1 & I). apply in_map_iff in L1. destruct L1 as (l2 & <- & L2). apply in_concat in I. destruct I as (l3 & L3 & I).
    destruct (in_collect _ _ _ _ Hh L2) as (i & _ & Ei). destruct (in_collect _ _ _ _ Ei L3) as (j & _ & Ej). unfold crossing_angle in Ej.
    apply bind_done in Ej. destruct Ej as (e1 & _ & Ej). apply bind_done in Ej. destruct Ej as (e2 & _ & Ej). destruct (_ && _); [injection Ej as <-; destruct I|].
    destruct (negb _); [injection Ej as <-; destruct I|].
    destruct (relation_seg _ _); try (injection Ej as <-; destruct I). destruct (intersection _ _); [|injection Ej as <-; destruct I].
    apply bind_done in Ej. destruct Ej as (a0 & Na & Ej). injection Ej as <-. destruct I as [<-|[]]. exact (new_angle_ok _ _ _ _ _ _ X Na).
Qed.

Lemma valid_add_zone g d srt ax b l b' : permutes srt -> add_diagonal_zone g d srt ax b l = Done b' -> V b -> V b'.
Proof.
  intros Pm H X. unfold add_diagonal_zone in H. apply bind_done in H. destruct H as (an & C & H). destruct an as [|[i0 first] an]; [now injection H as <-|].
  destruct (forallb _ _); [|now injection H as <-]. destruct (view_of_axis _ _); [|now injection H as <-]. cbn zeta in H. injection H as <-.
  apply valid_zones; [exact X|]. intros z I. apply in_app_or in I. destruct I as [I|[<-|[]]]; [now apply (va_zones _ _ _ _ _ X ax)|]. intros i J. cbn [dz_angles] in J.
  apply in_map_iff in J. destruct J as (x & <- & J). apply (Permutation_in _ (Permutation_sym (Pm _ _ _))) in J. destruct (in_collect _ _ _ _ C J) as (i & _ & E).
  apply bind_done in E. destruct E as (a & R & E). injection E as <-. cbn. apply read_some in R. now apply nth_lt in R.
Qed.

Lemma valid_zones_step g d srt p b b' : permutes srt -> detect_diagonal_zones g d srt b p = Done b' -> V b -> V b'.
Proof.
  intros Pm H X. unfold detect_diagonal_zones in H. cbn zeta in H. apply bind_done in H. destruct H as ([b1 l1] & H & E). injection E as <-.
  cbn [for_each] in H. apply bind_done in H. destruct H as ([b2 l2] & H1 & H). apply bind_done in H. destruct H as ([b3 l3] & H2 & H). injection H as <- _.
  assert (K : forall v b0 l0 b' l', detect_zones_view g d srt p (b0, l0) v = Done (b', l') -> V b0 -> V b').
  { clear - Pm. intros v b0 l0 b' l' H. unfold detect_zones_view in H. cbn zeta in H. apply bind_done in H. destruct H as (b1 & H & E). injection E as <- _. revert H.
    apply each_valid. intros l b c H X. exact (valid_add_zone _ _ _ _ _ _ _ Pm H X). }
  apply (K _ _ _ _ _ H2). now apply (K _ _ _ _ _ H1).
Qed.

Lemma valid_solve_angles d ax b b' : solve_diagonal_angles d b ax = Done b' -> V b -> V b'.
Proof.
  unfold solve_diagonal_angles. apply each_valid. clear b b'. intros z b b' H X. unfold solve_zone_angles in H. destruct (dz_angles z) as [|f r]; [discriminate|].
  apply bind_done in H. destruct H as (b1 & H1 & H).
  assert (K : forall h i b b', solve_angle ax h b i = Done b' -> V b -> V b').
  { clear. intros h i b b' H X. unfold solve_angle in H. apply bind_done in H. destruct H as (a & _ & H). destruct (view_of_axis _ _) as [v|]; [|now injection H as <-].
    apply (valid_angle _ _ _ _ H X). intros a0. destruct v; split; reflexivity. }
  assert (X1 : V b1) by (revert H1 X; apply each_valid; intros i c c'; apply K). revert H X1. apply each_valid. intros i c c'. apply K.
Qed.

Lemma valid_each_axis f b b' : on_each_axis f b = Done b' -> V b -> (forall ax y, sane (on_axis (b_axes b) ax) -> f ax (on_axis (b_axes b) ax) = Done y -> sane y) -> V b'.
Proof.
  intros H X S. apply on_each_axis_done in H. destruct H as [E H]. rewrite E. destruct X as [A B C D F G K L M]. constructor; cbn; auto. intros ax. apply (S ax); auto.
Qed.

Context (tl : tools) (Pm : permutes (tl_sort_by tl)) (So : sorts (tl_sorter tl)).

Lemma valid_step x s b b' : do_step tl x s b = Done b' -> V b -> V b'.
Proof.
  destruct s; cbn [do_step]; intros H X; cbn zeta in H.
  - revert H X. apply each_valid. intros p c c'. apply valid_adjust.
  - revert H X. apply each_valid. intros p c c'. apply valid_angles_step.
  - revert H X. apply each_valid. intros p c c'. now apply valid_zones_step.
  - revert H X. apply each_valid. intros p c c'. apply valid_solve_angles.
  - revert H X. apply each_valid. intros p c c'. apply valid_detect_eip.
  - revert H X. apply each_valid. intros p c c'. apply valid_colinear.
  - apply (valid_each_axis _ _ _ H X). intros ax y Sy E. injection E as <-. now apply sane_fixed.
  - revert H X. apply each_valid. intros p c c'. now apply valid_solve_eip.
  - revert H X. apply each_valid. intros p c c'. apply valid_solve_ce.
  - revert H X. apply each_valid. intros p c c'. apply valid_individual.
  - apply (valid_each_axis _ _ _ H X). intros ax y Sy E. exact (sane_detect_and_solve _ _ _ So _ _ Sy E).
  - apply (valid_each_axis _ _ _ H X). intros ax y Sy E. exact (sane_intervals _ _ _ _ So Sy E).
  - now injection H as <-.
  - apply (valid_each_axis _ _ _ H X). intros ax y Sy E. apply bind_done in E. destruct E as (zs & _ & E). injection E as <-. now apply sane_zones.
  - apply (valid_each_axis _ _ _ H X). intros ax y Sy E. exact (sane_mesh _ _ _ _ So Sy E).
Qed.
End Valid.

(** ** What is true of every board built *)

Lemma built_valid (P : Prop) b : built b -> valid P (length (b_edges b)) 0 (map g_edges (b_polygons b)) b.
Proof.
  intros B. destruct (built_sound b B) as [Fr _ _ _ (Ea & Ec & Ee & Ez & Ex)]. constructor; auto.
  - intros _ e I c Ec'. apply In_nth_error in I. destruct I as (i & I). destruct (Fr i e I) as (_ & _ & _ & N & _). congruence.
  - rewrite Ea. intros a [].
  - rewrite Ec. intros [] c [].
  - rewrite Ee. intros [] c [].
  - rewrite Ez. intros [] c [].
  - rewrite Ex. intros []; (split; [split; intros c []|split; [intros c k []|constructor]]).
  - lia.
Qed.

Definition shared_out (n : nat) (es : list (list nat)) : Prop :=
  (forall i, i < n -> exists l, In l es /\ In i l) /\ (forall l i, In l es -> In i l -> i < n).

Lemma built_shared b : built b -> shared_out (length (b_edges b)) (map g_edges (b_polygons b)).
Proof.
  intros B. destruct (built_sound b B) as [_ _ [Ow _] Ra _]. split.
  - intros i L. destruct (nth_error (b_edges b) i) as [e|] eqn:E; [|apply nth_error_None in E; lia]. destruct (Ow i e E) as (k & g & K & I). exists (g_edges g).
    split; [apply in_map; now apply nth_error_In in K|exact I].
  - intros l i L I. apply in_map_iff in L. destruct L as (g & <- & L). apply In_nth_error in L. destruct L as (k & L). exact (Ra k g i L I).
Qed.

Lemma edges_there_of n es b : shared_out n es -> length (b_edges b) = n -> map g_edges (b_polygons b) = es -> edges_there b.
Proof. intros [_ R] <- <- j g i H I. apply (R (g_edges g)); [apply in_map; now apply nth_error_In in H|exact I]. Qed.

Lemma sound_of (P : Prop) n count es b : shared_out n es -> valid P n count es b ->
  forall k, links_sound b k -> forall x y, on_board b y -> comes_from b k y x -> (forall i, y = EEdge i -> P) -> on_board b x.
Proof.
  intros [Ow Ra] X k (L1 & L2 & L3 & L4) x y Oy C Pr.
  assert (Ed : forall i, i < n -> on_board b (EEdge i)).
  { intros i L. destruct (Ow i L) as (l & I & J). rewrite <- (va_polys _ _ _ _ _ X) in I. apply in_map_iff in I. destruct I as (g & <- & I). apply In_nth_error in I. destruct I as (j & I). now exists j, g. }
  destruct C as [i e c E Sv|i a j E J|a i c j E J|p i c E|p i c o E J|a i c j E J|a i z j E J|a i p x E J|a i s j E J|a i s j E J|a i l j E J|a i l j E J].
  - pose proof (va_solves _ _ _ _ _ X (Pr i eq_refl) e (nth_error_In _ _ E) c Sv) as T. destruct c; exact T.
  - destruct (va_angles _ _ _ _ _ X a (nth_error_In _ _ E)). destruct J as [->| ->]; now apply Ed.
  - apply Ed. exact (va_ce _ _ _ _ _ X a c (nth_error_In _ _ E) j J).
  - apply Ed. exact (proj1 (va_eip _ _ _ _ _ X p c (nth_error_In _ _ E))).
  - cbn. rewrite <- (map_length g_edges), (va_polys _ _ _ _ _ X). exact (proj1 (proj2 (va_eip _ _ _ _ _ X p c (nth_error_In _ _ E)) o J)).
  - destruct (va_axes _ _ _ _ _ X a) as [[_ G] _]. destruct (G c (nth_error_In _ _ E)) as [[A B] _]. destruct J as [->| ->]; assumption.
  - exact (va_zones _ _ _ _ _ X a z (nth_error_In _ _ E) j J).
  - apply (L1 a i x); [now apply nth_lt in E|exact J].
  - apply (L2 a i j); [now apply nth_lt in E|exact J].
  - destruct (va_axes _ _ _ _ _ X a) as [[G _] _]. destruct (G s (nth_error_In _ _ E)) as [A B]. destruct J as [->| ->]; assumption.
  - apply (L3 a i j); [now apply nth_lt in E|exact J].
  - apply (L4 a i j); [now apply nth_lt in E|exact J].
Qed.
