(** A sort and boards for the examples. *)
From Coq Require Import List Arith Bool QArith Qabs Sorting.Sorted Sorting.Permutation.
From Verif Require Import IntervalModel ManagerModel GeomModel GeomSpec BoardModel BoardSpec.
Import ListNotations.
Open Scope Q_scope.

Fixpoint ins {A : Type} (less : A -> A -> bool) (x : A) (l : list A) : list A :=
  match l with
  | [] => [x]
  | y :: r => if less y x then y :: ins less x r else x :: y :: r
  end.
Definition isort_by : sort_by := fun A less l => fold_right (ins less) [] l.

Lemma ins_perm {A} (less : A -> A -> bool) x l : Permutation (x :: l) (ins less x l).
Proof.
  induction l as [|y l IH]; cbn; [apply Permutation_refl|]. destruct (less y x); [|apply Permutation_refl].
  apply perm_trans with (y :: x :: l); [apply perm_swap|]. now constructor.
Qed.

Lemma isort_perm A less l : Permutation l (isort_by A less l).
Proof.
  induction l as [|x l IH]; cbn; [constructor|]. apply perm_trans with (x :: isort_by A less l); [now constructor|]. apply ins_perm.
Qed.

Lemma ins_sorted {A} (less : A -> A -> bool) x l : weak_order less (x :: l) ->
  StronglySorted (fun a b => less b a = false) l -> StronglySorted (fun a b => less b a = false) (ins less x l).
Proof.
  intros (W1 & W2 & W3) S. induction S as [|y l S IH F]; cbn.
  - repeat constructor.
  - destruct (less y x) eqn:E.
    + constructor.
      * apply IH.
        -- intros a I. apply W1. destruct I; [now left|right; now right].
        -- intros a b c I J K. apply W2; match goal with H : In _ _ |- In ?z _ => idtac end;
             [destruct I|destruct J|destruct K]; cbn; tauto.
        -- intros a b c I J K. apply W3; [destruct I|destruct J|destruct K]; cbn; tauto.
      * apply Forall_forall. intros z Z. apply (Permutation_in z (Permutation_sym (ins_perm less x l))) in Z. destruct Z as [<-|Z].
        -- destruct (less x y) eqn:E'; [|reflexivity]. exfalso.
           assert (less x x = true) as K by (apply (W2 x y x); cbn; tauto). rewrite W1 in K; [discriminate|now left].
        -- rewrite Forall_forall in F. now apply F.
    + constructor; [now constructor|]. constructor; [assumption|]. apply Forall_forall. intros z Z.
      rewrite Forall_forall in F. apply (W3 z y x); cbn; try tauto. now apply F.
Qed.

Lemma weak_order_incl {A} (less : A -> A -> bool) l l' : incl l' l -> weak_order less l -> weak_order less l'.
Proof. intros I (W1 & W2 & W3). split; [|split]; intros; eauto. Qed.

Lemma isort_by_sorts : sorts_by isort_by.
Proof.
  intros A less l W. split; [apply isort_perm|]. induction l as [|x l IH]; cbn; [constructor|]. apply ins_sorted.
  - eapply weak_order_incl; [|exact W]. intros y [<-|I]; [now left|]. right.
    eapply Permutation_in; [apply Permutation_sym, isort_perm|exact I].
  - apply IH. eapply weak_order_incl; [|exact W]. intros y I. now right.
Qed.

Definition usual : params := mk_params 1 2 2 (5 # 2).
Definition usual_diag : diag_params := mk_diag_params (1 # 5) 20.

(** The result of a run that is known to end. *)
Definition result (m : run board) : board := match m with Done b => b | _ => empty_board None end.
Definition box_on (b : board) (m : Mat) (priority : nat) (x0 x1 y0 y1 : Q) : board :=
  result (add_polygon PXY (Some m) priority (range_z 0 1) (box_points (mk_pt x0 y0) (mk_pt x1 y1)) b).

(** Two boxes with a common side: the small one is inside the large one. *)
Definition two_boxes : board :=
  Eval vm_compute in box_on (box_on (empty_board (Some AIR)) CONDUCTOR 0 0 20 0 20) CONDUCTOR 0 0 40 0 20.
(** A box beside another. *)
Definition side_by_side : board :=
  Eval vm_compute in box_on (box_on (empty_board (Some AIR)) CONDUCTOR 1 0 10 0 10) DIELECTRIC 0 10 30 0 20.

(** A check that lines are either the same or far enough. *)
Definition on_grid (b : board) : bool :=
  forallb (fun e => forallb (fun f => forallb (fun v =>
    negb (segaxis_eqb (seg_axis (e_seg e)) (segaxis_of_view v)) || negb (segaxis_eqb (seg_axis (e_seg f)) (segaxis_of_view v))
    || Qeq_bool (level v (s0 (e_seg e))) (level v (s0 (e_seg f)))
    || Qle_bool equality_tolerance (Qabs (level v (s0 (e_seg e)) - level v (s0 (e_seg f))))) [VH; VV]) (b_edges b)) (b_edges b).

Lemma on_grid_spec b : on_grid b = true -> forall i j e f v, edge_at b i e -> edge_at b j f ->
  seg_axis (e_seg e) = segaxis_of_view v -> seg_axis (e_seg f) = segaxis_of_view v ->
  level v (s0 (e_seg e)) == level v (s0 (e_seg f)) \/ equality_tolerance <= Qabs (level v (s0 (e_seg e)) - level v (s0 (e_seg f))).
Proof.
  intros H i j e f v Ei Ej A B. unfold on_grid in H. rewrite forallb_forall in H. specialize (H e (nth_error_In _ _ Ei)).
  rewrite forallb_forall in H. specialize (H f (nth_error_In _ _ Ej)). rewrite forallb_forall in H.
  specialize (H v ltac:(destruct v; cbn; tauto)). rewrite A, B in H.
  replace (segaxis_eqb (segaxis_of_view v) (segaxis_of_view v)) with true in H by (now destruct v). cbn [negb orb] in H.
  apply orb_true_iff in H. destruct H as [H|H]; [left; now apply Qeq_bool_iff|right; now apply Qle_bool_iff].
Qed.

Definition no_ce_b (b : board) : bool :=
  forallb (fun ax => match on_axis (b_ce b) ax with [] => true | _ => false end) all_axes
  && forallb (fun e => forallb (fun c => negb (is_ce c)) (e_conflicts e)) (b_edges b).
Lemma no_ce_b_spec b : no_ce_b b = true -> no_ce b.
Proof.
  unfold no_ce_b, no_ce. rewrite andb_true_iff, !forallb_forall. intros [A B]. split.
  - intros ax. specialize (A ax ltac:(destruct ax; cbn; tauto)). now destruct (on_axis (b_ce b) ax).
  - intros i e E ax n I. specialize (B e (nth_error_In _ _ E)). rewrite forallb_forall in B. specialize (B _ I). discriminate.
Qed.

(** An edge, from 20 to 0, that three boxes of a higher priority cover together. *)
Definition three_over : board :=
  Eval vm_compute in box_on (box_on (box_on (box_on (empty_board (Some AIR)) CONDUCTOR 0 0 20 0 20)
    CONDUCTOR 1 6 25 (-5) 5) CONDUCTOR 1 (-5) 5 (-5) 5) CONDUCTOR 1 4 8 (-5) 0.
(** A box strictly inside a box of a higher priority, and a third one with a side on
    it; the order of the last two differs. *)
Definition inside_third : board :=
  Eval vm_compute in box_on (box_on (box_on (empty_board (Some AIR)) CONDUCTOR 0 0 20 0 20)
    CONDUCTOR 0 0 5 10 20) CONDUCTOR 1 (-5) 25 (-5) 25.
Definition inside_second : board :=
  Eval vm_compute in box_on (box_on (box_on (empty_board (Some AIR)) CONDUCTOR 0 0 20 0 20)
    CONDUCTOR 1 (-5) 25 (-5) 25) CONDUCTOR 0 0 5 10 20.
Definition edges_in_polygons (b : board) : board :=
  result (let! b := detect_edges_in_polygons 10 isort_by b PXY in auto_solve_all_edge_in_polygon isort_by b PXY).
