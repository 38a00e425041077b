(** Property C76: the lines of an axis do not depend on the order of its policies. *)
From Coq Require Import List Arith Bool Lia QArith Qabs Lqa Sorting.Sorted Sorting.Permutation.
From Verif Require Import IntervalModel IntervalSpec ManagerModel ManagerSpec ManagerProofs ManagerMoreProofs BoardLinesProofs OrderSpec OrderMeshProofs PropertiesManager.
Import ListNotations.
Open Scope Q_scope.

(** Two axes with the same enabled policies, in any order and among any disabled ones:
    if the steps end for one, they end for the other with the same lines. *)
Theorem C76_order : forall fuel g srt zs ax ax' r, sorts srt -> natural_sort srt -> 0 <= g_proximity_limit g ->
  unmeshed ax -> unmeshed ax' -> all_consistent ax -> all_consistent ax' -> same_enabled ax ax' ->
  finish_axis fuel g srt zs ax = Done r ->
  exists r', finish_axis fuel g srt zs ax' = Done r' /\ same_lines (ax_lines r) (ax_lines r').
Proof. exact finish_alike. Qed.

(** With usable parameters they do end. *)
Theorem C76_lines : forall g srt D zs ax ax', sorts srt -> natural_sort srt ->
  0 <= g_proximity_limit g -> 0 < g_dmax g -> 1 <= g_smoothness g -> 0 < D -> Forall (fun z => z_dmax z = D) zs ->
  unmeshed ax -> unmeshed ax' -> all_consistent ax -> all_consistent ax' -> (forall i p, enabled_at ax i p -> 0 < p_d p) ->
  same_enabled ax ax' ->
  exists r r', finishes (fun n => finish_axis n g srt zs ax) r /\ finishes (fun n => finish_axis n g srt zs ax') r' /\
    same_lines (ax_lines r) (ax_lines r').
Proof.
  intros g srt D zs ax ax' So Na L0 D0 S1 Z0 Z U U' C C' Po Se.
  assert (End : forall ax, unmeshed ax -> all_consistent ax -> (forall i p, enabled_at ax i p -> 0 < p_d p) -> exists r, finishes (fun n => finish_axis n g srt zs ax) r).
  { clear ax ax' U U' C C' Po Se. intros ax (Cf & E0 & Li) C Po. destruct (axis_lines g srt zs ax D So L0 D0 S1 Z0 Z C Cf E0 Li Po) as (ax1 & ax2 & ax3 & (n1 & H1) & H2 & (n3 & H3) & _).
    exists ax3, (n1 + n3)%nat. intros m Lm. unfold finish_axis. rewrite (H1 m) by lia. cbn [bind]. rewrite H2. cbn [bind]. apply H3. lia. }
  assert (Po' : forall i p, enabled_at ax' i p -> 0 < p_d p).
  { intros i p [P En]. assert (I : In p (filter p_enabled (ax_policies ax))) by (apply (Permutation_in _ (Permutation_sym Se)), filter_In; split; [eapply nth_error_In; exact P|exact En]).
    apply filter_In in I. destruct I as [I E2]. apply In_nth_error in I. destruct I as (j & J). exact (Po j p (conj J E2)). }
  destruct (End ax U C Po) as (r & n & H), (End ax' U' C' Po') as (r' & n' & H'). exists r, r'. split; [now exists n|]. split; [now exists n'|].
  destruct (C76_order (n + n') g srt zs ax ax' r So Na L0 U U' C C' Se (H (n + n')%nat ltac:(lia))) as (r2 & E2 & Sl). rewrite (H' (n + n')%nat) in E2 by lia. injection E2 as ->. exact Sl.
Qed.

(** A sort by comparisons is [natural_sort]. *)
Lemma isort_natural : natural_sort isort.
Proof.
  split.
  - intros A B f key l. unfold isort. induction l as [|x l IH]; cbn; [reflexivity|]. rewrite IH. generalize (fold_right (insert (fun x => key (f x))) [] l). clear.
    induction l as [|y l IH]; cbn; [reflexivity|]. destruct (Qle_bool _ _); cbn; [reflexivity|]. now rewrite IH.
  - intros A key key' l. unfold isort. induction l as [|x l IH]; intros H; [reflexivity|]. cbn. rewrite IH by (intros; apply H; now right).
    assert (Hi : forall y, In y (fold_right (insert key') [] l) -> key y == key' y) by (intros y Y; apply H; right; apply (Permutation_in y (Permutation_sym (proj1 (isort_sorts A key' l))) Y)).
    specialize (H x (or_introl eq_refl)). revert Hi. generalize (fold_right (insert key') [] l). clear -H. induction l as [|y l IH]; intros Hi; cbn; [reflexivity|].
    rewrite (Qleb_comp _ _ H _ _ (Hi y (or_introl eq_refl))). destruct (Qle_bool _ _); [reflexivity|]. rewrite IH; [reflexivity|]. intros z Z. apply Hi. now right.
Qed.

(** Five policies, two of them at the same place and another one near, listed in two
    orders, with a disabled one. *)
Definition plain (x : Q) (po : Policy) (no : MNormal) : mlp := mk_mlp x po no true 5.
Definition even_params : params := mk_params 1 1 2 10.
Definition listed : axis := of_policies [plain 0 THIRDS NMIN; plain 40 HALFS NNONE; plain 20 ONELINE NNONE; plain 0 THIRDS NMAX; plain (1 # 2) HALFS NNONE].
Definition shuffled : axis := of_policies [plain (1 # 2) HALFS NNONE; disable (plain 7 ONELINE NNONE); plain 20 ONELINE NNONE; plain 0 THIRDS NMAX; plain 40 HALFS NNONE; plain 0 THIRDS NMIN].

Definition lines_of (m : run axis) : option (list Q) := match m with Done r => Some (map Qred (ax_lines r)) | _ => None end.

Example C76_example : sorts isort /\ natural_sort isort /\ unmeshed listed /\ unmeshed shuffled /\ all_consistent listed /\ all_consistent shuffled /\ same_enabled listed shuffled /\
  lines_of (finish_axis 20 even_params isort [] listed) = Some [11 # 4; 31 # 4; 81 # 8; 15; 20; 25; 30; 65 # 2; 75 # 2].
Proof.
  split; [exact isort_sorts|]. split; [exact isort_natural|]. split; [repeat split|]. split; [repeat split|].
  split; [repeat constructor; cbn; intuition discriminate|]. split; [repeat constructor; cbn; intuition discriminate|]. split.
  - unfold same_enabled. cbn. apply (Permutation_cons_app [_; _; _; _] []). apply (Permutation_cons_app [_; _; _] []). apply (Permutation_cons_app [_] [_]). apply perm_swap.
  - vm_compute. reflexivity.
Qed.

(** The lines depend on the order in which intervals of the same size are visited, which
    std::ranges::sort leaves open: two sorts, both right, and two meshes. *)
Definition backward : sorter := fun A key l => isort A key (rev l).
Definition three : axis := of_policies [plain 0 HALFS NNONE; plain 20 HALFS NNONE; plain 40 HALFS NNONE].
Definition zoned_lines (srt : sorter) : run axis :=
  finish_axis 30 even_params srt [mk_zone 20 40 2] three.

Theorem C76_sort_refuted : ~ (forall fuel g srt srt' zs ax r r', sorts srt -> sorts srt' -> 0 <= g_proximity_limit g -> unmeshed ax -> all_consistent ax ->
  finish_axis fuel g srt zs ax = Done r -> finish_axis fuel g srt' zs ax = Done r' -> same_lines (ax_lines r) (ax_lines r')).
Proof.
  intros H.
  assert (Sb : sorts backward) by (intros A key l; destruct (isort_sorts A key (rev l)) as [P Ss]; split; [etransitivity; [apply Permutation_rev|exact P]|exact Ss]).
  assert (A : lines_of (zoned_lines isort) <> None) by (vm_compute; discriminate). assert (B : lines_of (zoned_lines backward) <> None) by (vm_compute; discriminate).
  destruct (zoned_lines isort) as [r| |] eqn:E; [|now elim A|now elim A]. destruct (zoned_lines backward) as [r'| |] eqn:E'; [|now elim B|now elim B].
  assert (L : same_lines (ax_lines r) (ax_lines r')).
  { unfold zoned_lines in E, E'. refine (H 30%nat even_params isort backward [mk_zone 20 40 2] three r r' isort_sorts Sb _ _ _ E E'); [discriminate|repeat split|repeat constructor; cbn; intuition discriminate]. }
  assert (X : option_map (@length Q) (lines_of (zoned_lines isort)) <> option_map (@length Q) (lines_of (zoned_lines backward))) by (vm_compute; discriminate).
  apply X. rewrite E, E'. cbn. rewrite !map_length. f_equal. clear -L. unfold same_lines in L. induction L; cbn; congruence.
Qed.

(** Fixed lines are compared to the ones before them up to a tolerance, so their order
    counts, by less than three times the tolerance here. *)
Definition near_zero (k : Z) : Q := (9 * k) # 1000000000.
Definition fixed_lines (l : list Q) : run axis := finish_axis 10 even_params isort [] (add_fixed_policies even_params (of_policies []) l).

Theorem C76_fixed_refuted : ~ (forall fuel g srt zs l l' r r', sorts srt -> Permutation l l' ->
  finish_axis fuel g srt zs (add_fixed_policies g (of_policies []) l) = Done r ->
  finish_axis fuel g srt zs (add_fixed_policies g (of_policies []) l') = Done r' -> same_lines (ax_lines r) (ax_lines r')).
Proof.
  intros H. set (l := map near_zero [0; 1; 2; 3]%Z). set (l' := map near_zero [1; 0; 2; 3]%Z).
  destruct (fixed_lines l) as [r| |] eqn:E; [|vm_compute in E; discriminate..]. destruct (fixed_lines l') as [r'| |] eqn:E'; [|vm_compute in E'; discriminate..].
  pose proof (H 10%nat even_params isort [] l l' r r' isort_sorts ltac:(apply perm_swap) E E') as L.
  assert (X : lines_of (fixed_lines l) = Some [near_zero 1]) by reflexivity. assert (X' : lines_of (fixed_lines l') = Some [Qred (near_zero 2)]) by reflexivity.
  rewrite E in X. rewrite E' in X'. cbn in X, X'. destruct (ax_lines r) as [|a [|]], (ax_lines r') as [|b [|]]; try discriminate. injection X as X. injection X' as X'.
  inversion L as [|? ? ? ? Eq _]. rewrite <- (Qred_correct a), <- (Qred_correct b), X, X' in Eq. discriminate.
Qed.

Print Assumptions C76_order.
Print Assumptions C76_lines.
Print Assumptions C76_sort_refuted.
Print Assumptions C76_fixed_refuted.
