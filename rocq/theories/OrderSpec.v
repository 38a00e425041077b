(** The words used to state that the lines of an axis do not depend on the order of its
    policies.  No proofs in this file. *)
From Coq Require Import List Arith QArith Sorting.Permutation.
From Verif Require Import IntervalModel ManagerModel ManagerSpec.
Import ListNotations.
Open Scope Q_scope.

(** Sorting only compares keys: what is sorted matters by its keys, and the keys by their
    values. *)
Definition natural_sort (srt : sorter) : Prop :=
  (forall (A B : Type) (f : A -> B) (key : B -> Q) (l : list A), srt B key (map f l) = map f (srt A (fun x => key (f x)) l)) /\
  (forall (A : Type) (key key' : A -> Q) (l : list A), (forall x, In x l -> key x == key' x) -> srt A key l = srt A key' l).

(** An axis that has policies only. *)
Definition unmeshed (ax : axis) : Prop := ax_conflicts ax = [] /\ ax_segments ax = [] /\ ax_lines ax = [].

(** The enabled policies of two axes are the same, in any order, among any others. *)
Definition same_enabled (ax ax' : axis) : Prop := Permutation (filter p_enabled (ax_policies ax)) (filter p_enabled (ax_policies ax')).

(** The steps of a run about an axis, the policies being there: too close policies,
    intervals, the zones [zs], lines (app/openemsh.cpp 179-183). *)
Definition finish_axis (fuel : nat) (g : params) (srt : sorter) (zs : list zone) (ax : axis) : run axis :=
  let! ax := detect_and_solve_too_close fuel g srt ax in
  let! ax := detect_intervals g srt ax in
  mesh_axis fuel srt (apply_zones zs ax).

(** The same numbers. *)
Definition same_lines (l l' : list Q) : Prop := Forall2 Qeq l l'.
