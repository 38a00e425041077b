(** What the properties of LayoutModel.v are about. *)
From Coq Require Import List Bool Arith QArith.
From Verif Require Import LayoutModel.
Import ListNotations.
Open Scope Q_scope.

(** Sizes are not negative. *)
Definition sized (l : list item) : Prop := forall i, In i l -> 0 <= i_w i /\ 0 <= i_h i.
(** The item number [n] of [l] is [i], and its top left corner is put at [x], [y]. *)
Definition placed (l : list item) (at_ : list (option (Q * Q))) (n : nat) (i : item) (x y : Q) : Prop :=
  nth_error l n = Some i /\ nth_error at_ n = Some (Some (x, y)).
(** The item number [n] is one of column [k]. *)
Definition of_column (l : list item) (k n : nat) : Prop := exists i, nth_error l n = Some i /\ i_column i = k.

(** In column [k], [top] is left above the first item, [between] between an item and the next, and
    [bottom] below the last. *)
Definition spaced (l : list item) (f : fitted) (k : nat) (top between bottom : Q) : Prop :=
  (forall n i x y, placed l (f_at f) n i x y -> i_column i = k -> (forall j, (j < n)%nat -> ~ of_column l k j) -> y == top)
  /\ (forall n i x y n' i' x' y', placed l (f_at f) n i x y -> placed l (f_at f) n' i' x' y' -> i_column i = k -> i_column i' = k -> (n < n')%nat ->
      (forall j, (n < j < n')%nat -> ~ of_column l k j) -> y' == y + i_h i + between)
  /\ (forall n i x y, placed l (f_at f) n i x y -> i_column i = k -> (forall j, (n < j)%nat -> ~ of_column l k j) -> y + i_h i + bottom == f_h f).

(** The sum of the heights of the items of column [k], each with [mh] below. *)
Fixpoint stacked (mh : Q) (l : list item) (k : nat) : Q :=
  match l with [] => 0 | i :: r => (if Nat.eqb (i_column i) k then i_h i + mh else 0) + stacked mh r k end.

(** A rectangle of size [w], [h] at [p] is in [r]. *)
Definition within (r : rect) (w h : Q) (p : Q * Q) : Prop :=
  r_left r <= fst p /\ fst p + w <= r_right r /\ r_top r <= snd p /\ snd p + h <= r_bottom r.
(** The plane or axis number [n] of [l] is [b], and is put at [x], [y]. *)
Definition shown_at (l : list box_of) (at_ : list (option (Q * Q))) (n : nat) (b : box_of) (x y : Q) : Prop :=
  nth_error l n = Some b /\ nth_error at_ n = Some (Some (x, y)).
