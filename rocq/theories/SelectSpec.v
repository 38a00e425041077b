(** The words used to state what the graph view highlights and shows.  No proofs in this
    file. *)
From Coq Require Import List Arith Bool.
From Verif Require Import IntervalModel ManagerModel GeomModel BoardModel SceneModel SceneSpec SelectModel.
Import ListNotations.

(** Node [n] is in the frame [m], or in a frame in it. *)
Inductive inside (sc : scene) (n : nat) : nat -> Prop :=
| inside_it nd m : nth_error (sc_nodes sc) n = Some nd -> nd_inside nd = Some m -> inside sc n m
| inside_more nd m l : nth_error (sc_nodes sc) m = Some nd -> nd_inside nd = Some l -> inside sc n m -> inside sc n l.

(** Node [n] can be seen. *)
Definition shown (sc : scene) (st : view_state) (n : nat) : Prop :=
  n < length (sc_nodes sc) /\ vs_hidden st n = false /\ forall m, inside sc n m -> vs_hidden st m = false.

(** Node [n] is selected; it is related to a selected one by wires. *)
Definition selected (st : view_state) (n : nat) : Prop := vs_selected st n = true.
Definition related (sc : scene) (st : view_state) (n : nat) : Prop := exists m, selected st m /\ (leads_to sc m n \/ leads_to sc n m).
(** [n] is drawn as highlighted. *)
Definition highlighted (st : view_state) (n : nat) : Prop := vs_lit st n = true.

(** The gesture is about nodes that there are. *)
Definition about (sc : scene) (g : gesture) : Prop :=
  match g with
  | Click _ n | Release n => n < length (sc_nodes sc)
  | Elsewhere l => forall n, In n l -> n < length (sc_nodes sc)
  | _ => True
  end.
