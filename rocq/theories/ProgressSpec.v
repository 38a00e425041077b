(** What the properties of the progress bars say, apart from the model of the steps: the counts shown
    by a terminal, how a list of counts goes, and the sums it is compared with. *)
From Coq Require Import List Bool Arith.
From Verif Require Import ProgressModel.
Import ListNotations.

(** The counts the terminal shows, one after the other. *)
Definition shown (b : bar) : list nat := map terminal (ticks b).
(** What it says was found, one after the other (nothing for the steps that do not tell). *)
Definition found (b : bar) : list nat := flat_map (fun t => match terminal_found t with None => [] | Some f => [f] end) (ticks b).

(** A count never goes back. *)
Fixpoint rising (l : list nat) : Prop :=
  match l with x :: (y :: _) as r => x <= y /\ rising r | _ => True end.
(** A bar behaves: its counts never go back nor pass the maximum. *)
Definition behaves (b : bar) : Prop := rising (shown b) /\ Forall (fun x => x <= max b) (shown b).
(** A bar ends full: the last count shown is the maximum. *)
Definition ends_full (b : bar) : Prop := exists l, shown b = l ++ [max b].
(** The last thing found. *)
Definition finds (b : bar) (n : nat) : Prop := exists l, found b = l ++ [n].

Fixpoint sum (l : list nat) : nat := match l with [] => 0 | x :: r => x + sum r end.
(** The number of those that hold. *)
Definition how_many (l : list bool) : nat := length (filter (fun b => b) l).

(** The pairs of things taken in two distinct groups. *)
Fixpoint across (sizes : list nat) : nat := match sizes with [] => 0 | n :: r => n * sum r + across r end.
