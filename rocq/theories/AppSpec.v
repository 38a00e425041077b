(** What is assumed of the board in the properties of the pipeline, and the
    words used to state them.  No proofs in this file. *)
From Coq Require Import List Arith Bool.
From Verif Require Import HistModel HistSpec AppModel.
Import ListNotations.

Section WithStates.
Context {V : Type}.
Notation world := (world V Step).
Notation op := (op V Step).

(** The only operations of the Caretaker and of its objects used by
    src/domain, and the allocator returns a free non-null address. *)
Fixpoint domain_ops (w : world) (xs : list op) : Prop :=
  match xs with
  | [] => True
  | x :: r =>
      match x with
      | NextTimepoint a dying =>
          a <> null /\ forall w1, stop_browsing_user_history dying w = Ok w1 -> alive (w_heap w1) a = false
      | Create _ _ _ _ | TakeCareOf _ | SetState _ _ _ | Read _ | Expire _ => True
      | _ => False
      end /\
      forall w', step w x = Ok w' -> domain_ops w' r
  end.

Definition lawful (board : behaviour) : Prop := forall s (w : world), domain_ops w (board s w).

(** Does a list of operations create a timepoint? *)
Definition creates (xs : list op) : Prop := exists a d, In (NextTimepoint a d) xs.

(** [t] is the current timepoint or above it, annotated [a]. *)
Definition annotated_above (w : world) (t : tp) (a : Step) : Prop :=
  reaches (w_heap w) (w_cur w) t /\ get_annotation t w = Some a.

(** Repeat run_next_step; the steps done are accumulated. *)
Fixpoint next_steps (board : behaviour) (k : nat) (w : world) : outcome (world * list (Step * tp)) :=
  match k with
  | 0 => Ok (w, [])
  | S k =>
      do r <- next_steps board k w;
      do r' <- run_next_step board (fst r);
      Ok (fst r', snd r ++ snd r')
  end.

(** Repeat go_before_previous_step. *)
Fixpoint previous_steps (j : nat) (w : world) : outcome world :=
  match j with
  | 0 => Ok w
  | S j => do w' <- previous_steps j w; go_before_previous_step w'
  end.
End WithStates.
