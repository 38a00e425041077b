(** What the logger is asked to do, without its data structures. *)
From Coq Require Import List Arith String.
From Verif Require Import LoggerModel.
Import ListNotations.
Local Open Scope string_scope.
Local Open Scope nat_scope.
Local Open Scope list_scope.

(** The calls that set a logger up. *)
Inductive call :=
| Register (i : nat) (k : kind) (interactive : bool)
| SetInteractive (i : nat).

Definition do_call (g : logger) (c : call) : logger :=
  match c with
  | Register i k b => register_sink i k b g
  | SetInteractive i => set_as_the_interactive i g
  end.

(** The logger after some calls, the first call first. *)
Definition after (l : list call) : logger := fold_left do_call l new_logger.

(** The sink of a key is the first one registered under it. *)
Fixpoint first_kind (i : nat) (l : list call) : option kind :=
  match l with
  | [] => None
  | Register j k _ :: l => if i =? j then Some k else first_kind i l
  | SetInteractive _ :: l => first_kind i l
  end.

(** The interactive sink, the LAST call first: the last key that was named and
    is that of a sink; zero is no sink. *)
Fixpoint chosen (l : list call) : option nat :=
  match l with
  | [] => None
  | Register i _ true :: _ => if i =? 0 then None else Some i
  | Register _ _ false :: l => chosen l
  | SetInteractive i :: l =>
      if i =? 0 then None
      else match first_kind i (rev l) with Some _ => Some i | None => chosen l end
  end.

(** The answers that can be typed. *)
Inductive typed : string -> UserAction -> Prop :=
| typed_n : typed "n" CANCEL
| typed_y : typed "y" OK
| typed_s : typed "s" SAVE
| typed_c : typed "c" CLOSE
| typed_a : typed "a" ABORT.

(** A sink that shows the whole of a message: it is printed, or in a box. *)
Definition contained (a b : string) : Prop := exists x y, b = (x ++ a ++ y)%string.
Definition shows (e : LogEvent) (fx : list effect) : Prop :=
  exists x, In x fx
    /\ match x with
       | Print t => contained (message e) t /\ contained (informative e) t /\ contained (details e) t
       | MessageBox l t i d _ => l = level e /\ t = message e /\ i = informative e /\ d = details e
       | StatusBar t => t = message e
       end.
