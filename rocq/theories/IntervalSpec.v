(** The words used to state the properties of the meshing of an interval.
    They speak of lists of positions only, not of how they are computed.
    No proofs in this file. *)
From Coq Require Import List Arith QArith Qminmax.
From Verif Require Import IntervalModel.
Import ListNotations.
Open Scope Q_scope.

(** A loop ends with [r]: with enough fuel, and any more, it gives [r]. *)
Definition ends {A : Type} (f : nat -> option A) (r : A) : Prop :=
  exists n, forall m, (n <= m)%nat -> f m = Some r.

(** A loop never ends. *)
Definition hangs {A : Type} (f : nat -> option A) : Prop := forall n, f n = None.

(** The space in front of the line number [k] of a half interval; the half
    interval starts at 0. *)
Definition space (ls : list Q) (k : nat) : Q :=
  nth k ls 0 - match k with O => 0 | S j => nth j ls 0 end.

(** The space before that one; before the first line it is [d]. *)
Definition space_before (d : Q) (ls : list Q) (k : nat) : Q :=
  match k with O => d | S j => space ls j end.

(** The rule documented above is_ls_valid, up to the tolerance [tol]. *)
Definition conform (tol : Q) (ls : list Q) (d smoothness dmax : Q) (lmin : nat) : Prop :=
  d <= dmax /\ (lmin <= length ls)%nat /\ ls <> [] /\
  forall k, (k < length ls)%nat ->
    space ls k <= dmax + tol /\ space ls k <= smoothness * space_before d ls k + tol.

(** The lines reach [s], and only the last one does. *)
Definition just_covers (s : Q) (ls : list Q) : Prop :=
  ls <> [] /\ s <= last ls 0 /\ Forall (fun x => x < s) (removelast ls).

(** Each element is smaller than the next one. *)
Fixpoint increasing (l : list Q) : Prop :=
  match l with
  | a :: (b :: _) as r => a < b /\ increasing r
  | _ => True
  end.

(** Consecutive elements are at most [x] apart. *)
Fixpoint within (x : Q) (l : list Q) : Prop :=
  match l with
  | a :: (b :: _) as r => b - a <= x /\ within x r
  | _ => True
  end.

(** Each cell is at most [r] times the previous one, the one before the first
    being [d]. *)
Fixpoint growth (r d : Q) (l : list Q) : Prop :=
  match l with
  | a :: (b :: _) as t => b - a <= r * d /\ growth r (b - a) t
  | _ => True
  end.

(** Any two adjacent cells differ by a factor of at most [r]. *)
Fixpoint smooth (r : Q) (l : list Q) : Prop :=
  match l with
  | a :: ((b :: c :: _) as t) => c - b <= r * (b - a) /\ b - a <= r * (c - b) /\ smooth r t
  | _ => True
  end.

(** [d] lowered [k] times by a thousandth of itself. *)
Fixpoint lowered (d : Q) (k : nat) : Q :=
  match k with O => d | S k => let x := lowered d k in x - x / 1000 end.

(** [x] to the power [k]. *)
Fixpoint qpow (x : Q) (k : nat) : Q := match k with O => 1 | S k => qpow x k * x end.

(** An interval between two policies in a state where it can be meshed. *)
Record ready (b a : mlp) (iv : interval) : Prop :=
  { ready_order : p_coord b < p_coord a;
    ready_h : iv_h iv == (p_coord a - p_coord b) / 2;
    ready_m : iv_m iv == (p_coord a + p_coord b) / 2;
    ready_dmax : 0 < iv_dmax iv;
    ready_sm_b : 1 <= sd_smoothness (iv_before iv);
    ready_sm_a : 1 <= sd_smoothness (iv_after iv);
    ready_d_b : 0 < p_d b;
    ready_d_a : 0 < p_d a }.

(** What half an interval allows as space next to its last one: the smoothness
    times its last space, at most [dmax]. *)
Definition allowed (smoothness dmax : Q) (ls : list Q) : Q :=
  match ls with [] => dmax | _ => Qmin dmax (smoothness * space ls (length ls - 1)) end.
