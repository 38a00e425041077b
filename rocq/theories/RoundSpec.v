(** The words used to state what rounding does to the lines.  No proofs in this file. *)
From Coq Require Import List ZArith QArith Qabs.
From Verif Require Import IntervalModel ManagerModel ManagerSpec.
Import ListNotations.
Open Scope Q_scope.

(** The finite doubles of IEEE 754, whatever their size: 53 bits, the last one no
    smaller than 2^-1074. *)
Definition is_double (x : Q) : Prop :=
  exists m e, (Z.abs m <= 2 ^ 53)%Z /\ (-1074 <= e)%Z /\ x == inject_Z m * 2 ^ e.

(** No element is smaller than the one before. *)
Fixpoint ascending (l : list Q) : Prop :=
  match l with
  | a :: (b :: _) as r => a <= b /\ ascending r
  | _ => True
  end.

(** Consecutive elements are at least [x] apart. *)
Fixpoint apart (x : Q) (l : list Q) : Prop :=
  match l with
  | a :: (b :: _) as r => x <= b - a /\ apart x r
  | _ => True
  end.

(** Each cell is at most [r] times the previous one, the one before the first being
    [d], up to [delta]. *)
Fixpoint growth_near (r delta d : Q) (l : list Q) : Prop :=
  match l with
  | a :: (b :: _) as t => b - a <= r * d + delta /\ growth_near r delta (b - a) t
  | _ => True
  end.

(** How far from the exact result a rounded operation may be, for results up to [x]. *)
Definition rounding (x : Q) : Q := (1 # 9007199254740992) * x + 2 ^ (-1075).

(** What is asked of an axis for the theorem on whole axes.  Everything read is a
    double.  [M] bounds the coordinates and [D] the sizes of cells.  [lo] is below every
    size asked for and far above the rounding errors, and the enabled policies are far
    enough from each other for the number of lines asked for: 2^(lmin + 7) times [lo]. *)
Record tame (M lo D : Q) (g : params) (zs : list zone) (ax : axis) : Prop :=
  { ta_rounding : 64 * rounding (4 * M) <= lo;
    ta_low : 2 ^ (-990) <= lo;
    ta_high : M <= 1048576;
    ta_D : D <= M;
    ta_dmax : is_double (g_dmax g) /\ lo <= g_dmax g <= D;
    ta_zones : Forall (fun z => is_double (z_dmax z) /\ lo <= z_dmax z <= D) zs;
    ta_smoothness : 1 <= g_smoothness g <= 2;
    ta_policies : forall i p, enabled_at ax i p ->
      is_double (p_coord p) /\ - M <= p_coord p <= M /\ is_double (p_d p) /\ lo <= p_d p /\ consistent p;
    ta_apart : forall i j p q, i <> j -> enabled_at ax i p -> enabled_at ax j q ->
      2 ^ (Z.of_nat (g_lmin g) + 7) * lo <= Qabs (p_coord p - p_coord q) }.

(** Where the lines next to a policy go, [d] being the size of the cell around it: half
    of it on each side, or one third on the side of the shape and two thirds on the
    other. *)
Definition share_above (p : mlp) (d : Q) : Q :=
  match p_policy p, p_normal p with
  | ONELINE, _ => d
  | HALFS, _ => (1 # 2) * d
  | THIRDS, NMAX => (2 # 3) * d
  | THIRDS, _ => (1 # 3) * d
  end.
Definition share_below (p : mlp) (d : Q) : Q :=
  match p_policy p, p_normal p with
  | ONELINE, _ => d
  | HALFS, _ => (1 # 2) * d
  | THIRDS, NMAX => (1 # 3) * d
  | THIRDS, _ => (2 # 3) * d
  end.
