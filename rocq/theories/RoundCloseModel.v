(** The merging of too close policies in the arithmetic of doubles:
    src/domain/meshline_policy_manager.cpp and
    src/domain/conflicts/conflict_too_close_meshline_policies.cpp.

    ManagerModel.v takes doubles for exact rationals.  Here, as in RoundModel.v, each
    operation of the code is followed by a rounding [rnd]; with the identity the
    functions are those of ManagerModel.v (PropertiesRoundClose.v, C89_exact), with
    [double] they are the code on doubles.  What does not compute on coordinates (the
    order of the policies, the conflicts) is taken from ManagerModel.v.

    Simplifications: those of RoundModel.v and ManagerModel.v; coordinates are finite,
    so that the infinite [smallest_space] is above any distance. *)
From Coq Require Import List Arith Bool ZArith QArith Qabs.
From Verif Require Import IntervalModel ManagerModel RoundModel.
Import ListNotations.
Open Scope Q_scope.

Section Rounded.
Variable rnd : Q -> Q.

(** geometrics/coord.cpp 83-85. *)
Definition r_distance (a b : Q) : Q := Qabs (rnd (a - b)).

(** meshline_policy_manager.cpp 88-97. *)
Fixpoint r_closest_loop (l : list (nat * mlp)) (smallest : option (Q * (nat * nat))) : option (Q * (nat * nat)) :=
  match l with
  | x :: ((y :: _) as r) =>
      let space := r_distance (p_coord (snd x)) (p_coord (snd y)) in
      let found := Some (space, (fst x, fst y)) in
      r_closest_loop r
        match smallest with
        | Some (s, _) => if Qltb space s then found else smallest
        | None => found
        end
  | _ => smallest
  end.

(** meshline_policy_manager.cpp 74-103. *)
Definition r_detect_closest (srt : sorter) (ax : axis) (proximity_limit : Q) : option (nat * nat) :=
  match r_closest_loop (dimension srt ax) None with
  | Some (s, closest) => if Qle_bool s proximity_limit then Some closest else None
  | None => None
  end.

(** mesh/meshline_policy.cpp 18-37. *)
Definition r_new_policy (g : params) (policy : Policy) (normal : MNormal) (coord : Q) (enabled : bool) : mlp :=
  mk_mlp coord policy normal enabled (rnd (g_dmax g / 2)).

(** meshline_policy_manager.cpp 50-71. *)
Definition r_add_meshline_policy (g : params) (ax : axis) (policy : Policy) (normal : MNormal)
    (coord : Q) (enabled : bool) : axis * option nat :=
  if inconsistent policy normal then (ax, None)
  else (set_policies ax (ax_policies ax ++ [r_new_policy g policy normal coord enabled]),
        Some (length (ax_policies ax))).

(** conflicts/conflict_too_close_meshline_policies.cpp 39-66. *)
Definition r_merged (a b : mlp) : option (Policy * MNormal * Q) :=
  let middle := r_mid rnd (p_coord a) (p_coord b) in
  match p_policy a, p_policy b with
  | ONELINE, ONELINE => Some (ONELINE, NNONE, middle)
  | ONELINE, _ => Some (ONELINE, NNONE, p_coord a)
  | _, ONELINE => Some (ONELINE, NNONE, p_coord b)
  | THIRDS, THIRDS =>
      match p_normal a, p_normal b with
      | NMIN, NMIN => Some (THIRDS, NMIN, middle)
      | NMAX, NMAX => Some (THIRDS, NMAX, middle)
      | NNONE, NNONE => None
      | _, _ => Some (HALFS, NNONE, middle)
      end
  | HALFS, HALFS => Some (HALFS, NNONE, middle)
  | HALFS, THIRDS => Some (HALFS, NNONE, middle)
  | THIRDS, HALFS => Some (HALFS, NNONE, middle)
  end.

(** conflicts/conflict_too_close_meshline_policies.cpp 33-82. *)
Definition r_solve_too_close (g : params) (ax : axis) (c : nat) : run axis :=
  let! conflict := read (ax_conflicts ax) c in
  let! a := read (ax_policies ax) (tc_a conflict) in
  let! b := read (ax_policies ax) (tc_b conflict) in
  match r_merged a b with
  | None => Done ax
  | Some (policy, normal, coord) =>
      let (ax, solution) := r_add_meshline_policy g ax policy normal coord true in
      let! cs := write (ax_conflicts ax) c (mk_tc (tc_a conflict) (tc_b conflict) solution) in
      Done (set_conflicts ax cs)
  end.

(** meshline_policy_manager.cpp 106-127. *)
Fixpoint r_detect_and_solve_too_close (fuel : nat) (g : params) (srt : sorter) (ax : axis) : run axis :=
  match fuel with
  | O => Running
  | S fuel =>
      match r_detect_closest srt ax (g_proximity_limit g) with
      | None => Done ax
      | Some (a, b) =>
          let! r := add_too_close ax a b in
          match r with
          | None => r_detect_and_solve_too_close fuel g srt ax
          | Some (ax, c) =>
              let! ax := r_solve_too_close g ax c in
              r_detect_and_solve_too_close fuel g srt ax
          end
      end
  end.
End Rounded.
