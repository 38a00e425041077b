(** Model of the progress bars: what the steps of a run tell their bar, src/domain/board.cpp,
    src/domain/meshline_policy_manager.cpp, src/domain/conflict_manager.cpp and
    src/infra/parsers/parser_from_csx.cpp, and what the two bars show of it, src/ui/cli/progress.cpp
    and src/ui/qt/progress.cpp.  No proofs in this file.

    Simplifications, for the whole file: of a step only its loops, its counters and its calls to the
    bar are kept; what a step finds at each of its comparisons is an input.  Counters are unbounded,
    where the code has size_t and, in the window, int.  complete() is left out: it hides the bar of
    the window and marks that of the terminal as done. *)
From Coq Require Import List Bool Arith ZArith.
From Verif Require IntervalModel ManagerModel.
Import ListNotations.

(** progress.hpp IBar, progress.cpp 28-37: what a bar is told.  One number, or what was found so far
    and how far the work went. *)
Inductive told := One (i : nat) | Two (found j : nat).
(** progress.cpp 16-18: a bar is built with its maximum; the two counters start at 0. *)
Record bar := mkBar { max : nat; ticks : list told }.

(** std::size_t found, k: the two counters of a step. *)
Definition counters : Set := nat * nat.
Definition one (b : bool) : nat := if b then 1 else 0.

(** board.cpp 216-247: every edge of a polygon, then of the next one; the boolean tells whether the
    edge is reversed. *)
Fixpoint adjust_edges (l : list bool) (c : counters) : list told * counters :=
  match l with
  | [] => ([], c)
  | b :: r => let c := (fst c + one b, S (snd c)) in
              let (t, c') := adjust_edges r c in (Two (fst c) (snd c) :: t, c')
  end.
Fixpoint adjust_polygons (ps : list (list bool)) (c : counters) : list told * counters :=
  match ps with
  | [] => ([], c)
  | p :: r => let (t, c) := adjust_edges p c in let (t', c) := adjust_polygons r c in (t ++ t', c)
  end.
(** board.cpp 212-250; the edges of the board are those of its polygons, 123-133. *)
Definition adjust (ps : list (list bool)) : bar := mkBar (length (concat ps)) (fst (adjust_polygons ps (0, 0))).

(** board.cpp 263-275: the corners of each polygon; one tick per polygon. *)
Fixpoint corners (ps : list (list bool)) (c : counters) : list told * counters :=
  match ps with
  | [] => ([], c)
  | p :: r => let c := fold_left (fun c b => (fst c + one b, S (snd c))) p c in
              let (t, c') := corners r c in (Two (fst c) (snd c) :: t, c')
  end.
(** board.cpp 284-303: an edge against every edge of the polygons that follow its own. *)
Definition against (cross : nat -> nat -> bool) (j0 : nat) (qs : list (list bool)) (c : counters) : counters :=
  fst (fold_left (fun cj (q : list bool) =>
    (fold_left (fun c m => (fst c + one (cross (snd cj) m), S (snd c))) (seq 0 (length q)) (fst cj), S (snd cj))) qs (c, j0)).
(** board.cpp 281-305: the edges of a polygon; one tick per edge. *)
Fixpoint cross_edges (cross : nat -> nat -> nat -> bool) (ls : list nat) (j0 : nat) (qs : list (list bool)) (c : counters) : list told * counters :=
  match ls with
  | [] => ([], c)
  | l :: r => let c := against (cross l) j0 qs c in
              let (t, c') := cross_edges cross r j0 qs c in (Two (fst c) (snd c) :: t, c')
  end.
(** board.cpp 280-306: the polygons. *)
Fixpoint crosses (cross : nat -> nat -> nat -> nat -> bool) (i : nat) (ps : list (list bool)) (c : counters) : list told * counters :=
  match ps with
  | [] => ([], c)
  | p :: r => let (t, c) := cross_edges (cross i) (seq 0 (length p)) (S i) r c in
              let (t', c) := crosses cross (S i) r c in (t ++ t', c)
  end.
(** board.cpp 253-310.  cross i l j m: edge l of polygon i and edge m of polygon j make an angle. *)
Definition diagonal_angles (ps : list (list bool)) (cross : nat -> nat -> nat -> nat -> bool) : bar :=
  let e := length (concat ps) in
  let (t, c) := corners ps (0, 0) in
  mkBar ((e * e - e) / 2) (t ++ fst (crosses cross 0 ps c)).

(** board.cpp 320-448: every polygon against every polygon, itself included; one tick per polygon.
    found a b: the number of conflicts of a and b. *)
Fixpoint pairs (found : nat -> nat -> nat) (as_ bs : list nat) (c : counters) : list told * counters :=
  match as_ with
  | [] => ([], c)
  | a :: r => let c := fold_left (fun c b => (fst c + found a b, S (snd c))) bs c in
              let (t, c') := pairs found r bs c in (Two (fst c) (snd c) :: t, c')
  end.
(** board.cpp 315-450. *)
Definition edges_in_polygons (p : nat) (found : nat -> nat -> nat) : bar :=
  mkBar (p * p) (fst (pairs found (seq 0 p) (seq 0 p) (0, 0))).

(** board.cpp 460-485: a diagonal edge is passed over at once, any other is compared with the edges
    that follow; one tick per edge.  same i j: the edges are on one line. *)
Fixpoint colinear_from (same : nat -> nat -> bool) (i : nat) (diags : list bool) (c : counters) : list told * counters :=
  match diags with
  | [] => ([], c)
  | d :: r =>
      let c := if d then (fst c, snd c + length r)
               else fold_left (fun c j => (fst c + one (same i j), S (snd c))) (seq (S i) (length r)) c in
      let (t, c') := colinear_from same (S i) r c in (Two (fst c) (snd c) :: t, c')
  end.
(** board.cpp 453-487. *)
Definition colinear_edges (diags : list bool) (same : nat -> nat -> bool) : bar :=
  let e := length diags in mkBar ((e * e - e) / 2) (fst (colinear_from same 0 diags (0, 0))).

(** board.cpp 490-543: the edges, then the angles; one tick for each. *)
Definition individual_edges (edges angles : list bool) : bar :=
  let (t, c) := adjust_edges edges (0, 0) in
  mkBar (length edges + length angles) (t ++ fst (adjust_edges angles c)).

(** board.cpp 576-585: the ranges between the angles; the tick comes before the counter moves. *)
Fixpoint ranges (n : nat) (c : counters) : list told * counters :=
  match n with
  | O => ([], c)
  | S n => let (t, c') := ranges n (fst c, S (snd c)) in (Two (fst c) (snd c) :: t, c')
  end.
(** board.cpp 570-604: both axes of the view; the zones are counted once the ranges are passed. *)
Fixpoint zones_of (angles : nat) (zones : list nat) (c : counters) : list told * counters :=
  match zones with
  | [] => ([], c)
  | z :: r => let (t, c) := ranges (angles - 1) c in
              let c := (fst c + z, snd c) in
              let (t', c') := zones_of angles r c in (t ++ Two (fst c) (snd c) :: t', c')
  end.
(** board.cpp 546-606. *)
Definition diagonal_zones (angles zx zy : nat) : bar :=
  mkBar ((angles - (if 1 <? angles then 1 else 0)) * 2) (fst (zones_of angles [zx; zy] (0, 0))).

(** board.cpp 615-618, meshline_policy_manager.cpp 210-228: tick(++i). *)
Fixpoint ticks_pre (n i : nat) : list told * nat :=
  match n with O => ([], i) | S n => let (t, i') := ticks_pre n (S i) in (One (S i) :: t, i') end.
(** conflict_manager.cpp 244-247, 258-261, 272-275, 285-288: tick(i++). *)
Fixpoint ticks_post (n i : nat) : list told :=
  match n with O => [] | S n => One i :: ticks_post n (S i) end.

(** board.cpp 609-620. *)
Definition fixed_policies (n : nat) : bar := mkBar n (fst (ticks_pre n 0)).
(** conflict_manager.cpp 239-290: the four solvings, of n conflicts. *)
Definition solving (n : nat) : bar := mkBar n (ticks_post n 0).

(** meshline_policy_manager.cpp 112-123: the boolean tells whether a conflict was made of the closest
    policies; the list ends where no policies are too close. *)
Fixpoint closest (l : list bool) (c : counters) : list told * counters :=
  match l with
  | [] => ([], c)
  | b :: r => let c := (fst c + one b, S (snd c)) in
              let (t, c') := closest r c in ((if b then [Two (fst c) (snd c)] else []) ++ t, c')
  end.
(** meshline_policy_manager.cpp 106-127. *)
Definition too_close (n : nat) (l : list bool) : bar :=
  let (t, c) := closest l (0, 0) in mkBar n (t ++ [Two (fst c) n]).

(** meshline_policy_manager.cpp 112-123, with the policies: the loop of ManagerModel.v, as the list of
    its turns; none if it goes on, or is undefined. *)
Fixpoint turns (fuel : nat) (g : IntervalModel.params) (srt : ManagerModel.sorter) (ax : ManagerModel.axis) : option (list bool) :=
  match fuel with
  | O => None
  | S fuel =>
      match ManagerModel.detect_closest srt ax (IntervalModel.g_proximity_limit g) with
      | None => Some []
      | Some (a, b) =>
          match ManagerModel.add_too_close ax a b with
          | ManagerModel.Done None => option_map (cons false) (turns fuel g srt ax)
          | ManagerModel.Done (Some (ax, c)) =>
              match ManagerModel.solve_too_close g ax c with
              | ManagerModel.Done ax => option_map (cons true) (turns fuel g srt ax)
              | _ => None
              end
          | _ => None
          end
      end
  end.

(** meshline_policy_manager.cpp 130-161: i goes from 1. *)
Definition intervals (n : nat) : bar := mkBar n (map One (seq 1 (n - 1))).

(** meshline_policy_manager.cpp 171-186: every interval for each zone; one tick per zone. *)
Fixpoint per_zone (n : nat) (inside : nat -> nat -> bool) (zs : list nat) (c : counters) : list told * counters :=
  match zs with
  | [] => ([], c)
  | z :: r => let c := fold_left (fun c i => (fst c + one (inside z i), S (snd c))) (seq 0 n) c in
              let (t, c') := per_zone n inside r c in (Two (fst c) (snd c) :: t, c')
  end.
(** meshline_policy_manager.cpp 164-188. *)
Definition intervals_per_zone (zones n : nat) (inside : nat -> nat -> bool) : bar :=
  mkBar (zones * n) (fst (per_zone n inside (seq 0 zones) (0, 0))).

(** meshline_policy_manager.cpp 191-242. *)
Definition meshing (intervals policies : nat) : bar :=
  let (t, i) := ticks_pre intervals 0 in
  mkBar (intervals + policies + 1) (t ++ fst (ticks_pre policies i)).

(** A file: the Properties nodes, the properties in them, the Primitives nodes of a property, and
    whether each of their children is read. *)
Definition property : Set := list (list bool).
Definition first {X} (l : list (list X)) : list X := match l with [] => [] | x :: _ => x end.
(** parser_from_csx.cpp 698-725: all the primitives are counted (701-706); those read are of the first
    Properties node (713), and of the first Primitives node of each property (717). *)
Definition parsing (file : list (list property)) : bar :=
  mkBar (length (concat (concat (concat file)))) (fst (adjust_polygons (map first (first file)) (0, 0))).

(** ui/cli/progress.cpp 48-61: the count the terminal shows, beside the maximum. *)
Definition terminal (t : told) : nat := match t with One i => S i | Two _ j => j end.
(** ui/cli/progress.cpp 57: what it says was found. *)
Definition terminal_found (t : told) : option nat := match t with One _ => None | Two f _ => Some f end.
(** ui/qt/progress.cpp 37-44: the value the window is given. *)
Definition window_given (t : told) : nat := match t with One i => S i | Two _ j => S j end.
(** Qt, QProgressBar::setValue: a value out of the range does not affect the bar, unless the range is
    0 to 0; a new bar shows no value. *)
Definition set_value (m : nat) (v : option nat) (x : nat) : option nat :=
  if (x <=? m) || (m =? 0) then Some x else v.
Definition window (b : bar) : option nat := fold_left (fun v t => set_value (max b) v (window_given t)) (ticks b) None.

(** ui/cli/progress.cpp 19-23, on size_t. *)
Definition bar_width (prefix postfix : Z) : Z := ((100 - prefix - postfix - 19) mod 2 ^ 64)%Z.
