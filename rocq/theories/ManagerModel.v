(** Model of src/domain/meshline_policy_manager.cpp, of the part of
    src/domain/conflict_manager.cpp about too close policies, of
    src/domain/conflicts/conflict_too_close_meshline_policies.cpp, and of the
    fixed lines of src/domain/board.cpp, for one axis; also of the edits of policies
    and intervals offered by src/ui/qt/edit.

    Simplifications, for the whole file:
    - those of IntervalModel.v;
    - the three axes never interact here: each function takes an [Axis] and only
      touches the vectors of that axis, so one axis is modelled (the test that two
      policies have the same axis, conflict_manager.cpp 174, always passes);
    - a [MeshlinePolicy*] or [Interval*] is the position of the object in the vector
      of its axis; objects are only ever appended to these vectors;
    - std::ranges::sort is any function that returns a sorted permutation of its
      argument (it is not stable): see [sorter].
    Progress bars are left out. *)
From Coq Require Import List Arith Bool QArith Qabs.
From Verif Require Import IntervalModel.
Import ListNotations.
Open Scope Q_scope.

(** The result of a computation: a value, "still running when the fuel ran out",
    or a pointer to nothing was followed. *)
Inductive run (A : Type) := Done (a : A) | Running | Dangling.
Arguments Done {A} a.
Arguments Running {A}.
Arguments Dangling {A}.

Definition bind {A B : Type} (m : run A) (f : A -> run B) : run B :=
  match m with Done x => f x | Running => Running | Dangling => Dangling end.

Notation "'let!' x := m 'in' f" := (bind m (fun x => f))
  (at level 200, x pattern, m at level 100, f at level 200).

(** [None] of IntervalModel.v: out of fuel. *)
Definition lift {A : Type} (m : option A) : run A :=
  match m with Some x => Done x | None => Running end.

(** Following a pointer to read, and to write. *)
Definition read {A : Type} (l : list A) (i : nat) : run A :=
  match nth_error l i with Some x => Done x | None => Dangling end.

Fixpoint write {A : Type} (l : list A) (i : nat) (x : A) : run (list A) :=
  match l, i with
  | [], _ => Dangling
  | _ :: r, O => Done (x :: r)
  | y :: r, S i => let! r := write r i x in Done (y :: r)
  end.

(** std::ranges::sort with a comparison of a key. *)
Definition sorter : Type := forall A : Type, (A -> Q) -> list A -> list A.

(** conflicts/conflict_too_close_meshline_policies.hpp: the two policies, and the
    policy that solves the conflict (conflict.hpp, [solution]). *)
Record too_close := mk_tc { tc_a : nat; tc_b : nat; tc_solution : option nat }.

(** An interval and its two policies. *)
Record segment := mk_segment { sg_before : nat; sg_after : nat; sg_iv : interval }.

(** meshline_policy_manager.hpp 29-33 and, in conflict_manager.hpp, the vector
    [all_too_close_meshline_policies], for one axis.  A meshline is its coordinate. *)
Record axis := mk_axis
  { ax_policies : list mlp;
    ax_conflicts : list too_close;
    ax_segments : list segment;
    ax_lines : list Q }.

Definition set_policies (ax : axis) (l : list mlp) : axis :=
  mk_axis l (ax_conflicts ax) (ax_segments ax) (ax_lines ax).
Definition set_conflicts (ax : axis) (l : list too_close) : axis :=
  mk_axis (ax_policies ax) l (ax_segments ax) (ax_lines ax).
Definition set_segments (ax : axis) (l : list segment) : axis :=
  mk_axis (ax_policies ax) (ax_conflicts ax) l (ax_lines ax).
Definition set_lines (ax : axis) (l : list Q) : axis :=
  mk_axis (ax_policies ax) (ax_conflicts ax) (ax_segments ax) l.

(** vector_utils.hpp 17-26 (create_view): each object with its address. *)
Definition view {A : Type} (l : list A) : list (nat * A) := combine (seq 0 (length l)) l.

(** mesh/meshline_policy.cpp 18-37. *)
Definition new_policy (g : params) (policy : Policy) (normal : MNormal) (coord : Q) (enabled : bool) : mlp :=
  mk_mlp coord policy normal enabled (g_dmax g / 2).

(** meshline_policy_manager.cpp 59-61. *)
Definition inconsistent (policy : Policy) (normal : MNormal) : bool :=
  match policy, normal with
  | THIRDS, NNONE => true
  | THIRDS, _ => false
  | _, NNONE => false
  | _, _ => true
  end.

(** meshline_policy_manager.cpp 50-71: the axis afterwards, and the address of the
    new policy, [None] being nullptr. *)
Definition add_meshline_policy (g : params) (ax : axis) (policy : Policy) (normal : MNormal)
    (coord : Q) (enabled : bool) : axis * option nat :=
  if inconsistent policy normal then (ax, None)
  else (set_policies ax (ax_policies ax ++ [new_policy g policy normal coord enabled]),
        Some (length (ax_policies ax))).

(** meshline_policy_manager.cpp 78-86, 133-149: the enabled policies in the order of
    their coordinates. *)
Definition dimension (srt : sorter) (ax : axis) : list (nat * mlp) :=
  srt _ (fun x => p_coord (snd x)) (filter (fun x => p_enabled (snd x)) (view (ax_policies ax))).

(** meshline_policy_manager.cpp 88-97.  [None] is the infinite [smallest_space] and
    the uninitialised [closest]. *)
Fixpoint closest_loop (l : list (nat * mlp)) (smallest : option (Q * (nat * nat))) : option (Q * (nat * nat)) :=
  match l with
  | x :: ((y :: _) as r) =>
      let space := coord_distance (p_coord (snd x)) (p_coord (snd y)) in
      let found := Some (space, (fst x, fst y)) in
      closest_loop r
        match smallest with
        | Some (s, _) => if Qltb space s then found else smallest
        | None => found
        end
  | _ => smallest
  end.

(** meshline_policy_manager.cpp 74-103.  The infinite [smallest_space] is never
    below the proximity limit, which is a rational here. *)
Definition detect_closest (srt : sorter) (ax : axis) (proximity_limit : Q) : option (nat * nat) :=
  match closest_loop (dimension srt ax) None with
  | Some (s, closest) => if Qle_bool s proximity_limit then Some closest else None
  | None => None
  end.

Definition disable (p : mlp) : mlp := mk_mlp (p_coord p) (p_policy p) (p_normal p) false (p_d p).

(** conflict_manager.cpp 179-184. *)
Definition in_conflict (ax : axis) (i : nat) : bool :=
  existsb (fun c => (tc_a c =? i)%nat || (tc_b c =? i)%nat) (ax_conflicts ax).

(** conflict_manager.cpp 170-203: the axis afterwards and the address of the new
    conflict, [None] being nullptr. *)
Definition add_too_close (ax : axis) (a b : nat) : run (option (axis * nat)) :=
  if in_conflict ax a || in_conflict ax b then Done None
  else
    let! pa := read (ax_policies ax) a in
    let! pb := read (ax_policies ax) b in
    let! ps := write (ax_policies ax) a (disable pa) in
    let! ps := write ps b (disable pb) in
    Done (Some (set_conflicts (set_policies ax ps) (ax_conflicts ax ++ [mk_tc a b None]),
                length (ax_conflicts ax))).

(** conflicts/conflict_too_close_meshline_policies.cpp 39-66. *)
Definition merged (a b : mlp) : option (Policy * MNormal * Q) :=
  let middle := coord_mid (p_coord a) (p_coord b) in
  match p_policy a, p_policy b with
  | ONELINE, ONELINE => Some (ONELINE, NNONE, middle)
  | ONELINE, _ => Some (ONELINE, NNONE, p_coord a)
  | _, ONELINE => Some (ONELINE, NNONE, p_coord b)
  | THIRDS, THIRDS =>
      match p_normal a, p_normal b with
      | NMIN, NMIN => Some (THIRDS, NMIN, middle)
      | NMAX, NMAX => Some (THIRDS, NMAX, middle)
      | NNONE, NNONE => None
      | _, _ => Some (HALFS, NNONE, middle)
      end
  | HALFS, HALFS => Some (HALFS, NNONE, middle)
  | HALFS, THIRDS => Some (HALFS, NNONE, middle)
  | THIRDS, HALFS => Some (HALFS, NNONE, middle)
  end.

(** conflicts/conflict_too_close_meshline_policies.cpp 33-82; [c] is the address of
    the conflict. *)
Definition solve_too_close (g : params) (ax : axis) (c : nat) : run axis :=
  let! conflict := read (ax_conflicts ax) c in
  let! a := read (ax_policies ax) (tc_a conflict) in
  let! b := read (ax_policies ax) (tc_b conflict) in
  match merged a b with
  | None => Done ax
  | Some (policy, normal, coord) =>
      let (ax, solution) := add_meshline_policy g ax policy normal coord true in
      let! cs := write (ax_conflicts ax) c (mk_tc (tc_a conflict) (tc_b conflict) solution) in
      Done (set_conflicts ax cs)
  end.

(** meshline_policy_manager.cpp 106-127. *)
Fixpoint detect_and_solve_too_close (fuel : nat) (g : params) (srt : sorter) (ax : axis) : run axis :=
  match fuel with
  | O => Running
  | S fuel =>
      match detect_closest srt ax (g_proximity_limit g) with
      | None => Done ax
      | Some (a, b) =>
          let! r := add_too_close ax a b in
          match r with
          | None => detect_and_solve_too_close fuel g srt ax
          | Some (ax, c) =>
              let! ax := solve_too_close g ax c in
              detect_and_solve_too_close fuel g srt ax
          end
      end
  end.

(** mesh/interval.cpp 45-87 through pointers: the constructor of an interval lowers
    the [d] of its policies. *)
Definition new_segment (g : params) (ax : axis) (b a : nat) : run axis :=
  let! pb := read (ax_policies ax) b in
  let! pa := read (ax_policies ax) a in
  let '(pb, pa, iv) := make_interval g pb pa in
  let! ps := write (ax_policies ax) b pb in
  let! ps := write ps a pa in
  Done (set_segments (set_policies ax ps) (ax_segments ax ++ [mk_segment b a iv])).

(** meshline_policy_manager.cpp 151-157. *)
Fixpoint detect_intervals_loop (g : params) (ax : axis) (l : list nat) : run axis :=
  match l with
  | b :: ((a :: _) as r) =>
      let! ax := new_segment g ax b a in
      detect_intervals_loop g ax r
  | _ => Done ax
  end.

(** meshline_policy_manager.cpp 130-161. *)
Definition detect_intervals (g : params) (srt : sorter) (ax : axis) : run axis :=
  detect_intervals_loop g ax (map fst (dimension srt ax)).

(** A diagonal or circular zone: its bounding on this axis
    (conflicts/conflict_diagonal_or_circular_zone.cpp 40-51) and its [dmax]. *)
Record zone := mk_zone { z_min : Q; z_max : Q; z_dmax : Q }.

(** geometrics/bounding.cpp 18-20. *)
Definition in_zone (z : zone) (x : Q) : bool := Qle_bool (z_min z) x && Qle_bool x (z_max z).

Definition set_dmax (iv : interval) (x : Q) : interval :=
  mk_interval (iv_h iv) (iv_m iv) x (iv_before iv) (iv_after iv).

(** meshline_policy_manager.cpp 171-186 and
    conflicts/conflict_diagonal_or_circular_zone.cpp 84-95, for one zone.  The two
    steps are done at once here: in the code all the zones first collect their
    intervals, but that only reads the constant [m]. *)
Definition apply_zone (z : zone) (s : segment) : segment :=
  if in_zone z (iv_m (sg_iv s)) then mk_segment (sg_before s) (sg_after s) (set_dmax (sg_iv s) (z_dmax z)) else s.

(** meshline_policy_manager.cpp 164-188 and conflict_manager.cpp 253-264. *)
Definition apply_zones (zs : list zone) (ax : axis) : axis :=
  set_segments ax (fold_left (fun l z => map (apply_zone z) l) zs (ax_segments ax)).

(** mesh/interval.cpp 363-383 through pointers. *)
Definition auto_solve_d_at (fuel : nat) (ax : axis) (i : nat) : run axis :=
  let! s := read (ax_segments ax) i in
  let! b := read (ax_policies ax) (sg_before s) in
  let! a := read (ax_policies ax) (sg_after s) in
  let! (b, a, iv) := lift (auto_solve_d fuel b a (sg_iv s)) in
  let! ps := write (ax_policies ax) (sg_before s) b in
  let! ps := write ps (sg_after s) a in
  let! ss := write (ax_segments ax) i (mk_segment (sg_before s) (sg_after s) iv) in
  Done (set_segments (set_policies ax ps) ss).

(** mesh/interval.cpp 386-396 through pointers. *)
Definition auto_solve_smoothness_at (fuel : nat) (ax : axis) (i : nat) : run axis :=
  let! s := read (ax_segments ax) i in
  let! b := read (ax_policies ax) (sg_before s) in
  let! a := read (ax_policies ax) (sg_after s) in
  let! iv := lift (auto_solve_smoothness fuel b a (sg_iv s)) in
  let! ss := write (ax_segments ax) i (mk_segment (sg_before s) (sg_after s) iv) in
  Done (set_segments ax ss).

(** mesh/interval.cpp 399-434 through pointers. *)
Definition mesh_segment (ax : axis) (i : nat) : run (list Q) :=
  let! s := read (ax_segments ax) i in
  let! b := read (ax_policies ax) (sg_before s) in
  let! a := read (ax_policies ax) (sg_after s) in
  Done (mesh_interval b a (sg_iv s)).

(** meshline_policy_manager.cpp 205-206. *)
Fixpoint first_pass (fuel : nat) (ax : axis) (order : list nat) : run axis :=
  match order with
  | [] => Done ax
  | i :: r => let! ax := auto_solve_d_at fuel ax i in first_pass fuel ax r
  end.

(** meshline_policy_manager.cpp 211-218: the axis, and the lines of each interval in
    the order of the visits. *)
Fixpoint second_pass (fuel : nat) (ax : axis) (order : list nat) : run (axis * list (list Q)) :=
  match order with
  | [] => Done (ax, [])
  | i :: r =>
      let! ax := auto_solve_d_at fuel ax i in
      let! ax := auto_solve_smoothness_at fuel ax i in
      let! lines := mesh_segment ax i in
      let! (ax, rest) := second_pass fuel ax r in
      Done (ax, lines :: rest)
  end.

(** mesh/meshline_policy.cpp 40-46. *)
Definition mesh_policy (p : mlp) : list Q :=
  if p_enabled p && is_oneline (p_policy p) then [p_coord p] else [].

(** meshline_policy_manager.cpp 200-203. *)
Definition visiting_order (srt : sorter) (ax : axis) : list nat :=
  map fst (srt _ (fun x => iv_h (sg_iv (snd x))) (view (ax_segments ax))).

(** meshline_policy_manager.cpp 191-242. *)
Definition mesh_axis (fuel : nat) (srt : sorter) (ax : axis) : run axis :=
  let order := visiting_order srt ax in
  let! ax := first_pass fuel ax order in
  let! (ax, lines) := second_pass fuel ax order in
  let all := ax_lines ax ++ concat lines ++ flat_map mesh_policy (ax_policies ax) in
  Done (set_lines ax (srt _ (fun x => x) all)).

(** meshline_policy_manager.cpp 250-256. *)
Definition policies_lines (ax : axis) : list Q :=
  map p_coord (filter p_enabled (ax_policies ax)).

(** meshline_policy_manager.cpp 269-274. *)
Definition mesh_cell_number (x y z : axis) : nat :=
  (length (ax_lines x) * length (ax_lines y) * length (ax_lines z))%nat.

(** geometrics/coord.cpp 28-30. *)
Definition coord_eqb (a b : Q) : bool := Qltb (Qabs (a - b)) equality_tolerance.

(** board.cpp 83-97.  The call passes the timepoint as [is_enabled]: the policy is
    enabled. *)
Definition add_fixed_policy (g : params) (ax : axis) (coord : Q) : axis :=
  if existsb (fun p =>
       is_oneline (p_policy p)
       && match p_normal p with NNONE => true | _ => false end
       && coord_eqb (p_coord p) coord) (ax_policies ax)
  then ax
  else fst (add_meshline_policy g ax ONELINE NNONE coord true).

(** board.cpp 609-620, for the requests of 81-99 in their order. *)
Definition add_fixed_policies (g : params) (ax : axis) (coords : list Q) : axis :=
  fold_left (add_fixed_policy g) coords ax.

(** ui/qt/edit/edit_model_meshline_policy.cpp 49-87: the values of the dialog are
    stored as they are if the policy goes with the normal and the text of [d] is a
    number.  [policy], [normal], [enabled], [d] are the values read from the dialog,
    parsing the text is left out, and so is the new run it starts (see AppModel.v). *)
Definition edit_policy (ax : axis) (i : nat) (policy : Policy) (normal : MNormal) (enabled : bool) (d : Q) : run axis :=
  if inconsistent policy normal then Done ax
  else
    let! p := read (ax_policies ax) i in
    let! ps := write (ax_policies ax) i (mk_mlp (p_coord p) policy normal enabled d) in
    Done (set_policies ax ps).

(** ui/qt/edit/edit_model_interval.cpp 42-58, in the same way. *)
Definition edit_interval (ax : axis) (i : nat) (dmax : Q) (lmin_b : nat) (smoothness_b : Q)
    (lmin_a : nat) (smoothness_a : Q) : run axis :=
  let! s := read (ax_segments ax) i in
  let iv := sg_iv s in
  let iv := mk_interval (iv_h iv) (iv_m iv) dmax
              (mk_side lmin_b smoothness_b (sd_ls (iv_before iv)))
              (mk_side lmin_a smoothness_a (sd_ls (iv_after iv))) in
  let! ss := write (ax_segments ax) i (mk_segment (sg_before s) (sg_after s) iv) in
  Done (set_segments ax ss).
