(** Model of src/domain/board.cpp, of src/domain/conflict_manager.cpp (but for too
    close policies, which are in ManagerModel.v), of
    src/domain/conflicts/conflict_colinear_edges.cpp, conflict_edge_in_polygon.cpp and
    conflict_diagonal_or_circular_zone.cpp, of src/domain/material.cpp and of
    src/utils/vector_utils.hpp.

    Simplifications, for the whole file:
    - those of GeomModel.v and ManagerModel.v;
    - an [Edge*], [Polygon*], [Angle*] is the position of the object in the list of
      all objects of that kind; [edges[plane]], [polygons[plane]], [angles[plane]] are
      the positions of the objects of that plane, in order;
    - a [Conflict*] is the kind of the conflict, its axis or plane, and its position in
      the vector of the conflict manager;
    - a [Material] is its type; names and colours only matter to the user interface;
    - [angle] (edge.cpp 71-86, trigonometry) is a parameter [angle_of];
    - std::ranges::sort is a parameter [srt], see [sort_by];
    - the states kept for undo are left out (HistModel.v): each object has its current
      state only.
    Progress bars and counters of findings are left out. *)
From Coq Require Import List Arith Bool QArith Qabs.
From Verif Require Import IntervalModel ManagerModel GeomModel.
Import ListNotations.
Open Scope Q_scope.

(** std::ranges::sort with a comparison function.  What it returns is only known if
    the comparison is a strict weak order on the elements (BoardSpec.v). *)
Definition sort_by : Type := forall A : Type, (A -> A -> bool) -> list A -> list A.

(** material.hpp 24-31. *)
Inductive Mat := PORT | CONDUCTOR | DIELECTRIC | AIR.

(** material.cpp 39-75. *)
Definition mat_compare (a b : Mat) : comparison :=
  match a, b with
  | PORT, PORT => Eq | PORT, _ => Gt
  | CONDUCTOR, PORT => Lt | CONDUCTOR, CONDUCTOR => Eq | CONDUCTOR, DIELECTRIC => Gt | CONDUCTOR, AIR => Gt
  | DIELECTRIC, PORT => Lt | DIELECTRIC, CONDUCTOR => Lt | DIELECTRIC, DIELECTRIC => Eq | DIELECTRIC, AIR => Gt
  | AIR, AIR => Eq | AIR, _ => Lt
  end.
Definition mat_ltb (a b : Mat) : bool := match mat_compare a b with Lt => true | _ => false end.
Definition mat_gtb (a b : Mat) : bool := match mat_compare a b with Gt => true | _ => false end.

(** material.cpp 17-22, with the defaults of material.hpp 49-51; doubles are compared
    exactly. *)
Definition deduce_type (epsilon mue kappa : Q) : Mat :=
  if Qeq_bool epsilon 1 && Qeq_bool mue 1 && Qeq_bool kappa 0 then AIR
  else if Qltb 1 epsilon && Qle_bool 1 mue && Qeq_bool kappa 0 then DIELECTRIC
  else if Qeq_bool epsilon 1 && Qeq_bool mue 1 && Qltb 0 kappa then CONDUCTOR
  else DIELECTRIC.

(** vector_utils.hpp 55-75.  The result is kept in reverse order, and so is its last
    element; [does_prev_matched] is [prev]. *)
Fixpoint matches_loop {A : Type} (f : A -> bool) (l : list A) (prev : bool) (result : list (list A)) : list (list A) :=
  match l with
  | [] => result
  | x :: r =>
      if f x then
        matches_loop f r true
          match prev, result with
          | true, last :: before => (x :: last) :: before
          | _, _ => [x] :: result
          end
      else matches_loop f r false result
  end.
Definition find_consecutive_matches {A : Type} (f : A -> bool) (l : list A) : list (list A) :=
  rev (map (@rev A) (matches_loop f l false [])).

(** A [Conflict*]. *)
Inductive cref := InCE (a : Axis3) (i : nat) | InEIP (p : Plane) (i : nat).

(** geometrics/edge.hpp: the constant members, then those of [EdgeState]; the last two
    are [conflict] (i_conflict_solution.hpp) and [meshline_policy]
    (i_meshline_origin.hpp). *)
Record edge := mk_edge
  { e_plane : Plane; e_seg : seg; e_normal : Normal;
    e_to_mesh : bool; e_to_reverse : bool; e_conflicts : list cref;
    e_solves : option cref; e_policy : option nat }.

(** geometrics/polygon.hpp; the last member is that of [PolygonState]. *)
Record polygon := mk_polygon
  { g_plane : Plane; g_material : option Mat; g_priority : nat; g_z : box1;
    g_points : list point; g_bounding : box; g_edges : list nat; g_conflicts : list cref }.

(** geometrics/angle.hpp.  [conflicts] is never written, hence empty. *)
Record angle := mk_angle
  { a_plane : Plane; a_point : point; a_e0 : nat; a_e1 : nat; a_value : Q;
    a_h : bool; a_v : bool; a_policy : option nat }.
Definition a_to_mesh (a : angle) (v : ViewAxis) : bool := match v with VH => a_h a | VV => a_v a end.

(** conflicts/conflict_colinear_edges.hpp; [solution] is the policy as well. *)
Record colinear := mk_colinear { ce_edges : list nat; ce_policy : option nat; ce_solved : bool }.

(** conflicts/conflict_edge_in_polygon.hpp: an overlap is the tuple of the polygon, the
    range and, if any, the other edge. *)
Definition Overlap : Type := (nat * seg * option nat)%type.
Definition ov_polygon (o : Overlap) : nat := fst (fst o).
Definition ov_range (o : Overlap) : seg := snd (fst o).
Definition ov_edge (o : Overlap) : option nat := snd o.
Record in_polygon := mk_in_polygon { ei_edge : nat; ei_overlaps : list Overlap; ei_solved : bool }.

(** conflicts/conflict_diagonal_or_circular_zone.hpp; [intervals] are in the zones of
    ManagerModel.v. *)
Record diag_zone := mk_diag_zone { dz_dmax : Q; dz_lmin : nat; dz_minimal : Q; dz_angles : list nat }.

(** An [AxisSpace] or a [PlaneSpace]: one value for each axis, or plane (space.hpp 16
    and 19). *)
Record space (A : Type) := mk_space { sp_0 : A; sp_1 : A; sp_2 : A }.
Arguments mk_space {A} sp_0 sp_1 sp_2.
Arguments sp_0 {A} s.
Arguments sp_1 {A} s.
Arguments sp_2 {A} s.
Definition on_axis {A : Type} (s : space A) (a : Axis3) : A :=
  match a with AX => sp_0 s | AY => sp_1 s | AZ => sp_2 s end.
Definition set_axis {A : Type} (s : space A) (a : Axis3) (x : A) : space A :=
  match a with
  | AX => mk_space x (sp_1 s) (sp_2 s) | AY => mk_space (sp_0 s) x (sp_2 s) | AZ => mk_space (sp_0 s) (sp_1 s) x
  end.
Definition on_plane {A : Type} (s : space A) (p : Plane) : A :=
  match p with PYZ => sp_0 s | PZX => sp_1 s | PXY => sp_2 s end.
Definition set_plane {A : Type} (s : space A) (p : Plane) (x : A) : space A :=
  match p with
  | PYZ => mk_space x (sp_1 s) (sp_2 s) | PZX => mk_space (sp_0 s) x (sp_2 s) | PXY => mk_space (sp_0 s) (sp_1 s) x
  end.

(** Comparisons of enumerators. *)
Definition plane_eqb (a b : Plane) : bool :=
  match a, b with PYZ, PYZ | PZX, PZX | PXY, PXY => true | _, _ => false end.
Definition normal_eqb (a b : Normal) : bool :=
  match a, b with
  | Nxmin, Nxmin | Nxmax, Nxmax | Nymin, Nymin | Nymax, Nymax | Nzmin, Nzmin | Nzmax, Nzmax | Nnone, Nnone => true
  | _, _ => false
  end.

(** board.hpp: [BoardState], the background material, and the states of the conflict
    and meshline managers. *)
Record board := mk_board
  { b_polygons : list polygon;
    b_edges : list edge;
    b_angles : list angle;
    b_background : option Mat;
    b_ce : space (list colinear);
    b_eip : space (list in_polygon);
    b_zones : space (list diag_zone);
    b_axes : space axis }.

Definition set_polygons (b : board) (l : list polygon) : board :=
  mk_board l (b_edges b) (b_angles b) (b_background b) (b_ce b) (b_eip b) (b_zones b) (b_axes b).
Definition set_edges (b : board) (l : list edge) : board :=
  mk_board (b_polygons b) l (b_angles b) (b_background b) (b_ce b) (b_eip b) (b_zones b) (b_axes b).
Definition set_angles (b : board) (l : list angle) : board :=
  mk_board (b_polygons b) (b_edges b) l (b_background b) (b_ce b) (b_eip b) (b_zones b) (b_axes b).
Definition set_ce (b : board) (s : space (list colinear)) : board :=
  mk_board (b_polygons b) (b_edges b) (b_angles b) (b_background b) s (b_eip b) (b_zones b) (b_axes b).
Definition set_eip (b : board) (s : space (list in_polygon)) : board :=
  mk_board (b_polygons b) (b_edges b) (b_angles b) (b_background b) (b_ce b) s (b_zones b) (b_axes b).
Definition set_zones (b : board) (s : space (list diag_zone)) : board :=
  mk_board (b_polygons b) (b_edges b) (b_angles b) (b_background b) (b_ce b) (b_eip b) s (b_axes b).
Definition set_axes (b : board) (s : space axis) : board :=
  mk_board (b_polygons b) (b_edges b) (b_angles b) (b_background b) (b_ce b) (b_eip b) (b_zones b) s.

(** The positions of the objects of a list that satisfy a test. *)
Definition positions {A : Type} (f : A -> bool) (l : list A) : list nat :=
  map fst (filter (fun x => f (snd x)) (view l)).
(** [polygons[plane]], [edges[plane]], [angles[plane]]. *)
Definition polygons_of (b : board) (p : Plane) : list nat := positions (fun g => plane_eqb (g_plane g) p) (b_polygons b).
Definition edges_of (b : board) (p : Plane) : list nat := positions (fun e => plane_eqb (e_plane e) p) (b_edges b).
Definition angles_of (b : board) (p : Plane) : list nat := positions (fun a => plane_eqb (a_plane a) p) (b_angles b).

(** A loop over the elements of a vector that changes the board. *)
Fixpoint for_each {A B : Type} (f : B -> A -> run B) (l : list A) (b : B) : run B :=
  match l with
  | [] => Done b
  | x :: r => let! b := f b x in for_each f r b
  end.

(** A loop that collects one value per element. *)
Fixpoint collect {A B : Type} (f : A -> run B) (l : list A) : run (list B) :=
  match l with
  | [] => Done []
  | x :: r => let! y := f x in let! t := collect f r in Done (y :: t)
  end.

(** Changing an edge. *)
Definition update_edge (b : board) (i : nat) (f : edge -> edge) : run board :=
  let! e := read (b_edges b) i in
  let! l := write (b_edges b) i (f e) in
  Done (set_edges b l).
Definition push_conflict (c : cref) (e : edge) : edge :=
  mk_edge (e_plane e) (e_seg e) (e_normal e) (e_to_mesh e) (e_to_reverse e) (e_conflicts e ++ [c]) (e_solves e) (e_policy e).
Definition push_conflict_g (c : cref) (g : polygon) : polygon :=
  mk_polygon (g_plane g) (g_material g) (g_priority g) (g_z g) (g_points g) (g_bounding g) (g_edges g) (g_conflicts g ++ [c]).
Definition update_polygon (b : board) (i : nat) (f : polygon -> polygon) : run board :=
  let! g := read (b_polygons b) i in
  let! l := write (b_polygons b) i (f g) in
  Done (set_polygons b l).

(** ** Building: board.cpp 102-120, 123-133; polygon.cpp 27-42 *)

Definition new_edge (p : Plane) (x : seg * Normal) : edge :=
  mk_edge p (fst x) (snd x) true false [] None None.
Definition add_polygon (p : Plane) (m : option Mat) (priority : nat) (z : box1) (points : list point) (b : board) : run board :=
  let! bounding := detect_bounding points in
  let! es := polygon_edges points in
  let new := map (new_edge p) es in
  Done (set_edges (set_polygons b (b_polygons b ++
          [mk_polygon p m priority z points bounding (seq (length (b_edges b)) (length new)) []]))
        (b_edges b ++ new)).
Definition empty_board (background : option Mat) : board :=
  mk_board [] [] [] background (mk_space [] [] []) (mk_space [] [] []) (mk_space [] [] [])
    (mk_space (mk_axis [] [] [] []) (mk_axis [] [] [] []) (mk_axis [] [] [] [])).

(** ** Materials: board.cpp 177-209 and 212-250 *)

(** board.cpp 196-202. *)
Definition ambient_ltb (a b : Mat * nat) : bool :=
  if negb (snd a =? snd b)%nat then (snd a <? snd b)%nat else mat_ltb (fst a) (fst b).

(** board.cpp 186-194; [current] is the position of [current_polygon], if any. *)
Fixpoint ambient_candidates (current : option (nat * polygon)) (bounding : box) (l : list (nat * polygon)) : list (Mat * nat) :=
  match l with
  | [] => []
  | (i, g) :: r =>
      let rest := ambient_candidates current bounding r in
      match g_material g with
      | None => rest
      | Some m =>
          if match current with
             | None => true
             | Some (j, c) => negb (i =? j)%nat && overlap_z (g_z g) (g_z c)
             end && overlap2 (g_bounding g) bounding
          then (m, g_priority g) :: rest else rest
      end
  end.

(** board.cpp 183-209. *)
Definition find_ambient (srt : sort_by) (b : board) (p : Plane) (s : seg) (current : option (nat * polygon)) : option Mat * nat :=
  let candidates := ambient_candidates current (seg_bounding s)
                      (filter (fun x => plane_eqb (g_plane (snd x)) p) (view (b_polygons b))) in
  match srt _ ambient_ltb candidates with
  | [] => (b_background b, 0%nat)
  | x :: r => let '(m, n) := last (x :: r) x in (Some m, n)
  end.

(** board.cpp 221-236; [unreachable] for the normals along z. *)
Definition outer_material (srt : sort_by) (b : board) (p : Plane) (g : nat * polygon) (e : edge) : run (option Mat * nat) :=
  let tx := mk_pt (2 * equality_tolerance) 0 in
  let ty := mk_pt 0 (2 * equality_tolerance) in
  let find f v := find_ambient srt b p (mk_seg (f (s0 (e_seg e)) v) (f (s1 (e_seg e)) v)) (Some g) in
  match e_normal e with
  | Nnone => Done (None, 0%nat)
  | Nxmin => Done (find pt_sub tx)
  | Nxmax => Done (find pt_add tx)
  | Nymin => Done (find pt_sub ty)
  | Nymax => Done (find pt_add ty)
  | Nzmin | Nzmax => Dangling
  end.

Definition set_to_reverse (e : edge) : edge :=
  mk_edge (e_plane e) (e_seg e) (e_normal e) (e_to_mesh e) true (e_conflicts e) (e_solves e) (e_policy e).

(** board.cpp 218-245, for one edge [i] of the polygon [g]. *)
Definition adjust_edge (srt : sort_by) (p : Plane) (g : nat * polygon) (b : board) (i : nat) : run board :=
  let! e := read (b_edges b) i in
  let! outer := outer_material srt b p g e in
  match fst outer with
  | None => Done b
  | Some o =>
      match g_material (snd g) with
      | None => Dangling
      | Some m => if mat_gtb o m then update_edge b i set_to_reverse else Done b
      end
  end.

(** board.cpp 212-250. *)
Definition adjust_edges_to_materials (srt : sort_by) (b : board) (p : Plane) : run board :=
  for_each (fun b j => let! g := read (b_polygons b) j in for_each (adjust_edge srt p (j, g)) (g_edges g) b)
           (polygons_of b p) b.

(** ** Colinear edges: conflict_manager.cpp 35-96, board.cpp 453-487 *)

Definition memb (i : nat) (l : list nat) : bool := existsb (Nat.eqb i) l.

(** conflict_manager.cpp 42-78: the first conflict that has one of the edges, with its
    position. *)
Fixpoint find_colinear (a b : nat) (l : list colinear) (pos : nat) : option (nat * colinear) :=
  match l with
  | [] => None
  | c :: r => if memb a (ce_edges c) || memb b (ce_edges c) then Some (pos, c) else find_colinear a b r (S pos)
  end.

(** conflict_colinear_edges.cpp 26-30. *)
Definition ce_append (c : colinear) (i : nat) : colinear := mk_colinear (ce_edges c ++ [i]) (ce_policy c) (ce_solved c).

(** conflict_manager.cpp 35-96. *)
Definition add_colinear_edges (b : board) (i j : nat) : run board :=
  let! ei := read (b_edges b) i in
  let! ej := read (b_edges b) j in
  if plane_eqb (e_plane ei) (e_plane ej) && segaxis_eqb (seg_axis (e_seg ei)) (seg_axis (e_seg ej)) then
    match axis_of_seg (e_plane ei) (seg_axis (e_seg ei)) with
    | None => Done b
    | Some ax =>
        let all := on_axis (b_ce b) ax in
        match find_colinear i j all 0 with
        | Some (n, c) =>
            if memb i (ce_edges c) then
              if memb j (ce_edges c) then Done b
              else
                let! all := write all n (ce_append c j) in
                update_edge (set_ce b (set_axis (b_ce b) ax all)) j (push_conflict (InCE ax n))
            else
              let! all := write all n (ce_append c i) in
              update_edge (set_ce b (set_axis (b_ce b) ax all)) i (push_conflict (InCE ax n))
        | None =>
            let b := set_ce b (set_axis (b_ce b) ax (all ++ [mk_colinear [i; j] None false])) in
            let! b := update_edge b i (push_conflict (InCE ax (length all))) in
            update_edge b j (push_conflict (InCE ax (length all)))
        end
    end
  else Done b.

(** board.cpp 468-482: edge [i] with a later edge [j]. *)
Definition detect_colinear_pair (p : Plane) (i : nat) (b : board) (j : nat) : run board :=
  let! ei := read (b_edges b) i in
  let! ej := read (b_edges b) j in
  if segaxis_eqb (seg_axis (e_seg ej)) (seg_axis (e_seg ei)) then
    match axis_of_seg p (seg_axis (e_seg ei)) with
    | None => Done b
    | Some _ =>
        if segaxis_eqb (seg_axis (e_seg ei)) SH && coord_eqb (py (s0 (e_seg ei))) (py (s0 (e_seg ej)))
        then add_colinear_edges b i j
        else if segaxis_eqb (seg_axis (e_seg ei)) SV && coord_eqb (px (s0 (e_seg ei))) (px (s0 (e_seg ej)))
        then add_colinear_edges b i j
        else Done b
    end
  else Done b.

(** board.cpp 460-485. *)
Fixpoint detect_colinear_loop (p : Plane) (l : list nat) (b : board) : run board :=
  match l with
  | [] => Done b
  | i :: r =>
      let! e := read (b_edges b) i in
      let! b := if segaxis_eqb (seg_axis (e_seg e)) SDIAG then Done b
                else for_each (detect_colinear_pair p i) r b in
      detect_colinear_loop p r b
  end.
Definition detect_colinear_edges (b : board) (p : Plane) : run board := detect_colinear_loop p (edges_of b p) b.

(** conflict_colinear_edges.cpp 44-46. *)
Definition effective_normal (e : edge) : Normal := if e_to_reverse e then reverse_normal (e_normal e) else e_normal e.

(** conflict_colinear_edges.cpp 34-68: the two counters and the flag. *)
Fixpoint count_normals (l : list edge) (nmin nmax : nat) : nat * nat * bool :=
  match l with
  | [] => (nmin, nmax, false)
  | e :: r =>
      if e_to_mesh e then
        match effective_normal e with
        | Nxmin | Nymin | Nzmin => count_normals r (S nmin) nmax
        | Nxmax | Nymax | Nzmax => count_normals r nmin (S nmax)
        | Nnone => (nmin, nmax, true)
        end
      else count_normals r nmin nmax
  end.

(** conflict_colinear_edges.cpp 89-105: the policy to add, if any. *)
Definition colinear_policy (l : list edge) : option (Policy * MNormal) :=
  let '(nmin, nmax, oneline) := count_normals l 0 0 in
  if oneline then Some (ONELINE, NNONE)
  else match nmin, nmax with
       | S _, S _ => Some (HALFS, NNONE)
       | S _, O => Some (THIRDS, NMIN)
       | O, S _ => Some (THIRDS, NMAX)
       | O, O => None
       end.

(** conflict_colinear_edges.cpp 33-106, of the conflict [n] of the axis [ax]; the vector
    of edges is not empty ([front]), and [domain::coord] has a value if the edge is
    neither DIAGONAL nor a POINT. *)
Definition solve_colinear (g : params) (ax : Axis3) (b : board) (n : nat) : run board :=
  let! c := read (on_axis (b_ce b) ax) n in
  let! es := collect (read (b_edges b)) (ce_edges c) in
  match es with
  | [] => Dangling
  | e :: _ =>
      match seg_coord (s0 (e_seg e)) (seg_axis (e_seg e)), colinear_policy es with
      | Some x, Some (policy, normal) =>
          let '(axis', address) := add_meshline_policy g (on_axis (b_axes b) ax) policy normal x true in
          let! all := write (on_axis (b_ce b) ax) n (mk_colinear (ce_edges c) address true) in
          Done (set_ce (set_axes b (set_axis (b_axes b) ax axis')) (set_axis (b_ce b) ax all))
      | _, _ => Done b
      end
  end.
(** conflict_manager.cpp 279-290. *)
Definition auto_solve_all_colinear_edges (g : params) (b : board) (ax : Axis3) : run board :=
  for_each (solve_colinear g ax) (seq 0 (length (on_axis (b_ce b) ax))) b.

(** ** Edges in polygons: conflict_manager.cpp 100-167, board.cpp 315-450 *)

(** optional<Edge const*> against a value (conflict_manager.cpp 128): an overlap without
    an edge matches anything. *)
Definition same_overlap_edge (o b : option nat) : bool :=
  match o with
  | None => true
  | Some x => match b with Some y => (x =? y)%nat | None => false end
  end.

(** conflict_manager.cpp 114-135: the conflict of the edge, if any. *)
Fixpoint find_in_polygon (a : nat) (l : list in_polygon) (pos : nat) : option (nat * in_polygon) :=
  match l with
  | [] => None
  | c :: r => if (ei_edge c =? a)%nat then Some (pos, c) else find_in_polygon a r (S pos)
  end.

Definition ei_append (c : in_polygon) (o : Overlap) : in_polygon :=
  mk_in_polygon (ei_edge c) (ei_overlaps c ++ [o]) (ei_solved c).

(** conflict_manager.cpp 107-167. *)
Definition add_edge_in_polygon (b : board) (a g : nat) (range : seg) (other : option nat) : run board :=
  let! ea := read (b_edges b) a in
  let! poly := read (b_polygons b) g in
  let! wrong := if plane_eqb (e_plane ea) (g_plane poly) then Done false
                else match other with
                     | None => Done true
                     | Some j => let! ej := read (b_edges b) j in Done (negb (plane_eqb (e_plane ej) (e_plane ea)))
                     end in
  if wrong then Done b
  else
    let p := e_plane ea in
    let all := on_plane (b_eip b) p in
    match find_in_polygon a all 0 with
    | Some (n, c) =>
        let same g' o := (ov_polygon o =? g')%nat in
        if existsb (fun o => same g o && seg_eqb (ov_range o) range && same_overlap_edge (ov_edge o) other) (ei_overlaps c)
        then Done b
        else
          let! all := write all n (ei_append c (g, range, other)) in
          let b := set_eip b (set_plane (b_eip b) p all) in
          if existsb (same g) (ei_overlaps c) then Done b
          else update_polygon b g (push_conflict_g (InEIP p n))
    | None =>
        let b := set_eip b (set_plane (b_eip b) p (all ++ [mk_in_polygon a [(g, range, other)] false])) in
        let! b := update_edge b a (push_conflict (InEIP p (length all))) in
        update_polygon b g (push_conflict_g (InEIP p (length all)))
    end.

(** signum.hpp 13-15, exact. *)
Definition signum (x : Q) : comparison := if Qltb 0 x then Gt else if Qltb x 0 then Lt else Eq.

(** board.cpp 27-62 and conflict_edge_in_polygon.cpp 23-62: the comparison for the
    direction of the vector; none for the null vector. *)
Definition before (v : point) : option (point -> point -> bool) :=
  match signum (px v), signum (py v) with
  | Gt, Eq => Some (fun a b => Qltb (px a) (px b))
  | Eq, Gt => Some (fun a b => Qltb (py a) (py b))
  | Lt, Eq => Some (fun a b => Qltb (px b) (px a))
  | Eq, Lt => Some (fun a b => Qltb (py b) (py a))
  | Gt, Gt => Some (fun a b => Qltb (px a) (px b) && Qltb (py a) (py b))
  | Lt, Gt => Some (fun a b => Qltb (px b) (px a) && Qltb (py a) (py b))
  | Lt, Lt => Some (fun a b => Qltb (px b) (px a) && Qltb (py b) (py a))
  | Gt, Lt => Some (fun a b => Qltb (px a) (px b) && Qltb (py b) (py a))
  | Eq, Eq => None
  end.
Definition sort_points (srt : sort_by) (v : point) (l : list point) : list point :=
  match before v with Some less => srt _ less l | None => l end.

(** std::unique: each element against the last one kept. *)
Fixpoint unique_from (kept : point) (l : list point) : list point :=
  match l with
  | [] => []
  | p :: r => if pt_eqb kept p then unique_from kept r else p :: unique_from p r
  end.
Definition unique (l : list point) : list point :=
  match l with [] => [] | p :: r => p :: unique_from p r end.

(** board.cpp 335-349: the range, [rel_to_poly_b] and [mid]. *)
Definition between : Type := (seg * option PolyPoint * option point)%type.
Definition with_rel (r : seg) (x : PolyPoint) : between := (r, Some x, None).
Definition with_mid (r : seg) : between := (r, None, Some (seg_mid r)).

(** board.cpp 354-377, for the edge [j]: the intersections and the ranges found so far
    grow at their ends. *)
Definition meet_edge (i g : nat) (acc : board * list point * list between) (j : nat)
  : run (board * list point * list between) :=
  let '(b, inter, ranges) := acc in
  let! ea := read (b_edges b) i in
  let! eb := read (b_edges b) j in
  match relation_seg (e_seg ea) (e_seg eb) with
  | CROSSING =>
      match intersection (e_seg ea) (e_seg eb) with
      | Some p => Done (b, inter ++ [p], ranges)
      | None => Done acc
      end
  | OVERLAPPING =>
      match overlap (e_seg ea) (e_seg eb) with
      | None => Done acc
      | Some r =>
          match seg_axis r with
          | SPOINT => Done (b, inter ++ [s0 r; s1 r], ranges)
          | _ =>
              let! b := add_edge_in_polygon b i g r (Some j) in
              Done (b, inter ++ [s0 r; s1 r], ranges ++ [with_rel r PP_ON])
          end
      end
  | _ => Done acc
  end.

Definition pp_eqb (a b : PolyPoint) : bool :=
  match a, b with PP_IN, PP_IN | PP_ON, PP_ON | PP_OUT, PP_OUT => true | _, _ => false end.

(** board.cpp 404-419: the pieces between consecutive points, but for those that are in
    [known] already. *)
Fixpoint pieces (known : list between) (l : list point) : list between :=
  match l with
  | p :: ((q :: _) as r) =>
      let current := mk_seg p q in
      if existsb (fun k => seg_eqb (fst (fst k)) current) known then pieces known r
      else with_mid current :: pieces known r
  | _ => []
  end.

(** board.cpp 421-432, for one range. *)
Definition register_range (fuel : nat) (i g : nat) (b : board) (r : between) : run board :=
  let! poly := read (b_polygons b) g in
  let '(range, rel, mid) := r in
  let! at_mid := match mid with
                 | None => Done false
                 | Some m => let! x := relation_polygon fuel (g_points poly) m in Done (pp_eqb x PP_IN)
                 end in
  if at_mid || match rel with Some PP_IN => true | _ => false end
  then add_edge_in_polygon b i g range None
  else Done b.

(** board.cpp 332-445, for the edge [i] and the polygon [g]. *)
Definition edge_in_polygon (fuel : nat) (srt : sort_by) (g : nat) (b : board) (i : nat) : run board :=
  let! poly := read (b_polygons b) g in
  let! ea := read (b_edges b) i in
  let! (b, inter, ranges) := for_each (meet_edge i g) (g_edges poly) (b, [], []) in
  let! rel0 := relation_polygon fuel (g_points poly) (s0 (e_seg ea)) in
  let! rel1 := relation_polygon fuel (g_points poly) (s1 (e_seg ea)) in
  match inter with
  | [] =>
      if pp_eqb rel0 PP_IN && pp_eqb rel1 PP_IN
      then add_edge_in_polygon b i g (mk_seg (s0 (e_seg ea)) (s1 (e_seg ea))) None
      else Done b
  | _ :: _ =>
      let l := unique (sort_points srt (seg_vec (e_seg ea)) (inter ++ [s0 (e_seg ea); s1 (e_seg ea)])) in
      let inside x := pp_eqb x PP_IN || pp_eqb x PP_OUT in
      let! first := if inside rel0 then
                      let! p := read l 0 in let! q := read l 1 in Done [with_rel (mk_seg p q) rel0]
                    else Done [] in
      let! final := if inside rel1 then
                      match rev l with
                      | q :: p :: _ => Done [with_rel (mk_seg p q) rel1]
                      | _ => Dangling
                      end
                    else Done [] in
      let known := ranges ++ first ++ final in
      for_each (register_range fuel i g) (known ++ pieces known l) b
  end.

(** board.cpp 322-331. *)
Definition polygon_in_polygon (fuel : nat) (srt : sort_by) (i : nat) (b : board) (j : nat) : run board :=
  let! pa := read (b_polygons b) i in
  let! pb := read (b_polygons b) j in
  if (j =? i)%nat then Done b
  else if (g_priority pb <? g_priority pa)%nat then Done b
  else if negb (overlap_z (g_z pb) (g_z pa)) then Done b
  else for_each (edge_in_polygon fuel srt j) (g_edges pa) b.
(** board.cpp 315-450. *)
Definition detect_edges_in_polygons (fuel : nat) (srt : sort_by) (b : board) (p : Plane) : run board :=
  for_each (fun b i => for_each (polygon_in_polygon fuel srt i) (polygons_of b p) b) (polygons_of b p) b.

(** conflict_edge_in_polygon.cpp 86-97. *)
Fixpoint merge_overlaps (edges : list edge) (normal : Normal) (l : list Overlap) (merged : seg) : run seg :=
  match l with
  | [] => Done merged
  | o :: r =>
      let! other := match ov_edge o with
                    | None => Done true
                    | Some j => let! e := read edges j in Done (negb (normal_eqb (e_normal e) normal))
                    end in
      if other then
        match merge (ov_range o) merged with
        | Some m => merge_overlaps edges normal r m
        | None => Done merged
        end
      else Done merged
  end.

Definition sort_overlaps (srt : sort_by) (v : point) (l : list Overlap) : list Overlap :=
  match before v with
  | Some less => srt _ (fun a b => less (s0 (ov_range a)) (s0 (ov_range b))) l
  | None => l
  end.

(** conflict_edge_in_polygon.cpp 99-101. *)
Definition set_to_mesh (x : bool) (c : cref) (e : edge) : edge :=
  mk_edge (e_plane e) (e_seg e) (e_normal e) x (e_to_reverse e) (e_conflicts e) (Some c) (e_policy e).

(** conflict_edge_in_polygon.cpp 80-108, of the conflict [n] of the plane [p]. *)
Definition solve_in_polygon (srt : sort_by) (p : Plane) (b : board) (n : nat) : run board :=
  let! c := read (on_plane (b_eip b) p) n in
  let! e := read (b_edges b) (ei_edge c) in
  let sorted := sort_overlaps srt (seg_vec (e_seg e)) (ei_overlaps c) in
  match sorted with
  | [] => Dangling
  | o :: _ =>
      let! merged := merge_overlaps (b_edges b) (e_normal e) sorted (ov_range o) in
      let! all := write (on_plane (b_eip b) p) n (mk_in_polygon (ei_edge c) sorted true) in
      update_edge (set_eip b (set_plane (b_eip b) p all)) (ei_edge c)
        (set_to_mesh (negb (seg_eqb (e_seg e) merged)) (InEIP p n))
  end.
(** conflict_manager.cpp 265-276. *)
Definition auto_solve_all_edge_in_polygon (srt : sort_by) (b : board) (p : Plane) : run board :=
  for_each (solve_in_polygon srt p) (seq 0 (length (on_plane (b_eip b) p))) b.

(** ** Individual edges: board.cpp 490-543 *)

Definition is_ce (c : cref) : bool := match c with InCE _ _ => true | _ => false end.
Definition set_policy (x : option nat) (e : edge) : edge :=
  mk_edge (e_plane e) (e_seg e) (e_normal e) (e_to_mesh e) (e_to_reverse e) (e_conflicts e) (e_solves e) x.

(** board.cpp 498-521. *)
Definition individual_edge (g : params) (p : Plane) (b : board) (i : nat) : run board :=
  let! e := read (b_edges b) i in
  match seg_coord (s0 (e_seg e)) (seg_axis (e_seg e)), axis_of_seg p (seg_axis (e_seg e)) with
  | Some x, Some ax =>
      if negb (existsb is_ce (e_conflicts e)) && e_to_mesh e then
        let '(axis', address) :=
          add_meshline_policy g (on_axis (b_axes b) ax) THIRDS (cast_normal (effective_normal e)) x (e_to_mesh e) in
        update_edge (set_axes b (set_axis (b_axes b) ax axis')) i (set_policy address)
      else Done b
  | _, _ => Done b
  end.

Definition set_angle_policy (x : option nat) (a : angle) : angle :=
  mk_angle (a_plane a) (a_point a) (a_e0 a) (a_e1 a) (a_value a) (a_h a) (a_v a) x.
Definition update_angle (b : board) (i : nat) (f : angle -> angle) : run board :=
  let! a := read (b_angles b) i in
  let! l := write (b_angles b) i (f a) in
  Done (set_angles b l).

(** board.cpp 528-539. *)
Definition individual_angle_axis (g : params) (p : Plane) (i : nat) (b : board) (v : ViewAxis) : run board :=
  let! a := read (b_angles b) i in
  let ax := axes_table p v in
  let '(axis', address) :=
    add_meshline_policy g (on_axis (b_axes b) ax) HALFS NNONE (pt_coord (a_point a) v) (a_to_mesh a v) in
  update_angle (set_axes b (set_axis (b_axes b) ax axis')) i (set_angle_policy address).
(** board.cpp 524-541. *)
Definition individual_angle (g : params) (p : Plane) (b : board) (i : nat) : run board :=
  for_each (individual_angle_axis g p i) [VH; VV] b.
(** board.cpp 490-543. *)
Definition detect_individual_edges (g : params) (b : board) (p : Plane) : run board :=
  let! b := for_each (individual_edge g p) (edges_of b p) b in
  for_each (individual_angle g p) (angles_of b p) b.

(** ** Diagonals: board.cpp 253-310, 546-606; conflict_manager.cpp 207-236 *)

Definition new_angle (angle_of : point -> point -> Q) (b : board) (at_ : point) (i j : nat) : run angle :=
  let! ei := read (b_edges b) i in
  let! ej := read (b_edges b) j in
  Done (mk_angle (e_plane ei) at_ i j (angle_of (seg_vec (e_seg ei)) (seg_vec (e_seg ej))) false false None).

Definition is_diagonal (e : edge) : bool := segaxis_eqb (seg_axis (e_seg e)) SDIAG.

(** board.cpp 264-277: the angles of the polygon with the edges [l] (the previous one
    being [prev]) at the end points of the previous edges: [points[p]] is the second
    point of [edges[p]]. *)
Fixpoint polygon_angles (angle_of : point -> point -> Q) (b : board) (prev : nat) (l : list nat) : run (list angle) :=
  match l with
  | [] => Done []
  | i :: r =>
      let! ep := read (b_edges b) prev in
      let! ei := read (b_edges b) i in
      let! rest := polygon_angles angle_of b i r in
      if is_diagonal ep || is_diagonal ei then
        let! a := new_angle angle_of b (s1 (e_seg ep)) prev i in Done (a :: rest)
      else Done rest
  end.

(** board.cpp 288-301. *)
Definition crossing_angle (angle_of : point -> point -> Q) (b : board) (i j : nat) : run (list angle) :=
  let! ei := read (b_edges b) i in
  let! ej := read (b_edges b) j in
  if negb (is_diagonal ei) && negb (is_diagonal ej) then Done []
  else if negb (overlap2_strict (seg_bounding (e_seg ei)) (seg_bounding (e_seg ej))) then Done []
  else match relation_seg (e_seg ei) (e_seg ej), intersection (e_seg ei) (e_seg ej) with
       | CROSSING, Some p => let! a := new_angle angle_of b p i j in Done [a]
       | _, _ => Done []
       end.

(** board.cpp 282-305: the edges of each polygon with those of the later ones. *)
Fixpoint crossing_angles (angle_of : point -> point -> Q) (b : board) (l : list polygon) : run (list angle) :=
  match l with
  | [] => Done []
  | g :: r =>
      let! here := collect (fun i => collect (crossing_angle angle_of b i) (flat_map g_edges r)) (g_edges g) in
      let! rest := crossing_angles angle_of b r in
      Done (concat (map (@concat _) here) ++ rest)
  end.

(** board.cpp 253-310. *)
Definition detect_diagonal_angles (angle_of : point -> point -> Q) (b : board) (p : Plane) : run board :=
  let l := filter (fun g => plane_eqb (g_plane g) p) (b_polygons b) in
  let! corners := collect (fun g => match g_edges g with
                                    | [] => Done []
                                    | i :: _ => polygon_angles angle_of b (last (g_edges g) i) (g_edges g)
                                    end) l in
  let! crossings := crossing_angles angle_of b l in
  Done (set_angles b (b_angles b ++ concat corners ++ crossings)).

(** global.hpp: the parameters of diagonal zones. *)
Record diag_params := mk_diag_params { dp_dmax : Q; dp_minimal : Q }.

(** conflict_manager.cpp 207-236, conflict_diagonal_or_circular_zone.cpp 20-29. *)
Definition add_diagonal_zone (g : params) (d : diag_params) (srt : sort_by) (ax : Axis3) (b : board) (l : list nat) : run board :=
  let! angles := collect (fun i => let! a := read (b_angles b) i in Done (i, a)) l in
  match angles with
  | [] => Done b
  | (_, first) :: _ =>
      if forallb (fun x => plane_eqb (a_plane (snd x)) (a_plane first)) angles then
        match view_of_axis (a_plane first) ax with
        | None => Done b
        | Some v =>
            let less x y := Qltb (pt_coord (a_point (snd x)) v) (pt_coord (a_point (snd y)) v) in
            let sorted := map fst (srt _ less angles) in
            Done (set_zones b (set_axis (b_zones b) ax
              (on_axis (b_zones b) ax ++ [mk_diag_zone (dp_dmax d) (g_lmin g) (dp_minimal d) sorted])))
        end
      else Done b
  end.

(** board.cpp 574-585: the two angles, and whether some diagonal edge passes between. *)
Fixpoint angle_ranges (v : ViewAxis) (diagonals : list edge) (l : list (nat * angle)) : list (nat * nat * bool) :=
  match l with
  | x :: ((y :: _) as r) =>
      let mid := coord_mid (pt_coord (a_point (snd x)) v) (pt_coord (a_point (snd y)) v) in
      (fst x, fst y, existsb (fun e => overlap_coord (box_side v (seg_bounding (e_seg e))) mid) diagonals)
      :: angle_ranges v diagonals r
  | _ => []
  end.

(** std::unique on pointers. *)
Fixpoint unique_nat (l : list nat) : list nat :=
  match l with
  | [] => []
  | x :: r => match unique_nat r with
              | y :: t => if (x =? y)%nat then y :: t else x :: y :: t
              | [] => [x]
              end
  end.

(** board.cpp 569-604, for one view axis.  The order left by the sort for the first
    view axis is the input of the sort for the second one. *)
Definition detect_zones_view (g : params) (d : diag_params) (srt : sort_by) (p : Plane)
    (acc : board * list (nat * angle)) (v : ViewAxis) : run (board * list (nat * angle)) :=
  let '(b, angles) := acc in
  let sorted := srt _ (fun x y => Qltb (pt_coord (a_point (snd x)) v) (pt_coord (a_point (snd y)) v)) angles in
  let diagonals := filter (fun e => plane_eqb (e_plane e) p && (e_to_mesh e && is_diagonal e)) (b_edges b) in
  let runs := find_consecutive_matches (fun x : nat * nat * bool => snd x) (angle_ranges v diagonals sorted) in
  let! b := for_each (add_diagonal_zone g d srt (axes_table p v))
              (map (fun r => unique_nat (flat_map (fun x : nat * nat * bool => [fst (fst x); snd (fst x)]) r)) runs) b in
  Done (b, sorted).
(** board.cpp 546-606. *)
Definition detect_diagonal_zones (g : params) (d : diag_params) (srt : sort_by) (b : board) (p : Plane) : run board :=
  let angles := filter (fun x => plane_eqb (a_plane (snd x)) p) (view (b_angles b)) in
  let! (b, _) := for_each (detect_zones_view g d srt p) [VH; VV] (b, angles) in
  Done b.

Definition set_angle_mesh (v : ViewAxis) (x : bool) (a : angle) : angle :=
  match v with
  | VH => mk_angle (a_plane a) (a_point a) (a_e0 a) (a_e1 a) (a_value a) x (a_v a) (a_policy a)
  | VV => mk_angle (a_plane a) (a_point a) (a_e0 a) (a_e1 a) (a_value a) (a_h a) x (a_policy a)
  end.
(** conflict_diagonal_or_circular_zone.cpp 64-69 and 73-79. *)
Definition solve_angle (ax : Axis3) (f : angle -> bool) (b : board) (i : nat) : run board :=
  let! a := read (b_angles b) i in
  match view_of_axis (a_plane a) ax with
  | None => Done b
  | Some v => update_angle b i (set_angle_mesh v (f a))
  end.
(** conflict_diagonal_or_circular_zone.cpp 59-81; [views::drop] twice leaves the inner
    angles.  All is written at one timepoint: a second write of an angle would be
    dropped, but a zone has no angle twice. *)
Definition solve_zone_angles (d : diag_params) (ax : Axis3) (b : board) (z : diag_zone) : run board :=
  match dz_angles z with
  | [] => Dangling
  | first :: r =>
      let! b := for_each (solve_angle ax (fun _ => true)) [first; last (dz_angles z) first] b in
      for_each (solve_angle ax (fun a => Qle_bool (dp_minimal d) (a_value a))) (removelast r) b
  end.
(** conflict_manager.cpp 239-249. *)
Definition solve_diagonal_angles (d : diag_params) (b : board) (ax : Axis3) : run board :=
  for_each (solve_zone_angles d ax) (on_axis (b_zones b) ax) b.

(** conflict_diagonal_or_circular_zone.cpp 40-51: the zone seen by ManagerModel.v. *)
Definition zone_of (b : board) (ax : Axis3) (z : diag_zone) : run zone :=
  match dz_angles z with
  | [] => Dangling
  | first :: _ =>
      let! x := read (b_angles b) first in
      let! y := read (b_angles b) (last (dz_angles z) first) in
      match view_of_axis (a_plane x) ax, view_of_axis (a_plane y) ax with
      | Some v, Some w => Done (mk_zone (pt_coord (a_point x) v) (pt_coord (a_point y) w) (dz_dmax z))
      | _, _ => Dangling
      end
  end.

(** ** The steps: openemsh.cpp 169-183, board.cpp 623-720 *)

Definition all_planes : list Plane := [PYZ; PZX; PXY].
Definition all_axes : list Axis3 := [AX; AY; AZ].

(** A step of an axis that only touches its policies, intervals and lines. *)
Definition on_each_axis (f : Axis3 -> axis -> run axis) (b : board) : run board :=
  for_each (fun b ax => let! x := f ax (on_axis (b_axes b) ax) in Done (set_axes b (set_axis (b_axes b) ax x))) all_axes b.

(** openemsh.cpp 169-178: up to the individual edges; [fixed] are the fixed lines of
    each axis. *)
Definition policies_of_board (fuel : nat) (g : params) (d : diag_params) (srt : sort_by) (angle_of : point -> point -> Q)
    (fixed : space (list Q)) (b : board) : run board :=
  let! b := for_each (adjust_edges_to_materials srt) all_planes b in
  let! b := for_each (detect_diagonal_angles angle_of) all_planes b in
  let! b := for_each (detect_diagonal_zones g d srt) all_planes b in
  let! b := for_each (solve_diagonal_angles d) all_axes b in
  let! b := for_each (detect_edges_in_polygons fuel srt) all_planes b in
  let! b := for_each detect_colinear_edges all_planes b in
  let! b := on_each_axis (fun ax x => Done (add_fixed_policies g x (on_axis fixed ax))) b in
  let! b := for_each (auto_solve_all_edge_in_polygon srt) all_planes b in
  let! b := for_each (auto_solve_all_colinear_edges g) all_axes b in
  for_each (detect_individual_edges g) all_planes b.

(** openemsh.cpp 179-183. *)
Definition lines_of_board (fuel : nat) (g : params) (srt : sorter) (b : board) : run board :=
  let! b := on_each_axis (fun _ => detect_and_solve_too_close fuel g srt) b in
  let! b := on_each_axis (fun _ => detect_intervals g srt) b in
  let! b := on_each_axis (fun ax x => let! zs := collect (zone_of b ax) (on_axis (b_zones b) ax) in Done (apply_zones zs x)) b in
  on_each_axis (fun _ => mesh_axis fuel srt) b.
