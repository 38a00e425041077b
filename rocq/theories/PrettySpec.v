(** What the properties of the report say: how it is read, and what each conflict of a board says. *)
From Coq Require Import List Arith Bool QArith String.
From Verif Require Import IntervalModel ManagerModel GeomModel BoardModel PrettyModel.
Import ListNotations.
Local Open Scope list_scope.

(** ** A reader *)

Inductive place := On_axis (a : Axis3) | On_plane (p : Plane).
Inductive solution := By_policy (p : Policy) | To_mesh (b : bool).
(** A polygon: its name, rotation and edges; then the other edge and the range. *)
Record overlap_read := mk_or { or_name : string; or_rotation : Rotation; or_edges : list edge_told; or_by : option edge_told; or_range : option seg }.
Record conflict_read := mk_cr { cr_place : place; cr_edges : list edge_told; cr_overlaps : list overlap_read; cr_solution : option solution }.

(** What was read so far: the headings with the conflicts under them, the last one first; the conflict
    that is not ended; the polygon that is not closed. *)
Record state := mk_state { st_sections : list (heading * list conflict_read); st_conflict : option conflict_read; st_polygon : option overlap_read }.

Definition one_range (l : list overlap_read) : bool := forallb (fun o => match or_range o with Some _ => true | None => false end) l.
Definition on_last (f : overlap_read -> option overlap_read) (c : conflict_read) : option conflict_read :=
  match rev (cr_overlaps c) with
  | [] => None
  | o :: r => match f o with Some o => Some (mk_cr (cr_place c) (cr_edges c) (rev r ++ [o]) (cr_solution c)) | None => None end
  end.
(** One piece; nothing if it is not in its place. *)
Definition step (x : piece) (s : state) : option state :=
  match x, st_conflict s, st_polygon s with
  | Heading h, None, None => Some (mk_state ((h, []) :: st_sections s) None None)
  | Between_colinear a, None, None => Some (mk_state (st_sections s) (Some (mk_cr (On_axis a) [] [] None)) None)
  | Between_in_polygon p, None, None => Some (mk_state (st_sections s) (Some (mk_cr (On_plane p) [] [] None)) None)
  | An_edge Edge_ e, Some c, None =>
      match cr_overlaps c, cr_solution c with
      | [], None => Some (mk_state (st_sections s) (Some (mk_cr (cr_place c) (cr_edges c ++ [e]) [] None)) None)
      | _, _ => None
      end
  | Polygon_open n r, Some c, None =>
      match cr_solution c with
      | None => if one_range (cr_overlaps c) then Some (mk_state (st_sections s) (Some c) (Some (mk_or n r [] None None))) else None
      | Some _ => None
      end
  | An_edge (Of_polygon 2) e, Some c, Some o => Some (mk_state (st_sections s) (Some c) (Some (mk_or (or_name o) (or_rotation o) (or_edges o ++ [e]) None None)))
  | Polygon_close 2, Some c, Some o => Some (mk_state (st_sections s) (Some (mk_cr (cr_place c) (cr_edges c) (cr_overlaps c ++ [o]) None)) None)
  | An_edge (By_edge 2) e, Some c, None =>
      option_map (fun c => mk_state (st_sections s) (Some c) None)
        (on_last (fun o => match or_by o, or_range o with None, None => Some (mk_or (or_name o) (or_rotation o) (or_edges o) (Some e) None) | _, _ => None end) c)
  | On_range 2 g, Some c, None =>
      option_map (fun c => mk_state (st_sections s) (Some c) None)
        (on_last (fun o => match or_range o with None => Some (mk_or (or_name o) (or_rotation o) (or_edges o) (or_by o) (Some g)) | _ => None end) c)
  | Solution_policy p, Some c, None => match cr_solution c with None => Some (mk_state (st_sections s) (Some (mk_cr (cr_place c) (cr_edges c) (cr_overlaps c) (Some (By_policy p)))) None) | _ => None end
  | Solution_mesh m, Some c, None => match cr_solution c with None => Some (mk_state (st_sections s) (Some (mk_cr (cr_place c) (cr_edges c) (cr_overlaps c) (Some (To_mesh m)))) None) | _ => None end
  | Conflict_end, Some c, None =>
      match st_sections s with (h, l) :: r => Some (mk_state ((h, l ++ [c]) :: r) None None) | [] => None end
  | _, _, _ => None
  end.
Fixpoint steps (l : list piece) (s : state) : option state :=
  match l with [] => Some s | x :: r => match step x s with Some s => steps r s | None => None end end.
(** The headings in their order, each with its conflicts, if all is in its place. *)
Definition report (l : list piece) : option (list (heading * list conflict_read)) :=
  match steps l (mk_state [] None None) with
  | Some (mk_state sections None None) => Some (rev sections)
  | _ => None
  end.

(** ** What conflicts say *)

(** An edge as it is on the board. *)
Definition tells (b : board) (i : nat) (t : edge_told) : Prop :=
  exists e, nth_error (b_edges b) i = Some e /\ to_seg t = e_seg e /\ to_normal t = e_normal e /\ to_meshed t = e_to_mesh e /\ edge_direction (e_seg e) = Some (to_direction t).
(** An overlap: the polygon with all of its edges, the other edge if there is one, the range. *)
Definition tells_overlap (named : nat -> string) (b : board) (o : Overlap) (r : overlap_read) : Prop :=
  (exists g, nth_error (b_polygons b) (ov_polygon o) = Some g /\ or_name r = named (ov_polygon o) /\ or_rotation r = detect_rotation (g_points g) /\ Forall2 (tells b) (g_edges g) (or_edges r))
  /\ (match ov_edge o, or_by r with Some j, Some t => tells b j t | None, None => True | _, _ => False end)
  /\ or_range r = Some (ov_range o).
(** An edge in polygons: the plane, the edge, the overlaps; if it is solved, whether the edge is meshed. *)
Definition tells_in_polygon (named : nat -> string) (b : board) (c : Plane * in_polygon) (r : conflict_read) : Prop :=
  cr_place r = On_plane (fst c) /\ (exists t, cr_edges r = [t] /\ tells b (ei_edge (snd c)) t /\ cr_solution r = if ei_solved (snd c) then Some (To_mesh (to_meshed t)) else None)
  /\ Forall2 (tells_overlap named b) (ei_overlaps (snd c)) (cr_overlaps r).
(** Colinear edges: the axis, the edges; the policy if there is one. *)
Definition tells_colinear (b : board) (c : Axis3 * colinear) (r : conflict_read) : Prop :=
  cr_place r = On_axis (fst c) /\ Forall2 (tells b) (ce_edges (snd c)) (cr_edges r) /\ cr_overlaps r = []
  /\ match ce_policy (snd c) with
     | None => cr_solution r = None
     | Some j => exists p, nth_error (ax_policies (on_axis (b_axes b) (fst c))) j = Some p /\ cr_solution r = Some (By_policy (p_policy p))
     end.

(** All the conflicts, in the order of planes and axes. *)
Definition in_polygons_of (b : board) : list (Plane * in_polygon) := flat_map (fun p => map (pair p) (on_plane (b_eip b) p)) all_planes.
Definition colinears_of (b : board) : list (Axis3 * colinear) := flat_map (fun a => map (pair a) (on_axis (b_ce b) a)) all_axes.
Definition too_closes_of (b : board) : list (Axis3 * too_close) := flat_map (fun a => map (pair a) (ax_conflicts (on_axis (b_axes b) a))) all_axes.

(** ** Words *)

(** What a reader understands by the words after "Solution: ". *)
Local Open Scope string_scope.
Definition understood : list (string * solution) :=
  [("to mesh", To_mesh true); ("don't mesh", To_mesh false); ("ONELINE", By_policy ONELINE); ("HALFS", By_policy HALFS); ("THIRDS", By_policy THIRDS)].
(** ... and by those after "Polygon: ", the name and a space. *)
Definition turning : list (string * Rotation) := [("CW", CW); ("CCW", CCW); ("COLINEAR", COLINEAR)].
(** ... and by the mark at the end of an edge. *)
Definition marks : list (string * bool) := [("O", true); ("X", false)].
(** The solution a piece is for. *)
Definition solves (x : piece) (s : solution) : Prop :=
  match x with Solution_policy p => s = By_policy p | Solution_mesh m => s = To_mesh m | _ => False end.
