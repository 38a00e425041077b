(** Model of src/infra/serializers/serializer_to_prettyprint.cpp: what the command line program
    writes with [--output-format prettyprint] (openemsh.cpp 150-152).  No proofs in this file.

    Simplifications, for the whole file:
    - those of BoardModel.v; the name of a polygon is a parameter [named];
    - [out] is a list of pieces, one for each addition to the text, made a text by [text] without the
      colours (utils/color.hpp, or with NOCOLOR);
    - std::ranges::sort is a parameter [srt], see [sort_by]. *)
From Coq Require Import List Arith Bool QArith String Ascii.
From Verif Require Import IntervalModel ManagerModel GeomModel BoardModel InfraModel SceneModel PlantumlModel.
Import ListNotations.
Local Open Scope string_scope.
Local Open Scope list_scope.

Inductive heading := EDGE_IN_POLYGONS | COLINEAR_EDGES | TOO_CLOSE.
(** What is written of an edge, serializer_to_prettyprint.cpp 92-94. *)
Record edge_told := mk_told { to_seg : seg; to_direction : Direction; to_normal : Normal; to_meshed : bool }.
(** What is written before an edge: "\tEdge: ", the indentation, or the indentation and "by edge: ". *)
Inductive lead := Edge_ | Of_polygon (tabs : nat) | By_edge (tabs : nat).
Inductive piece :=
| Heading (h : heading)
| Between_colinear (a : Axis3)
| Between_in_polygon (p : Plane)
| An_edge (l : lead) (e : edge_told)
| Polygon_open (name : string) (r : Rotation)
| Polygon_close (tabs : nat)
| On_range (tabs : nat) (s : seg)
| Solution_policy (p : Policy)
| Solution_mesh (to_mesh : bool)
| Conflict_end.

Section Write.
Context (named : nat -> string) (srt : sort_by) (b : board).

(** 92-94; the direction could be uninitialised, see [edge_direction]. *)
Definition edge_piece (l : lead) (i : nat) : run piece :=
  let! e := read (b_edges b) i in
  match edge_direction (e_seg e) with
  | None => Dangling
  | Some d => Done (An_edge l (mk_told (e_seg e) d (e_normal e) (e_to_mesh e)))
  end.

(** 97-106; [indent] is the member of the serializer. *)
Definition polygon_pieces (indent i : nat) : run (list piece) :=
  let! g := read (b_polygons b) i in
  let! edges := collect (edge_piece (Of_polygon indent)) (g_edges g) in
  Done ([Polygon_open (named i) (detect_rotation (g_points g))] ++ edges ++ [Polygon_close indent]).

(** 109-125. *)
Definition colinear_pieces (a : Axis3) (c : colinear) : run (list piece) :=
  let! edges := collect (edge_piece Edge_) (ce_edges c) in
  let! solution :=
    match ce_policy c with
    | None => Done []
    | Some j => let! p := read (ax_policies (on_axis (b_axes b) a)) j in Done [Solution_policy (p_policy p)]
    end in
  Done ([Between_colinear a] ++ edges ++ solution ++ [Conflict_end]).

(** 137-147. *)
Definition overlap_pieces (indent : nat) (o : Overlap) : run (list piece) :=
  let! polygon := polygon_pieces indent (ov_polygon o) in
  let! other := collect (edge_piece (By_edge indent)) (maybe (ov_edge o)) in
  Done (polygon ++ other ++ [On_range indent (ov_range o)]).
(** 128-154: the indentation is 2 in the loop. *)
Definition in_polygon_pieces (p : Plane) (c : in_polygon) : run (list piece) :=
  let! edge := edge_piece Edge_ (ei_edge c) in
  let! overlaps := collect (overlap_pieces 2) (ei_overlaps c) in
  let! e := read (b_edges b) (ei_edge c) in
  Done ([Between_in_polygon p; edge] ++ List.concat overlaps
        ++ (if ei_solved c then [Solution_mesh (e_to_mesh e)] else []) ++ [Conflict_end]).

(** entity_visitor.hpp 34, 36 and 33: SerializerToPrettyprint does not override these. *)
Definition policy_pieces (p : mlp) : list piece := [].
Definition interval_pieces (s : segment) : list piece := [].
Definition too_close_pieces (c : too_close) : list piece := [].

(** 65-78. *)
Definition axis_pieces (a : Axis3) : list piece :=
  let y := on_axis (b_axes b) a in
  flat_map policy_pieces (srt _ (fun p q => Qltb (p_coord p) (p_coord q)) (ax_policies y))
  ++ flat_map interval_pieces (ax_segments y).

(** 58-89. *)
Definition pretty : run (list piece) :=
  let! in_polygons := collect (fun p => collect (in_polygon_pieces p) (on_plane (b_eip b) p)) all_planes in
  let! colinears := collect (fun a => collect (colinear_pieces a) (on_axis (b_ce b) a)) all_axes in
  Done ([Heading EDGE_IN_POLYGONS] ++ List.concat (List.concat in_polygons)
        ++ flat_map axis_pieces all_axes
        ++ [Heading COLINEAR_EDGES] ++ List.concat (List.concat colinears)
        ++ [Heading TOO_CLOSE] ++ flat_map (fun a => flat_map too_close_pieces (ax_conflicts (on_axis (b_axes b) a))) all_axes).
End Write.

(** ** The text *)
Local Open Scope string_scope.

Definition end_line : string := String newline "".
(** 27-33. *)
Fixpoint indent_text (n : nat) : string := match n with O => "" | S n => String (ascii_of_nat 9) (indent_text n) end.
(** to_string.cpp 15-24 *)
Definition direction_string (d : Direction) : string :=
  match d with Dxmin => "XMIN" | Dxmax => "XMAX" | Dymin => "YMIN" | Dymax => "YMAX" | Dnone => "NONE" end.
(** to_string.cpp 71-79 *)
Definition seg_axis_string (a : SegAxis) : string := match a with SH => "H" | SV => "V" | SDIAG => "DIAGONAL" | SPOINT => "POINT" end.
(** 36-43. *)
Definition point_text (p : point) : string := "{ " ++ to_string (px p) ++ ", " ++ to_string (py p) ++ " }".
(** 46-48. *)
Definition range_text (s : seg) : string := point_text (s0 s) ++ " -> " ++ point_text (s1 s) ++ " " ++ seg_axis_string (seg_axis s).
(** 92-94. *)
Definition edge_text (e : edge_told) : string :=
  point_text (s0 (to_seg e)) ++ " -> " ++ point_text (s1 (to_seg e)) ++ " " ++ seg_axis_string (seg_axis (to_seg e)) ++ " " ++ direction_string (to_direction e)
  ++ " " ++ normal_string (to_normal e) ++ (if to_meshed e then " O" else " X") ++ end_line.
Definition heading_text (h : heading) : string :=
  match h with
  | EDGE_IN_POLYGONS => "CONFLICT: EDGE IN POLYGONS"
  | COLINEAR_EDGES => "CONFLICT: COLINEAR EDGES"
  | TOO_CLOSE => "CONFLICT: TOO CLOSE MESHLINE POLICIES"
  end.
Definition piece_text (x : piece) : string :=
  match x with
  | Heading h => end_line ++ heading_text h ++ end_line ++ end_line
  | Between_colinear a => "Conflict ColinearEdges between:" ++ end_line ++ indent_text 1 ++ "Axis: " ++ axis_string a ++ end_line
  | Between_in_polygon p => "Conflict EdgeInPolygon between:" ++ end_line ++ indent_text 1 ++ "Plane: " ++ plane_string p ++ end_line
  | An_edge l e => (match l with Edge_ => indent_text 1 ++ "Edge: " | Of_polygon n => indent_text n | By_edge n => indent_text n ++ "by edge: " end) ++ edge_text e
  | Polygon_open name r => indent_text 1 ++ "Polygon: " ++ name ++ " " ++ rotation_string r ++ " {" ++ end_line
  | Polygon_close n => indent_text n ++ "}" ++ end_line
  | On_range n s => indent_text n ++ "on range: " ++ range_text s ++ end_line
  | Solution_policy p => indent_text 1 ++ "Solution: " ++ policy_string p
  | Solution_mesh m => indent_text 1 ++ "Solution: " ++ (if m then "to mesh" else "don't mesh")
  | Conflict_end => end_line
  end.
Definition pieces_text (l : list piece) : string := fold_right (fun x r => piece_text x ++ r) "" l.
