(** Model of src/infra/serializers/serializer_to_plantuml.cpp: the state diagram that the
    command line program writes with [--output-format plantuml] (openemsh.cpp 145-149,
    always with the default parameters, all of them true).  No proofs in this file.

    Simplifications, for the whole file:
    - those of BoardModel.v; the pointers it leaves out are the [links] of SceneModel.v;
    - [out] is a list of statements, one for each line of the text, made a text by [text];
    - the number of an object (utils/entity.cpp, a counter, id_generator.hpp) is a
      parameter [ident], the name of a polygon is a parameter [name];
    - std::ranges::sort is a parameter [srt], see [sort_by]. *)
From Coq Require Import List Arith ZArith Bool QArith String Ascii.
From Verif Require Import IntervalModel ManagerModel GeomModel BoardModel InfraModel SceneModel.
Import ListNotations.
Local Open Scope string_scope.
Local Open Scope list_scope.

(** What a state is named after: a plane, an axis, an object, a pin of an object:
    "_in", "_out", "_in" and a number. *)
Inductive pin := Input | Output | Input_no (n : nat).
Inductive name := Plane_name (p : Plane) | Axis_name (a : Axis3) | Whole (x : entity) | Pin_name (x : entity) (q : pin).

(** The lines written.  [style] is all that is written between the two ends of an
    arrow, [rest] what is written behind it. *)
Inductive stmt :=
| Start | Finish
| Open (label : string) (n : name) (colour : string)
| Pin (x : entity) (q : pin)
| Field (x : entity) (t : string)
| Arrow (from : name) (style : string) (to : name) (rest : string)
| Close.

(** ** Words: infra/utils/to_string.cpp *)

(** 27-38 *)
Definition normal_string (n : Normal) : string :=
  match n with
  | Nxmin => "XMIN" | Nxmax => "XMAX" | Nymin => "YMIN" | Nymax => "YMAX" | Nzmin => "ZMIN" | Nzmax => "ZMAX" | Nnone => "NONE"
  end.
(** 41-48 *)
Definition mnormal_string (n : MNormal) : string := match n with NMIN => "MIN" | NMAX => "MAX" | NNONE => "NONE" end.
(** 51-58 *)
Definition policy_string (p : Policy) : string := match p with ONELINE => "ONELINE" | HALFS => "HALFS" | THIRDS => "THIRDS" end.
(** 61-68 *)
Definition rotation_string (r : Rotation) : string := match r with CW => "CW" | CCW => "CCW" | COLINEAR => "COLINEAR" end.
(** 82-89 *)
Definition axis_string (a : Axis3) : string := match a with AX => "X" | AY => "Y" | AZ => "Z" end.
(** 92-99 *)
Definition plane_string (p : Plane) : string := match p with PYZ => "YZ" | PZX => "ZX" | PXY => "XY" end.
Definition bool_string (x : bool) : string := if x then "true" else "false".
(** std::to_string of a size_t. *)
Definition whole_string (n : nat) : string := print_whole (Z.of_nat n) "".

Definition plain_arrow : string := " ------> ".

Section Write.
Context (named : nat -> string) (srt : sort_by) (b : board) (k : links).

(** serializer_to_plantuml.cpp 100-108. *)
Definition edge_lines (i : nat) : run (list stmt) :=
  let! e := read (b_edges b) i in
  let colour := if e_to_mesh e then (match e_conflicts e with [] => " #chartreuse" | _ => " #green" end) else " #red" in
  let x := EEdge i in
  Done [Open "Edge" (Whole x) colour;
        Field x ("Normal = " ++ normal_string (e_normal e))%string;
        Field x ("To mesh = " ++ bool_string (e_to_mesh e))%string;
        Close].

(** 111-123; [rotation] is that of the points (polygon.cpp). *)
Definition polygon_lines (i : nat) : run (list stmt) :=
  let! g := read (b_polygons b) i in
  let x := EPolygon i in
  let! edges := collect edge_lines (g_edges g) in
  Done ([Open ("Polygon " ++ named i)%string (Whole x) "";
         Pin x Output;
         Field x ("rotation = " ++ rotation_string (detect_rotation (g_points g)))%string]
        ++ List.concat edges ++ [Close]).

(** 126-149. *)
Definition colinear_lines (a : Axis3) (i : nat) : run (list stmt) :=
  let! c := read (on_axis (b_ce b) a) i in
  let x := EColinear a i in
  let! edges := collect (fun j =>
      let! e := read (b_edges b) j in
      Done [Field x ("Normal = " ++ normal_string (e_normal e) ++ (if e_to_mesh e then " enabled" else " disabled"))%string;
            Arrow (Whole (EEdge j)) plain_arrow (Pin_name x Input) " "]) (ce_edges c) in
  let! solution :=
    match ce_policy c with
    | None => Done []
    | Some j =>
        let! p := read (ax_policies (on_axis (b_axes b) a)) j in
        Done [Field x ("Solution.policy = " ++ policy_string (p_policy p))%string;
              Field x ("Solution.normal = " ++ mnormal_string (p_normal p))%string;
              Arrow (Pin_name x Output) plain_arrow (Pin_name (EPolicy a j) Input) ""]
    end in
  Done ([Open "Conflict ColinearEdges" (Whole x) ""; Pin x Input; Pin x Output] ++ List.concat edges ++ solution ++ [Close]).

(** 152-171. *)
Definition in_polygon_lines (p : Plane) (i : nat) : run (list stmt) :=
  let! c := read (on_plane (b_eip b) p) i in
  let! e := read (b_edges b) (ei_edge c) in
  let colour := if e_to_mesh e then "#green" else "#red" in
  let x := EInPolygon p i in
  let overlaps := flat_map (fun o =>
      [Pin x (Input_no (snd o));
       Arrow (Pin_name (EPolygon (ov_polygon (fst o))) Output) plain_arrow (Pin_name x (Input_no (snd o))) ""]
      ++ map (fun j => Arrow (Whole (EEdge j)) plain_arrow (Pin_name x (Input_no (snd o))) "") (maybe (ov_edge (fst o))))
    (numbered (ei_overlaps c)) in
  Done ([Open "Conflict EdgeInPolygon" (Whole x) (" " ++ colour)%string; Pin x Output;
         Arrow (Whole (EEdge (ei_edge c))) plain_arrow (Whole x) "";
         Arrow (Pin_name x Output) (" -----[bold," ++ colour ++ "]-> ")%string (Whole (EEdge (ei_edge c))) ""]
        ++ overlaps ++ [Close]).

(** 174-190. *)
Definition close_lines (a : Axis3) (i : nat) : run (list stmt) :=
  let! c := read (ax_conflicts (on_axis (b_axes b) a)) i in
  let x := EClose a i in
  Done ([Open "Conflict TooCloseMeshlinePolicies" (Whole x) ""; Pin x Input; Pin x Output]
        ++ map (fun j => Arrow (Pin_name (EPolicy a j) Output) " -----[#red]-> " (Pin_name x Input) " ") [tc_a c; tc_b c]
        ++ map (fun j => Arrow (Pin_name x Output) " -----[#green]-> " (Pin_name (EPolicy a j) Input) "") (maybe (tc_solution c))
        ++ [Close]).

(** 193-212. *)
Definition policy_lines (a : Axis3) (i : nat) : run (list stmt) :=
  let! p := read (ax_policies (on_axis (b_axes b) a)) i in
  let x := EPolicy a i in
  let origin := match lk_origins k a i with [EEdge j] => [Arrow (Whole (EEdge j)) " -----[#chartreuse]-> " (Pin_name x Input) ""] | _ => [] end in
  Done ([Open "MeshlinePolicy" (Whole x) (if p_enabled p then " #green" else " #red"); Pin x Input; Pin x Output;
         Field x ("Normal = " ++ mnormal_string (p_normal p))%string;
         Field x ("Is enabled = " ++ bool_string (p_enabled p))%string;
         Field x ("Policy = " ++ policy_string (p_policy p))%string;
         Field x ("d = " ++ to_string (p_d p))%string]
        ++ origin ++ [Close]).

(** 215-231. *)
Definition interval_lines (a : Axis3) (i : nat) : run (list stmt) :=
  let! s := read (ax_segments (on_axis (b_axes b) a)) i in
  let x := EInterval a i in
  let iv := sg_iv s in
  Done [Open "Interval" (Whole x) ""; Pin x (Input_no 1); Pin x (Input_no 2); Pin x Output;
        Field x ("dmax = " ++ to_string (iv_dmax iv))%string;
        Field x ("before.lmin = " ++ whole_string (sd_lmin (iv_before iv)))%string;
        Field x ("before.smoothness = " ++ to_string (sd_smoothness (iv_before iv)))%string;
        Field x ("after.lmin = " ++ whole_string (sd_lmin (iv_after iv)))%string;
        Field x ("after.smoothness = " ++ to_string (sd_smoothness (iv_after iv)))%string;
        Arrow (Pin_name (EPolicy a (sg_before s)) Output) plain_arrow (Pin_name x (Input_no 1)) " ";
        Arrow (Pin_name (EPolicy a (sg_after s)) Output) plain_arrow (Pin_name x (Input_no 2)) " ";
        Close].

(** 234-247. *)
Definition meshline_lines (a : Axis3) (i : nat) : run (list stmt) :=
  let! c := read (ax_lines (on_axis (b_axes b) a)) i in
  let x := ELine a i in
  Done ([Open "Meshline" (Whole x) ""; Field x ("Coord = " ++ to_string c)%string]
        ++ map (fun j => Arrow (Pin_name (EInterval a j) Output) plain_arrow (Whole x) "") (maybe (lk_interval k a i))
        ++ map (fun j => Arrow (Pin_name (EPolicy a j) Output) plain_arrow (Whole x) "") (maybe (lk_policy k a i))
        ++ [Close]).

(** 50-62. *)
Definition plane_lines (p : Plane) : run (list stmt) :=
  let! polygons := collect polygon_lines (polygons_of b p) in
  let! conflicts := collect (in_polygon_lines p) (seq 0 (List.length (on_plane (b_eip b) p))) in
  Done ([Open ("Plane " ++ plane_string p)%string (Plane_name p) ""]
        ++ List.concat polygons ++ List.concat conflicts ++ [Close]).

(** 65-91: a copy of the vector of policies is sorted. *)
Definition axis_lines (a : Axis3) : run (list stmt) :=
  let y := on_axis (b_axes b) a in
  let less i j :=
    match nth_error (ax_policies y) i, nth_error (ax_policies y) j with
    | Some p, Some q => Qltb (p_coord p) (p_coord q)
    | _, _ => false
    end in
  let! policies := collect (policy_lines a) (srt _ less (seq 0 (List.length (ax_policies y)))) in
  let! intervals := collect (interval_lines a) (seq 0 (List.length (ax_segments y))) in
  let! meshlines := collect (meshline_lines a) (seq 0 (List.length (ax_lines y))) in
  let! colinear := collect (colinear_lines a) (seq 0 (List.length (on_axis (b_ce b) a))) in
  let! close := collect (close_lines a) (seq 0 (List.length (ax_conflicts y))) in
  Done ([Open ("Axis " ++ axis_string a)%string (Axis_name a) ""]
        ++ List.concat policies ++ List.concat intervals ++ List.concat meshlines ++ List.concat colinear ++ List.concat close
        ++ [Close]).

(** 43-97. *)
Definition plantuml : run (list stmt) :=
  let! planes := collect plane_lines all_planes in
  let! axes := collect axis_lines all_axes in
  Done ([Start] ++ List.concat planes ++ List.concat axes ++ [Finish]).
End Write.

(** ** The text *)

Section Text.
Context (ident : entity -> nat).
Local Open Scope string_scope.

Definition pin_text (q : pin) : string :=
  match q with Input => "_in" | Output => "_out" | Input_no n => "_in" ++ whole_string n end.
Definition name_text (n : name) : string :=
  match n with
  | Plane_name p => plane_string p
  | Axis_name a => axis_string a
  | Whole x => whole_string (ident x)
  | Pin_name x q => whole_string (ident x) ++ pin_text q
  end.
Definition quote : string := String (ascii_of_nat 34) "".
Definition newline : ascii := ascii_of_nat 10.
(** One line, without its end. *)
Definition stmt_text (l : stmt) : string :=
  match l with
  | Start => "@startuml"
  | Finish => "@enduml"
  | Open label n colour => "state " ++ quote ++ label ++ quote ++ " as " ++ name_text n ++ colour ++ " {"
  | Pin x q => "state " ++ quote ++ " " ++ quote ++ " as " ++ name_text (Pin_name x q)
               ++ (match q with Output => " <<outputPin>>" | _ => " <<inputPin>>" end)
  | Field x t => name_text (Whole x) ++ " : " ++ t
  | Arrow from style to rest => name_text from ++ style ++ name_text to ++ rest
  | Close => "}"
  end.
Fixpoint text (l : list stmt) : string :=
  match l with
  | [] => ""
  | s :: r => stmt_text s ++ String newline (text r)
  end.
End Text.
