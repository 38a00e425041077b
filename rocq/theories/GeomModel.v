(** Model of src/domain/geometrics: space, normal, point, bounding, segment,
    range, edge and polygon.

    Simplifications, for the whole file:
    - [Coord] and [double] are exact rationals (no rounding, infinity or NaN).
      [==] on [Coord] is the tolerance equality [coord_eqb] (coord.cpp 28-30),
      [<], [>], [<=], [>=] are exact (coord.cpp 38-55).
    - a [Segment] (a [Range] or an [Edge]) is the pair of its end points; the
      constant member [axis] is recomputed by [seg_axis].
    - [std::vector] is [list]; reading [front] or [back] of an empty vector is
      undefined behaviour and gives [Dangling] (ManagerModel.v).
    - not modelled: [angle] (edge.cpp 71-86) and [circle_to_points] (polygon.cpp
      215-230), which need trigonometry; [name]. *)
From Coq Require Import List Arith Bool QArith Qabs.
From Verif Require Import IntervalModel ManagerModel.
Import ListNotations.
Open Scope Q_scope.

(** space.hpp 16, 19 and 22. *)
Inductive Axis3 := AX | AY | AZ.
Inductive Plane := PYZ | PZX | PXY.
Inductive ViewAxis := VH | VV.

(** space.hpp 25-29: the table [Axes]. *)
Definition axes_table (p : Plane) (v : ViewAxis) : Axis3 :=
  match p, v with
  | PYZ, VH => AY | PYZ, VV => AZ
  | PZX, VH => AZ | PZX, VV => AX
  | PXY, VH => AX | PXY, VV => AY
  end.

(** space.cpp 24-50. *)
Definition view_of_axis (p : Plane) (a : Axis3) : option ViewAxis :=
  match p, a with
  | PYZ, AX => None | PYZ, AY => Some VH | PYZ, AZ => Some VV
  | PZX, AX => Some VV | PZX, AY => None | PZX, AZ => Some VH
  | PXY, AX => Some VH | PXY, AY => Some VV | PXY, AZ => None
  end.

(** space.cpp 53-72. *)
Definition axis_of_view (p : Plane) (v : ViewAxis) : Axis3 :=
  match v, p with
  | VH, PYZ => AY | VH, PZX => AZ | VH, PXY => AX
  | VV, PYZ => AZ | VV, PZX => AX | VV, PXY => AY
  end.

(** space.cpp 75-81. *)
Definition reverse_view (v : ViewAxis) : ViewAxis := match v with VH => VV | VV => VH end.

(** normal.hpp 14-22 and normal.cpp 14-25. *)
Inductive Normal := Nxmin | Nxmax | Nymin | Nymax | Nzmin | Nzmax | Nnone.

Definition reverse_normal (n : Normal) : Normal :=
  match n with
  | Nxmin => Nxmax | Nxmax => Nxmin
  | Nymin => Nymax | Nymax => Nymin
  | Nzmin => Nzmax | Nzmax => Nzmin
  | Nnone => Nnone
  end.

(** mesh/meshline_policy.cpp 49-64. *)
Definition cast_normal (n : Normal) : MNormal :=
  match n with
  | Nxmin | Nymin | Nzmin => NMIN
  | Nxmax | Nymax | Nzmax => NMAX
  | Nnone => NNONE
  end.

(** point.hpp, point.cpp 12-44. *)
Record point := mk_pt { px : Q; py : Q }.
Definition pt_sub (a b : point) : point := mk_pt (px a - px b) (py a - py b).
Definition pt_add (a b : point) : point := mk_pt (px a + px b) (py a + py b).
Definition pt_eqb (a b : point) : bool := coord_eqb (px a) (px b) && coord_eqb (py a) (py b).
Definition pt_mid (a b : point) : point := mk_pt (coord_mid (px a) (px b)) (coord_mid (py a) (py b)).

(** point.cpp 49-55. *)
Definition pt_coord (p : point) (v : ViewAxis) : Q := match v with VH => px p | VV => py p end.

(** std::max: the second argument if it is larger, else the first. *)
Definition qmax (a b : Q) : Q := if Qltb a b then b else a.

(** bounding.hpp: [Bounding1D] and [Bounding2D]. *)
Record box1 := mk_box1 { lo : Q; hi : Q }.
Record box := mk_box { xmin : Q; xmax : Q; ymin : Q; ymax : Q }.

(** bounding.cpp 18-20, 24-26, 30-33 and 37-40; [>=] is [Qle_bool] with the
    arguments swapped. *)
Definition overlap_coord (a : box1) (b : Q) : bool := Qle_bool (lo a) b && Qle_bool b (hi a).
Definition overlap1 (a b : box1) : bool := Qle_bool (qmax (lo a) (lo b)) (qmin (hi a) (hi b)).
Definition overlap2 (a b : box) : bool :=
  Qle_bool (qmax (xmin a) (xmin b)) (qmin (xmax a) (xmax b))
  && Qle_bool (qmax (ymin a) (ymin b)) (qmin (ymax a) (ymax b)).
Definition overlap2_strict (a b : box) : bool :=
  Qltb (qmax (xmin a) (xmin b)) (qmin (xmax a) (xmax b))
  && Qltb (qmax (ymin a) (ymin b)) (qmin (ymax a) (ymax b)).

(** bounding.cpp 43-49. *)
Definition box_side (v : ViewAxis) (b : box) : box1 :=
  match v with VH => mk_box1 (xmin b) (xmax b) | VV => mk_box1 (ymin b) (ymax b) end.

(** polygon.cpp 21-24 and 209-211. *)
Definition range_z (a b : Q) : box1 := mk_box1 (if Qltb a b then a else b) (if Qltb b a then a else b).
Definition overlap_z (a b : box1) : bool := Qle_bool (qmax (lo a) (lo b)) (qmin (hi a) (hi b)).

(** segment.hpp: [Segment::Axis], and the two end points. *)
Inductive SegAxis := SH | SV | SDIAG | SPOINT.
Record seg := mk_seg { s0 : point; s1 : point }.

(** segment.cpp 75-85; the comparisons with 0 are tolerance equalities. *)
Definition axis_of_vector (v : point) : SegAxis :=
  if coord_eqb (px v) 0 && coord_eqb (py v) 0 then SPOINT
  else if coord_eqb (px v) 0 then SV
  else if coord_eqb (py v) 0 then SH
  else SDIAG.
Definition seg_vec (s : seg) : point := pt_sub (s1 s) (s0 s).
Definition seg_axis (s : seg) : SegAxis := axis_of_vector (seg_vec s).

Definition segaxis_eqb (a b : SegAxis) : bool :=
  match a, b with
  | SH, SH | SV, SV | SDIAG, SDIAG | SPOINT, SPOINT => true
  | _, _ => false
  end.

(** segment.cpp 172-174. *)
Definition seg_mid (s : seg) : point := pt_mid (s0 s) (s1 s).

(** range.cpp 31-33, edge.cpp 59-67: either orientation. *)
Definition seg_eqb (a b : seg) : bool :=
  (pt_eqb (s0 a) (s0 b) && pt_eqb (s1 a) (s1 b)) || (pt_eqb (s0 a) (s1 b) && pt_eqb (s1 a) (s0 b)).

(** segment.cpp 219-238. *)
Definition axis_of_seg (p : Plane) (a : SegAxis) : option Axis3 :=
  match a, p with
  | SH, PYZ => Some AZ | SH, PZX => Some AX | SH, PXY => Some AY
  | SV, PYZ => Some AY | SV, PZX => Some AZ | SV, PXY => Some AX
  | _, _ => None
  end.

(** segment.cpp 241-247 and 250-256. *)
Definition view_of_segaxis (a : SegAxis) : option ViewAxis :=
  match a with SH => Some VH | SV => Some VV | _ => None end.
Definition segaxis_of_view (v : ViewAxis) : SegAxis := match v with VH => SH | VV => SV end.

(** segment.cpp 262-268. *)
Definition seg_coord (p : point) (a : SegAxis) : option Q :=
  match view_of_segaxis a with
  | Some v => Some (pt_coord p (reverse_view v))
  | None => None
  end.

(** segment.cpp 88-95. *)
Definition seg_bounding (a : seg) : box :=
  mk_box (if Qltb (px (s0 a)) (px (s1 a)) then px (s0 a) else px (s1 a))
         (if Qltb (px (s1 a)) (px (s0 a)) then px (s0 a) else px (s1 a))
         (if Qltb (py (s0 a)) (py (s1 a)) then py (s0 a) else py (s1 a))
         (if Qltb (py (s1 a)) (py (s0 a)) then py (s0 a) else py (s1 a)).

(** polygon.hpp: [Polygon::Rotation]. *)
Inductive Rotation := CW | CCW | COLINEAR.
Definition rotation_eqb (a b : Rotation) : bool :=
  match a, b with CW, CW | CCW, CCW | COLINEAR, COLINEAR => true | _, _ => false end.

(** polygon.cpp 68-89.  [sums first l] is the pair ([left_sum], [right_sum]) for
    the points [l], the successor of the last one being [first].  The order of
    the additions does not matter on exact rationals. *)
Fixpoint sums (first : point) (l : list point) : Q * Q :=
  match l with
  | [] => (0, 0)
  | p :: r =>
      let q := match r with [] => first | q :: _ => q end in
      let '(left_sum, right_sum) := sums first r in
      (px p * py q + left_sum, px q * py p + right_sum)
  end.

Definition detect_rotation (l : list point) : Rotation :=
  match l with
  | [] => COLINEAR
  | first :: _ =>
      let '(left_sum, right_sum) := sums first l in
      let area := (1 # 2) * (left_sum - right_sum) in
      if coord_eqb area 0 then COLINEAR else if Qltb 0 area then CCW else CW
  end.

(** segment.cpp 19-25.  A division by zero gives an infinity or NaN, which
    differs from everything. *)
Definition are_parallel (a b : seg) : bool :=
  let va := seg_vec a in
  let vb := seg_vec b in
  (segaxis_eqb (seg_axis a) SH && segaxis_eqb (seg_axis b) SH)
  || (segaxis_eqb (seg_axis a) SV && segaxis_eqb (seg_axis b) SV)
  || (if Qeq_bool (px va) 0 || Qeq_bool (px vb) 0 then false
      else coord_eqb (py va / px va) (py vb / px vb)).

(** relation.hpp. *)
Inductive SegSeg := APART | CROSSING | COLINEAR_ | OVERLAPPING.
Inductive SegPoint := POUT | PON.
Inductive PolyPoint := PP_IN | PP_ON | PP_OUT.

(** The condition on one coordinate, segment.cpp 50-51 and 52-53. *)
Definition sides_touch (a0 a1 b0 b1 : Q) : bool :=
  (Qle_bool b0 a0 && Qle_bool a0 b1) || (Qle_bool b0 a1 && Qle_bool a1 b1)
  || (Qle_bool a0 b0 && Qle_bool b0 a1) || (Qle_bool a0 b1 && Qle_bool b1 a1).

(** segment.cpp 35-62. *)
Definition relation_seg (self other : seg) : SegSeg :=
  let r1 := detect_rotation [s0 self; s1 self; s0 other] in
  let r2 := detect_rotation [s0 self; s1 self; s1 other] in
  let r3 := detect_rotation [s0 other; s1 other; s0 self] in
  let r4 := detect_rotation [s0 other; s1 other; s1 self] in
  if rotation_eqb r1 COLINEAR && rotation_eqb r2 COLINEAR
     && rotation_eqb r3 COLINEAR && rotation_eqb r4 COLINEAR then
    let a := seg_bounding other in
    let b := seg_bounding self in
    if sides_touch (xmin a) (xmax a) (xmin b) (xmax b) && sides_touch (ymin a) (ymax a) (ymin b) (ymax b)
    then OVERLAPPING else COLINEAR_
  else if negb (rotation_eqb r1 r2) && negb (rotation_eqb r3 r4) then CROSSING
  else APART.

(** segment.cpp 65-72. *)
Definition relation_point (s : seg) (p : point) : SegPoint :=
  if rotation_eqb (detect_rotation [s0 s; s1 s; p]) COLINEAR
     && (Qle_bool (px p) (qmax (px (s0 s)) (px (s1 s))) && Qle_bool (qmin (px (s0 s)) (px (s1 s))) (px p)
         && Qle_bool (py p) (qmax (py (s0 s)) (py (s1 s))) && Qle_bool (qmin (py (s0 s)) (py (s1 s))) (py p))
  then PON else POUT.

(** segment.cpp 105-129; the test [div != 0] is on doubles, hence exact. *)
Definition intersection (a b : seg) : option point :=
  match seg_axis a, seg_axis b with
  | SH, SV => Some (mk_pt (px (s0 b)) (py (s0 a)))
  | SV, SH => Some (mk_pt (px (s0 a)) (py (s0 b)))
  | SDIAG, _ | _, SDIAG =>
      let va := seg_vec a in
      let vb := seg_vec b in
      let div := px va * py vb - py va * px vb in
      if Qeq_bool div 0 then None else
        let m := (px va * py (s0 a) - px va * py (s0 b) - py va * px (s0 a) + py va * px (s0 b)) / div in
        if Qle_bool 0 m && Qle_bool m 1
        then Some (pt_add (s0 b) (mk_pt (m * px vb) (m * py vb)))
        else None
  | _, _ => None
  end.

(** One coordinate of [merge], segment.cpp 138-150 and 152-164; the upper end
    keeps its initial value 0 if neither test succeeds. *)
Definition merge_side (a0 a1 b0 b1 : Q) : option (Q * Q) :=
  let upper :=
    if Qle_bool b0 a1 && Qle_bool a1 b1 then b1
    else if Qle_bool a0 b1 && Qle_bool b1 a1 then a1 else 0 in
  if Qle_bool b0 a0 && Qle_bool a0 b1 then Some (b0, upper)
  else if Qle_bool a0 b0 && Qle_bool b0 a1 then Some (a0, upper)
  else None.

(** One coordinate of [overlap], segment.cpp 185-197 and 199-211. *)
Definition overlap_side (a0 a1 b0 b1 : Q) : option (Q * Q) :=
  let upper :=
    if Qle_bool b0 a1 && Qle_bool a1 b1 then a1
    else if Qle_bool a0 b1 && Qle_bool b1 a1 then b1 else 0 in
  if Qle_bool b0 a0 && Qle_bool a0 b1 then Some (a0, upper)
  else if Qle_bool a0 b0 && Qle_bool b0 a1 then Some (b0, upper)
  else None.

(** segment.cpp 133-169 and 180-216. *)
Definition combine_segs (side : Q -> Q -> Q -> Q -> option (Q * Q)) (a b : seg) : option seg :=
  if are_parallel a b then
    let ab := seg_bounding a in
    let bb := seg_bounding b in
    match side (xmin ab) (xmax ab) (xmin bb) (xmax bb) with
    | None => None
    | Some (x0, x1) =>
        match side (ymin ab) (ymax ab) (ymin bb) (ymax bb) with
        | None => None
        | Some (y0, y1) => Some (mk_seg (mk_pt x0 y0) (mk_pt x1 y1))
        end
    end
  else None.
Definition merge (a b : seg) : option seg := combine_segs merge_side a b.
Definition overlap (a b : seg) : option seg := combine_segs overlap_side a b.

(** edge.hpp: [Edge::Direction]; edge.cpp 22-46.  [None]: the constructor leaves
    [direction] uninitialised. *)
Inductive Direction := Dxmin | Dxmax | Dymin | Dymax | Dnone.
Definition edge_direction (s : seg) : option Direction :=
  match seg_axis s with
  | SH => if Qltb 0 (px (seg_vec s)) then Some Dxmax
          else if Qltb (px (seg_vec s)) 0 then Some Dxmin else None
  | SV => if Qltb 0 (py (seg_vec s)) then Some Dymax
          else if Qltb (py (seg_vec s)) 0 then Some Dymin else None
  | _ => Some Dnone
  end.

(** polygon.cpp 125-151: the normal of one edge; reading an uninitialised
    direction is undefined behaviour.  A COLINEAR polygon keeps the value NONE of
    the constructor (edge.cpp 30) and reads no direction. *)
Definition edge_normal (r : Rotation) (s : seg) : run Normal :=
  match r, edge_direction s with
  | COLINEAR, _ => Done Nnone
  | _, None => Dangling
  | CW, Some d => Done match d with Dxmin => Nymin | Dxmax => Nymax | Dymin => Nxmax | Dymax => Nxmin | Dnone => Nnone end
  | CCW, Some d => Done match d with Dxmin => Nymax | Dxmax => Nymin | Dymin => Nxmin | Dymax => Nxmax | Dnone => Nnone end
  end.

(** polygon.cpp 52-55. *)
Fixpoint edges_from (prev : point) (l : list point) : list seg :=
  match l with
  | [] => []
  | p :: r => mk_seg prev p :: edges_from p r
  end.

(** polygon.cpp 48-59. *)
Definition detect_edges (l : list point) : run (list seg) :=
  match l with
  | [] => Dangling
  | p :: _ => Done (edges_from (last l p) l)
  end.

(** polygon.cpp 103-108. *)
Fixpoint bounding_loop (b : box) (l : list point) : box :=
  match l with
  | [] => b
  | p :: r =>
      bounding_loop
        (mk_box (if Qltb (px p) (xmin b) then px p else xmin b)
                (if Qltb (xmax b) (px p) then px p else xmax b)
                (if Qltb (py p) (ymin b) then py p else ymin b)
                (if Qltb (ymax b) (py p) then py p else ymax b)) r
  end.

(** polygon.cpp 96-111. *)
Definition detect_bounding (l : list point) : run box :=
  match l with
  | [] => Dangling
  | p :: _ => Done (bounding_loop (mk_box (px p) (px p) (py p) (py p)) l)
  end.

(** The vector [to_try] of polygon.cpp 160-166 and 175-176, entry [n]; the
    counter does not wrap around. *)
Definition ray_end (b : box) (p : point) (n : nat) : point :=
  match n with
  | 0%nat => mk_pt (xmin b - 1) (py p)
  | 1%nat => mk_pt (xmax b + 1) (py p)
  | 2%nat => mk_pt (px p) (ymin b - 1)
  | 3%nat => mk_pt (px p) (ymax b + 1)
  | _ => mk_pt (xmax b + 1) (py p + inject_Z (Z.of_nat n))
  end.

(** polygon.cpp 180-187: [Some true] is a vertex on the ray (retry), [None] a
    vertex equal to the point. *)
Fixpoint vertex_on_ray (ray : seg) (p : point) (l : list point) : option bool :=
  match l with
  | [] => Some false
  | v :: r =>
      if pt_eqb v p then None
      else match relation_point ray v with PON => Some true | POUT => vertex_on_ray ray p r end
  end.

(** polygon.cpp 191-198: [None] is an edge through the point. *)
Fixpoint count_crossings (ray : seg) (p : point) (l : list seg) (count : nat) : option nat :=
  match l with
  | [] => Some count
  | e :: r =>
      match relation_point e p with
      | PON => None
      | POUT =>
          count_crossings ray p r
            match relation_seg e ray with CROSSING => Datatypes.S count | _ => count end
      end
  end.

(** polygon.cpp 172-199, starting with ray [n]. *)
Fixpoint ray_loop (fuel : nat) (b : box) (points : list point) (edges : list seg) (p : point) (n : nat)
  : run PolyPoint :=
  match fuel with
  | O => Running
  | Datatypes.S fuel =>
      let ray := mk_seg p (ray_end b p n) in
      match vertex_on_ray ray p points with
      | None => Done PP_ON
      | Some true => ray_loop fuel b points edges p (Datatypes.S n)
      | Some false =>
          match count_crossings ray p edges 0 with
          | None => Done PP_ON
          | Some count => Done (if Nat.odd count then PP_IN else PP_OUT)
          end
      end
  end.

(** polygon.cpp 159-205, of the polygon with the points [l]. *)
Definition relation_polygon (fuel : nat) (l : list point) (p : point) : run PolyPoint :=
  let! b := detect_bounding l in
  let! e := detect_edges l in
  ray_loop fuel b l e p 0.

(** board.cpp 112-120: the points of a box given by two opposite corners. *)
Definition box_points (p1 p3 : point) : list point :=
  [mk_pt (px p1) (py p1); mk_pt (px p1) (py p3); mk_pt (px p3) (py p3); mk_pt (px p3) (py p1)].

(** polygon.cpp 27-42: the edges of a polygon with their normals. *)
Fixpoint with_normals (r : Rotation) (l : list seg) : run (list (seg * Normal)) :=
  match l with
  | [] => Done []
  | e :: rest =>
      let! n := edge_normal r e in
      let! tail := with_normals r rest in
      Done ((e, n) :: tail)
  end.
Definition polygon_edges (l : list point) : run (list (seg * Normal)) :=
  let! e := detect_edges l in
  with_normals (detect_rotation l) e.
