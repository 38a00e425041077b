(** Model of src/infra/parsers (parser_from_csx.cpp, csxcad_layer/point_3d.cpp), of
    src/infra/serializers/serializer_to_csx.cpp, of src/domain/global.hpp and of
    src/ui/qt/edit/edit_model_global.cpp.

    Simplifications, for the whole file:
    - those of GeomModel.v and BoardModel.v;
    - the input file is the tree pugixml makes of it, the output file the tree given to
      pugixml: reading and writing XML itself is left out.  [text] is the value of the
      first text child of an element;
    - a null [pugi::xml_node] answers as a nameless empty one, see [or_null];
    - numbers in the input are decimal: hexadecimal numbers, infinities and NaN are left
      out, and so is rounding to the nearest double;
    - [circle_to_points] (polygon.cpp 215-230, sine and cosine) is a parameter [circle];
    - [size_max] is [numeric_limits<size_t>::max()], [uint_max] that of [unsigned int];
    - names, ids, colours, warnings and the progress bar are left out; an error is
      [None], its message is left out. *)
From Coq Require Import List Arith Bool QArith Qabs ZArith NArith Qround String Ascii.
From Verif Require Import IntervalModel ManagerModel GeomModel BoardModel.
Import ListNotations.
Open Scope Q_scope.

(** ** XML: pugixml, not in /repo *)

Inductive xml := Node (name : string) (attributes : list (string * string)) (text : string) (children : list xml).
Definition name_of (n : xml) : string := let (x, _, _, _) := n in x.
Definition attributes_of (n : xml) : list (string * string) := let (_, x, _, _) := n in x.
Definition text_of (n : xml) : string := let (_, _, x, _) := n in x.
Definition children_of (n : xml) : list xml := let (_, _, _, x) := n in x.

(** The null node, and a node that may be null. *)
Definition or_null (n : option xml) : xml := match n with Some n => n | None => Node "" [] "" [] end.
Definition is_named (x : string) (n : xml) : bool := String.eqb (name_of n) x.
(** [children(name)] and [child(name)]: all of that name, the first one. *)
Definition named (x : string) (l : list xml) : list xml := filter (is_named x) l.
Definition child (x : string) (n : xml) : xml := or_null (hd_error (named x (children_of n))).
Definition child_value (x : string) (n : xml) : string := text_of (child x n).
Definition attribute (x : string) (n : xml) : option string :=
  option_map snd (find (fun a => String.eqb (fst a) x) (attributes_of n)).

(** [select_nodes] of a path of names from the document [doc]. *)
Fixpoint select (path : list string) (doc : list xml) : list xml :=
  match path with
  | [] => []
  | [x] => named x doc
  | x :: r => select r (flat_map children_of (named x doc))
  end.

(** ** Numbers *)

Definition digit_of (c : ascii) : option Z :=
  let n := Z.of_N (N_of_ascii c) in
  if ((48 <=? n) && (n <=? 57))%Z then Some (n - 48)%Z else None.
Fixpoint take_digits (s : string) : list Z * string :=
  match s with
  | EmptyString => ([], s)
  | String c r => match digit_of c with
                  | Some d => let (l, t) := take_digits r in (d :: l, t)
                  | None => ([], s)
                  end
  end.
Definition value_of (l : list Z) : Z := fold_left (fun a d => (10 * a + d)%Z) l 0%Z.

(** A sign other than those given in [plus] leaves the string as it is. *)
Definition take_sign (plus : bool) (s : string) : bool * string :=
  match s with
  | String "-" r => (true, r)
  | String "+" r => if plus then (false, r) else (false, s)
  | _ => (false, s)
  end.
Definition signed (neg : bool) (x : Q) : Q := if neg then - x else x.

(** The exponent, if there is one. *)
Definition take_exponent (s : string) : Z :=
  match s with
  | String c r =>
      if Ascii.eqb c "e" || Ascii.eqb c "E" then
        let (neg, r) := take_sign true r in
        let v := value_of (fst (take_digits r)) in
        if neg then (- v)%Z else v
      else 0%Z
  | EmptyString => 0%Z
  end.
(** Digits, a dot, digits, an exponent; what follows is ignored.  [None] if there is no
    digit. *)
Definition unsigned_decimal (s : string) : option Q :=
  let (whole, r) := take_digits s in
  let (fraction, r) := match r with
                       | String "." t => take_digits t
                       | _ => ([], r)
                       end in
  match app whole fraction with
  | [] => None
  | l => Some (inject_Z (value_of l) * Qpower 10 (take_exponent r - Z.of_nat (List.length fraction)))
  end.

(** std::from_chars for a double: neither space nor plus before the number. *)
Definition from_chars (s : string) : option Q :=
  let (neg, r) := take_sign false s in option_map (signed neg) (unsigned_decimal r).

Definition is_space (c : ascii) : bool :=
  Ascii.eqb c " " || Ascii.eqb c "009" || Ascii.eqb c "010" || Ascii.eqb c "013".
Fixpoint skip_spaces (s : string) : string :=
  match s with String c r => if is_space c then skip_spaces r else s | EmptyString => s end.

(** [as_double] (strtod): 0 if there is no number; [otherwise] if there is no attribute. *)
Definition to_double (s : string) : Q :=
  let (neg, r) := take_sign true (skip_spaces s) in
  match unsigned_decimal r with Some x => signed neg x | None => 0 end.
Definition as_double (x : string) (otherwise : Q) (n : xml) : Q :=
  match attribute x n with Some s => to_double s | None => otherwise end.

(** [as_uint]: the digits, up to [uint_max]; a negative number gives 0. *)
Definition to_uint (uint_max : nat) (s : string) : nat :=
  let (neg, r) := take_sign true (skip_spaces s) in
  if neg then 0%nat else Nat.min uint_max (Z.to_nat (value_of (fst (take_digits r)))).
Definition as_uint (uint_max : nat) (x : string) (otherwise : nat) (n : xml) : nat :=
  match attribute x n with Some s => to_uint uint_max s | None => otherwise end.

(** std::views::split with a comma: no part at all in an empty string. *)
Fixpoint split_loop (s : string) (part : string) : list string :=
  match s with
  | EmptyString => [part]
  | String c r => if Ascii.eqb c "," then part :: split_loop r "" else split_loop r (part ++ String c "")
  end.
Definition split (s : string) : list string := match s with EmptyString => [] | _ => split_loop s "" end.

(** ** Parameters *)

(** global.hpp 20-32. *)
Record domain_params := mk_domain_params
  { has_grid_already : bool; proximity_limit : Q; smoothness : Q; lmin : nat; dmax : Q;
    diagonal_lmin : nat; diagonal_dmax : Q; minimal_angle : Q; input_fixed : list (Axis3 * Q) }.
Definition default_params : domain_params :=
  mk_domain_params false 1 2 2 (5 # 2) 2 (1 # 5) 20 [].
(** What the rest of the model reads of them. *)
Definition params_of (d : domain_params) : params := mk_params (proximity_limit d) (smoothness d) (lmin d) (dmax d).
Definition diag_params_of (d : domain_params) : diag_params := mk_diag_params (diagonal_dmax d) (minimal_angle d).

(** parser_from_csx.hpp 27-33. *)
Record parser_params := mk_parser_params
  { with_yz : bool; with_zx : bool; with_xy : bool; read_oemsh_params : bool; keep_old_mesh : bool }.

(** Board::Builder (board.hpp 51-72) and the parameters read so far
    (parser_from_csx.cpp 78-79). *)
Record builder := mk_builder { bd_board : board; bd_fixed : space (list Q); bd_params : domain_params }.

(** board.cpp 75-77. *)
Definition set_background (m : option Mat) (s : builder) : builder :=
  let b := bd_board s in
  mk_builder (mk_board (b_polygons b) (b_edges b) (b_angles b) m (b_ce b) (b_eip b) (b_zones b) (b_axes b))
    (bd_fixed s) (bd_params s).
(** board.cpp 81-99: the request; what it does is [add_fixed_policy]. *)
Definition add_fixed (ax : Axis3) (x : Q) (s : builder) : builder :=
  mk_builder (bd_board s) (set_axis (bd_fixed s) ax (on_axis (bd_fixed s) ax ++ [x])) (bd_params s).
(** board.cpp 102-109. *)
Definition add_shape (p : Plane) (m : option Mat) (priority : nat) (z : box1) (l : list point) (s : builder) : run builder :=
  let! b := add_polygon p m priority z l (bd_board s) in
  Done (mk_builder b (bd_fixed s) (bd_params s)).
(** board.cpp 112-120. *)
Definition add_box (p : Plane) (m : option Mat) (priority : nat) (z : box1) (p1 p3 : point) (s : builder) : run builder :=
  add_shape p m priority z (box_points p1 p3) s.

Definition set_params (d : domain_params) (s : builder) : builder := mk_builder (bd_board s) (bd_fixed s) d.
Definition when (c : bool) (f : builder -> run builder) (s : builder) : run builder := if c then f s else Done s.

(** ** Reading: parser_from_csx.cpp *)

(** 37-54. *)
Definition to_axis (normdir : nat) : option Axis3 :=
  match normdir with 0 => Some AX | 1 => Some AY | 2 => Some AZ | _ => None end%nat.
Definition to_plane (normdir : nat) : option Plane :=
  match normdir with 0 => Some PYZ | 1 => Some PZX | 2 => Some PXY | _ => None end%nat.

(** 67-71. *)
Definition parse_priority (uint_max size_max : nat) (n : xml) (m : Mat) : nat :=
  match m with PORT => size_max | _ => as_uint uint_max "Priority" 0 n end.

(** 140-148 and 168-176: the lines of one axis; [None] at the first one that is not a
    number. *)
Fixpoint parse_lines (unit : nat) (ax : Axis3) (l : list string) (s : builder) : option builder :=
  match l with
  | [] => Some s
  | part :: r =>
      match from_chars part with
      | Some x => parse_lines unit ax r (add_fixed ax (inject_Z (Z.of_nat unit) * x) s)
      | None => None
      end
  end.
Definition parse_axes (unit : nat) (n : xml) (s : builder) : option builder :=
  match parse_lines unit AX (split (child_value "XLines" n)) s with
  | Some s =>
      match parse_lines unit AY (split (child_value "YLines" n)) s with
      | Some s => parse_lines unit AZ (split (child_value "ZLines" n)) s
      | None => None
      end
  | None => None
  end.

(** 126-150. *)
Definition parse_oemsh (uint_max : nat) (n : xml) (s : builder) : option builder :=
  let global := child "GlobalParams" n in
  let d := bd_params s in
  let d := mk_domain_params (has_grid_already d)
    (as_double "ProximityLimit" (proximity_limit d) global)
    (as_double "Smoothness" (smoothness d) global)
    (as_uint uint_max "lmin" (lmin d) global)
    (as_double "dmax" (dmax d) global)
    (diagonal_lmin d) (diagonal_dmax d) (minimal_angle d) (input_fixed d) in
  let fixed := child "FixedMeshlines" n in
  parse_axes (as_uint uint_max "DeltaUnit" 1 fixed) fixed (set_params d s).

(** 153-184. *)
Definition parse_grid (uint_max : nat) (pp : parser_params) (n : xml) (s : builder) : option builder :=
  if Nat.eqb (as_uint uint_max "CoordSystem" 0 n) 0 then
    let unit := as_uint uint_max "DeltaUnit" 1 n in
    let grid := child "RectilinearGrid" n in
    let d := bd_params s in
    let d := mk_domain_params
      (existsb (fun x => negb (String.eqb (child_value x grid) "")) ["XLines"; "YLines"; "ZLines"]%string)
      (proximity_limit d) (smoothness d) (lmin d) (dmax d) (diagonal_lmin d) (diagonal_dmax d) (minimal_angle d)
      (input_fixed d) in
    let s := set_params d s in
    if keep_old_mesh pp then parse_axes unit grid s else Some s
  else None.

(** 202-209; the defaults are those of material.hpp 44-46. *)
Definition material_of (n : xml) : Mat :=
  deduce_type (as_double "Epsilon" 1 n) (as_double "Mue" 1 n) (as_double "Kappa" 0 n).

(** 187-247; [None] is the null pointer. *)
Definition parse_property (n : xml) : option Mat :=
  let is x := String.eqb (name_of n) x in
  if is "BackgroundMaterial"%string then Some (material_of n)
  else if is "Material"%string || is "DispersiveMaterial"%string || is "DebyeMaterial"%string || is "LorentzMaterial"%string
    then Some (material_of (child "Property" n))
  else if is "Metal"%string then Some CONDUCTOR
  else if is "ConductingSheet"%string then Some CONDUCTOR
  else if is "LumpedElement"%string || is "Excitation"%string || is "ProbeBox"%string then Some PORT
  else None.

(** csxcad_layer/point_3d.hpp 16-24. *)
Record point3 := mk_point3 { x3 : Q; y3 : Q; z3 : Q }.
Definition point3_of (n : xml) : point3 := mk_point3 (as_double "X" 0 n) (as_double "Y" 0 n) (as_double "Z" 0 n).
(** 352-355: a vertex of a polygon. *)
Definition vertex_of (n : xml) : point := mk_pt (as_double "X1" 0 n) (as_double "X2" 0 n).
(** 310-315 and 332-337. *)
Definition add_box3 (pp : parser_params) (m : Mat) (priority : nat) (p1 p2 : point3) (s : builder) : run builder :=
  let! s := when (with_yz pp) (add_box PYZ (Some m) priority (range_z (x3 p1) (x3 p2))
    (mk_pt (y3 p1) (z3 p1)) (mk_pt (y3 p2) (z3 p2))) s in
  let! s := when (with_zx pp) (add_box PZX (Some m) priority (range_z (y3 p1) (y3 p2))
    (mk_pt (z3 p1) (x3 p1)) (mk_pt (z3 p2) (x3 p2))) s in
  when (with_xy pp) (add_box PXY (Some m) priority (range_z (z3 p1) (z3 p2))
    (mk_pt (x3 p1) (y3 p1)) (mk_pt (x3 p2) (y3 p2))) s.

(** 298-317. *)
Definition parse_box (pp : parser_params) (n : xml) (m : Mat) (priority : nat) (s : builder) : run builder :=
  add_box3 pp m priority (point3_of (child "P1" n)) (point3_of (child "P2" n)) s.

(** 320-338; [zip] stops with the shorter list. *)
Definition parse_multibox (pp : parser_params) (n : xml) (m : Mat) (priority : nat) (s : builder) : run builder :=
  for_each (fun s x => add_box3 pp m priority (point3_of (fst x)) (point3_of (snd x)) s)
    (combine (named "StartP" (children_of n)) (named "EndP" (children_of n))) s.

(** 341-420.  [x == 0] is exact: [length] is a double. *)
Definition parse_linpoly (uint_max : nat) (pp : parser_params) (n : xml) (m : Mat) (priority : nat) (s : builder) : run builder :=
  let elevation := as_double "Elevation" 0 n in
  let len := as_double "Length" 0 n in
  match to_plane (as_uint uint_max "NormDir" 0 n) with
  | None => Done s
  | Some p =>
      let points := map vertex_of (named "Vertex" (children_of n)) in
      let! b := detect_bounding points in
      let! s := add_shape p (Some m) priority (range_z elevation (elevation + len)) points s in
      if Qeq_bool len 0 then Done s else
      match p with
      | PYZ =>
          let! s := when (with_zx pp) (add_box PZX (Some m) priority (range_z (xmin b) (xmax b))
            (mk_pt (ymin b) elevation) (mk_pt (ymax b) (elevation + len))) s in
          when (with_xy pp) (add_box PXY (Some m) priority (range_z (ymin b) (ymax b))
            (mk_pt elevation (xmin b)) (mk_pt (elevation + len) (xmax b))) s
      | PZX =>
          let! s := when (with_xy pp) (add_box PXY (Some m) priority (range_z (xmin b) (xmax b))
            (mk_pt (ymin b) elevation) (mk_pt (ymax b) (elevation + len))) s in
          when (with_yz pp) (add_box PYZ (Some m) priority (range_z (ymin b) (ymax b))
            (mk_pt elevation (xmin b)) (mk_pt (elevation + len) (xmax b))) s
      | PXY =>
          let! s := when (with_yz pp) (add_box PYZ (Some m) priority (range_z (xmin b) (xmax b))
            (mk_pt (ymin b) elevation) (mk_pt (ymax b) (elevation + len))) s in
          when (with_zx pp) (add_box PZX (Some m) priority (range_z (ymin b) (ymax b))
            (mk_pt elevation (xmin b)) (mk_pt (elevation + len) (xmax b))) s
      end
  end.

(** 423-442. *)
Definition parse_polygon (uint_max : nat) (n : xml) (m : Mat) (priority : nat) (s : builder) : run builder :=
  let elevation := as_double "Elevation" 0 n in
  let normdir := as_uint uint_max "NormDir" 0 n in
  match to_plane normdir, to_axis normdir with
  | Some p, Some ax =>
      let points := map vertex_of (named "Vertex" (children_of n)) in
      let! _ := detect_bounding points in
      let! s := add_shape p (Some m) priority (range_z elevation elevation) points s in
      Done (add_fixed ax elevation s)
  | _, _ => Done s
  end.

(** 445-461. *)
Definition parse_sphere (circle : point -> Q -> list point) (pp : parser_params) (n : xml) (m : Mat) (priority : nat)
    (s : builder) : run builder :=
  let radius := as_double "Radius" 0 n in
  let c := point3_of (child "Center" n) in
  let! s := when (with_yz pp) (add_shape PYZ (Some m) priority (range_z (x3 c - radius) (x3 c + radius))
    (circle (mk_pt (y3 c) (z3 c)) radius)) s in
  let! s := when (with_zx pp) (add_shape PZX (Some m) priority (range_z (y3 c - radius) (y3 c + radius))
    (circle (mk_pt (z3 c) (x3 c)) radius)) s in
  when (with_xy pp) (add_shape PXY (Some m) priority (range_z (z3 c - radius) (z3 c + radius))
    (circle (mk_pt (x3 c) (y3 c)) radius)) s.

(** 464-527; [==] is the tolerance equality: the coordinates are [Coord]s. *)
Definition parse_cylinder (circle : point -> Q -> list point) (pp : parser_params) (n : xml) (m : Mat) (priority : nat)
    (s : builder) : run builder :=
  let radius := as_double "Radius" 0 n in
  let p1 := point3_of (child "P1" n) in
  let p2 := point3_of (child "P2" n) in
  if coord_eqb (y3 p1) (y3 p2) && coord_eqb (z3 p1) (z3 p2) then
    let! s := when (with_yz pp) (add_shape PYZ (Some m) priority (range_z (x3 p1) (x3 p2))
      (circle (mk_pt (y3 p1) (z3 p1)) radius)) s in
    let! s := when (with_zx pp) (add_box PZX (Some m) priority (range_z (y3 p1) (y3 p2))
      (mk_pt (z3 p1 - radius / 2) (x3 p1)) (mk_pt (z3 p2 + radius / 2) (x3 p2))) s in
    when (with_xy pp) (add_box PXY (Some m) priority (range_z (z3 p1) (z3 p2))
      (mk_pt (x3 p1) (y3 p1 - radius / 2)) (mk_pt (x3 p2) (y3 p2 + radius / 2))) s
  else if coord_eqb (z3 p1) (z3 p2) && coord_eqb (x3 p1) (x3 p2) then
    let! s := when (with_zx pp) (add_shape PZX (Some m) priority (range_z (y3 p1) (y3 p2))
      (circle (mk_pt (z3 p1) (x3 p1)) radius)) s in
    let! s := when (with_xy pp) (add_box PXY (Some m) priority (range_z (z3 p1) (z3 p2))
      (mk_pt (x3 p1 - radius / 2) (y3 p1)) (mk_pt (x3 p2 + radius / 2) (y3 p2))) s in
    when (with_yz pp) (add_box PYZ (Some m) priority (range_z (x3 p1) (x3 p2))
      (mk_pt (y3 p1) (z3 p1 - radius / 2)) (mk_pt (y3 p2) (z3 p2 + radius / 2))) s
  else if coord_eqb (x3 p1) (x3 p2) && coord_eqb (y3 p1) (y3 p2) then
    let! s := when (with_xy pp) (add_shape PXY (Some m) priority (range_z (z3 p1) (z3 p2))
      (circle (mk_pt (x3 p1) (y3 p1)) radius)) s in
    let! s := when (with_yz pp) (add_box PYZ (Some m) priority (range_z (x3 p1) (x3 p2))
      (mk_pt (y3 p1 - radius / 2) (z3 p1)) (mk_pt (y3 p2 + radius / 2) (z3 p2))) s in
    when (with_zx pp) (add_box PZX (Some m) priority (range_z (y3 p1) (y3 p2))
      (mk_pt (z3 p1) (x3 p1 - radius / 2)) (mk_pt (z3 p2) (x3 p2 + radius / 2))) s
  else Done s.

(** 530-553. *)
Definition parse_point (pp : parser_params) (n : xml) (s : builder) : builder :=
  let p := point3_of n in
  let s := if with_yz pp then add_fixed AZ (z3 p) (add_fixed AY (y3 p) s) else s in
  let s := if with_zx pp then add_fixed AX (x3 p) (add_fixed AZ (z3 p) s) else s in
  if with_xy pp then add_fixed AY (y3 p) (add_fixed AX (x3 p) s) else s.

(** std::ranges::min and max of a range with a comparison; undefined if it is empty. *)
Definition ranges_min {A : Type} (comp : A -> A -> bool) (l : list A) : run A :=
  match l with [] => Dangling | x :: r => Done (fold_left (fun best y => if comp y best then y else best) r x) end.
Definition ranges_max {A : Type} (comp : A -> A -> bool) (l : list A) : run A :=
  match l with [] => Dangling | x :: r => Done (fold_left (fun best y => if comp best y then y else best) r x) end.

(** 556-621; the second comparison is [>], as in the code.  [drop(1)], [reverse],
    [drop(1)] of the vertices come after them all. *)
Definition curve_range (f : point3 -> Q) (l : list point3) : run box1 :=
  let! a := ranges_min (fun a b => Qltb (f a) (f b)) l in
  let! b := ranges_max (fun a b => Qltb (f b) (f a)) l in
  Done (range_z (f a) (f b)).
Definition curve_points (f : point3 -> point) (l : list point3) : list point :=
  map f l ++ map f (tl (rev (tl l))).
Definition parse_curve (size_max : nat) (pp : parser_params) (n : xml) (m : Mat) (s : builder) : run builder :=
  let l := map point3_of (named "Vertex" (children_of n)) in
  let! s := when (with_yz pp) (fun s =>
    let! z := curve_range x3 l in
    add_shape PYZ (Some m) size_max z (curve_points (fun v => mk_pt (y3 v) (z3 v)) l) s) s in
  let! s := when (with_zx pp) (fun s =>
    let! z := curve_range y3 l in
    add_shape PZX (Some m) size_max z (curve_points (fun v => mk_pt (z3 v) (x3 v)) l) s) s in
  when (with_xy pp) (fun s =>
    let! z := curve_range z3 l in
    add_shape PXY (Some m) size_max z (curve_points (fun v => mk_pt (x3 v) (y3 v)) l) s) s.

(** 250-295; transformed primitives are skipped. *)
Definition parse_primitive (uint_max size_max : nat) (circle : point -> Q -> list point) (pp : parser_params)
    (m : Mat) (s : builder) (n : xml) : run builder :=
  match children_of (child "Transformation" n) with
  | _ :: _ => Done s
  | [] =>
      let is x := String.eqb (name_of n) x in
      let priority := parse_priority uint_max size_max n m in
      if is "Box"%string then parse_box pp n m priority s
      else if is "MultiBox"%string then parse_multibox pp n m priority s
      else if is "LinPoly"%string then parse_linpoly uint_max pp n m priority s
      else if is "Polygon"%string then parse_polygon uint_max n m priority s
      else if is "Sphere"%string then parse_sphere circle pp n m priority s
      else if is "Cylinder"%string then parse_cylinder circle pp n m priority s
      else if is "Point"%string then Done (parse_point pp n s)
      else if is "Curve"%string then parse_curve size_max pp n m s
      else Done s
  end.

(** 713-724. *)
Definition parse_properties (uint_max size_max : nat) (circle : point -> Q -> list point) (pp : parser_params)
    (l : list xml) (s : builder) : run builder :=
  for_each (fun s n =>
    match parse_property n with
    | Some m => for_each (parse_primitive uint_max size_max circle pp m) (children_of (child "Primitives" n)) s
    | None => Done s
    end) l s.

Definition new_builder : builder := mk_builder (empty_board None) (mk_space [] [] []) default_params.

(** 663-748. *)
Definition parse (uint_max size_max : nat) (circle : point -> Q -> list point) (pp : parser_params) (doc : list xml) :
    run (option builder) :=
  match (if read_oemsh_params pp then parse_oemsh uint_max (or_null (hd_error (select ["OpenEMSH"]%string doc))) new_builder
         else Some new_builder) with
  | None => Done None
  | Some s =>
      let root := match select ["openEMS"; "ContinuousStructure"]%string doc with
                  | _ :: _ => Some ["openEMS"; "ContinuousStructure"]%string
                  | [] => match select ["ContinuousStructure"]%string doc with
                          | _ :: _ => Some ["ContinuousStructure"]%string
                          | [] => None
                          end
                  end in
      match root with
      | None => Done None
      | Some path =>
          let csx := or_null (hd_error (select path doc)) in
          match parse_grid uint_max pp csx s with
          | None => Done None
          | Some s =>
              let s := set_background (parse_property (child "BackgroundMaterial" csx)) s in
              let properties := or_null (hd_error (select (path ++ ["Properties"]%string) doc)) in
              let! s := parse_properties uint_max size_max circle pp (children_of properties) s in
              Done (Some s)
          end
      end
  end.

(** 636-644: the options of the command line change the parameters, then those about
    fixed lines are turned into requests. *)
Definition parse_with (uint_max size_max : nat) (circle : point -> Q -> list point) (pp : parser_params)
    (override : domain_params -> domain_params) (doc : list xml) : run (option builder) :=
  let! s := parse uint_max size_max circle pp doc in
  match s with
  | None => Done None
  | Some s =>
      let d := override (bd_params s) in
      let s := fold_left (fun s x => add_fixed (fst x) (snd x) s) (input_fixed d) s in
      Done (Some (set_params (mk_domain_params (has_grid_already d) (proximity_limit d) (smoothness d) (lmin d) (dmax d)
        (diagonal_lmin d) (diagonal_dmax d) (minimal_angle d) []) s))
  end.

(** ** Options of the command line: cli.cpp 98-108, 155-201 and 230-233 *)

(** One for each option there was on the command line; [AddFixed] has all of its lines. *)
Inductive setting := AddFixed (l : list (Axis3 * Q)) | SetProximityLimit (x : Q) | SetDmax (x : Q) | SetLmin (k : nat)
  | SetSmoothness (x : Q) | SetDiagDmax (x : Q) | SetDiagLmin (k : nat) | SetMinimalAngle (x : Q).
(** cli.cpp 104. *)
Definition apply_setting (d : domain_params) (x : setting) : domain_params :=
  let '(mk_domain_params h p s l m dl dm a f) := d in
  match x with
  | AddFixed f => mk_domain_params h p s l m dl dm a f
  | SetProximityLimit p => mk_domain_params h p s l m dl dm a f
  | SetDmax m => mk_domain_params h p s l m dl dm a f
  | SetLmin l => mk_domain_params h p s l m dl dm a f
  | SetSmoothness s => mk_domain_params h p s l m dl dm a f
  | SetDiagDmax dm => mk_domain_params h p s l m dl dm a f
  | SetDiagLmin dl => mk_domain_params h p s l m dl dm a f
  | SetMinimalAngle a => mk_domain_params h p s l m dl dm a f
  end.
(** cli.cpp 184-187: the only check there is on a value. *)
Definition accepted (x : setting) : bool :=
  match x with SetSmoothness s => Qltb 1 s && Qle_bool s 2 | _ => true end.
(** cli.cpp 230-233. *)
Definition override_from_cli (l : list setting) (d : domain_params) : domain_params := fold_left apply_setting l d.

(** ** Writing: serializer_to_csx.cpp *)

(** std::to_string of a double is [%f]: the nearest number with six decimals, ties to
    the even one. *)
Definition round_even (x : Q) : Z :=
  let f := Qfloor x in
  match Qcompare (x - inject_Z f) (1 # 2) with
  | Lt => f
  | Gt => (f + 1)%Z
  | Eq => if Z.even f then f else (f + 1)%Z
  end.
Definition digit_char (d : Z) : ascii := ascii_of_N (Z.to_N (48 + d)).
(** The digits of a number, [tail] after them; [fuel] digits at most. *)
Fixpoint print_digits (fuel : nat) (n : Z) (tail : string) : string :=
  let tail := String (digit_char (n mod 10)) tail in
  match fuel with
  | O => tail
  | S fuel => if (n / 10 =? 0)%Z then tail else print_digits fuel (n / 10) tail
  end.
Definition print_whole (n : Z) (tail : string) : string := print_digits (Z.to_nat (Z.log2 n)) n tail.
(** Exactly [k] digits. *)
Fixpoint print_padded (k : nat) (n : Z) (tail : string) : string :=
  match k with O => tail | S k => print_padded k (n / 10) (String (digit_char (n mod 10)) tail) end.
Definition to_string (x : Q) : string :=
  let n := round_even (Qabs x * 1000000) in
  let s := print_whole (n / 1000000) (String "." (print_padded 6 (n mod 1000000) "")) in
  if Qltb x 0 then String "-" s else s.

(** serializer_to_csx.hpp 20-29. *)
Record serializer_params := mk_serializer_params
  { with_meshlines : bool; with_meshline_policies : bool;
    with_axis_x : bool; with_axis_y : bool; with_axis_z : bool; with_oemsh_params : bool }.

(** 60-73: changing the first child of that name, added if there is none. *)
Fixpoint change_first (x : string) (f : xml -> xml) (l : list xml) : option (list xml) :=
  match l with
  | [] => None
  | n :: r => if is_named x n then Some (f n :: r) else option_map (cons n) (change_first x f r)
  end.
Definition find_or_append (x : string) (f : xml -> xml) (l : list xml) : list xml :=
  match change_first x f l with Some l => l | None => l ++ [f (Node x [] "" [])] end.
Definition find_or_prepend (x : string) (f : xml -> xml) (l : list xml) : list xml :=
  match change_first x f l with Some l => l | None => f (Node x [] "" []) :: l end.
Definition on_children (f : list xml -> list xml) (n : xml) : xml :=
  Node (name_of n) (attributes_of n) (text_of n) (f (children_of n)).
(** [remove_child]: the first one of that name. *)
Fixpoint remove_first (x : string) (l : list xml) : list xml :=
  match l with
  | [] => []
  | n :: r => if is_named x n then r else n :: remove_first x r
  end.

(** 96-104: numbers with a comma in between; [pop_back] of the last comma. *)
Fixpoint join (l : list string) : string :=
  match l with
  | [] => ""
  | [x] => x
  | x :: r => (x ++ String "," (join r))%string
  end.
(** 95-114. *)
Definition lines_node (sp : serializer_params) (x : string) (ax : axis) : xml :=
  Node x [] (join (map to_string ((if with_meshlines sp then ax_lines ax else [])
    ++ (if with_meshline_policies sp then policies_lines ax else [])))) [].
Definition grid_children (sp : serializer_params) (axes : space axis) : list xml :=
  (if with_axis_x sp then [lines_node sp "XLines" (on_axis axes AX)] else [])
  ++ (if with_axis_y sp then [lines_node sp "YLines" (on_axis axes AY)] else [])
  ++ (if with_axis_z sp then [lines_node sp "ZLines" (on_axis axes AZ)] else []).

(** 117-124; [show] is how pugixml writes a double, [show_uint] an integer.  The new
    attributes replace all those there were. *)
Definition global_node (show : Q -> string) (show_uint : nat -> string) (d : domain_params) (n : xml) : xml :=
  Node (name_of n) [("ProximityLimit", show (proximity_limit d)); ("Smoothness", show (smoothness d));
    ("dmax", show (dmax d)); ("lmin", show_uint (lmin d))]%string (text_of n) (children_of n).

(** 76-130: the document that is saved. *)
Definition write_grid (sp : serializer_params) (axes : space axis) (csx : xml) : xml :=
  on_children (find_or_append "RectilinearGrid" (fun grid =>
    Node (name_of grid) (attributes_of grid) "" (grid_children sp axes))) csx.
Definition serialize (show : Q -> string) (show_uint : nat -> string) (sp : serializer_params) (d : domain_params)
    (axes : space axis) (doc : list xml) : list xml :=
  let doc := match select ["ContinuousStructure"]%string doc with
             | _ :: _ => find_or_append "ContinuousStructure" (write_grid sp axes) doc
             | [] => find_or_append "openEMS" (on_children (find_or_append "ContinuousStructure" (write_grid sp axes))) doc
             end in
  if with_oemsh_params sp
  then find_or_prepend "OpenEMSH" (on_children (find_or_append "GlobalParams" (global_node show show_uint d))) doc
  else remove_first "OpenEMSH" doc.

(** ** Editing: edit_model_global.cpp *)

(** 22-43: the values of the dialog as it opens.  [number] is the value of the text
    [QString::number] writes. *)
Record dialog := mk_dialog
  { di_proximity_limit : Q; di_smoothness : Q; di_lmin : nat; di_dmax : Q;
    di_minimal_angle : Q; di_diagonal_dmax : Q; di_diagonal_lmin : nat }.
Definition open_dialog (number : Q -> Q) (d : domain_params) : dialog :=
  mk_dialog (number (proximity_limit d)) (number (smoothness d)) (lmin d) (number (dmax d))
    (number (minimal_angle d)) (number (diagonal_dmax d)) (diagonal_lmin d).
(** 46-64, for texts that are numbers (nothing happens otherwise): the next state. *)
Definition commit_dialog (i : dialog) : domain_params :=
  mk_domain_params (has_grid_already default_params) (di_proximity_limit i) (di_smoothness i) (di_lmin i) (di_dmax i)
    (di_diagonal_lmin i) (di_diagonal_dmax i) (di_minimal_angle i) (input_fixed default_params).
