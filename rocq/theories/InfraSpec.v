(** The words used to state the properties of reading and writing files. *)
From Coq Require Import List Arith Bool QArith Qabs ZArith String.
From Verif Require Import IntervalModel ManagerModel GeomModel GeomSpec BoardModel BoardSpec InfraModel.
Import ListNotations.
Open Scope Q_scope.

(** ** Solids and their drawings *)

(** The drawing of a point on a plane, and its coordinate on the axis that is not in
    the plane. *)
Definition drawn (p : Plane) (v : point3) : point :=
  match p with PYZ => mk_pt (y3 v) (z3 v) | PZX => mk_pt (z3 v) (x3 v) | PXY => mk_pt (x3 v) (y3 v) end.
Definition depth (p : Plane) (v : point3) : Q := match p with PYZ => x3 v | PZX => y3 v | PXY => z3 v end.
(** The point at the given depth above a point of a drawing. *)
Definition raised (p : Plane) (z : Q) (v : point) : point3 :=
  match p with
  | PYZ => mk_point3 z (px v) (py v) | PZX => mk_point3 (py v) z (px v) | PXY => mk_point3 (px v) (py v) z
  end.

(** [z] is the smallest range that contains the numbers of [l]. *)
Definition tight1 (z : box1) (l : list Q) : Prop :=
  (forall x, In x l -> in_range z x) /\ (exists x, In x l /\ x == lo z) /\ (exists x, In x l /\ x == hi z).

(** The polygon [g] shows what is seen of a solid with the given extreme points, looking
    at the plane [p]: the smallest rectangle around it is that of the solid, and it lies as deep. *)
Definition shows (p : Plane) (solid : list point3) (g : polygon) : Prop :=
  g_plane g = p /\ tight (g_bounding g) (map (drawn p) solid) /\ tight1 (g_z g) (map (depth p) solid).

(** The eight corners of the box between two points. *)
Definition corners (a b : point3) : list point3 :=
  [mk_point3 (x3 a) (y3 a) (z3 a); mk_point3 (x3 a) (y3 a) (z3 b); mk_point3 (x3 a) (y3 b) (z3 a); mk_point3 (x3 a) (y3 b) (z3 b);
   mk_point3 (x3 b) (y3 a) (z3 a); mk_point3 (x3 b) (y3 a) (z3 b); mk_point3 (x3 b) (y3 b) (z3 a); mk_point3 (x3 b) (y3 b) (z3 b)].
(** [q] is a point of that box. *)
Definition between1 (x a b : Q) : Prop := (a <= x <= b) \/ (b <= x <= a).
Definition in_solid_box (a b q : point3) : Prop :=
  between1 (x3 q) (x3 a) (x3 b) /\ between1 (y3 q) (y3 a) (y3 b) /\ between1 (z3 q) (z3 a) (z3 b).
(** A prism: the vertices of a drawing at two depths. *)
Definition prism (p : Plane) (l : list point) (z z' : Q) : list point3 := map (raised p z) l ++ map (raised p z') l.
(** The six points of a ball on the axes. *)
Definition ball (c : point3) (r : Q) : list point3 :=
  [mk_point3 (x3 c - r) (y3 c) (z3 c); mk_point3 (x3 c + r) (y3 c) (z3 c);
   mk_point3 (x3 c) (y3 c - r) (z3 c); mk_point3 (x3 c) (y3 c + r) (z3 c);
   mk_point3 (x3 c) (y3 c) (z3 c - r); mk_point3 (x3 c) (y3 c) (z3 c + r)].
(** The four points on the axes of a circle; those of a cylinder standing on the plane
    [p]. *)
Definition compass (c : point) (r : Q) : list point :=
  [mk_pt (px c - r) (py c); mk_pt (px c + r) (py c); mk_pt (px c) (py c - r); mk_pt (px c) (py c + r)].
Definition cylinder (p : Plane) (a b : point3) (r : Q) : list point3 := prism p (compass (drawn p a) r) (depth p a) (depth p b).

(** Two points along the axis of [p], up to the tolerance; exactly. *)
Definition along (p : Plane) (a b : point3) : Prop :=
  Qabs (px (drawn p a) - px (drawn p b)) < equality_tolerance /\ Qabs (py (drawn p a) - py (drawn p b)) < equality_tolerance
  /\ ~ Qabs (depth p a - depth p b) < equality_tolerance.
Definition straight (p : Plane) (a b : point3) : Prop :=
  px (drawn p a) == px (drawn p b) /\ py (drawn p a) == py (drawn p b).

(** A circle is as wide as its radius tells. *)
Definition as_wide (circle : point -> Q -> list point) : Prop :=
  forall c r, circle c r <> [] /\ forall b, tight b (circle c r) -> tight b (compass c r).

(** The axis that is not in a plane, and the planes other than a plane. *)
Definition across (p : Plane) : Axis3 := match p with PYZ => AX | PZX => AY | PXY => AZ end.
Definition others (p : Plane) : list Plane :=
  match p with PYZ => [PZX; PXY] | PZX => [PXY; PYZ] | PXY => [PYZ; PZX] end.

(** The planes that were asked for. *)
Definition wanted (pp : parser_params) (p : Plane) : bool :=
  match p with PYZ => with_yz pp | PZX => with_zx pp | PXY => with_xy pp end.
Definition wanted_planes (pp : parser_params) : list Plane := filter (wanted pp) [PYZ; PZX; PXY].

(** From [s] to [s'], nothing but the polygons [l] with their edges, and requests for
    the given lines on each axis, were added; the board is still one that polygons
    added to an empty board make. *)
Definition drew (l : list polygon) (lines : Axis3 -> list Q) (s s' : builder) : Prop :=
  bd_params s' = bd_params s /\ b_background (bd_board s') = b_background (bd_board s)
  /\ b_polygons (bd_board s') = b_polygons (bd_board s) ++ l
  /\ (built (bd_board s) -> built (bd_board s'))
  /\ forall ax, on_axis (bd_fixed s') ax = on_axis (bd_fixed s) ax ++ lines ax.
Definition no_line : Axis3 -> list Q := fun _ => [].
(** One line on an axis. *)
Definition one_line (ax : Axis3) (x : Q) : Axis3 -> list Q :=
  fun ax' => match ax, ax' with AX, AX | AY, AY | AZ, AZ => [x] | _, _ => [] end.
(** The same material and priority for all. *)
Definition made_of (m : Mat) (priority : nat) (g : polygon) : Prop := g_material g = Some m /\ g_priority g = priority.

(** The element is a primitive of that kind, not a transformed one. *)
Definition primitive (kind : string) (n : xml) : Prop :=
  name_of n = kind /\ children_of (child "Transformation" n) = [].

(** ** Numbers in decimal *)

(** The nearest number with six decimals. *)
Definition six_decimals (x : Q) : Prop := exists n : Z, x == inject_Z n / 1000000.
Definition micro : Q := 1 # 1000000.

(** ** Documents *)

(** The element is somewhere in the document. *)
Inductive inside (n : xml) : list xml -> Prop :=
| inside_here l : In n l -> inside n l
| inside_below m l : In m l -> inside n (children_of m) -> inside n l.
(** Every polygon and curve has a vertex. *)
Definition drawable (doc : list xml) : Prop :=
  forall n, inside n doc -> In (name_of n) ["LinPoly"; "Polygon"; "Curve"]%string -> named "Vertex" (children_of n) <> [].

(** The structure that is read: that of openEMS if there is one. *)
Definition structure (doc : list xml) (csx : xml) : Prop :=
  hd_error (select ["openEMS"; "ContinuousStructure"]%string doc) = Some csx
  \/ select ["openEMS"; "ContinuousStructure"]%string doc = [] /\ hd_error (select ["ContinuousStructure"]%string doc) = Some csx.

(** The texts are numbers, and the lines are these numbers in the given unit. *)
Definition reads (unit : nat) (texts : list string) (xs : list Q) : Prop :=
  Forall2 (fun t x => exists v, from_chars t = Some v /\ x = inject_Z (Z.of_nat unit) * v) texts xs.
Definition lines_name (ax : Axis3) : string := match ax with AX => "XLines" | AY => "YLines" | AZ => "ZLines" end.
Definition axis_texts (n : xml) (ax : Axis3) : list string := split (child_value (lines_name ax) n).

(** The structure is where both the parser and the serializer look for it. *)
Definition one_place (doc : list xml) (csx : xml) : Prop :=
  (named "ContinuousStructure" doc = [] /\ exists o, hd_error (named "openEMS" doc) = Some o
     /\ hd_error (named "ContinuousStructure" (children_of o)) = Some csx)
  \/ (select ["openEMS"; "ContinuousStructure"]%string doc = [] /\ hd_error (named "ContinuousStructure" doc) = Some csx).

(** The lines to be written of an axis. *)
Definition with_axis (sp : serializer_params) (ax : Axis3) : bool :=
  match ax with AX => with_axis_x sp | AY => with_axis_y sp | AZ => with_axis_z sp end.
Definition to_write (sp : serializer_params) (axes : space axis) (ax : Axis3) : list Q :=
  if with_axis sp ax
  then (if with_meshlines sp then ax_lines (on_axis axes ax) else [])
       ++ (if with_meshline_policies sp then policies_lines (on_axis axes ax) else [])
  else [].

(** A document without the contents of its grids and without OpenEMSH. *)
Definition without_lines (n : xml) : xml := if is_named "RectilinearGrid" n then Node (name_of n) (attributes_of n) "" [] else n.
Definition without_grid (csx : xml) : xml :=
  if is_named "ContinuousStructure" csx
  then Node (name_of csx) (attributes_of csx) (text_of csx) (map without_lines (children_of csx)) else csx.
Definition without_mesh (doc : list xml) : list xml :=
  map (fun n => if is_named "openEMS" n then Node (name_of n) (attributes_of n) (text_of n) (map without_grid (children_of n)) else without_grid n)
    (filter (fun n => negb (is_named "OpenEMSH" n)) doc).

(** The elements OpenEMSH without the attributes of the parameters in them. *)
Definition without_values (n : xml) : xml := if is_named "GlobalParams" n then Node (name_of n) [] (text_of n) (children_of n) else n.
Definition without_params (doc : list xml) : list xml :=
  map (fun n => Node (name_of n) (attributes_of n) (text_of n) (map without_values (children_of n))) (named "OpenEMSH" doc).

(** What the last of the settings that say something about a value says, or else what it
    was. *)
Definition settles {A : Type} (says : setting -> option A) (l : list setting) (before now : A) : Prop :=
  (exists l1 x l2, l = l1 ++ x :: l2 /\ says x = Some now /\ forall y, In y l2 -> says y = None)
  \/ now = before /\ forall y, In y l -> says y = None.
Definition lines_on (ax : Axis3) (l : list (Axis3 * Q)) : list Q :=
  flat_map (fun x => match fst x, ax with AX, AX | AY, AY | AZ, AZ => [snd x] | _, _ => [] end) l.
