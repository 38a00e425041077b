(** Model of the graph view: the nodes and the wires that
    src/ui/qt/processing_view/processing_view.cpp 132-206 makes of a board, with
    processing_scene.cpp 143-175 and 300-325, the constructors of the nodes
    (processing_edge.cpp, processing_angle.cpp, processing_polygon.cpp,
    processing_conflict_*.cpp, processing_meshline_policy.cpp, processing_interval.cpp,
    processing_meshline.cpp), and the walks along the wires of
    src/ui/qt/utils/nodegraph/node.cpp, port.cpp and wire.cpp.  No proofs in this file.

    Simplifications, for the whole file:
    - those of BoardModel.v;
    - a [Node*] is its position in [nodes] (processing_scene.hpp), an input port is the
      node and a number, a node has at most one output port;
    - what is drawn (texts, colours, places) is left out, and so is Qt. *)
From Coq Require Import List Arith Bool QArith.
From Verif Require Import IntervalModel ManagerModel GeomModel BoardModel.
Import ListNotations.

(** An [Entity const*]: the object, by its kind and its position. *)
Inductive entity :=
| EPolygon (i : nat) | EEdge (i : nat) | EAngle (i : nat)
| EColinear (a : Axis3) (i : nat) | EInPolygon (p : Plane) (i : nat)
| EClose (a : Axis3) (i : nat) | EZone (a : Axis3) (i : nat)
| EPolicy (a : Axis3) (i : nat) | EInterval (a : Axis3) (i : nat) | ELine (a : Axis3) (i : nat).

Definition axis_eqb (a b : Axis3) : bool :=
  match a, b with AX, AX | AY, AY | AZ, AZ => true | _, _ => false end.

(** Comparison of pointers. *)
Definition entity_eqb (x y : entity) : bool :=
  match x, y with
  | EPolygon i, EPolygon j | EEdge i, EEdge j | EAngle i, EAngle j => (i =? j)%nat
  | EInPolygon p i, EInPolygon q j => plane_eqb p q && (i =? j)%nat
  | EColinear a i, EColinear b j | EClose a i, EClose b j | EZone a i, EZone b j
  | EPolicy a i, EPolicy b j | EInterval a i, EInterval b j | ELine a i, ELine b j => axis_eqb a b && (i =? j)%nat
  | _, _ => false
  end.

(** The pointers that BoardModel.v and ManagerModel.v leave out: the origins of a policy
    (meshline_policy.hpp 87), the zones among the conflicts of an interval
    (interval.hpp), the interval and the policy of a line (meshline.hpp). *)
Record links := mk_links
  { lk_origins : Axis3 -> nat -> list entity;
    lk_zones : Axis3 -> nat -> list nat;
    lk_interval : Axis3 -> nat -> option nat;
    lk_policy : Axis3 -> nat -> option nat }.

(** A [Conflict*] as an [Entity*]. *)
Definition conflict_entity (c : cref) : entity :=
  match c with InCE a i => EColinear a i | InEIP p i => EInPolygon p i end.

Definition maybe {A : Type} (x : option A) : list A := match x with Some y => [y] | None => [] end.

(** Each element with its position. *)
Definition numbered {A : Type} (l : list A) : list (A * nat) := combine l (seq 0 (length l)).

(** data_keys.hpp 43-51 (TO_WIRE): the object at the other end, and the input port, as
    the constructor of the node of [x] fills it:
    processing_edge.cpp 43-45, processing_angle.cpp 54 and 64,
    processing_conflict_colinear_edges.cpp 41-55, processing_conflict_edge_in_polygon.cpp
    48-60, processing_conflict_too_close_meshline_policies.cpp 42-51,
    processing_conflict_diagonal_or_circular_zone.cpp 66-67,
    processing_meshline_policy.cpp 52-68, processing_interval.cpp 59-71 and 104-107,
    processing_meshline.cpp 63-66.  A polygon has none. *)
Definition to_wire (b : board) (k : links) (x : entity) : run (list (entity * nat)) :=
  match x with
  | EPolygon i => let! _ := read (b_polygons b) i in Done []
  | EEdge i =>
      let! e := read (b_edges b) i in
      Done (map (fun c => (conflict_entity c, 0%nat)) (maybe (e_solves e)))
  | EAngle i =>
      let! a := read (b_angles b) i in
      Done [(EEdge (a_e0 a), 0%nat); (EEdge (a_e1 a), 1%nat)]
  | EColinear a i =>
      let! c := read (on_axis (b_ce b) a) i in
      Done (numbered (map EEdge (ce_edges c)))
  | EInPolygon p i =>
      let! c := read (on_plane (b_eip b) p) i in
      Done (numbered (EEdge (ei_edge c) :: map (fun o => EPolygon (ov_polygon o)) (ei_overlaps c)))
  | EClose a i =>
      let! c := read (ax_conflicts (on_axis (b_axes b) a)) i in
      Done [(EPolicy a (tc_a c), 0%nat); (EPolicy a (tc_b c), 1%nat)]
  | EZone a i =>
      let! z := read (on_axis (b_zones b) a) i in
      Done (map (fun n => (EAngle n, 0%nat)) (dz_angles z))
  | EPolicy a i =>
      let! _ := read (ax_policies (on_axis (b_axes b) a)) i in
      Done (numbered (lk_origins k a i))
  | EInterval a i =>
      let! s := read (ax_segments (on_axis (b_axes b) a)) i in
      let zones := map (fun n => (EZone a n, 1%nat)) (lk_zones k a i) in
      let after := match zones with [] => 1%nat | _ => 2%nat end in
      Done (zones ++ [(EPolicy a (sg_before s), 0%nat); (EPolicy a (sg_after s), after)])
  | ELine a i =>
      let! _ := read (ax_lines (on_axis (b_axes b) a)) i in
      Done (map (fun n => (EInterval a n, 0%nat)) (maybe (lk_interval k a i))
            ++ map (fun n => (EPolicy a n, 1%nat)) (maybe (lk_policy k a i)))
  end.

(** What a node stands for. *)
Inductive what := Plane_ (p : Plane) | Axis_ (a : Axis3) | Thing (x : entity).
(** A node: what it stands for, the container it is in, and TO_WIRE. *)
Record node := mk_node { nd_what : what; nd_inside : option nat; nd_to_wire : list (entity * nat) }.

(** ** Nodes: processing_view.cpp 133-177 *)

(** processing_scene.cpp 152-175: a new node in the container [inside]. *)
Definition add_thing (b : board) (k : links) (inside : nat) (ns : list node) (x : entity) : run (list node) :=
  let! l := to_wire b k x in Done (ns ++ [mk_node (Thing x) (Some inside) l]).

(** processing_view.cpp 136-143. *)
Definition add_polygon_node (b : board) (k : links) (plane : nat) (ns : list node) (i : nat) : run (list node) :=
  let here := length ns in
  let! g := read (b_polygons b) i in
  let! ns := add_thing b k plane ns (EPolygon i) in
  for_each (add_thing b k here) (map EEdge (g_edges g)) ns.

(** processing_view.cpp 133-152. *)
Definition add_plane (b : board) (k : links) (ns : list node) (p : Plane) : run (list node) :=
  let here := length ns in
  let! ns := for_each (add_polygon_node b k here) (polygons_of b p) (ns ++ [mk_node (Plane_ p) None []]) in
  for_each (add_thing b k here)
    (map (EInPolygon p) (seq 0 (length (on_plane (b_eip b) p))) ++ map EAngle (angles_of b p)) ns.

(** processing_view.cpp 154-177. *)
Definition add_axis (b : board) (k : links) (ns : list node) (a : Axis3) : run (list node) :=
  let here := length ns in
  let y := on_axis (b_axes b) a in
  for_each (add_thing b k here)
    (map (EColinear a) (seq 0 (length (on_axis (b_ce b) a)))
     ++ map (EClose a) (seq 0 (length (ax_conflicts y)))
     ++ map (EPolicy a) (seq 0 (length (ax_policies y)))
     ++ map (EZone a) (seq 0 (length (on_axis (b_zones b) a)))
     ++ map (EInterval a) (seq 0 (length (ax_segments y)))
     ++ map (ELine a) (seq 0 (length (ax_lines y))))
    (ns ++ [mk_node (Axis_ a) None []]).

Definition all_nodes (b : board) (k : links) : run (list node) :=
  let! ns := for_each (add_plane b k) all_planes [] in
  for_each (add_axis b k) all_axes ns.

(** ** Wires: processing_view.cpp 179-205 *)

(** nodegraph/wire.cpp 23-40: from the first output port of a node to an input port of a
    node. *)
Record wire := mk_wire { w_from : nat; w_to : nat; w_port : nat }.
Definition wire_eqb (v w : wire) : bool :=
  (w_from v =? w_from w)%nat && (w_to v =? w_to w)%nat && (w_port v =? w_port w)%nat.

Record scene := mk_scene { sc_nodes : list node; sc_wires : list wire }.

Definition is_thing (x : entity) (n : node) : bool := match nd_what n with Thing y => entity_eqb y x | _ => false end.
(** processing_scene.cpp 163, 173: [index], the last node added for the object. *)
Definition index (ns : list node) (x : entity) : option nat := last (map Some (positions (is_thing x) ns)) None.

(** The constructors that call add_output_port; a line has no output port. *)
Definition has_output (n : node) : bool :=
  match nd_what n with Thing (ELine _ _) | Plane_ _ | Axis_ _ => false | Thing _ => true end.

(** processing_scene.cpp 316-322: [is_wired_to] (port.cpp 118-122) is whether there is that
    wire already. *)
Definition wire_one (ns : list node) (n : nat) (ws : list wire) (x : entity * nat) : run (list wire) :=
  match index ns (fst x) with
  | None => Done ws
  | Some m =>
      let! other := read ns m in
      if has_output other then
        let w := mk_wire m n (snd x) in
        if existsb (wire_eqb w) ws then Done ws else Done (ws ++ [w])
      else Dangling
  end.
(** processing_scene.cpp 315-325. *)
Definition wire_node (ns : list node) (ws : list wire) (n : nat) : run (list wire) :=
  let! nd := read ns n in for_each (wire_one ns n) (nd_to_wire nd) ws.

Inductive kind := KPolygon | KEdge | KAngle | KColinear | KClose | KInPolygon | KZone | KPolicy | KLine | KInterval.
Definition kind_of (x : entity) : kind :=
  match x with
  | EPolygon _ => KPolygon | EEdge _ => KEdge | EAngle _ => KAngle | EColinear _ _ => KColinear
  | EInPolygon _ _ => KInPolygon | EClose _ _ => KClose | EZone _ _ => KZone | EPolicy _ _ => KPolicy
  | EInterval _ _ => KInterval | ELine _ _ => KLine
  end.
Definition kind_eqb (a b : kind) : bool :=
  match a, b with
  | KPolygon, KPolygon | KEdge, KEdge | KAngle, KAngle | KColinear, KColinear | KClose, KClose | KInPolygon, KInPolygon
  | KZone, KZone | KPolicy, KPolicy | KLine, KLine | KInterval, KInterval => true
  | _, _ => false
  end.
Definition is_kind (q : kind) (n : node) : bool := match nd_what n with Thing x => kind_eqb (kind_of x) q | _ => false end.

(** processing_view.cpp 179-204: the nodes of one kind, then those of the next. *)
Definition wire_kind (ns : list node) (ws : list wire) (q : kind) : run (list wire) :=
  for_each (wire_node ns) (positions (is_kind q) ns) ws.
Definition wired_kinds : list kind :=
  [KEdge; KAngle; KColinear; KClose; KInPolygon; KZone; KPolicy; KLine; KInterval].

(** processing_view.cpp 132-206. *)
Definition populate (b : board) (k : links) : run scene :=
  let! ns := all_nodes b k in
  let! ws := for_each (wire_kind ns) wired_kinds [] in
  Done (mk_scene ns ws).

(** ** Walks: nodegraph/node.cpp 165-220, port.cpp 134-155 *)

(** node.cpp 199-220.  The order of the ports is left out. *)
Definition input_nodes (sc : scene) (n : nat) : list nat :=
  map w_from (filter (fun w => (w_to w =? n)%nat) (sc_wires sc)).
Definition output_nodes (sc : scene) (n : nat) : list nat :=
  map w_to (filter (fun w => (w_from w =? n)%nat) (sc_wires sc)).

(** node.cpp 165-182, upwards or downwards.  [fuel] bounds the depth of the recursion:
    [Running] if it is exceeded. *)
Fixpoint traverse (next : nat -> list nat) (fuel : nat) (out : list nat) (n : nat) : run (list nat) :=
  match fuel with
  | O => Running
  | S fuel =>
      for_each (fun out m => if memb m out then Done out else traverse next fuel (m :: out) m) (next n) out
  end.

(** node.cpp 185-191. *)
Definition get_chain (fuel : nat) (sc : scene) (n : nat) : run (list nat) :=
  let! up := traverse (input_nodes sc) fuel [] n in
  let! down := traverse (output_nodes sc) fuel [] n in
  Done (up ++ filter (fun m => negb (memb m up)) down).

(** ** Columns: processing_axis.cpp 23-38 *)

Definition is_close (sc : scene) (n : nat) : bool :=
  match nth_error (sc_nodes sc) n with Some nd => is_kind KClose nd | None => false end.
Definition is_policy_node (sc : scene) (n : nat) : bool :=
  match nth_error (sc_nodes sc) n with Some nd => is_kind KPolicy nd | None => false end.

(** processing_meshline_policy.cpp 151-176 if [first] is "too close conflict" and [second]
    "policy"; processing_conflict_too_close_meshline_policies.cpp 78-103 the other way
    round.  [Running] if the recursion is deeper than [fuel]. *)
Fixpoint deepness (first second : scene -> nat -> bool) (fuel : nat) (sc : scene) (n : nat) : run nat :=
  match fuel with
  | O => Running
  | S fuel =>
      let found := filter (second sc) (flat_map (input_nodes sc) (filter (first sc) (input_nodes sc n))) in
      for_each (fun deep m => let! d := deepness first second fuel sc m in Done (Nat.max deep (d + 2))) found 0%nat
  end.
Definition policy_column (fuel : nat) (sc : scene) (n : nat) : run nat :=
  let! d := deepness is_close is_policy_node fuel sc n in Done (1 + d)%nat.
Definition close_column (fuel : nat) (sc : scene) (n : nat) : run nat :=
  let! d := deepness is_policy_node is_close fuel sc n in Done (2 + d)%nat.
