(** Properties of reading and writing files, and of editing the parameters
    (C44-C46, C58-C61). *)
From Coq Require Import List Arith Bool QArith Qabs Qpower ZArith String Ascii Lia Lqa DecimalString DecimalNat.
From Verif Require Import IntervalModel IntervalProofs ManagerModel GeomModel GeomSpec GeomProofs.
From Verif Require Import BoardModel BoardSpec InfraModel InfraSpec InfraNumberProofs InfraProofs InfraFileProofs InfraWriteProofs PropertiesRun.
Import ListNotations.
Open Scope Q_scope.

(** ** C44: primitives *)

(** A box gives one rectangle for each wanted plane, with its material and priority,
    and nothing else. *)
Theorem C44_box : forall uint_max size_max circle pp m s n, primitive "Box" n ->
  let a := point3_of (child "P1" n) in
  let b := point3_of (child "P2" n) in
  exists s' gs, parse_primitive uint_max size_max circle pp m s n = Done s' /\ drew gs no_line s s'
    /\ Forall2 (fun p g => shows p (corners a b) g /\ made_of m (parse_priority uint_max size_max n m) g
         /\ g_points g = box_points (drawn p a) (drawn p b)) (wanted_planes pp) gs.
Proof. intros uint_max size_max circle pp m s n K a b. rewrite (parse_kind _ _ _ _ _ _ _ _ K). apply box3_shapes. Qed.
Print Assumptions C44_box.

(** Each view and its depth tell which points are in the box, so the views agree, and so
    do the views of a box given by other corners. *)
Theorem C44_views_agree : forall p a b g q, shows p (corners a b) g ->
  (in_solid_box a b q <-> in_box (g_bounding g) (drawn p q) /\ in_range (g_z g) (depth p q)).
Proof.
  assert (One : forall z x a b l, tight1 z l -> (forall y, In y l -> y = a \/ y = b) -> In a l -> In b l -> (between1 x a b <-> in_range z x)).
  { intros z x a b l (A & (x1 & I1 & E1) & (x2 & I2 & E2)) L Ia Ib.
    apply A in Ia. apply A in Ib. apply L in I1. apply L in I2. unfold in_range, between1 in *.
    split; [intros [?|?]; lra|]. intros X. destruct (Qlt_le_dec a b); [left|right]; destruct I1 as [->| ->], I2 as [->| ->]; lra. }
  intros p a b g q (_ & T & Z). apply tight_sides in T as [X Y].
  assert (Box : in_box (g_bounding g) (drawn p q) <->
    in_range (mk_box1 (xmin (g_bounding g)) (xmax (g_bounding g))) (px (drawn p q)) /\ in_range (mk_box1 (ymin (g_bounding g)) (ymax (g_bounding g))) (py (drawn p q))).
  { unfold in_box, in_range. cbn [lo hi]. tauto. }
  rewrite Box. unfold in_solid_box.
  pose proof (One _ (px (drawn p q)) (px (drawn p a)) (px (drawn p b)) _ X) as X'.
  pose proof (One _ (py (drawn p q)) (py (drawn p a)) (py (drawn p b)) _ Y) as Y'.
  pose proof (One _ (depth p q) (depth p a) (depth p b) _ Z) as Z'. clear - X' Y' Z'.
  destruct p; cbn [drawn depth px py] in *; rewrite <- X', <- Y', <- Z'; try tauto; cbn; intuition congruence.
Qed.
Print Assumptions C44_views_agree.

Theorem C44_corner_order : forall p a b a' b' g g', (forall q, in_solid_box a b q <-> in_solid_box a' b' q) ->
  shows p (corners a b) g -> shows p (corners a' b') g' ->
  (forall q, in_box (g_bounding g) q <-> in_box (g_bounding g') q) /\ (forall z, in_range (g_z g) z <-> in_range (g_z g') z).
Proof.
  intros p a b a' b' g g' Same S S'.
  assert (R : forall v z, drawn p (raised p z v) = v /\ depth p (raised p z v) = z) by (intros [x y] z; now destruct p).
  assert (Both : forall v z, in_box (g_bounding g) v /\ in_range (g_z g) z <-> in_box (g_bounding g') v /\ in_range (g_z g') z).
  { intros v z. destruct (R v z) as [R1 R2].
    pose proof (C44_views_agree p a b g (raised p z v) S) as V. pose proof (C44_views_agree p a' b' g' (raised p z v) S') as V'.
    rewrite R1, R2 in V, V'. rewrite <- V, <- V'. apply Same. }
  assert (W : (exists v, in_box (g_bounding g) v) /\ (exists z, in_range (g_z g) z) /\ (exists v, in_box (g_bounding g') v) /\ (exists z, in_range (g_z g') z)).
  { destruct S as (_ & (T & _) & (Z & _)), S' as (_ & (T' & _) & (Z' & _)).
    split; [exists (drawn p (mk_point3 (x3 a) (y3 a) (z3 a))); apply T; cbn; now left|].
    split; [exists (depth p (mk_point3 (x3 a) (y3 a) (z3 a))); apply Z; cbn; now left|].
    split; [exists (drawn p (mk_point3 (x3 a') (y3 a') (z3 a'))); apply T'; cbn; now left|].
    exists (depth p (mk_point3 (x3 a') (y3 a') (z3 a'))); apply Z'; cbn; now left. }
  destruct W as ((v & V) & (z & Z) & (v' & V') & (z' & Z')). split.
  - intros q. split; intros I; [apply (proj1 (Both q z))|apply (proj2 (Both q z'))]; now split.
  - intros q. split; intros I; [apply (proj1 (Both v q))|apply (proj2 (Both v' q))]; now split.
Qed.
Print Assumptions C44_corner_order.

(** As many boxes as there are pairs of points. *)
Theorem C44_multibox : forall uint_max size_max circle pp m s n, primitive "MultiBox" n ->
  exists s' gs, parse_primitive uint_max size_max circle pp m s n = Done s' /\ drew gs no_line s s'
    /\ Forall2 (fun xp g => shows (snd xp) (corners (point3_of (fst (fst xp))) (point3_of (snd (fst xp)))) g
         /\ made_of m (parse_priority uint_max size_max n m) g)
         (list_prod (combine (named "StartP" (children_of n)) (named "EndP" (children_of n))) (wanted_planes pp)) gs.
Proof.
  intros uint_max size_max circle pp m s n K. rewrite (parse_kind _ _ _ _ _ _ _ _ K).
  destruct (multibox_shapes pp n m (parse_priority uint_max size_max n m) s) as (s' & gs & E & D & F).
  exists s', gs. split; [exact E|]. split; [exact D|]. clear -F. induction F; constructor; cbn in *; tauto.
Qed.
Print Assumptions C44_multibox.

(** An extruded polygon is itself on its plane, which need not be wanted; if it is not
    flat it is a rectangle on the wanted other planes. *)
Theorem C44_linpoly : forall uint_max size_max circle pp m s n p, primitive "LinPoly" n ->
  let elevation := as_double "Elevation" 0 n in
  let len := as_double "Length" 0 n in
  let l := map vertex_of (named "Vertex" (children_of n)) in
  to_plane (as_uint uint_max "NormDir" 0 n) = Some p -> l <> [] ->
  exists s' g gs, parse_primitive uint_max size_max circle pp m s n = Done s' /\ drew (g :: gs) no_line s s'
    /\ g_points g = l
    /\ Forall2 (fun q g => shows q (prism p l elevation (elevation + len)) g /\ made_of m (parse_priority uint_max size_max n m) g)
         (p :: if Qeq_bool len 0 then [] else filter (wanted pp) (others p)) (g :: gs).
Proof.
  intros uint_max size_max circle pp m s n p K elevation len l P N. rewrite (parse_kind _ _ _ _ _ _ _ _ K).
  destruct (linpoly_shapes uint_max pp n m (parse_priority uint_max size_max n m) p s P N) as (s' & g & gs & E & D & Pts & S & M & F).
  exists s', g, gs. split; [exact E|]. split; [exact D|]. split; [exact Pts|]. constructor; [now split|exact F].
Qed.
Print Assumptions C44_linpoly.

(** A flat polygon is itself on its plane, which need not be wanted, and asks for a line
    across. *)
Theorem C44_polygon : forall uint_max size_max circle pp m s n p, primitive "Polygon" n ->
  let elevation := as_double "Elevation" 0 n in
  let l := map vertex_of (named "Vertex" (children_of n)) in
  to_plane (as_uint uint_max "NormDir" 0 n) = Some p -> l <> [] ->
  exists s' g, parse_primitive uint_max size_max circle pp m s n = Done s' /\ drew [g] (one_line (across p) elevation) s s'
    /\ g_points g = l /\ shows p (map (raised p elevation) l) g /\ made_of m (parse_priority uint_max size_max n m) g.
Proof. intros uint_max size_max circle pp m s n p K elevation l P N. rewrite (parse_kind _ _ _ _ _ _ _ _ K). now apply polygon_shape. Qed.
Print Assumptions C44_polygon.

(** A sphere gives one circle for each wanted plane. *)
Theorem C44_sphere : forall uint_max size_max circle pp m s n, primitive "Sphere" n -> as_wide circle ->
  let c := point3_of (child "Center" n) in
  let r := as_double "Radius" 0 n in
  exists s' gs, parse_primitive uint_max size_max circle pp m s n = Done s' /\ drew gs no_line s s'
    /\ Forall2 (fun p g => shows p (ball c r) g /\ made_of m (parse_priority uint_max size_max n m) g
         /\ g_points g = circle (drawn p c) r) (wanted_planes pp) gs.
Proof. intros uint_max size_max circle pp m s n K W c r. rewrite (parse_kind _ _ _ _ _ _ _ _ K). now apply sphere_shapes. Qed.
Print Assumptions C44_sphere.

(** A cylinder along an axis is right on the plane it stands on. *)
Theorem C44_cylinder : forall uint_max size_max circle pp m s n p, primitive "Cylinder" n -> as_wide circle ->
  let a := point3_of (child "P1" n) in
  let b := point3_of (child "P2" n) in
  let r := as_double "Radius" 0 n in
  along p a b ->
  exists s' gs, parse_primitive uint_max size_max circle pp m s n = Done s' /\ drew gs no_line s s'
    /\ Forall2 (fun q g => g_plane g = q /\ made_of m (parse_priority uint_max size_max n m) g
         /\ (q = p -> shows p (cylinder p a b r) g /\ g_points g = circle (drawn p a) r)) (filter (wanted pp) (p :: others p)) gs.
Proof.
  intros uint_max size_max circle pp m s n p K W a b r Al. rewrite (parse_kind _ _ _ _ _ _ _ _ K).
  destruct (cylinder_shapes circle pp n m (parse_priority uint_max size_max n m) p s W Al) as (s' & gs & E & D & F).
  exists s', gs. split; [exact E|]. split; [exact D|]. clear -F. induction F; constructor; tauto.
Qed.
Print Assumptions C44_cylinder.

(** On the other planes it is half as wide as it is, and has no depth. *)
Theorem C44_cylinder_half : forall uint_max size_max circle pp m s n p, primitive "Cylinder" n -> as_wide circle ->
  let a := point3_of (child "P1" n) in
  let b := point3_of (child "P2" n) in
  let r := as_double "Radius" 0 n in
  along p a b -> straight p a b ->
  exists s' gs, parse_primitive uint_max size_max circle pp m s n = Done s' /\ drew gs no_line s s'
    /\ Forall2 (fun q g => q <> p -> tight (g_bounding g) (map (drawn q) (cylinder p a b (r / 2)))
         /\ lo (g_z g) == depth q a /\ hi (g_z g) == depth q a) (filter (wanted pp) (p :: others p)) gs.
Proof.
  intros uint_max size_max circle pp m s n p K W a b r Al St. rewrite (parse_kind _ _ _ _ _ _ _ _ K).
  destruct (cylinder_shapes circle pp n m (parse_priority uint_max size_max n m) p s W Al) as (s' & gs & E & D & F).
  exists s', gs. split; [exact E|]. split; [exact D|]. clear -F St. induction F as [|q g l l' H F IH]; constructor; [|assumption].
  intros N. now apply H.
Qed.
Print Assumptions C44_cylinder_half.

Theorem C44_cylinder_refuted : forall uint_max size_max circle pp m s n p, primitive "Cylinder" n -> as_wide circle ->
  let a := point3_of (child "P1" n) in
  let b := point3_of (child "P2" n) in
  let r := as_double "Radius" 0 n in
  along p a b -> straight p a b -> 0 < r ->
  exists s' gs, parse_primitive uint_max size_max circle pp m s n = Done s' /\ drew gs no_line s s'
    /\ Forall2 (fun q g => q <> p -> ~ shows q (cylinder p a b r) g) (filter (wanted pp) (p :: others p)) gs.
Proof.
  intros uint_max size_max circle pp m s n p K W a b r Al St R.
  destruct (C44_cylinder_half uint_max size_max circle pp m s n p K W Al St) as (s' & gs & E & D & F).
  exists s', gs. split; [exact E|]. split; [exact D|]. fold a b r in F. clear -F R. induction F as [|q g l l' H F IH]; constructor; [|assumption].
  intros N (_ & _ & (Z & _)). destruct (H N) as (_ & L & Hi).
  assert (In (depth q a + r) (map (depth q) (cylinder p a b r))) as I.
  { destruct p, q; try congruence; cbn; auto 10. }
  apply Z in I. unfold in_range in I. lra.
Qed.
Print Assumptions C44_cylinder_refuted.

(** A point asks for its coordinates on the axes of each wanted plane. *)
Theorem C44_point : forall uint_max size_max circle pp m s n, primitive "Point" n ->
  exists s' lines, parse_primitive uint_max size_max circle pp m s n = Done s' /\ drew [] lines s s'
    /\ forall ax x, In x (lines ax) <->
         x = (match ax with AX => x3 | AY => y3 | AZ => z3 end) (point3_of n) /\ exists p, wanted pp p = true /\ across p <> ax.
Proof.
  intros uint_max size_max circle pp m s n K. rewrite (parse_kind _ _ _ _ _ _ _ _ K).
  eexists _, _. split; [reflexivity|]. split; [apply point_lines|]. intros ax x. split.
  - destruct ax; rewrite in_app_iff; (intros [I|I]; [|]);
    match goal with H : In _ (if ?c then _ else _) |- _ => destruct c eqn:W; [destruct H as [<-|[]]|destruct H] end;
    (split; [reflexivity|]); first [now exists PYZ|now exists PZX|now exists PXY].
  - intros (-> & p & W & N). destruct ax, p; try (now destruct N); cbn in W; rewrite W, in_app_iff; cbn; auto.
Qed.
Print Assumptions C44_point.

(** A curve is drawn on each wanted plane, forth and back; it lies at its least depth. *)
Theorem C44_curve : forall uint_max size_max circle pp m s n, primitive "Curve" n ->
  let l := map point3_of (named "Vertex" (children_of n)) in
  l <> [] ->
  exists s' gs, parse_primitive uint_max size_max circle pp m s n = Done s' /\ drew gs no_line s s'
    /\ Forall2 (fun p g => g_plane g = p /\ tight (g_bounding g) (map (drawn p) l) /\ made_of m size_max g
         /\ g_points g = map (drawn p) (l ++ tl (rev (tl l)))
         /\ exists v, In v l /\ (forall w, In w l -> depth p v <= depth p w) /\ lo (g_z g) == depth p v /\ hi (g_z g) == depth p v)
         (wanted_planes pp) gs.
Proof. intros uint_max size_max circle pp m s n K l N. rewrite (parse_kind _ _ _ _ _ _ _ _ K). now apply curve_shapes. Qed.
Print Assumptions C44_curve.

(** It should lie from the least to the greatest: what is deeper is left out. *)
Theorem C44_curve_refuted : forall uint_max size_max circle pp m s n, primitive "Curve" n ->
  let l := map point3_of (named "Vertex" (children_of n)) in
  l <> [] ->
  exists s' gs, parse_primitive uint_max size_max circle pp m s n = Done s' /\ drew gs no_line s s'
    /\ Forall2 (fun p g => forall v w, In v l -> In w l -> depth p v < depth p w -> ~ in_range (g_z g) (depth p w))
         (wanted_planes pp) gs.
Proof.
  intros uint_max size_max circle pp m s n K l N.
  destruct (C44_curve uint_max size_max circle pp m s n K N) as (s' & gs & E & D & F).
  exists s', gs. split; [exact E|]. split; [exact D|]. fold l in F. clear -F. induction F as [|p g ps gs H F IH]; constructor; [|assumption].
  destruct H as (_ & _ & _ & _ & u & _ & L & _ & Hi). intros v w Iv Iw Lt [_ I]. specialize (L v Iv). lra.
Qed.
Print Assumptions C44_curve_refuted.

(** Without vertices the code reads before the beginning of an empty list. *)
Theorem C44_no_vertex_refuted : forall uint_max size_max circle pp m s n, named "Vertex" (children_of n) = [] ->
  (primitive "LinPoly" n \/ primitive "Polygon" n -> to_plane (as_uint uint_max "NormDir" 0 n) <> None ->
     parse_primitive uint_max size_max circle pp m s n = Dangling)
  /\ (primitive "Curve" n -> wanted_planes pp <> [] -> parse_primitive uint_max size_max circle pp m s n = Dangling).
Proof.
  intros uint_max size_max circle pp m s n V. split.
  - intros [K|K] P; rewrite (parse_kind _ _ _ _ _ _ _ _ K); cbn; unfold parse_linpoly, parse_polygon; rewrite V;
    destruct (as_uint uint_max "NormDir" 0 n) as [|[|[|k]]]; cbn in P |- *; congruence.
  - intros K P. rewrite (parse_kind _ _ _ _ _ _ _ _ K). cbn. unfold parse_curve. rewrite V. unfold wanted_planes in P. cbn in P.
    now destruct (with_yz pp), (with_zx pp), (with_xy pp).
Qed.
Print Assumptions C44_no_vertex_refuted.

(** Skipped ones. *)
Theorem C44_transformed : forall uint_max size_max circle pp m s n, children_of (child "Transformation" n) <> [] ->
  parse_primitive uint_max size_max circle pp m s n = Done s.
Proof. intros uint_max size_max circle pp m s n T. unfold parse_primitive. destruct (children_of (child "Transformation" n)); congruence. Qed.
Print Assumptions C44_transformed.

(** The priority in decimal is read, ports are above all. *)
Theorem C44_priority : forall uint_max size_max n m k, m <> PORT -> (k <= uint_max)%nat ->
  attribute "Priority" n = Some (NilEmpty.string_of_uint (Nat.to_uint k)) -> parse_priority uint_max size_max n m = k.
Proof.
  intros uint_max size_max n m k P K A. unfold parse_priority, as_uint. rewrite A.
  assert (to_uint uint_max (NilEmpty.string_of_uint (Nat.to_uint k)) = k) as E by now apply to_uint_decimal.
  rewrite E. now destruct m.
Qed.
Print Assumptions C44_priority.

Theorem C44_priority_port : forall uint_max size_max n, parse_priority uint_max size_max n PORT = size_max.
Proof. reflexivity. Qed.
Print Assumptions C44_priority_port.

(** Negative ones all become the same. *)
Theorem C44_priority_refuted : forall uint_max size_max, exists n n', 
  attribute "Priority" n = Some "-2"%string /\ attribute "Priority" n' = Some "-1"%string
  /\ forall m, parse_priority uint_max size_max n m = parse_priority uint_max size_max n' m.
Proof.
  intros uint_max size_max. exists (Node "Box" [("Priority", "-2")] "" [])%string, (Node "Box" [("Priority", "-1")] "" [])%string.
  split; [reflexivity|]. split; [reflexivity|]. now intros [].
Qed.
Print Assumptions C44_priority_refuted.

(** Cases of all kinds. *)
Section Cases44.
Open Scope string_scope.
Definition at3 (name x y z : string) : xml := Node name [("X", x); ("Y", y); ("Z", z)] "" [].
Definition at2 (x1 x2 : string) : xml := Node "Vertex" [("X1", x1); ("X2", x2)] "" [].
Definition a_box : xml := Node "Box" [("Priority", "7")] "" [at3 "P1" "3" "-1.5" "2e1"; at3 "P2" "1" "4" "10"].
Definition a_multibox : xml := Node "MultiBox" [] "" [at3 "StartP" "0" "0" "0"; at3 "EndP" "1" "2" "3"; at3 "StartP" "5" "5" "5"; at3 "EndP" "4" "4" "4"].
Definition a_linpoly : xml :=
  Node "LinPoly" [("Elevation", "1"); ("Length", "-2"); ("NormDir", "2")] "" [at2 "0" "0"; at2 "4" "0"; at2 "0" "3"].
Definition a_polygon : xml := Node "Polygon" [("Elevation", "1"); ("NormDir", "0")] "" [at2 "0" "0"; at2 "4" "0"; at2 "0" "3"].
Definition a_sphere : xml := Node "Sphere" [("Radius", "2")] "" [at3 "Center" "1" "2" "3"].
Definition a_cylinder : xml := Node "Cylinder" [("Radius", "2")] "" [at3 "P1" "1" "2" "3"; at3 "P2" "1" "2" "8"].
Definition a_curve : xml := Node "Curve" [] "" [at3 "Vertex" "0" "0" "0"; at3 "Vertex" "1" "0" "0"; at3 "Vertex" "1" "2" "0"].
Definition a_point : xml := at3 "Point" "1" "2" "3".
End Cases44.
Definition all_planes : parser_params := mk_parser_params true true true true true.
Definition only_xy : parser_params := mk_parser_params false false true true true.
(** East, north, west, south. *)
Definition diamond (c : point) (r : Q) : list point :=
  [mk_pt (px c + r) (py c); mk_pt (px c) (py c + r); mk_pt (px c - r) (py c); mk_pt (px c) (py c - r)].

Example C44_box_case : primitive "Box" a_box
  /\ match parse_primitive 99 999 diamond all_planes CONDUCTOR new_builder a_box with
     | Done s => map (fun g => (g_plane g, g_priority g, List.length (g_points g))) (b_polygons (bd_board s))
                 = [(PYZ, 7, 4); (PZX, 7, 4); (PXY, 7, 4)]%nat
         /\ map (fun g => (Qred (lo (g_z g)), Qred (hi (g_z g)))) (b_polygons (bd_board s)) = [(1, 3); (-(3 # 2), 4); (10, 20)]
     | _ => False
     end.
Proof. split; [now split|]. vm_compute. now split. Qed.
Example C44_multibox_case : primitive "MultiBox" a_multibox
  /\ match parse_primitive 99 999 diamond only_xy CONDUCTOR new_builder a_multibox with
     | Done s => List.length (b_polygons (bd_board s)) = 2%nat
     | _ => False
     end.
Proof. split; [now split|]. now vm_compute. Qed.
Example C44_linpoly_case : primitive "LinPoly" a_linpoly /\ to_plane (as_uint 99 "NormDir" 0 a_linpoly) = Some PXY
  /\ match parse_primitive 99 999 diamond all_planes CONDUCTOR new_builder a_linpoly with
     | Done s => map (fun g => (g_plane g, Qred (lo (g_z g)), Qred (hi (g_z g)))) (b_polygons (bd_board s))
                 = [(PXY, -(1), 1); (PYZ, 0, 4); (PZX, 0, 3)]
     | _ => False
     end.
Proof. split; [now split|]. split; [reflexivity|]. now vm_compute. Qed.
(** Its own plane is there even if it is not wanted. *)
Example C44_linpoly_unwanted_case :
  match parse_primitive 99 999 diamond (mk_parser_params true false false true true) CONDUCTOR new_builder a_linpoly with
  | Done s => map g_plane (b_polygons (bd_board s)) = [PXY; PYZ]
  | _ => False
  end.
Proof. now vm_compute. Qed.
Example C44_polygon_case : primitive "Polygon" a_polygon /\ to_plane (as_uint 99 "NormDir" 0 a_polygon) = Some PYZ
  /\ match parse_primitive 99 999 diamond only_xy CONDUCTOR new_builder a_polygon with
     | Done s => map g_plane (b_polygons (bd_board s)) = [PYZ] /\ map Qred (on_axis (bd_fixed s) AX) = [1]
     | _ => False
     end.
Proof. split; [now split|]. split; [reflexivity|]. vm_compute. now split. Qed.
Example C44_sphere_case : primitive "Sphere" a_sphere /\ as_wide diamond.
Proof.
  split; [now split|]. intros c r. split; [discriminate|]. intros b. apply tight_set; intros x; cbn; intuition.
Qed.
Example C44_cylinder_case : primitive "Cylinder" a_cylinder
  /\ (let a := point3_of (child "P1" a_cylinder) in let b := point3_of (child "P2" a_cylinder) in
      along PXY a b /\ straight PXY a b) /\ 0 < as_double "Radius" 0 a_cylinder.
Proof. split; [now split|]. split; [|reflexivity]. vm_compute. repeat split; intros; discriminate || congruence. Qed.
Example C44_curve_case : primitive "Curve" a_curve
  /\ match parse_primitive 99 999 diamond all_planes CONDUCTOR new_builder a_curve with
     | Done s => map (fun g => (g_plane g, Qred (lo (g_z g)), Qred (hi (g_z g)), List.length (g_points g))) (b_polygons (bd_board s))
                 = [(PYZ, 0, 0, 4%nat); (PZX, 0, 0, 4%nat); (PXY, 0, 0, 4%nat)]
     | _ => False
     end.
Proof. split; [now split|]. now vm_compute. Qed.
Example C44_point_case : primitive "Point" a_point
  /\ match parse_primitive 99 999 diamond only_xy CONDUCTOR new_builder a_point with
     | Done s => map Qred (on_axis (bd_fixed s) AX) = [1] /\ map Qred (on_axis (bd_fixed s) AY) = [2] /\ on_axis (bd_fixed s) AZ = []
     | _ => False
     end.
Proof. split; [now split|]. vm_compute. now repeat split. Qed.
Example C44_priority_case : attribute "Priority" a_box = Some (NilEmpty.string_of_uint (Nat.to_uint 7)).
Proof. reflexivity. Qed.

(** ** C45: lines as they are written *)

(** What is written reads as the nearest number with six decimals. *)
Theorem C45_number : forall x, exists v, from_chars (to_string x) = Some v
  /\ six_decimals v /\ Qabs (v - x) <= micro / 2.
Proof.
  intros x. destruct (from_chars_to_string x) as (v & E & W). exists v. split; [assumption|]. split.
  - destruct (written_six x) as (n & N). exists n. now rewrite W.
  - rewrite W. apply written_near.
Qed.
Print Assumptions C45_number.

Theorem C45_exact : forall x, six_decimals x -> exists v, from_chars (to_string x) = Some v /\ v == x.
Proof. intros x S. destruct (from_chars_to_string x) as (v & E & W). exists v. split; [assumption|]. rewrite W. now apply written_id. Qed.
Print Assumptions C45_exact.

(** The order is kept, strictly if the lines are more than the last decimal apart. *)
Theorem C45_order : forall x y, exists v w, from_chars (to_string x) = Some v /\ from_chars (to_string y) = Some w
  /\ (x <= y -> v <= w) /\ (micro < y - x -> v < w).
Proof.
  intros x y. destruct (from_chars_to_string x) as (v & E & W). destruct (from_chars_to_string y) as (v' & E' & W').
  exists v, v'. split; [assumption|]. split; [assumption|]. rewrite W, W'. split; [apply written_mono|].
  intros L. pose proof (written_near x) as X. pose proof (written_near y) as Y.
  apply Qabs_Qle_condition in X. apply Qabs_Qle_condition in Y. unfold Qdiv in X, Y. change (/ 2) with (1 # 2) in X, Y. lra.
Qed.
Print Assumptions C45_order.

Theorem C45_distinct_refuted : exists x y, x < y /\ to_string x = to_string y.
Proof. exists (1 # 10000000), (2 # 10000000). split; reflexivity. Qed.
Print Assumptions C45_distinct_refuted.

(** The text of the lines of an axis reads as those lines. *)
Theorem C45_lines : forall sp name ax,
  let l := (if with_meshlines sp then ax_lines ax else []) ++ (if with_meshline_policies sp then policies_lines ax else []) in
  exists vs, map from_chars (split (text_of (lines_node sp name ax))) = map Some vs
    /\ Forall2 (fun x v => six_decimals v /\ Qabs (v - x) <= micro / 2 /\ (six_decimals x -> v == x)) l vs.
Proof.
  intros sp name ax l. cbn [lines_node text_of]. fold l. rewrite split_join.
  2: { intros t I. apply in_map_iff in I as (x & <- & _). split; [apply to_string_free|apply to_string_filled]. }
  clearbody l. induction l as [|x l (vs & E & F)]; [exists []; now split; [|constructor]|].
  destruct (from_chars_to_string x) as (v & Ev & W). exists (v :: vs). cbn [map]. rewrite Ev, E. split; [reflexivity|].
  constructor; [|assumption]. split; [destruct (written_six x) as (n & N); exists n; now rewrite W|].
  split; [rewrite W; apply written_near|]. intros S. rewrite W. now apply written_id.
Qed.
Print Assumptions C45_lines.
Example C45_case : map to_string [-(1 # 3); 0; 5 # 2; 1234567 # 10000000] = ["-0.333333"; "0.000000"; "2.500000"; "0.123457"]%string.
Proof. reflexivity. Qed.

(** ** C46: the dialog of the parameters *)

(** What the dialog shows is what it sets, provided the texts are exact. *)
Theorem C46_shown : forall number d, (forall x, In x [proximity_limit d; smoothness d; dmax d; minimal_angle d; diagonal_dmax d] -> number x = x) ->
  let d' := commit_dialog (open_dialog number d) in
  params_of d' = params_of d /\ diag_params_of d' = diag_params_of d /\ diagonal_lmin d' = diagonal_lmin d.
Proof.
  intros number d N d'. unfold d', commit_dialog, open_dialog, params_of, diag_params_of. cbn.
  rewrite !N by (cbn; auto 10). now repeat split.
Qed.
Print Assumptions C46_shown.

(** A value that was edited is the only one that changes among those shown. *)
Theorem C46_edited : forall number d i, (forall x, In x [proximity_limit d; smoothness d; dmax d; minimal_angle d; diagonal_dmax d] -> number x = x) ->
  let j := open_dialog number d in let d' := commit_dialog i in
  (di_proximity_limit i = di_proximity_limit j -> proximity_limit d' = proximity_limit d)
  /\ (di_smoothness i = di_smoothness j -> smoothness d' = smoothness d)
  /\ (di_lmin i = di_lmin j -> lmin d' = lmin d)
  /\ (di_dmax i = di_dmax j -> dmax d' = dmax d)
  /\ (di_minimal_angle i = di_minimal_angle j -> minimal_angle d' = minimal_angle d)
  /\ (di_diagonal_dmax i = di_diagonal_dmax j -> diagonal_dmax d' = diagonal_dmax d)
  /\ (di_diagonal_lmin i = di_diagonal_lmin j -> diagonal_lmin d' = diagonal_lmin d).
Proof.
  intros number d i N j d'. unfold j, d', open_dialog, commit_dialog. cbn. rewrite !N by (cbn; auto 10). auto 10.
Qed.
Print Assumptions C46_edited.

(** What it does not show is lost. *)
Theorem C46_hidden_refuted : forall number, exists d, has_grid_already d = true /\ input_fixed d <> []
  /\ let d' := commit_dialog (open_dialog number d) in has_grid_already d' = false /\ input_fixed d' = [].
Proof.
  intros number. exists (mk_domain_params true 1 2 2 (5 # 2) 2 (1 # 5) 20 [(AX, 1)]). now repeat split.
Qed.
Print Assumptions C46_hidden_refuted.

(** Six significant digits. *)
Definition six_digits (x : Q) : Prop := exists (n : Z) (e : Z), (Z.abs n < 1000000)%Z /\ x == inject_Z n * Qpower 10 e.
Theorem C46_unchanged_refuted : forall number, (forall x, six_digits (number x)) ->
  exists d, ~ dmax (commit_dialog (open_dialog number d)) == dmax d.
Proof.
  intros number S. exists (mk_domain_params false 1 2 2 (12345678 # 10000000) 2 (1 # 5) 20 []). cbn.
  destruct (S (12345678 # 10000000)) as (n & e & L & E). rewrite E. clear E S number. intros E.
  assert (E' : inject_Z n * Qpower 10 (e + 7) == inject_Z 12345678).
  { rewrite Qpower_plus by discriminate. rewrite Qmult_assoc, E. reflexivity. }
  destruct (Z_le_gt_dec (e + 7) 0) as [K|K].
  - assert (P : Qpower 10 (e + 7) * Qpower 10 (- (e + 7)) == 1) by (rewrite <- Qpower_plus by discriminate; now rewrite Z.add_opp_diag_r).
    assert (H : inject_Z n == inject_Z (12345678 * 10 ^ (- (e + 7)))).
    { rewrite inject_Z_mult, Zpower_Qpower by lia. rewrite <- E', <- Qmult_assoc. change (inject_Z 10) with 10. rewrite P. ring. }
    unfold inject_Z, Qeq in H. cbn [Qnum Qden] in H. pose proof (Z.pow_pos_nonneg 10 (- (e + 7))) as Q0. nia.
  - assert (H : inject_Z (n * 10 ^ (e + 7)) == inject_Z 12345678).
    { rewrite inject_Z_mult, Zpower_Qpower by lia. exact E'. }
    unfold inject_Z, Qeq in H. cbn [Qnum Qden] in H. rewrite !Z.mul_1_r in H.
    replace (e + 7)%Z with (1 + (e + 6))%Z in H by lia. rewrite Z.pow_add_r in H by lia.
    assert (M : ((n * (10 ^ 1 * 10 ^ (e + 6))) mod 10 = 12345678 mod 10)%Z) by now rewrite H.
    replace (n * (10 ^ 1 * 10 ^ (e + 6)))%Z with ((n * 10 ^ (e + 6)) * 10)%Z in M by ring.
    rewrite Z_mod_mult in M. discriminate.
Qed.
Print Assumptions C46_unchanged_refuted.
Example C46_case : six_digits (123457 # 100000).
Proof. exists 123457%Z, (-5)%Z. split; reflexivity. Qed.

(** ** C58: from a file to a board *)

(** Reading always ends; there is an answer, be it an error, as soon as all polygons and
    curves have a vertex. *)
Theorem C58_ends : forall uint_max size_max circle pp doc, (forall c r, circle c r <> []) ->
  parse uint_max size_max circle pp doc <> Running
  /\ (drawable doc -> exists r, parse uint_max size_max circle pp doc = Done r).
Proof. intros uint_max size_max circle pp doc C. split; [now apply parse_not_running|now apply parse_ends]. Qed.
Print Assumptions C58_ends.

(** There is nothing but an error without a structure. *)
Theorem C58_no_structure : forall uint_max size_max circle pp doc, (forall csx, ~ structure doc csx) ->
  parse uint_max size_max circle pp doc = Done None.
Proof. intros uint_max size_max circle pp doc N. now apply no_structure. Qed.
Print Assumptions C58_no_structure.

(** The board is one that polygons added to an empty board make, and all of them have a
    material. *)
Theorem C58_board : forall uint_max size_max circle pp doc s, (forall c r, circle c r <> []) ->
  parse uint_max size_max circle pp doc = Done (Some s) ->
  built (bd_board s) /\ forall k g, nth_error (b_polygons (bd_board s)) k = Some g -> g_material g <> None.
Proof. intros uint_max size_max circle pp doc s C E. now apply (parse_board uint_max size_max circle pp doc). Qed.
Print Assumptions C58_board.

(** So no null material is read while the edges are adjusted. *)
Theorem C58_adjusted : forall uint_max size_max circle pp doc s, (forall c r, circle c r <> []) ->
  parse uint_max size_max circle pp doc = Done (Some s) ->
  forall srt p, exists b, adjust_edges_to_materials srt (bd_board s) p = Done b.
Proof.
  intros uint_max size_max circle pp doc s C E srt p. destruct (C58_board uint_max size_max circle pp doc s C E) as [B M]. now apply C52_ends.
Qed.
Print Assumptions C58_adjusted.

(** The background is there iff the file tells it. *)
Theorem C58_background : forall uint_max size_max circle pp doc s csx, parse uint_max size_max circle pp doc = Done (Some s) -> structure doc csx ->
  (b_background (bd_board s) = None <-> named "BackgroundMaterial" (children_of csx) = []).
Proof.
  intros uint_max size_max circle pp doc s csx E S. destruct (parse_done _ _ _ _ _ _ E) as (csx' & s0 & l1 & l2 & S' & _ & -> & _).
  rewrite (structure_unique doc csx csx' S S'). cbn. unfold child. destruct (named "BackgroundMaterial" (children_of csx')) as [|n l] eqn:N; cbn.
  - now split.
  - assert (K : In n (named "BackgroundMaterial" (children_of csx'))) by (rewrite N; now left). apply named_in in K as [_ K].
    unfold parse_property. rewrite K. cbn. split; discriminate.
Qed.
Print Assumptions C58_background.

(** What elements of the file are made of what. *)
Theorem C58_materials : forall n,
  (In (name_of n) ["Metal"; "ConductingSheet"]%string -> parse_property n = Some CONDUCTOR)
  /\ (In (name_of n) ["LumpedElement"; "Excitation"; "ProbeBox"]%string -> parse_property n = Some PORT)
  /\ (In (name_of n) ["Material"; "DispersiveMaterial"; "DebyeMaterial"; "LorentzMaterial"]%string ->
      let q := child "Property" n in
      parse_property n = Some (deduce_type (as_double "Epsilon" 1 q) (as_double "Mue" 1 q) (as_double "Kappa" 0 q)))
  /\ (name_of n = "BackgroundMaterial"%string ->
      parse_property n = Some (deduce_type (as_double "Epsilon" 1 n) (as_double "Mue" 1 n) (as_double "Kappa" 0 n)))
  /\ (parse_property n = None <-> ~ In (name_of n) ["BackgroundMaterial"; "Material"; "DispersiveMaterial"; "DebyeMaterial"; "LorentzMaterial";
        "Metal"; "ConductingSheet"; "LumpedElement"; "Excitation"; "ProbeBox"]%string).
Proof.
  intros n. unfold parse_property. split; [|split; [|split; [|split]]].
  - intros [<-|[<-|[]]]; reflexivity.
  - intros [<-|[<-|[<-|[]]]]; reflexivity.
  - intros [<-|[<-|[<-|[<-|[]]]]]; reflexivity.
  - intros ->. reflexivity.
  - cbn [In]. repeat match goal with |- context [String.eqb (name_of n) ?x] => destruct (String.eqb_spec (name_of n) x) as [->|?]; cbn [orb] end;
    split; intros H; try discriminate; try (exfalso; apply H; auto 12; fail); try reflexivity.
    intros K. repeat destruct K as [K|K]; congruence.
Qed.
Print Assumptions C58_materials.

(** ** C59: the lines and parameters of a file *)

(** The lines asked for are those of OpenEMSH, then those of the grid, if they are
    wanted, in the units told, then those of the primitives. *)
Theorem C59_lines : forall uint_max size_max circle pp doc s, parse uint_max size_max circle pp doc = Done (Some s) ->
  exists csx l1 l2 l3, structure doc csx /\ forall ax, on_axis (bd_fixed s) ax = l1 ax ++ l2 ax ++ l3 ax
  /\ (if read_oemsh_params pp
      then let fixed := child "FixedMeshlines" (or_null (hd_error (select ["OpenEMSH"]%string doc))) in
           reads (as_uint uint_max "DeltaUnit" 1 fixed) (axis_texts fixed ax) (l1 ax)
      else l1 ax = [])
  /\ (if keep_old_mesh pp
      then reads (as_uint uint_max "DeltaUnit" 1 csx) (axis_texts (child "RectilinearGrid" csx) ax) (l2 ax)
      else l2 ax = [])
  /\ (forall s', parse uint_max size_max circle (mk_parser_params (with_yz pp) (with_zx pp) (with_xy pp) false false) doc = Done (Some s') ->
      l3 ax = on_axis (bd_fixed s') ax).
Proof.
  intros uint_max size_max circle pp doc s E. destruct (parse_done _ _ _ _ _ _ E) as (csx & s0 & l1 & l2 & S & Pr & -> & F1 & F2).
  exists csx, l1, l2, (on_axis (bd_fixed s0)). split; [assumption|]. intros ax.
  split; [now destruct ax; cbn; rewrite <- app_assoc|]. split; [apply F1|]. split; [apply F2|].
  intros s' E'. destruct (parse_done _ _ _ _ _ _ E') as (csx' & s0' & l1' & l2' & S' & Pr' & -> & F1' & F2').
  cbn in F1', F2'. rewrite (same_planes uint_max size_max circle (mk_parser_params (with_yz pp) (with_zx pp) (with_xy pp) false false) pp) in Pr' by reflexivity.
  assert (s0' = s0) as -> by congruence. destruct ax; cbn; now rewrite F1', F2'.
Qed.
Print Assumptions C59_lines.

(** A line that is not a number makes the reading fail. *)
Theorem C59_error : forall uint_max size_max circle pp doc csx ax t, structure doc csx -> keep_old_mesh pp = true ->
  In t (axis_texts (child "RectilinearGrid" csx) ax) -> from_chars t = None -> parse uint_max size_max circle pp doc = Done None.
Proof.
  intros uint_max size_max circle pp doc csx ax t S K I F. destruct (parse_unfold uint_max size_max circle pp doc csx S) as (_ & ->).
  destruct (if read_oemsh_params pp then _ else _) as [s|]; [|reflexivity].
  assert (G : parse_grid uint_max pp csx s = None); [|now rewrite G].
  unfold parse_grid. rewrite K. destruct (Nat.eqb _ 0); [|reflexivity]. apply parse_axes_fails. eauto.
Qed.
Print Assumptions C59_error.

(** So does a space before a line. *)
Theorem C59_space_refuted : forall uint_max size_max circle pp doc csx ax t, structure doc csx -> keep_old_mesh pp = true ->
  In (String " " t) (axis_texts (child "RectilinearGrid" csx) ax) -> parse uint_max size_max circle pp doc = Done None.
Proof. intros uint_max size_max circle pp doc csx ax t S K I. now apply (C59_error uint_max size_max circle pp doc csx ax (String " " t)). Qed.
Print Assumptions C59_space_refuted.

(** A unit of a thousandth is read as zero, and all the lines of the grid with it. *)
Theorem C59_unit_refuted : forall uint_max size_max circle pp doc csx s, parse uint_max size_max circle pp doc = Done (Some s) ->
  structure doc csx -> keep_old_mesh pp = true -> read_oemsh_params pp = false -> attribute "DeltaUnit" csx = Some "0.001"%string ->
  forall ax, exists zeros l, on_axis (bd_fixed s) ax = zeros ++ l
       /\ List.length zeros = List.length (axis_texts (child "RectilinearGrid" csx) ax) /\ Forall (fun x => x == 0) zeros.
Proof.
  intros uint_max size_max circle pp doc csx s E S K R U ax.
  destruct (C59_lines uint_max size_max circle pp doc s E) as (csx' & l1 & l2 & l3 & S' & H).
  rewrite (structure_unique doc csx csx' S S') in *. destruct (H ax) as (A & L1 & L2 & _). rewrite R in L1. rewrite K in L2. rewrite L1 in A.
  exists (l2 ax), (l3 ax). split; [exact A|]. unfold as_uint in L2. rewrite U in L2.
  replace (to_uint uint_max "0.001") with 0%nat in L2 by (unfold to_uint; cbn; lia).
  split; [clear -L2; induction L2; cbn; congruence|]. clear -L2. induction L2 as [|t x l xs (v & _ & ->) L IH]; constructor; [|assumption].
  change (inject_Z (Z.of_nat 0)) with 0. ring.
Qed.
Print Assumptions C59_unit_refuted.

(** The parameters are those of OpenEMSH, or else the default ones; those of diagonal
    edges always are the default ones. *)
Theorem C59_params : forall uint_max size_max circle pp doc s, (forall c r, circle c r <> []) -> parse uint_max size_max circle pp doc = Done (Some s) ->
  params_of (bd_params s) =
    (if read_oemsh_params pp
     then let g := child "GlobalParams" (or_null (hd_error (select ["OpenEMSH"]%string doc))) in
          mk_params (as_double "ProximityLimit" 1 g) (as_double "Smoothness" 2 g) (as_uint uint_max "lmin" 2 g) (as_double "dmax" (5 # 2) g)
     else mk_params 1 2 2 (5 # 2))
  /\ diag_params_of (bd_params s) = mk_diag_params (1 # 5) 20 /\ diagonal_lmin (bd_params s) = 2%nat.
Proof. intros uint_max size_max circle pp doc s C E. destruct (parse_params uint_max size_max circle pp doc s C E) as (P & D & L & _). now split. Qed.
Print Assumptions C59_params.

(** There is a grid if there is any text in it. *)
Theorem C59_grid : forall uint_max size_max circle pp doc csx s, (forall c r, circle c r <> []) -> parse uint_max size_max circle pp doc = Done (Some s) ->
  structure doc csx -> has_grid_already (bd_params s) = true <-> exists ax, axis_texts (child "RectilinearGrid" csx) ax <> [].
Proof. intros uint_max size_max circle pp doc csx s C E S. destruct (parse_params uint_max size_max circle pp doc s C E) as (_ & _ & _ & _ & H). now apply H. Qed.
Print Assumptions C59_grid.

(** The options of the command line prevail over the file; their lines come last. *)
Theorem C59_options : forall uint_max size_max circle pp doc s l, (forall c r, circle c r <> []) -> parse uint_max size_max circle pp doc = Done (Some s) ->
  exists s' fixed, parse_with uint_max size_max circle pp (override_from_cli l) doc = Done (Some s')
  /\ bd_board s' = bd_board s
  /\ settles (fun x => match x with AddFixed f => Some f | _ => None end) l [] fixed
  /\ (forall ax, on_axis (bd_fixed s') ax = on_axis (bd_fixed s) ax ++ lines_on ax fixed)
  /\ let d := bd_params s in let d' := bd_params s' in
     settles (fun x => match x with SetProximityLimit x => Some x | _ => None end) l (proximity_limit d) (proximity_limit d')
  /\ settles (fun x => match x with SetDmax x => Some x | _ => None end) l (dmax d) (dmax d')
  /\ settles (fun x => match x with SetLmin x => Some x | _ => None end) l (lmin d) (lmin d')
  /\ settles (fun x => match x with SetSmoothness x => Some x | _ => None end) l (smoothness d) (smoothness d')
  /\ settles (fun x => match x with SetDiagDmax x => Some x | _ => None end) l (diagonal_dmax d) (diagonal_dmax d')
  /\ settles (fun x => match x with SetDiagLmin x => Some x | _ => None end) l (diagonal_lmin d) (diagonal_lmin d')
  /\ settles (fun x => match x with SetMinimalAngle x => Some x | _ => None end) l (minimal_angle d) (minimal_angle d')
  /\ has_grid_already d' = has_grid_already d /\ input_fixed d' = [].
Proof.
  intros uint_max size_max circle pp doc s l C E. unfold parse_with. rewrite E. cbn [bind].
  destruct (parse_params uint_max size_max circle pp doc s C E) as (_ & _ & _ & I & _). clear C E.
  set (d' := override_from_cli l (bd_params s)). destruct (add_all (input_fixed d') s) as (B & P & F). eexists. exists (input_fixed d'). split; [reflexivity|].
  split; [exact B|]. split; [rewrite <- I; apply override_settles; now intros [] []|]. split; [exact F|]. cbv zeta. cbn [set_params bd_params proximity_limit dmax lmin smoothness
    diagonal_dmax diagonal_lmin minimal_angle has_grid_already input_fixed]. do 7 (split; [apply override_settles; now intros [] []|]). split; [apply override_has|reflexivity].
Qed.
Print Assumptions C59_options.

(** ** C60: reading what was written *)

(** The same board, and first the lines that were written. *)
Theorem C60_lines : forall uint_max size_max circle yz zx xy show show_uint sp d axes doc csx s,
  one_place doc csx -> attribute "DeltaUnit" csx = None ->
  parse uint_max size_max circle (mk_parser_params yz zx xy false false) doc = Done (Some s) ->
  exists s', parse uint_max size_max circle (mk_parser_params yz zx xy false true) (serialize show show_uint sp d axes doc) = Done (Some s')
    /\ bd_board s' = bd_board s
    /\ forall ax, exists ws, on_axis (bd_fixed s') ax = ws ++ on_axis (bd_fixed s) ax
       /\ Forall2 (fun x w => Qabs (w - x) <= micro / 2 /\ (six_decimals x -> w == x)) (to_write sp axes ax) ws.
Proof.
  intros uint_max size_max circle yz zx xy show show_uint sp d axes doc csx s P U E.
  destruct (parse_written uint_max size_max circle yz zx xy show show_uint sp d axes doc csx s P U E) as (s' & E' & B & L).
  exists s'. split; [assumption|]. split; [assumption|]. intros ax. destruct (L ax) as (ws & A & F). exists ws. split; [assumption|].
  clear -F. induction F as [|x w l ws H F IH]; constructor; [|assumption]. split; [rewrite H; apply written_near|].
  intros S. rewrite H. now apply written_id.
Qed.
Print Assumptions C60_lines.

(** The same parameters if they are saved, provided the texts are exact; the lines fixed
    by the user are still there. *)
Theorem C60_params : forall uint_max size_max circle pp show sp d axes doc s, (forall c r, circle c r <> []) ->
  with_oemsh_params sp = true -> read_oemsh_params pp = true ->
  (forall x, In x [proximity_limit d; smoothness d; dmax d] -> to_double (show x) == x) -> (lmin d <= uint_max)%nat ->
  let doc' := serialize show (fun k => NilEmpty.string_of_uint (Nat.to_uint k)) sp d axes doc in
  parse uint_max size_max circle pp doc' = Done (Some s) ->
  proximity_limit (bd_params s) == proximity_limit d /\ smoothness (bd_params s) == smoothness d
  /\ lmin (bd_params s) = lmin d /\ dmax (bd_params s) == dmax d
  /\ child "FixedMeshlines" (or_null (hd_error (select ["OpenEMSH"]%string doc'))) = child "FixedMeshlines" (or_null (hd_error (select ["OpenEMSH"]%string doc))).
Proof.
  intros uint_max size_max circle pp show sp d axes doc s C W R X L doc' E.
  destruct (C59_params uint_max size_max circle pp doc' s C E) as (P & _). rewrite R in P.
  destruct (serialize_global show (fun k => NilEmpty.string_of_uint (Nat.to_uint k)) sp d axes doc W) as (G & F). fold doc' in G, F.
  set (g := child "GlobalParams" _) in *. cbv zeta in P. unfold params_of in P. injection P as -> -> -> ->.
  unfold as_double, as_uint, attribute. rewrite G. cbn [find fst snd option_map].
  change (("ProximityLimit" =? "ProximityLimit")%string) with true. change (("ProximityLimit" =? "Smoothness")%string) with false.
  change (("Smoothness" =? "Smoothness")%string) with true. change (("ProximityLimit" =? "lmin")%string) with false.
  change (("Smoothness" =? "lmin")%string) with false. change (("dmax" =? "lmin")%string) with false.
  change (("lmin" =? "lmin")%string) with true. change (("ProximityLimit" =? "dmax")%string) with false.
  change (("Smoothness" =? "dmax")%string) with false. change (("dmax" =? "dmax")%string) with true.
  cbn [option_map snd]. rewrite to_uint_decimal by assumption. repeat split; try exact F; apply X; cbn; auto.
Qed.
Print Assumptions C60_params.

(** Those of diagonal edges are not saved. *)
Theorem C60_diagonal_refuted : exists d, forall uint_max size_max circle pp show show_uint sp axes doc s, (forall c r, circle c r <> []) ->
  parse uint_max size_max circle pp (serialize show show_uint sp d axes doc) = Done (Some s) ->
  diagonal_dmax (bd_params s) <> diagonal_dmax d /\ minimal_angle (bd_params s) <> minimal_angle d.
Proof.
  exists (mk_domain_params false 1 2 2 (5 # 2) 2 (1 # 2) 30 []). intros uint_max size_max circle pp show show_uint sp axes doc s C E.
  destruct (C59_params uint_max size_max circle pp _ s C E) as (_ & P & _). unfold diag_params_of in P. injection P as -> ->. split; discriminate.
Qed.
Print Assumptions C60_diagonal_refuted.

(** ** C61: what writing leaves as it is *)

Theorem C61_frame : forall show show_uint sp d axes doc csx grid, one_place doc csx ->
  hd_error (named "RectilinearGrid" (children_of csx)) = Some grid ->
  without_mesh (serialize show show_uint sp d axes doc) = without_mesh doc.
Proof. intros show show_uint sp d axes doc csx grid P G. now apply (serialize_frame show show_uint sp d axes doc csx grid). Qed.
Print Assumptions C61_frame.

(** Of the element OpenEMSH only the values of the parameters change. *)
Theorem C61_parameters : forall show show_uint sp d axes doc o g, with_oemsh_params sp = true ->
  hd_error (named "OpenEMSH" doc) = Some o -> hd_error (named "GlobalParams" (children_of o)) = Some g ->
  without_params (serialize show show_uint sp d axes doc) = without_params doc.
Proof. intros show show_uint sp d axes doc o g. apply serialize_params_frame. Qed.
Print Assumptions C61_parameters.

(** What is shown of the frame is not nothing: the board is the same. *)
Theorem C61_board : forall uint_max size_max circle yz zx xy show show_uint sp d axes doc csx s,
  one_place doc csx ->
  parse uint_max size_max circle (mk_parser_params yz zx xy false false) doc = Done (Some s) ->
  exists s', parse uint_max size_max circle (mk_parser_params yz zx xy false false) (serialize show show_uint sp d axes doc) = Done (Some s')
    /\ bd_board s' = bd_board s /\ forall ax, on_axis (bd_fixed s') ax = on_axis (bd_fixed s) ax.
Proof.
  intros uint_max size_max circle yz zx xy show show_uint sp d axes doc csx s P E.
  destruct (serialize_structure show show_uint sp d axes doc csx P) as (S & S' & Pr).
  set (doc' := serialize show show_uint sp d axes doc) in *. clearbody doc'.
  destruct (parse_unfold uint_max size_max circle (mk_parser_params yz zx xy false false) doc csx S) as (_ & E1). rewrite E in E1. clear E.
  destruct (parse_unfold uint_max size_max circle (mk_parser_params yz zx xy false false) doc' _ S') as (_ & E2). rewrite E2. clear E2.
  cbn [read_oemsh_params] in *. rewrite Pr, (grid_other sp axes csx "BackgroundMaterial") by discriminate.
  unfold parse_grid in *. cbn [keep_old_mesh] in *.
  change (as_uint uint_max "CoordSystem" 0 (write_grid sp axes csx)) with (as_uint uint_max "CoordSystem" 0 csx).
  destruct (Nat.eqb _ 0); [|discriminate]. cbv zeta in *.
  rewrite (before_primitives (set_params _ new_builder)) in E1 by reflexivity. rewrite (before_primitives (set_params _ new_builder)) by reflexivity.
  rewrite natural_properties in E1 |- *.
  destruct (parse_properties uint_max size_max circle _ (properties_of doc) new_builder) as [s0| |]; try discriminate.
  cbn in E1. injection E1 as ->. eexists. split; [reflexivity|]. split; [reflexivity|]. now intros [].
Qed.
Print Assumptions C61_board.

(** A sample. *)
Section Cases58.
Open Scope string_scope.
Definition a_csx : xml := Node "ContinuousStructure" [("CoordSystem", "0")] ""
  [Node "RectilinearGrid" [("DeltaUnit", "1e-3")] "" [Node "XLines" [] "0,1.5" []; Node "YLines" [] "" []; Node "ZLines" [] "-2e1" []];
   Node "BackgroundMaterial" [] "" [];
   Node "Properties" [] "" [Node "Metal" [] "" [Node "Primitives" [] "" [a_box; a_polygon; a_point]]; Node "DumpBox" [] "" []]].
Definition an_oemsh : xml := Node "OpenEMSH" [] ""
  [Node "GlobalParams" [("dmax", "3.5"); ("lmin", "4")] "" []; Node "FixedMeshlines" [("DeltaUnit", "2")] "" [Node "YLines" [] "7" []]].
Definition a_doc : list xml := [an_oemsh; Node "openEMS" [] "" [Node "FDTD" [] "" []; a_csx]].
(** Two structures. *)
Definition two_docs : list xml := [Node "openEMS" [] "" [a_csx]; a_csx].
End Cases58.

Example C58_case : (forall c r, diamond c r <> []) /\ drawable a_doc /\ structure a_doc a_csx /\ one_place a_doc a_csx
  /\ match parse 99 999 diamond all_planes a_doc with
     | Done (Some s) => List.length (b_polygons (bd_board s)) = 4%nat /\ b_background (bd_board s) <> None
         /\ map Qred (on_axis (bd_fixed s) AX) = [0; 3 # 2; 1; 1; 1] /\ map Qred (on_axis (bd_fixed s) AY) = [14; 2; 2]
         /\ map Qred (on_axis (bd_fixed s) AZ) = [-(20); 3; 3]
     | _ => False
     end.
Proof.
  split; [discriminate|]. split.
  { unfold a_doc. repeat (apply drawable_nil || (apply drawable_cons; cbn [name_of children_of at3 at2 an_oemsh a_csx a_box a_polygon a_point]));
      try (cbn; discriminate); intros K; cbn in K; repeat (destruct K as [K|K]; [discriminate K|]); destruct K. }
  split; [now left|]. split; [left; split; [reflexivity|]; eexists; split; reflexivity|].
  vm_compute. repeat split; discriminate.
Qed.

(** With two structures the lines are written in the one that is not read: writing
    changes nothing of what is read. *)
Theorem C61_other_refuted : forall uint_max size_max circle pp show show_uint sp d axes doc, read_oemsh_params pp = false ->
  select ["openEMS"; "ContinuousStructure"]%string doc <> [] -> named "ContinuousStructure" doc <> [] ->
  parse uint_max size_max circle pp (serialize show show_uint sp d axes doc) = parse uint_max size_max circle pp doc.
Proof. intros uint_max size_max circle pp show show_uint sp d axes doc. apply parse_other. Qed.
Print Assumptions C61_other_refuted.

(** Without the parameters, the lines fixed by the user are lost. *)
Theorem C61_fixed_refuted : forall show show_uint sp d axes doc o, with_oemsh_params sp = false ->
  named "OpenEMSH" doc = [o] -> named "OpenEMSH" (serialize show show_uint sp d axes doc) = [].
Proof.
  intros show show_uint sp d axes doc o W O. unfold serialize. rewrite W. apply (remove_only _ _ o).
  destruct (select ["ContinuousStructure"]%string doc); rewrite append_other; try assumption; try discriminate; apply on_children_name || apply write_grid_name.
Qed.
Print Assumptions C61_fixed_refuted.

(** Cases of C59, C60 and C61. *)
Definition two_lines : space axis := mk_space (mk_axis [] [] [] [0; 1 # 3]) (mk_axis [] [] [] []) (mk_axis [] [] [] [5 # 2; 7]).
Definition writes_x : serializer_params := mk_serializer_params true false true false true true.
Definition mesh_only : parser_params := mk_parser_params true true true false true.
(** [show] writes the values of the sample exactly. *)
Definition show_case (x : Q) : string := to_string x.
Definition case_params : domain_params := mk_domain_params false (1 # 2) 3 4 (7 # 2) 2 (1 # 5) 20 [].

Example C59_case : In "1.5"%string (axis_texts (child "RectilinearGrid" a_csx) AX) /\ from_chars "1.5" <> None
  /\ from_chars "x1" = None /\ from_chars "+1" = None /\ from_chars " 1" = None /\ from_chars "1 mm" <> None
  /\ match parse 99 999 diamond all_planes a_doc with
     | Done (Some s) => params_of (bd_params s) = mk_params 1 2 4 (dmax (bd_params s)) /\ dmax (bd_params s) == 7 # 2
     | _ => False
     end
  /\ match parse_with 99 999 diamond all_planes (override_from_cli [AddFixed [(AY, 8); (AX, 9)]; SetDmax 5; SetLmin 6]) a_doc with
     | Done (Some s) => params_of (bd_params s) = mk_params 1 2 6 5 /\ map Qred (on_axis (bd_fixed s) AY) = [14; 2; 2; 8]
     | _ => False
     end.
Proof. vm_compute. intuition discriminate. Qed.

Example C60_case : one_place a_doc a_csx /\ attribute "DeltaUnit" a_csx = None
  /\ (forall x, In x [proximity_limit case_params; smoothness case_params; dmax case_params] -> to_double (show_case x) == x)
  /\ match parse 99 999 diamond mesh_only (serialize show_case (fun k => NilEmpty.string_of_uint (Nat.to_uint k)) writes_x case_params two_lines a_doc) with
     | Done (Some s) => map Qred (on_axis (bd_fixed s) AX) = [0; 333333 # 1000000; 1; 1; 1]
         /\ map Qred (on_axis (bd_fixed s) AZ) = [5 # 2; 7; 3; 3]
     | _ => False
     end
  /\ match parse 99 999 diamond all_planes (serialize show_case (fun k => NilEmpty.string_of_uint (Nat.to_uint k)) writes_x case_params two_lines a_doc) with
     | Done (Some s) => lmin (bd_params s) = 4%nat /\ dmax (bd_params s) == 7 # 2 /\ map Qred (on_axis (bd_fixed s) AY) = [14; 2; 2]
     | _ => False
     end.
Proof.
  split; [left; split; [reflexivity|]; eexists; split; reflexivity|]. split; [reflexivity|].
  split; [intros x [<-|[<-|[<-|[]]]]; reflexivity|]. vm_compute. repeat split.
Qed.

Example C61_case : named "OpenEMSH" a_doc = [an_oemsh] /\ List.length (named "RectilinearGrid" (children_of a_csx)) = 1%nat
  /\ List.length (named "GlobalParams" (children_of an_oemsh)) = 1%nat /\ without_params a_doc <> []
  /\ without_mesh a_doc <> [] /\ without_mesh a_doc <> without_mesh two_docs
  /\ select ["openEMS"; "ContinuousStructure"]%string two_docs <> [] /\ named "ContinuousStructure" two_docs <> [].
Proof. vm_compute. repeat split; discriminate. Qed.
